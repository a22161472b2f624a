(** Specification of inverse kinematics: distances, relative rotations, joint limits. *)
From Coq Require Import ZArith String List Reals.
From Verif Require Import TfModel TfSpec SgModel SgSpec SgKinSpec.
Import ListNotations.
Open Scope R_scope.

Definition minus3 (a b : V3) : V3 := plus3 a (times3 (-1) b).
Definition dist2 (a b : V3) : R := dot (minus3 a b) (minus3 a b).
Definition dist (a b : V3) : R := sqrt (dist2 a b).

(** The body posed by [f] has to be turned by [phi], about some axis through its origin, to get
    the orientation of the unit quaternion [q]. *)
Definition turn_to (f : V3 -> V3) (q : Q4) (phi : R) : Prop :=
  0 <= phi <= PI /\
  exists k, unit3 k /\ forall p, plus3 (f zero3) (place q zero3 p) = f (rodrigues k phi p).

(** Sum of products *)
Fixpoint wsum (g dq : list R) : R :=
  match g, dq with a :: g', x :: dq' => a * x + wsum g' dq' | _, _ => 0 end.

(** [ss] is the chain of scene graph [s], built by history [h], from frame [root] to frame [tip]
    (number tz); [ls] are its frames. *)
Record chain_of (h : list op) (s : sg) (root tip : string) (tz : Z) (ls : list string) (ss : ssg) : Prop := {
  ch_ready : ready h s;
  ch_forest : forest (declared h);
  ch_proper : proper (declared h);
  ch_some : ls <> [];
  ch_tip : id_of s tip tz;
  ch_between : between (declared h) root tip ls;
  ch_built : exists rz junk n, id_of s root rz /\ config_count s = Ok n /\ chain_create s rz tz junk = Ok ss }.

(** The array of poses has its size and, at the frame the chain hangs on, the pose [B] of that
    frame.  All other entries are arbitrary. *)
Definition base_at (g : graph) (s : sg) (cfg : string -> R) (root : string) (B : QV) (fk : list QV) : Prop :=
  Z.of_nat (length fk) = frame_count s /\
  (root = ""%string \/
   exists i, id_of s root (Z.of_nat i) /\ nth_error fk i = Some B /\ unitq (TfModel.eq B) /\
     forall p, located g cfg root p (place (TfModel.eq B) (ev B) p)).

(** The values of the joint variables of the chain, in its order *)
Definition chain_config (g : graph) (ls : list string) (cfg : string -> R) : list R :=
  map (fun d => cfg (d_cfg d)) (joint_decls g ls).
(** Only the entries of the frames of the chain may differ *)
Definition others_kept (s : sg) (ls : list string) (fk fk' : list QV) : Prop :=
  Z.of_nat (length fk') = frame_count s /\
  forall m i, ~ In m ls -> frame_no s m i -> nth_error fk' i = nth_error fk i.

(** The position limits of the chain's joint variables, as aa_rx_sg_get_limit_pos reports them (C54) *)
Definition limits_seen (g : graph) (s : sg) (ls : list string) (lims : list (option (R * R))) : Prop :=
  Forall2 (fun d l => exists i, config_id s (d_cfg d) = Ok i /\ i <> CONFIG_NONE /\ sg_get_limit s LPos i = Ok l)
    (joint_decls g ls) lims.
(** Distance of each variable from the middle of its limits, or from zero without limits *)
Definition off_center (x : R) (l : option (R * R)) : R :=
  match l with Some (a, b) => x - (a + b) / 2 | None => x end.
Fixpoint off_centers (q : list R) (lims : list (option (R * R))) : list R :=
  match q, lims with x :: q', l :: lims' => off_center x l :: off_centers q' lims' | _, _ => [] end.
