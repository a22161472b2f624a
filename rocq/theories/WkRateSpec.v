(** Specification of resolved-rate control. *)
From Coq Require Import ZArith String List Reals.
From Verif Require Import TfModel TfSpec SgModel SgSpec SgKinSpec IkSpec MatModel MatSpec LaModel LaSpec WkRateModel.
Import ListNotations.
Open Scope R_scope.

(** A velocity as a vector of six numbers: the velocity of the point, then the angular velocity *)
Definition stacked (v w : V3) (i : nat) : R :=
  match i with 0 => vx v | 1 => vy v | 2 => vz v | 3 => vx w | 4 => vy w | _ => vz w end%nat.

(** The base of the chain stands still during the motion [cfg]. *)
Definition base_still (g : graph) (root : string) (cfg : R -> string -> R) : Prop :=
  root = ""%string \/ exists posr, forall u p, located g (cfg u) root p (posr p).

(** [J] takes rates of the joint variables to velocities of the tip: however the joints move through the
    configuration [q0], the tip moves with the velocity J x when the joint variables change at the rates x. *)
Definition velocity_matrix (g : graph) (root tip : string) (ls : list string) (q0 : string -> R) (J : nat -> nat -> R) : Prop :=
  forall cfg t pos x, (forall c, cfg t c = q0 c) -> base_still g root cfg ->
  (forall u p, located g (cfg u) tip p (pos u p)) ->
  (forall i d, nth_error (joint_decls g ls) i = Some d -> derivable_pt_lim (fun u => cfg u (d_cfg d)) t (x i)) ->
  exists v w, body_velocity pos t v w /\
    forall i, (i < 6)%nat -> stacked v w i = mulv (length (joint_decls g ls)) J x i.

(** [gesdd] gives a singular value decomposition of [A] *)
Definition decomposes (gesdd : nat -> nat -> (nat -> nat -> R) -> svdres) (m n : nat) (A : nat -> nat -> R) (r : svdres) : Prop :=
  is_svd m n A r /\ forall B, (forall i j, (i < m)%nat -> (j < n)%nat -> B i j = A i j) -> gesdd m n B = r.

(** Every singular value is zero or not below the threshold set by the options, and there is no damping *)
Definition regular (o : wk_opts) (n : nat) (r : svdres) : Prop :=
  0 < wo_s2min o /\ (forall l, (l < Nat.min 6 n)%nat -> sS r l = 0 \/ sqrt (wo_s2min o) <= sS r l) \/
  wo_s2min o <= 0 /\ wo_kdls o <= 0 /\
    forall l, (l < Nat.min 6 n)%nat -> sS r l = 0 \/ INR (Nat.max 6 n) * sS r 0%nat * / 2 ^ 52 < sS r l.

(** [y] minimises |J y - b|, and of all that do it is the nearest to [c] *)
Definition nearest_solution (n : nat) (J : nat -> nat -> R) (b c y : nat -> R) : Prop :=
  least_squares 6 n J b y /\
  forall z, least_squares 6 n J b z ->
    ssq n (fun i => y i - c i) <= ssq n (fun i => z i - c i) /\
    (ssq n (fun i => z i - c i) = ssq n (fun i => y i - c i) -> forall i, (i < n)%nat -> z i = y i).

(** What is asked of joint rates [y] for the velocity [b] *)
Record rates_for (o : wk_opts) (n : nat) (J : nat -> nat -> R) (r : svdres) (b y : nat -> R) : Prop := {
  (** the tip does not move against the velocity asked for, nor faster *)
  rf_along : 0 <= dotp 6 b (mulv n J y);
  rf_slower : ssq 6 (mulv n J y) <= ssq 6 b;
  (** with a threshold on singular values, the rates are bounded *)
  rf_bound : 0 < wo_s2min o -> wo_s2min o * ssq n y <= ssq 6 b;
  (** with damping, they are the damped solution *)
  rf_damped : wo_s2min o <= 0 -> 0 < wo_kdls o -> damped_solution 6 n (wo_kdls o) J b y;
  (** away from singularities, the smallest of the best rates *)
  rf_exact : regular o n r -> nearest_solution n J b (fun _ => 0) y;
  (** and the velocity asked for is met whenever that is possible *)
  rf_meets : regular o n r -> (exists z, forall i, (i < 6)%nat -> mulv n J z i = b i) -> forall i, (i < 6)%nat -> mulv n J y i = b i }.

(** The vectors do not overlap, nor use the free memory at [w] *)
Definition vec_off (w l : nat) (v : dvec) : Prop := forall i, (i < v_len v)%nat -> outside w l (velem v i).

(** What aa_rx_wk_dqcenter asks of joint i with the limits l at the value x: towards the middle, in
    proportion to the distance from it as a fraction of the range *)
Definition center_rate (g x : R) (l : option (R * R)) : R :=
  match l with Some (a, b) => g * (((a + b) / 2 - x) / (b - a)) | None => 0 end.
Definition ranges (lims : list (option (R * R))) : Prop := forall a b, In (Some (a, b)) lims -> a < b.
