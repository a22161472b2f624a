(** Specification of joint paths along Cartesian trajectories. *)
From Coq Require Import ZArith String List Reals.
From Verif Require Import TfModel TfSpec SgModel SgSpec SgKinSpec IkSpec MatModel LaModel LaSpec RkModel RkSpec WkSpec
  WkModel WkRateModel WkRateSpec WkRate2 IkSolveModel TjxModel.
Import ListNotations.
Open Scope R_scope.

(** The row of limits for one kind *)
Definition of_kind (k : lkind) (r : lim_row) : ext * ext :=
  match k with LPos => lr_pos r | LVel => lr_vel r | LAcc => lr_acc r | LEff => lr_eff r end.

(** The decomposition works on the Jacobians of the chain. *)
Definition svd_works (gesdd : nat -> nat -> (nat -> nat -> R) -> svdres) (s : sg) (ss : ssg) : Prop :=
  forall q nf rel abs l, sg_tf s q nf = Ok (rel, abs) -> chain_jacobian s abs ss = Ok l ->
  let n := length (ss_configs ss) in decomposes gesdd 6 n (colmat l) (gesdd 6%nat n (colmat l)).

(** No reference configuration, or one with gains *)
Definition ref_given (p : ik_parm) (n : nat) : Prop :=
  match ip_qref p, ip_dqdt p with
  | None, _ => True
  | Some qr, Some g => (n <= length qr)%nat /\ (n <= length g)%nat
  | Some _, None => False
  end.

(** The joint variables of the chain have the values [q], all other variables those of [q0]. *)
Definition chain_at (g : graph) (s : sg) (ls : list string) (q0 : list R) (q : vec) (cfg : string -> R) : Prop :=
  (forall i d, nth_error (joint_decls g ls) i = Some d -> cfg (d_cfg d) = q i) /\
  (forall c, ~ In c (map d_cfg (joint_decls g ls)) -> cfg c = config_of s q0 c).

(** The rates [y] at the configuration [cfg], with the joints of the chain at [q], towards the moving
    reference with pose [X] and velocity [dX]: those of C82 for the velocity that aa_rx_wk_dx_pos (C81)
    computes from [dX] and from the poses of the tip and the reference *)
Definition tracking_rates (g : graph) (root tip : string) (ls : list string)
    (gesdd : nat -> nat -> (nat -> nat -> R) -> svdres) (p : ik_parm) (n : nat)
    (cfg : string -> R) (q : vec) (X : QV) (dX : DX) (y : vec) : Prop :=
  exists J E, velocity_matrix g root tip ls cfg J /\ unit_qutr E /\ (forall a, located g cfg tip a (point E a)) /\
    let o := ip_wk p in
    let c := wk_dx_pos (wo_angle o) (wo_trans o) E X dX in
    let b := stacked (dxv c) (dxw c) in
    match ip_qref p, ip_dqdt p with
    | None, _ => rates_for o n J (gesdd 6%nat n J) b y
    | Some qr, Some gain =>
        regular o n (gesdd 6%nat n J) -> nearest_solution n J b (fun i => - nth i gain 0 * (q i - nth i qr 0)) y
    | Some _, None => False
    end.

(** [K] is the first step that ends at or after [D]. *)
Definition last_step (D dt : R) (K : nat) : Prop :=
  (1 <= K)%nat /\ D <= INR K * dt /\ forall j, (1 <= j < K)%nat -> INR j * dt < D.

(** [y] is the value nearest to [x] between the limits. *)
Definition nearest_within (a b x y : R) : Prop := a <= y <= b /\ forall z, a <= z <= b -> Rabs (y - x) <= Rabs (z - x).
(** The point [y] for the joint values [x]: limited joints have the nearest value within their limits, and the
    others are 0. *)
Definition clamped (lims : list (option (R * R))) (x : vec) (y : list R) : Prop :=
  length y = length lims /\ forall i l, nth_error lims i = Some l ->
    match l with Some (a, b) => a <= b -> nearest_within a b (x i) (nth i y 0) | None => nth i y 0 = 0 end.
