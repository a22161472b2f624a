(** C132: the dual quaternion derivative Jacobian; C133: algebraic slerp and its
    derivative; C134: the difference measure of two quaternions. *)
From Coq Require Import Reals Lra.
From Verif Require Import TfModel TfSpec TfProofs TfExpModel TfExpSpec TfExpProofs TfInterpProofs JacModel JacSpec JacProofs JacProofs2.
Open Scope R_scope.

(** * C132: S' = J_S phi' *)

(** C132: if the body moves with the velocity the velocity Jacobian gives for the rates,
    then the derivative of its pose is what the derivative Jacobian gives for them; for
    every number of columns. *)
Theorem C132_jacobian : forall d t dd n J rates, (forall s, unit_duqu (d s)) -> dderiv d t dd ->
  body_velocity (fun s p => duqu_tf (d s) p) t (jac_lin n J rates) (jac_ang n J rates) ->
  dd = jac_duqu n (duqu_jac_vel2diff (d t) J) rates.
Proof. exact jac_ok. Qed.
Print Assumptions C132_jacobian.

(** C132: conversely, a pose with that derivative moves the body with that velocity. *)
Theorem C132_velocity : forall d t n J rates, (forall s, unit_duqu (d s)) ->
  dderiv d t (jac_duqu n (duqu_jac_vel2diff (d t) J) rates) ->
  body_velocity (fun s p => duqu_tf (d s) p) t (jac_lin n J rates) (jac_ang n J rates).
Proof. exact jac_true. Qed.
Print Assumptions C132_velocity.

(** C132: the derivative never leaves the unit dual quaternions. *)
Theorem C132_tangent : forall s n J rates, unit_duqu s ->
  dot4 (dreal s) (dreal (jac_duqu n (duqu_jac_vel2diff s J) rates)) = 0 /\
  dot4 (dreal s) (ddual (jac_duqu n (duqu_jac_vel2diff s J) rates))
  + dot4 (ddual s) (dreal (jac_duqu n (duqu_jac_vel2diff s J) rates)) = 0.
Proof. exact jac_tangent. Qed.
Print Assumptions C132_tangent.

(** A body at (0,2,0) and one column, turning about z at rate 2: v = (-4,0,0), w = (0,0,2). *)
Example C132_nonvacuous :
  let s := mkD (mkQ 0 0 0 1) (mkQ 0 1 0 0) in
  let J := fun i (_ : nat) => match i with O => -4 | 5%nat => 2 | _ => 0 end in
  unit_duqu s /\ jac_duqu 1 (duqu_jac_vel2diff s J) (fun _ => 1) = mkD (mkQ 0 0 1 0) (mkQ (-1) 0 0 0).
Proof.
  cbv zeta. split.
  - unfold unit_duqu, unitq, norm2. cbn [dreal ddual qx qy qz qw]. split; ring.
  - rewrite jac_apply. unfold jac_lin, jac_ang, apply_mat. cbn [weigh]. tfc. f_equal; f_equal; field.
Qed.

(** * C133: algebraic slerp *)

(** C133: aa_tf_qslerpalg is on the great-circle arc to the nearer end at the given
    parameter (outside the small-angle series). *)
Theorem C133_arc : forall q1 q2 th tau, unitq q1 -> unitq q2 ->
  0 <= th <= PI / 2 -> cos th = Rabs (dot4 q1 q2) ->
  th = 0 \/ / 2 ^ 13 <= th -> tau * th = 0 \/ / 2 ^ 13 <= Rabs (tau * th) ->
  unitq (qslerpalg tau q1 q2) /\ on_arc q1 (nearer q1 q2) th tau (qslerpalg tau q1 q2).
Proof. exact slerpalg_arc. Qed.
Print Assumptions C133_arc.

(** C133: so the two interpolations agree. *)
Theorem C133_same_as_slerp : forall q1 q2 th tau, unitq q1 -> unitq q2 ->
  0 <= th <= PI / 2 -> cos th = Rabs (dot4 q1 q2) ->
  th = 0 \/ / 2 ^ 13 <= th -> tau * th = 0 \/ / 2 ^ 13 <= Rabs (tau * th) ->
  qslerpalg tau q1 q2 = qslerp tau q1 q2.
Proof. exact slerpalg_same. Qed.
Print Assumptions C133_same_as_slerp.

(** C133: aa_tf_qslerpdiffalg is its derivative in the parameter. *)
Theorem C133_derivative : forall q1 q2 th tau, unitq q1 -> unitq q2 ->
  0 <= th <= PI / 2 -> cos th = Rabs (dot4 q1 q2) ->
  th = 0 \/ (/ 2 ^ 13 <= th /\ / 2 ^ 13 < Rabs (tau * th)) ->
  qderiv (fun s => qslerpalg s q1 q2) tau (qslerpdiffalg tau q1 q2).
Proof. exact slerpdiffalg_ok. Qed.
Print Assumptions C133_derivative.

Example C133_nonvacuous : unitq (mkQ 0 0 0 1) /\ unitq (mkQ 1 0 0 0) /\
  0 <= PI / 2 <= PI / 2 /\ cos (PI / 2) = Rabs (dot4 (mkQ 0 0 0 1) (mkQ 1 0 0 0)) /\
  / 2 ^ 13 <= PI / 2 /\ / 2 ^ 13 < Rabs (1 / 2 * (PI / 2)).
Proof.
  pose proof PI2_1. assert (S : / 2 ^ 13 < 1 / 4).
  { replace (1 / 4) with (/ 4) by field. apply Rinv_lt_contravar; [|cbn [pow]; lra]. apply Rmult_lt_0_compat; [lra|apply pow_lt; lra]. }
  unfold unitq, norm2, dot4; cbn [qx qy qz qw].
  repeat split; try lra.
  - rewrite cos_PI2. replace (_ + _) with 0 by ring. now rewrite Rabs_R0.
  - rewrite Rabs_right by lra. lra.
Qed.

(** * C134: aa_tf_qssd *)

(** C134: the header promises the sum of the squared differences; the function returns
    its square root. *)
Theorem C134_sum_of_squares_refuted : exists a b, qssd a b <> sum_sq_diff a b.
Proof. exact ssd_refuted. Qed.
Print Assumptions C134_sum_of_squares_refuted.

(** C134: it is the distance: its square is the sum, and it is zero only for equal quaternions. *)
Theorem C134_distance : forall a b, qssd a b * qssd a b = sum_sq_diff a b /\ (qssd a b = 0 <-> a = b).
Proof. exact (fun a b => conj (ssd_sq a b) (ssd_zero a b)). Qed.
Print Assumptions C134_distance.

Example C134_nonvacuous : qssd (mkQ 2 0 0 0) (mkQ 0 0 0 0) = 2.
Proof. exact (proj1 ssd_bad). Qed.
