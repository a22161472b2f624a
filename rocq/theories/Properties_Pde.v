(** C79: Jacobians of the quaternion logarithms. *)
From Coq Require Import Reals Lra.
From Verif Require Import TfModel TfSpec AtanModel TfExpModel TfExpSpec PdeModel PdeProofs Pde2Proofs.
Open Scope R_scope.

(** Along every differentiable curve of quaternions, not necessarily of unit length, the matrix
    written by aa_tf_qln_jac takes the derivative of the curve to the derivative of what
    aa_tf_qln returns.  The angle is outside the series of aa_tf_qln. *)
Theorem C79_log_jacobian : forall q t dq, qderiv q t dq ->
  vecpart (q t) <> zero3 -> / 2 ^ 13 < atan2 (len3 (vecpart (q t))) (qw (q t)) ->
  qderiv (fun s => qln (q s)) t (m44_app (qln_jac (q t)) dq).
Proof. exact qln_jac_ok. Qed.
Print Assumptions C79_log_jacobian.

(** The same at the positive real axis, where the formulas divide by zero and the series apply *)
Theorem C79_log_jacobian_axis : forall q t dq, qderiv q t dq ->
  vecpart (q t) = zero3 -> 0 < qw (q t) ->
  qderiv (fun s => qln (q s)) t (m44_app (qln_jac (q t)) dq).
Proof. exact qln_jac_axis. Qed.
Print Assumptions C79_log_jacobian_axis.

(** It is the derivative of every curve of principal logarithms, however they were computed *)
Theorem C79_true_log_jacobian : forall q t dq L, qderiv q t dq ->
  vecpart (q t) <> zero3 -> eps <= atan2 (len3 (vecpart (q t))) (qw (q t)) ->
  (forall s, quat_exp (L s) (q s) /\ len3 (vecpart (L s)) < PI) ->
  qderiv L t (m44_app (qln_jac (q t)) dq).
Proof. exact qln_jac_true. Qed.
Print Assumptions C79_true_log_jacobian.

(** Dual quaternions *)
Theorem C79_dual_log_jacobian : forall S t dS, dderiv S t dS ->
  vecpart (dreal (S t)) <> zero3 -> eps < atan2 (len3 (vecpart (dreal (S t)))) (qw (dreal (S t))) ->
  dderiv (fun s => duqu_ln (S s)) t (m88_app (duqu_ln_jac (S t)) dS).
Proof. exact duqu_ln_jac_ok. Qed.
Print Assumptions C79_dual_log_jacobian.

Theorem C79_dual_log_jacobian_axis : forall S t dS, dderiv S t dS ->
  vecpart (dreal (S t)) = zero3 -> 0 < qw (dreal (S t)) ->
  dderiv (fun s => duqu_ln (S s)) t (m88_app (duqu_ln_jac (S t)) dS).
Proof. exact duqu_ln_jac_axis. Qed.
Print Assumptions C79_dual_log_jacobian_axis.

(** aa_tf_duqu_conj_jac: conjugation is linear and this is its matrix *)
Theorem C79_conjugate_jacobian : forall x, m88_app duqu_conj_jac x = dconj x.
Proof. exact conj_jac_ok. Qed.
Print Assumptions C79_conjugate_jacobian.

(** A curve that stretches and turns; it meets the hypotheses at time 0, and at the axis *)
Example C79_nonvacuous :
  let q := fun s : R => mkQ (1 + s) (2 * s) s (1 + 3 * s) in
  qderiv q 0 (mkQ 1 2 1 3) /\ vecpart (q 0) <> zero3 /\
  / 2 ^ 13 < atan2 (len3 (vecpart (q 0))) (qw (q 0)) /\
  eps < atan2 (len3 (vecpart (q 0))) (qw (q 0)) /\
  qderiv (fun s => mkQ s (2 * s) 0 (1 + s)) 0 (mkQ 1 2 0 1).
Proof.
  cbv zeta.
  assert (A : atan2 (len3 (vecpart (mkQ (1 + 0) (2 * 0) 0 (1 + 3 * 0)))) (qw (mkQ (1 + 0) (2 * 0) 0 (1 + 3 * 0))) = PI / 4).
  { unfold len3, dot, vecpart; cbn. replace ((1 + 0) * (1 + 0) + 2 * 0 * (2 * 0) + 0 * 0) with 1 by ring. rewrite sqrt_1.
    replace (1 + 3 * 0) with 1 by ring. unfold atan2. destruct (Rlt_dec 0 1); [|lra]. replace (1 / 1) with 1 by field. exact atan_1. }
  pose proof PI2_1. assert (B : / 2 ^ 13 <= / 2 ^ 1) by (apply Rinv_le_contravar; [apply pow_lt; lra|apply Rle_pow; [lra|repeat constructor]]).
  assert (L : forall a b, derivable_pt_lim (fun s => a + b * s) 0 b).
  { intros a b e He. exists (mkposreal 1 Rlt_0_1). intros h Hh _. replace ((a + b * (0 + h) - (a + b * 0)) / h - b) with 0 by (field; assumption).
    rewrite Rabs_R0. exact He. }
  assert (X : forall f a b, (forall s, f s = a + b * s) -> derivable_pt_lim f 0 b).
  { intros f a b Hf e He. destruct (L a b e He) as [d Hd]. exists d. intros h H1 H2. rewrite !Hf. apply Hd; assumption. }
  split; [|split; [|split; [|split]]].
  - unfold qderiv; cbn. repeat split; [apply (X _ 1)|apply (X _ 0)|apply (X _ 0)|apply (X _ 1)]; intros; ring.
  - unfold vecpart, zero3; cbn. intros E. injection E. intros. lra.
  - rewrite A. lra.
  - rewrite A. apply Rle_lt_trans with (/ 2 ^ 13); [|lra]. pose proof eps_13. lra.
  - unfold qderiv; cbn. repeat split; [apply (X _ 0)|apply (X _ 0)|apply (X _ 0)|apply (X _ 1)]; intros; ring.
Qed.
