(** C127 axis-angles and nearest rotation vectors, C128 rotation matrix test,
    C129 Runge-Kutta steps of a turning frame. *)
From Coq Require Import Reals Lra Psatz ZArith List.
From Verif Require Import TfModel TfSpec TfExpModel TfExpSpec TfExpProofs NrModel NrSpec NrProofs NrProofs2 NrProofs3.
Import ListNotations.
Open Scope R_scope.

(** C127: normalising an axis-angle whose axis is not zero gives a unit axis, an
    angle between 0 and pi, and the same rotation; what is normal already stays. *)
Theorem C127_normalize : forall v t, nonzero3 v -> exists b, axang_normalize (mkA v t) = Some b /\
  unit3 (axis b) /\ 0 <= angle b <= PI /\ forall p, rodrigues (axis b) (angle b) p = rodrigues (times3 (/ len3 v) v) t p.
Proof. exact normalize_ok. Qed.
Print Assumptions C127_normalize.
Theorem C127_normalize_fixed : forall k t, unit3 k -> 0 <= t <= PI -> axang_normalize (mkA k t) = Some (mkA k t).
Proof. exact normalize_fixed. Qed.
Print Assumptions C127_normalize_fixed.
(** C127 refuted for the zero axis, which aa_tf_quat2axang gives for the identity:
    the axis becomes 0/0. *)
Theorem C127_zero_axis_refuted : forall t, axang_normalize (mkA zero3 t) = None.
Proof. exact normalize_zero. Qed.
Print Assumptions C127_zero_axis_refuted.
Theorem C127_permute2 : forall a p,
  axang_rot (fst (axang_permute2 a)) p = axang_rot a p /\ axang_rot (snd (axang_permute2 a)) p = axang_rot a p.
Proof. exact permute2_ok. Qed.
Print Assumptions C127_permute2.
(** C127: aa_tf_rotvec_near gives a vector of the same rotation. *)
Theorem C127_near_same : forall rv near f, / 10000 <= len3 rv -> turns rv f -> turns (rotvec_near rv near) f.
Proof. exact near_turns. Qed.
Print Assumptions C127_near_same.
(** C127: of all vectors of that rotation it is the one nearest to [near], if the
    rotation is not the identity and the two lengths add up to at most 7 pi. *)
Theorem C127_near_best : forall rv near f, / 10000 <= len3 rv -> cos (len3 rv) <> 1 -> len3 rv + len3 near <= 7 * PI ->
  turns rv f -> forall w, turns w f -> dist2 near (rotvec_near rv near) <= dist2 near w.
Proof. exact near_best_all. Qed.
Print Assumptions C127_near_best.
(** C127: likewise from a unit quaternion that turns by 1e-4 or more, within 5 pi. *)
Theorem C127_quat_near : forall q near, unitq q -> -1 < qw q <= cos (/ 20000) ->
  turns (quat2rotvec_near q near) (qrot q) /\
  (len3 near <= 5 * PI -> forall w, turns w (qrot q) -> dist2 near (quat2rotvec_near q near) <= dist2 near w).
Proof. exact quat_near. Qed.
Print Assumptions C127_quat_near.
(** C127 refuted without these conditions: farther away a nearer vector is missed,
    and so it is for the zero vector, however near the goal. *)
Theorem C127_near_far_refuted : exists rv near f w, turns rv f /\ turns w f /\
  dist2 near w < dist2 near (rotvec_near rv near).
Proof. exact near_far_missed. Qed.
Print Assumptions C127_near_far_refuted.
Theorem C127_near_zero_refuted : exists near f w, turns zero3 f /\ turns w f /\ len3 near <= 2 * PI /\
  dist2 near w < dist2 near (rotvec_near zero3 near).
Proof. exact near_zero_missed. Qed.
Print Assumptions C127_near_zero_refuted.
(** A quarter turn about x, near itself *)
Example C127_nonvacuous : let rv := times3 (PI / 2) (mkV 1 0 0) in
  / 10000 <= len3 rv /\ cos (len3 rv) <> 1 /\ len3 rv + len3 rv <= 7 * PI /\ turns rv (rodrigues (mkV 1 0 0) (PI / 2)) /\
  unitq (mkQ 1 0 0 0) /\ -1 < qw (mkQ 1 0 0 0) <= cos (/ 20000) /\ nonzero3 (mkV 2 0 0).
Proof.
  cbv zeta. pose proof PI2_1 as P1.
  assert (U : unit3 (mkV 1 0 0)) by (unfold unit3, dot; cbn [vx vy vz]; ring).
  assert (L : len3 (times3 (PI / 2) (mkV 1 0 0)) = PI / 2) by (rewrite len3_times, (len3_unit _ U), Rabs_right by lra; ring).
  rewrite L, cos_PI2. split; [lra|]. split; [lra|]. split; [lra|]. split; [exists (mkV 1 0 0), (PI / 2); auto|].
  split; [unfold unitq, norm2; cbn [qx qy qz qw]; ring|]. split.
  - cbn [qw]. split; [lra|]. apply cos_ge_0; lra.
  - unfold nonzero3, dot. cbn [vx vy vz]. lra.
Qed.

(** C128: aa_tf_isrotmat accepts every rotation matrix. *)
Theorem C128_accepts : forall inv M, inverse_ok inv -> proper_rotation M -> isrotmat inv M = true.
Proof. exact isrotmat_accepts. Qed.
Print Assumptions C128_accepts.
(** C128: what it accepts is orthogonal to 2e-4 in each entry with determinant
    within 1e-4 of 1, so no singular matrix, no reflection, no scaling. *)
Theorem C128_sound : forall inv M, inverse_ok inv -> isrotmat inv M = true ->
  mclose (2 / 10000) (prod33 M (flip33 M)) ident3 /\ Rabs (volume M - 1) <= 1 / 10000.
Proof. exact isrotmat_sound. Qed.
Print Assumptions C128_sound.
(** C128: the two cross product matrices. *)
Theorem C128_cross_matrices : forall v a, mrot (cross_mat_l v) a = xprod v a /\ mrot (cross_mat_r v) a = xprod a v.
Proof. exact cross_mats. Qed.
Print Assumptions C128_cross_matrices.
(** Cramer's rule is an inverse; the quarter turn about z is a rotation, a
    reflection is rejected. *)
Definition cramer (M : M33) : M33 :=
  let d := volume M in
  mkM ((m11 M * m22 M - m12 M * m21 M) / d) ((m12 M * m20 M - m10 M * m22 M) / d) ((m10 M * m21 M - m11 M * m20 M) / d)
      ((m02 M * m21 M - m01 M * m22 M) / d) ((m00 M * m22 M - m02 M * m20 M) / d) ((m01 M * m20 M - m00 M * m21 M) / d)
      ((m01 M * m12 M - m02 M * m11 M) / d) ((m02 M * m10 M - m00 M * m12 M) / d) ((m00 M * m11 M - m01 M * m10 M) / d).
Example C128_nonvacuous : inverse_ok cramer /\ proper_rotation (mkM 0 1 0 (-1) 0 0 0 0 1) /\
  isrotmat cramer (mkM 1 0 0 0 1 0 0 0 (-1)) = false.
Proof.
  assert (OK : inverse_ok cramer).
  { intros [a b c d e f g h i] V. unfold cramer. cbv zeta. unfold volume, dot, xprod, col0, col1, col2 in *.
    cbn [vx vy vz m00 m10 m20 m01 m11 m21 m02 m12 m22] in *.
    unfold prod33, ident3. cbn [m00 m10 m20 m01 m11 m21 m02 m12 m22]. split; f_equal; field; exact V. }
  split; [exact OK|]. split.
  - unfold proper_rotation, dot, xprod, col0, col1, col2. cbn [vx vy vz m00 m10 m20 m01 m11 m21 m02 m12 m22]. repeat split; ring.
  - destruct (isrotmat cramer (mkM 1 0 0 0 1 0 0 0 (-1))) eqn:E; [|reflexivity].
    apply (isrotmat_sound _ _ OK) in E. destruct E as [_ E]. unfold volume, dot, xprod, col0, col1, col2 in E.
    cbn [vx vy vz m00 m10 m20 m01 m11 m21 m02 m12 m22] in E. exfalso. revert E. unfold Rabs. destruct (Rcase_abs _); lra.
Qed.

(** C129: n steps of aa_tf_qvelrk4 at the constant rate r about the unit axis k
    stay within n x^5/100 of the exact turn, x half the angle of one step (a
    step of at most two radians). *)
Theorem C129_rk4_error : forall k r dt q n, unit3 k -> Rabs (r * dt) <= 2 ->
  len4 (diff4 (Nat.iter n (fun x => qvelrk4 x (times3 r k) dt) q) (hamilton (turn k (INR n * (r * dt))) q))
    <= INR n * ((Rabs (r * dt) / 2) ^ 5 / 100) * len4 q.
Proof. exact rk_error_iter. Qed.
Print Assumptions C129_rk4_error.
(** C129: the steps do not keep the length: exactly how much it changes. *)
Theorem C129_rk4_length : forall q w dt, let s := dt * dt / 4 * dot w w in
  norm2 (qvelrk4 q w dt) = norm2 q * (1 - s ^ 3 / 72 + s ^ 4 / 576).
Proof. exact rk4_norm. Qed.
Print Assumptions C129_rk4_length.
Theorem C129_rk1_length : forall q w dt, norm2 (qvelrk1 q w dt) = norm2 q * (1 + dt * dt / 4 * dot w w).
Proof. exact rk1_norm. Qed.
Print Assumptions C129_rk1_length.
(** C129 refuted: a single Euler step of a unit quaternion is not a unit quaternion. *)
Theorem C129_unit_refuted : forall q w dt, unitq q -> dt <> 0 -> nonzero3 w -> ~ unitq (qvelrk1 q w dt).
Proof.
  unfold unitq, nonzero3. intros q w dt U D W E. rewrite rk1_norm, U in E.
  assert (Z : dt * dt * dot w w = 0) by lra. apply Rmult_integral in Z. destruct Z as [Z|Z]; [|tauto].
  apply Rmult_integral in Z. tauto.
Qed.
Print Assumptions C129_unit_refuted.
Example C129_nonvacuous : unit3 (mkV 0 0 1) /\ Rabs (1 * 2) <= 2 /\ unitq (mkQ 0 0 0 1) /\
  qvelrk1 (mkQ 0 0 0 1) (mkV 0 0 2) 1 = mkQ 0 0 1 1.
Proof.
  split; [unfold unit3, dot; cbn [vx vy vz]; ring|]. split; [rewrite Rabs_right; lra|].
  split; [unfold unitq, norm2; cbn [qx qy qz qw]; ring|].
  unfold qvelrk1, qrk1, qvel2diff, qmul_vq, vdivs, vdot, qv. cbn [vx vy vz qx qy qz qw]. f_equal; field.
Qed.
