(** Exponentials, logarithms, interpolation and angle conversions:
    C23, C24, C26, C27, C29, C30, C61, C62. *)
From Coq Require Import Reals ZArith List Lra.
From Verif Require Import TfModel TfSpec TfProofs TfRotmatProofs TfRepProofs TfCalcProofs AtanModel AtanProofs.
From Verif Require Import TfExpModel TfExpSpec SeriesProofs TfExpProofs TfLogProofs.
From Verif Require Import TfScrewProofs TfLnProofs TfSmallProofs TfLnNear TfInterpProofs TfConvProofs.
Open Scope R_scope.

(** * C23: quaternion exponential and logarithm *)

(** C23: aa_tf_qpexp and aa_tf_qexp compute the exponential: exactly from rotation length
    2^-13 on, and to within 2^-78 (times the scale of the result) for every input. *)
Theorem C23_pure_exponential : forall v,
  (/ 2 ^ 13 <= len3 v -> pure_exp v (qpexp v)) /\
  exists q, pure_exp v q /\ unitq q /\ qnear (/ 2 ^ 78) (qpexp v) q.
Proof.
  exact (fun v => conj (qpexp_exact v)
    match qpexp_near v with ex_intro _ q (conj P N) => ex_intro _ q (conj P (conj (pure_exp_unit v q P) N)) end).
Qed.
Print Assumptions C23_pure_exponential.

Theorem C23_exponential : forall x,
  (/ 2 ^ 13 <= len3 (vecpart x) -> quat_exp x (qexp x)) /\
  exists q, quat_exp x q /\ qnear (exp (qw x) * / 2 ^ 78) (qexp x) q.
Proof. exact (fun x => conj (qexp_exact x) (qexp_near x)). Qed.
Print Assumptions C23_exponential.

(** C23: exponential of logarithm, for every nonzero quaternion off the negative real axis. *)
Theorem C23_exp_of_ln : forall q, vecpart q <> zero3 \/ 0 < qw q ->
  (0 < len3 (vecpart q) -> / 2 ^ 13 <= atan2 (len3 (vecpart q)) (qw q) -> qexp (qln q) = q) /\
  qnear (len4 q * / 2 ^ 78) (qexp (qln q)) q.
Proof. exact (fun q H => conj (qexp_qln_exact q) (qexp_qln_near q H)). Qed.
Print Assumptions C23_exp_of_ln.

(** C23: logarithm of exponential, for every quaternion with vector part shorter than pi. *)
Theorem C23_ln_of_exp : forall x, len3 (vecpart x) < PI ->
  (/ 2 ^ 13 <= len3 (vecpart x) -> qln (qexp x) = x) /\ qnear (/ 2 ^ 78) (qln (qexp x)) x.
Proof. exact (fun x H => conj (fun L => qln_qexp_exact x (conj L H)) (qln_qexp_near x H)). Qed.
Print Assumptions C23_ln_of_exp.

(** C23: aa_tf_qexp_n is right for vector parts of length DBL_EPSILON or more; below, it
    drops the factor exp(w) of the real part, and is off by more than 1/2 for some input. *)
Theorem C23_qexp_n_guarded : forall x, eps <= len3 (vecpart x) -> quat_exp x (qexp_n x).
Proof. exact qexp_n_exact. Qed.
Print Assumptions C23_qexp_n_guarded.

Theorem C23_qexp_n_refuted : exists x q, quat_exp x q /\ ~ qnear (1 / 2) (qexp_n x) q.
Proof. exact qexp_n_bad. Qed.
Print Assumptions C23_qexp_n_refuted.

Example C23_nonvacuous : let x := mkQ 1 0 0 2 in
  / 2 ^ 13 <= len3 (vecpart x) /\ len3 (vecpart x) < PI /\ vecpart x <> zero3.
Proof.
  assert (E : len3 (mkV 1 0 0) = 1).
  { unfold len3, dot; cbn. replace (1 * 1 + 0 * 0 + 0 * 0) with 1 by ring. apply sqrt_1. }
  unfold vecpart; cbn [qx qy qz]. rewrite E. pose proof PI2_1. pose proof small13'.
  repeat split; try lra. intros X. injection X. lra.
Qed.

(** * C24: small-angle branches *)

(** C24: the quaternion exponentials agree with the closed form to 2^-78 in both branches
    (with C23 for the pure exponential): for every twist. *)
Theorem C24_qutr_exponential_near : forall v w F, screw_flow (times3 2 v) (times3 2 w) F ->
  exists e, unit_qutr e /\ (forall p, qutr_tf e p = F 1 p) /\
    qnear (/ 2 ^ 78) (eq (qutr_expv (mkDX v w))) (eq e) /\
    vnear (/ 2 ^ 78 * len3 v) (ev (qutr_expv (mkDX v w))) (ev e).
Proof. exact qutr_expv_near. Qed.
Print Assumptions C24_qutr_exponential_near.

(** C24: the matrix exponentials jump: below 2^-13 the rotation of a unit vector is off by
    more than a^2/4, and the translation of a unit twist by more than a/4, at every angle a. *)
Theorem C24_rotmat_expv_refuted : forall a, 0 < a < / 2 ^ 13 ->
  ~ vnear (a * a / 4) (mrot (rotmat_expv (times3 a (mkV 1 0 0))) (mkV 0 1 0))
                      (rodrigues (mkV 1 0 0) a (mkV 0 1 0)).
Proof. exact rotmat_expv_jump. Qed.
Print Assumptions C24_rotmat_expv_refuted.

Theorem C24_tfmat_expv_refuted : forall a F, 0 < a < / 2 ^ 13 ->
  screw_flow (mkV 0 1 0) (times3 a (mkV 1 0 0)) F ->
  ~ vnear (a / 4) (tfmat_tf (tfmat_expv (mkDX (mkV 0 1 0) (times3 a (mkV 1 0 0)))) zero3) (F 1 zero3).
Proof. exact tfmat_expv_jump. Qed.
Print Assumptions C24_tfmat_expv_refuted.

(** C24: outside the series branch the matrix exponential is the rotation by the length of
    the vector about its direction. *)
Theorem C24_rotmat_expv_guarded : forall k a p, unit3 k -> / 2 ^ 13 <= a ->
  mrot (rotmat_expv (times3 a k)) p = rodrigues k a p.
Proof.
  exact (fun k a p U H => eq_trans (f_equal (fun M => mrot M p) (rotmat_expv_axang k a U H))
    (axang2rotmat_rodrigues (mkA k a) p U)).
Qed.
Print Assumptions C24_rotmat_expv_guarded.

Example C24_nonvacuous : (0 < / 2 ^ 14 < / 2 ^ 13) /\
  exists F, screw_flow (mkV 0 1 0) (times3 (/ 2 ^ 14) (mkV 1 0 0)) F.
Proof. split; [simpl; lra|apply flow_of_twist]. Qed.

(** * C26: spherical interpolation *)

(** C26: with th the angle between the two orientations taken the short way, and e the one
    of q2, -q2 on the near side, slerp starts at q1, ends at e, stays on the unit sphere and
    follows the great-circle arc at constant speed, for every parameter. *)
Theorem C26_slerp_arc : forall q1 q2, unitq q1 -> unitq q2 -> exists th e,
  0 <= th <= PI / 2 /\ cos th = Rabs (dot4 q1 q2) /\ (e = q2 \/ e = scale4 (-1) q2) /\ 0 <= dot4 q1 e /\
  qslerp 0 q1 q2 = q1 /\ qslerp 1 q1 q2 = e /\
  forall tau, unitq (qslerp tau q1 q2) /\ on_arc q1 e th tau (qslerp tau q1 q2).
Proof. exact slerp_spec. Qed.
Print Assumptions C26_slerp_arc.

(** C26: the angle between any two interpolated quaternions is proportional to the
    difference of their parameters. *)
Theorem C26_slerp_constant_rate : forall q1 q2 th s t, unitq q1 -> unitq q2 ->
  0 <= th <= PI / 2 -> cos th = Rabs (dot4 q1 q2) ->
  dot4 (qslerp s q1 q2) (qslerp t q1 q2) = cos ((t - s) * th).
Proof. exact slerp_rate_spec. Qed.
Print Assumptions C26_slerp_constant_rate.

(** C26: aa_tf_qslerpdiff is the derivative in the parameter (outside the sinc series). *)
Theorem C26_slerpdiff_derivative : forall q1 q2 th tau, unitq q1 -> unitq q2 ->
  0 <= th <= PI / 2 -> cos th = Rabs (dot4 q1 q2) -> th = 0 \/ / 2 ^ 13 <= th ->
  qderiv (fun s => qslerp s q1 q2) tau (qslerpdiff tau q1 q2).
Proof. exact slerpdiff_spec. Qed.
Print Assumptions C26_slerpdiff_derivative.

Example C26_nonvacuous : unitq (mkQ 0 0 0 1) /\ unitq (mkQ 1 0 0 0) /\
  0 <= PI / 2 <= PI / 2 /\ cos (PI / 2) = Rabs (dot4 (mkQ 0 0 0 1) (mkQ 1 0 0 0)) /\ / 2 ^ 13 <= PI / 2.
Proof.
  pose proof PI2_1. pose proof small13'. unfold unitq, norm2, dot4; cbn.
  repeat split; try lra. rewrite cos_PI2. replace (_ + _) with 0 by ring. now rewrite Rabs_R0.
Qed.

(** * C27: derivative with moving end points *)

Theorem C27_slerpchaindiff_refuted : exists q1 q2 dq1 dq2 t u,
  (forall s, unitq (q1 s)) /\ (forall s, unitq (q2 s)) /\ qderiv q1 t dq1 /\ qderiv q2 t dq2 /\
  ~ qderiv (fun s => qslerp u (q1 s) (q2 s)) t (snd (qslerpchaindiff u 0 (q1 t) dq1 (q2 t) dq2)).
Proof. exact chaindiff_bad. Qed.
Print Assumptions C27_slerpchaindiff_refuted.

(** C27: with fixed end points and a moving parameter it is right, for every pair. *)
Theorem C27_slerpchaindiff_fixed_ends : forall u du t q1 q2, unitq q1 -> unitq q2 ->
  derivable_pt_lim u t du ->
  fst (qslerpchaindiff (u t) du q1 (mkQ 0 0 0 0) q2 (mkQ 0 0 0 0)) = qslerp (u t) q1 q2 /\
  qderiv (fun s => qslerp (u s) q1 q2) t (snd (qslerpchaindiff (u t) du q1 (mkQ 0 0 0 0) q2 (mkQ 0 0 0 0))).
Proof. exact chaindiff_fixed. Qed.
Print Assumptions C27_slerpchaindiff_fixed_ends.

Example C27_nonvacuous : unitq (mkQ 0 0 0 1) /\ unitq (mkQ 1 0 0 0) /\ derivable_pt_lim (fun s => s) 2 1.
Proof. repeat split; [unfold unitq, norm2; cbn; lra..|apply dpl_id]. Qed.

(** * C29: rotation between two vectors *)

(** C29: right whenever the squared cross product is at least sqrt(DBL_EPSILON)=2^-26 times
    the product of the lengths (the general branch) ... *)
Theorem C29_vecs2quat_general : forall u v, 0 < len3 u -> 0 < len3 v ->
  / 2 ^ 26 * (len3 u * len3 v) <= dot (xprod u v) (xprod u v) ->
  unitq (vecs2quat u v) /\ times3 (len3 v) (qrot (vecs2quat u v) u) = times3 (len3 u) v.
Proof.
  exact (fun u v Hu Hv H => vecs_general u v Hu Hv
    (eq_ind_r (fun x => x * (len3 u * len3 v) <= dot (xprod u v) (xprod u v)) H sqrt_eps)).
Qed.
Print Assumptions C29_vecs2quat_general.

(** C29: ... and for vectors that are exactly parallel or exactly opposite. *)
Theorem C29_vecs2quat_parallel : forall u k, 0 < len3 u -> k <> 0 -> let v := times3 k u in
  unitq (vecs2quat u v) /\ times3 (len3 v) (qrot (vecs2quat u v) u) = times3 (len3 u) v.
Proof. exact vecs_parallel. Qed.
Print Assumptions C29_vecs2quat_parallel.

(** C29: wrong in between, already for unit vectors: for every angle t below 2^-13 less
    than half of the turn is made. *)
Theorem C29_vecs2quat_refuted : forall t, 0 < t -> t < / 2 ^ 13 ->
  let u := mkV 1 0 0 in let v := mkV (cos t) (sin t) 0 in
  unit3 u /\ unit3 v /\ vy (qrot (vecs2quat u v) u) < vy v / 2.
Proof.
  exact (fun t P B => conj (unit_x) (conj (unit_cs t) (vecs_small_bad t P B))).
Qed.
Print Assumptions C29_vecs2quat_refuted.

Example C29_nonvacuous : let u := mkV 1 0 0 in let v := mkV 0 1 0 in
  0 < len3 u /\ 0 < len3 v /\ / 2 ^ 26 * (len3 u * len3 v) <= dot (xprod u v) (xprod u v).
Proof.
  cbv zeta. assert (A : len3 (mkV 1 0 0) = 1) by (apply len3_unit; unfold unit3, dot; cbn; ring).
  assert (B : len3 (mkV 0 1 0) = 1) by (apply len3_unit; unfold unit3, dot; cbn; ring).
  rewrite A, B. unfold dot, xprod; cbn. repeat split; lra.
Qed.

(** * C30: axis-angle, principal-axis and Euler constructors *)

Theorem C30_axang_forms_agree : forall k t p, unit3 k ->
  axang_rot (mkA k t) p = rodrigues k t p /\
  mrot (axang2rotmat (mkA k t)) p = rodrigues k t p /\
  axang2rotmat2 (mkA k t) = axang2rotmat (mkA k t) /\
  unitq (axang2quat (mkA k t)) /\ quat2rotmat (axang2quat (mkA k t)) = axang2rotmat (mkA k t) /\
  qrot (axang2quat (mkA k t)) p = rodrigues k t p.
Proof. exact axang_forms. Qed.
Print Assumptions C30_axang_forms_agree.

Theorem C30_principal_axes : forall t p,
  mrot (xangle2rotmat t) p = rot_x t p /\ quat2rotmat (xangle2quat t) = xangle2rotmat t /\
  mrot (yangle2rotmat t) p = rot_y t p /\ quat2rotmat (yangle2quat t) = yangle2rotmat t /\
  mrot (zangle2rotmat t) p = rot_z t p /\ quat2rotmat (zangle2quat t) = zangle2rotmat t.
Proof.
  exact (fun t p => conj (xangle_rot t p) (conj (xangle_quat t) (conj (yangle_rot t p)
    (conj (yangle_quat t) (conj (zangle_rot t p) (zangle_quat t)))))).
Qed.
Print Assumptions C30_principal_axes.

(** C30: each Euler constructor, for every choice of axes, is the three elementary
    rotations applied in order (the last angle first), in matrix and quaternion form. *)
Theorem C30_euler_constructors : forall a1 a2 a3 e1 e2 e3,
  (forall p, mrot (euler2rotmat a1 a2 a3 e1 e2 e3) p = axis_rot a1 e1 (axis_rot a2 e2 (axis_rot a3 e3 p))) /\
  unitq (euler2quat a1 a2 a3 e1 e2 e3) /\
  (forall p, qrot (euler2quat a1 a2 a3 e1 e2 e3) p = axis_rot a1 e1 (axis_rot a2 e2 (axis_rot a3 e3 p))).
Proof.
  exact (fun a1 a2 a3 e1 e2 e3 => conj (euler2rotmat_ok a1 a2 a3 e1 e2 e3)
    (conj (proj1 (euler2quat_ok a1 a2 a3 e1 e2 e3)) (euler_quat_rot a1 a2 a3 e1 e2 e3))).
Qed.
Print Assumptions C30_euler_constructors.

(** C30: extracting zyx angles from a matrix or quaternion not in gimbal lock and rebuilding
    gives the rotation back. *)
Theorem C30_euler_zyx_of_matrix : forall M a b g, proper_rotation M ->
  0 < m00 M * m00 M + m10 M * m10 M -> rotmat2eulerzyx M = (a, b, g) ->
  euler2rotmat AxZ AxY AxX a b g = M.
Proof. exact eulerzyx_ok. Qed.
Print Assumptions C30_euler_zyx_of_matrix.

Theorem C30_euler_zyx_of_quaternion : forall q a b g, unitq q ->
  let M := quat2rotmat q in 0 < m00 M * m00 M + m10 M * m10 M -> quat2eulerzyx q = (a, b, g) ->
  forall p, axis_rot AxZ a (axis_rot AxY b (axis_rot AxX g p)) = qrot q p.
Proof. exact quat_eulerzyx_rot. Qed.
Print Assumptions C30_euler_zyx_of_quaternion.

Example C30_nonvacuous : unit3 (mkV 0 0 1) /\ proper_rotation ident3 /\
  0 < m00 ident3 * m00 ident3 + m10 ident3 * m10 ident3 /\ unitq (mkQ 0 0 0 1).
Proof. split; [unfold unit3, dot; cbn; ring|]. split; [apply proper_ident|]. split; [cbn; lra|apply unitq_ident]. Qed.

(** * C61: conversions between rotation representations *)

Theorem C61_quat_axang_round_trip : forall q, unitq q -> axang2quat (quat2axang q) = q.
Proof. exact axang_of_quat. Qed.
Print Assumptions C61_quat_axang_round_trip.

Theorem C61_axang_quat_round_trip : forall k t, unit3 k -> 0 < t < 2 * PI ->
  quat2axang (axang2quat (mkA k t)) = mkA k t.
Proof. exact quat_of_axang. Qed.
Print Assumptions C61_axang_quat_round_trip.

(** C61: a rotation vector becomes the quaternion of the rotation by its length about its
    direction (half the vector exponentiated). *)
Theorem C61_rotvec2quat : forall v,
  (/ 2 ^ 13 <= len3 (times3 (1 / 2) v) -> pure_exp (times3 (1 / 2) v) (rotvec2quat v)) /\
  exists q, pure_exp (times3 (1 / 2) v) q /\ qnear (/ 2 ^ 78) (rotvec2quat v) q.
Proof.
  exact (fun v => conj
    (fun H => eq_ind_r (fun x => pure_exp (times3 (1 / 2) v) x) (qpexp_exact _ H) (rotvec2quat_qpexp v))
    (eq_ind_r (fun x => exists q, pure_exp (times3 (1 / 2) v) q /\ qnear (/ 2 ^ 78) x q)
      (qpexp_near (times3 (1 / 2) v)) (rotvec2quat_qpexp v))).
Qed.
Print Assumptions C61_rotvec2quat.

Theorem C61_quat_rotvec_round_trip : forall q, unitq q -> q <> mkQ 0 0 0 (-1) ->
  (0 < len3 (vecpart q) -> / 2 ^ 13 <= atan2 (len3 (vecpart q)) (qw q) -> rotvec2quat (quat2rotvec q) = q) /\
  qnear (/ 2 ^ 78) (rotvec2quat (quat2rotvec q)) q.
Proof. exact rotvec_round_trip. Qed.
Print Assumptions C61_quat_rotvec_round_trip.

(** C61: axis-angle and rotation vectors, for angles of 1e-4 and more. *)
Theorem C61_rotvec_axang : forall v k t,
  (/ 10000 <= len3 v ->
    angle (rotvec2axang v) = len3 v /\ unit3 (axis (rotvec2axang v)) /\
    times3 (angle (rotvec2axang v)) (axis (rotvec2axang v)) = v) /\
  (unit3 k -> / 10000 <= t -> rotvec2axang (axang2rotvec (mkA k t)) = mkA k t).
Proof. exact (fun v k t => conj (rotvec2axang_ok v) (axang2rotvec_ok k t)). Qed.
Print Assumptions C61_rotvec_axang.

(** C61: adding whole turns to a rotation vector does not change the rotation. *)
Theorem C61_rotvec_permute : forall v k p, / 10000 <= len3 v -> / 10000 <= len3 v + IZR k * 2 * PI ->
  axang_rot (rotvec2axang (rotvec_permute v k)) p = axang_rot (rotvec2axang v) p.
Proof. exact rotvec_permute_rot. Qed.
Print Assumptions C61_rotvec_permute.

(** C61: matrix to rotation vector (logarithm) and to axis-angle, and back: every proper
    rotation is a rotation by some angle in [0, pi] about some axis, and the round trip is
    the identity when that angle is 0 or at least 2^-13. *)
Theorem C61_matrix_has_axis : forall M, proper_rotation M ->
  exists k t, unit3 k /\ 0 <= t <= PI /\ M = axang2rotmat (mkA k t).
Proof. exact euler_axis. Qed.
Print Assumptions C61_matrix_has_axis.

Theorem C61_matrix_log_round_trip : forall k t, unit3 k -> t = 0 \/ / 2 ^ 13 <= t <= PI ->
  let M := axang2rotmat (mkA k t) in
  rotmat_expv (rotmat_lnv M) = M /\ (t <> 0 -> axang2rotmat (rotmat2axang M) = M).
Proof. exact matrix_log_rt. Qed.
Print Assumptions C61_matrix_log_round_trip.

Example C61_nonvacuous : unitq (mkQ 1 0 0 0) /\ mkQ 1 0 0 0 <> mkQ 0 0 0 (-1) /\ unit3 (mkV 0 1 0) /\
  0 < 1 < 2 * PI /\ / 2 ^ 13 <= 1 <= PI.
Proof.
  pose proof PI2_1. pose proof small13'. repeat split; try lra; try (unfold unitq, norm2, unit3, dot; cbn; ring).
  intros H'. injection H'. lra.
Qed.

(** * C62: exponentials and logarithms of poses, integration of velocities *)

(** C62: the pose exponentials are the motion of a constant twist: F 1 is where the flow
    dx/dt = v + w x x takes the point in unit time.  (The quaternion forms take half twists.) *)
Theorem C62_tfmat_exponential : forall v w F, screw_flow v w F -> off_series (/ 2 ^ 13) w ->
  forall p, tfmat_tf (tfmat_expv (mkDX v w)) p = F 1 p.
Proof. exact tfmat_expv_ok. Qed.
Print Assumptions C62_tfmat_exponential.

Theorem C62_qutr_exponential : forall v w F, screw_flow (times3 2 v) (times3 2 w) F ->
  off_series (/ 2 ^ 13) w ->
  forall p, qutr_tf (qutr_expv (mkDX v w)) p = F 1 p.
Proof. exact qutr_expv_ok. Qed.
Print Assumptions C62_qutr_exponential.

Theorem C62_duqu_exponential : forall v w F, screw_flow (times3 2 v) (times3 2 w) F ->
  off_series (/ 2 ^ 26) w ->
  forall p, duqu_tf (duqu_exp (mkD (pure w) (pure v))) p = F 1 p.
Proof. exact duqu_exp_ok. Qed.
Print Assumptions C62_duqu_exponential.

(** C62: every twist has exactly one flow. *)
Theorem C62_flow_exists_unique : forall v w, (exists F, screw_flow v w F) /\
  forall F G, screw_flow v w F -> screw_flow v w G -> forall t p, F t p = G t p.
Proof. exact (fun v w => conj (flow_of_twist v w) (flow_unique v w)). Qed.
Print Assumptions C62_flow_exists_unique.

(** C62: exponential of logarithm is the identity on poses. *)
Theorem C62_qutr_exp_of_ln : forall e, unit_qutr e ->
  (vecpart (eq e) = zero3 /\ qw (eq e) = 1) \/
  (0 < len3 (vecpart (eq e)) /\ / 2 ^ 13 <= atan2 (len3 (vecpart (eq e))) (qw (eq e))) ->
  qutr_expv (qutr_lnv e) = e.
Proof. exact qutr_exp_ln_all. Qed.
Print Assumptions C62_qutr_exp_of_ln.

Theorem C62_duqu_exp_of_ln : forall s, unit_duqu s ->
  (vecpart (dreal s) = zero3 /\ qw (dreal s) = 1) \/
  (0 < len3 (vecpart (dreal s)) /\ / 2 ^ 26 <= atan2 (len3 (vecpart (dreal s))) (qw (dreal s))) ->
  duqu_exp (duqu_ln s) = s.
Proof. exact duqu_exp_ln_all. Qed.
Print Assumptions C62_duqu_exp_of_ln.

Theorem C62_tfmat_exp_of_ln : forall k t v, unit3 k -> t = 0 \/ / 2 ^ 13 <= t <= PI ->
  tfmat_expv (tfmat_lnv (mkT (axang2rotmat (mkA k t)) v)) = mkT (axang2rotmat (mkA k t)) v.
Proof. exact tfmat_exp_ln_all. Qed.
Print Assumptions C62_tfmat_exp_of_ln.

(** C62: the logarithm itself: the flow of the returned twist reaches the pose in unit time,
    for turns of 0 or at least 2^-26; below that the returned twist differs from one whose
    flow reaches the pose by at most the sixth power of the angle. *)
Theorem C62_tfmat_logarithm : forall k t v F, unit3 k -> t = 0 \/ / 2 ^ 26 <= t <= PI ->
  let T := mkT (axang2rotmat (mkA k t)) v in
  screw_flow (dxv (tfmat_lnv T)) (dxw (tfmat_lnv T)) F -> forall p, F 1 p = tfmat_tf T p.
Proof. exact tfmat_ln_exact_all. Qed.
Print Assumptions C62_tfmat_logarithm.

Theorem C62_tfmat_logarithm_series : forall k t v, unit3 k -> 0 < t < / 2 ^ 26 ->
  let T := mkT (axang2rotmat (mkA k t)) v in
  exists V W, (forall F, screw_flow V W F -> forall p, F 1 p = tfmat_tf T p) /\
    vnear (t ^ 6) (dxw (tfmat_lnv T)) W /\ vnear (t ^ 6 * len3 v) (dxv (tfmat_lnv T)) V.
Proof. exact tfmat_ln_near_all. Qed.
Print Assumptions C62_tfmat_logarithm_series.

Theorem C62_qutr_logarithm : forall k h v F, unit3 k -> h = 0 \/ / 2 ^ 26 <= h < PI ->
  let e := mkE (axang2quat (mkA k (2 * h))) v in
  screw_flow (times3 2 (dxv (qutr_lnv e))) (times3 2 (dxw (qutr_lnv e))) F ->
  forall p, F 1 p = qutr_tf e p.
Proof. exact qutr_ln_exact_all. Qed.
Print Assumptions C62_qutr_logarithm.

Theorem C62_qutr_logarithm_series : forall k h v, unit3 k -> 0 < h < / 2 ^ 26 ->
  let e := mkE (axang2quat (mkA k (2 * h))) v in
  exists V W, (forall F, screw_flow (times3 2 V) (times3 2 W) F -> forall p, F 1 p = qutr_tf e p) /\
    vnear (h ^ 6) (dxw (qutr_lnv e)) W /\ vnear (h ^ 6 * len3 v) (dxv (qutr_lnv e)) V.
Proof. exact qutr_ln_near_all. Qed.
Print Assumptions C62_qutr_logarithm_series.

(** C62: integrating a constant velocity for time dt: each body point ends where the flow of
    that velocity (v is the velocity of the body's origin) takes it. *)
Theorem C62_qutr_integration : forall e v w dt F, unit_qutr e ->
  screw_flow (plus3 v (times3 (-1) (xprod w (ev e)))) w F ->
  off_series (/ 2 ^ 13) (times3 (dt / 2) w) ->
  forall p, qutr_tf (qutr_svel e (mkDX v w) dt) p = F dt (qutr_tf e p).
Proof. exact qutr_svel_ok. Qed.
Print Assumptions C62_qutr_integration.

Theorem C62_duqu_integration : forall s v w dt F, unit_duqu s ->
  screw_flow (plus3 v (times3 (-1) (xprod w (dtrans s)))) w F ->
  off_series (/ 2 ^ 26) (times3 (dt / 2) w) ->
  forall p, duqu_tf (duqu_svel s (mkDX v w) dt) p = F dt (duqu_tf s p).
Proof. exact duqu_svel_ok. Qed.
Print Assumptions C62_duqu_integration.

Theorem C62_tfmat_integration : forall T v w dt F,
  screw_flow (plus3 v (times3 (-1) (xprod w (tv T)))) w F ->
  off_series (/ 2 ^ 13) (times3 dt w) ->
  forall p, tfmat_tf (tfmat_svel T (mkDX v w) dt) p = F dt (tfmat_tf T p).
Proof. exact tfmat_svel_ok. Qed.
Print Assumptions C62_tfmat_integration.

Theorem C62_quat_integration : forall q w dt F, unitq q -> screw_flow zero3 w F ->
  off_series (/ 2 ^ 13) (times3 (dt / 2) w) ->
  (forall p, qrot (qsvel q w dt) p = F dt (qrot q p)) /\
  qsdiff q (qvel2diff q w) dt = qsvel q w dt.
Proof. exact (fun q w dt F U H O => conj (qsvel_ok q w dt F U H O) (qsdiff_ok q w dt U)). Qed.
Print Assumptions C62_quat_integration.

Example C62_nonvacuous : (exists F, screw_flow (mkV 1 2 3) (mkV 1 0 0) F) /\
  off_series (/ 2 ^ 13) (mkV 1 0 0) /\ off_series (/ 2 ^ 13) zero3 /\
  unit_qutr (mkE (mkQ 1 0 0 0) (mkV 1 2 3)) /\ unit_duqu (mkD (mkQ 1 0 0 0) (mkQ 0 1 2 0)).
Proof.
  pose proof small13'. split; [apply flow_of_twist|]. split; [right; rewrite len3_unit; [lra|unfold unit3, dot; cbn; ring]|].
  split; [now left|]. unfold unit_qutr, unit_duqu, unitq, norm2; cbn. repeat split; ring.
Qed.
