(** Logarithms of rotations and poses: exp of ln is the identity. *)
From Coq Require Import Reals Lra Lia Nsatz.
From Verif Require Import TfModel TfSpec TfProofs TfRotmatProofs TfRepProofs TfCalcProofs AtanModel AtanProofs
  TfExpModel TfExpSpec SeriesProofs TfExpProofs TfLogProofs TfScrewProofs.
Open Scope R_scope.

(** ** Polar form of a unit quaternion *)
Lemma unit_len4 q : unitq q -> len4 q = 1.
Proof. intros U. unfold len4. rewrite U. apply sqrt_1. Qed.
Lemma vdot_dot a b : vdot a b = dot a b.
Proof. reflexivity. Qed.
Lemma qv_vecpart q : qv q = vecpart q.
Proof. reflexivity. Qed.

(** k, phi with q = sin phi k + cos phi, phi in (0, pi). *)
Lemma unit_polar q : unitq q -> 0 < len3 (vecpart q) ->
  exists k, unit3 k /\ 0 < qphi q < PI /\ 0 < sin (qphi q) /\
    len3 (vecpart q) = sin (qphi q) /\ qw q = cos (qphi q) /\
    vecpart q = times3 (sin (qphi q)) k.
Proof.
  intros U L. destruct (qphi_pos q L) as [P1 P2].
  pose proof (polar q ltac:(rewrite unit_len4; auto; lra)) as Q. cbv zeta in Q. fold (qphi q) in Q.
  rewrite (unit_len4 q U) in Q. destruct Q as [Q1 Q2].
  destruct (direction (vecpart q)) as (k & Uk & E). exists k.
  pose proof (sin_gt_0 _ P1 P2). change (qv q) with (vecpart q) in *.
  repeat split; auto; lra || (rewrite E at 1; f_equal; lra) || idtac.
Qed.

Lemma vdiv_len r : sqrt (vdot r r) = len3 r.
Proof. reflexivity. Qed.

(** ** Quaternion-translation *)
Lemma mkqv_vec q : mkqv (vecpart q) (qw q) = q.
Proof. destruct q; reflexivity. Qed.

Lemma inv_mul a : a <> 0 -> a * / a = 1.
Proof. apply Rinv_r. Qed.

Lemma qutr_exp_ln e : unit_qutr e -> 0 < len3 (vecpart (eq e)) ->
  / 2 ^ 13 <= atan2 (len3 (vecpart (eq e))) (qw (eq e)) ->
  qutr_expv (qutr_lnv e) = e.
Proof.
  intros U L H. destruct (unit_polar _ U L) as (k & Uk & (P1 & P2) & S0 & E1 & E2 & E3).
  change (atan2 (len3 (vecpart (eq e))) (qw (eq e))) with (qphi (eq e)) in H.
  unfold qutr_lnv. rewrite vdiv_len. change (qv (eq e)) with (vecpart (eq e)).
  change (atan2 (len3 (vecpart (eq e))) (qw (eq e))) with (qphi (eq e)).
  set (f := qphi (eq e)) in *. rewrite sqrt_eps.
  destruct (Rlt_dec f (/ 2 ^ 26)) as [B|_].
  { exfalso. assert (/ 2 ^ 26 <= / 2 ^ 13). { apply Rinv_le_contravar; [apply pow2_pos|]. apply Rle_pow; lra || lia. } lra. }
  rewrite E1, E3.
  replace (vscale (f / sin f) (times3 (sin f) k)) with (times3 f k) by (destruct k; tfc; f_equal; field; lra).
  rewrite E2. match goal with |- qutr_expv (mkDX ?x _) = _ =>
    replace x with (plus3 (times3 (f / 2) (xprod (ev e) k)) (plus3 (times3 (cos f * f / sin f / 2) (ev e))
      (times3 ((1 - cos f * f / sin f) / 2 * dot (ev e) k) k)))
    by (destruct (ev e), k; tfc; f_equal; field; lra) end.
  unfold qutr_expv. cbn [dxw dxv]. rewrite len_ak by (auto; lra).
  rewrite sqrt_eps. destruct (Rlt_dec _ _) as [B|_]; [apply sq_lt_26 in B; lra|].
  rewrite sqrt_square by lra.
  destruct e as [q v]. cbn [eq ev] in *. f_equal.
  - clearbody f. rewrite <- (mkqv_vec q), E3, <- E2. f_equal. clear - P1. destruct k. tfc. f_equal; field; lra.
  - assert (SC : sin f * sin f + cos f * cos f = 1) by (pose proof (sin2_cos2 f) as Q; unfold Rsqr in Q; lra).
    revert SC S0. clear E1 E2 E3. generalize (sin f) (cos f). intros S C SC S0.
    assert (F0 : f <> 0) by lra. assert (S1 : S <> 0) by lra.
    replace (vscale (S / f) (times3 f k)) with (times3 S k) by (destruct k; tfc; f_equal; field; lra).
    set (dv := plus3 _ _).
    replace (vscale (vdot (times3 f k) dv * ((2 - C * (2 * (S / f))) / (f * f))) (times3 f k))
      with (times3 (dot k dv * (2 - C * (2 * (S / f)))) k) by (destruct k, dv; tfc; f_equal; field; lra).
    unfold dv, Rdiv. pose proof (inv_mul f F0) as HF. pose proof (inv_mul S S1) as HS.
    pose proof (inv_mul 2 ltac:(lra)) as H2. revert HF HS H2. generalize (/ f) (/ S) (/ 2). intros b T h HF HS H2.
    unfold unit3 in Uk. clearbody f. clear H L U P1 P2 S0 dv F0 S1.
    destruct v as [v1 v2 v3], k as [k1 k2 k3]. tfc. f_equal; nsatz.
Qed.
Lemma atan2_01 : atan2 0 1 = 0.
Proof. pose proof (atan2_sincos 0) as H. rewrite sin_0, cos_0 in H. apply H. pose proof PI_RGT_0. lra. Qed.
Lemma qutr_exp_ln_ident v : qutr_expv (qutr_lnv (mkE (mkQ 0 0 0 1) v)) = mkE (mkQ 0 0 0 1) v.
Proof.
  unfold qutr_lnv. cbn [eq ev]. 
  replace (vdot (qv (mkQ 0 0 0 1)) (qv (mkQ 0 0 0 1))) with 0 by (tfc; ring).
  rewrite sqrt_0. change (qw (mkQ 0 0 0 1)) with 1. rewrite atan2_01, sqrt_eps.
  destruct (Rlt_dec 0 _) as [_|N]; [|pose proof p26_pos; lra].
  unfold qutr_expv. cbn [dxw dxv].
  match goal with |- context [vscale ?a (qv (mkQ 0 0 0 1))] => replace (vscale a (qv (mkQ 0 0 0 1))) with zero3 by (tfc; f_equal; ring) end.
  replace (vdot zero3 zero3) with 0 by (tfc; ring). rewrite sqrt_eps.
  destruct (Rlt_dec 0 _) as [_|N]; [|pose proof p26_pos; lra].
  unfold sinc_series2, cos_series2, horner3. destruct v as [v1 v2 v3]. tfc. f_equal; f_equal; field.
Qed.

(** ** Dual quaternion *)
Lemma duqu_exp_ln s : unit_duqu s -> 0 < len3 (vecpart (dreal s)) ->
  / 2 ^ 26 <= atan2 (len3 (vecpart (dreal s))) (qw (dreal s)) ->
  duqu_exp (duqu_ln s) = s.
Proof.
  intros [U UD] L H. destruct (unit_polar _ U L) as (k & Uk & (P1 & P2) & S0 & E1 & E2 & E3).
  change (atan2 (len3 (vecpart (dreal s))) (qw (dreal s))) with (qphi (dreal s)) in H.
  assert (N : vdot (qv (dreal s)) (qv (dreal s)) + qw (dreal s) * qw (dreal s) = 1).
  { unfold unitq, norm2 in U. rewrite <- U. destruct (dreal s); reflexivity. }
  unfold duqu_ln. rewrite N, sqrt_1, vdiv_len. change (qv (dreal s)) with (vecpart (dreal s)).
  change (atan2 (len3 (vecpart (dreal s))) (qw (dreal s))) with (qphi (dreal s)).
  assert (VV : vdot (vecpart (dreal s)) (vecpart (dreal s)) = sin (qphi (dreal s)) * sin (qphi (dreal s))).
  { rewrite vdot_dot, <- len3_sq, E1. reflexivity. }
  rewrite VV. set (f := qphi (dreal s)) in *.
  destruct (Rlt_dec f eps) as [B|_].
  { exfalso. assert (eps <= / 2 ^ 26). { apply Rinv_le_contravar; [apply pow2_pos|]. apply Rle_pow; lra || lia. } lra. }
  rewrite E1.
  assert (G : vdot (vecpart (dreal s)) (qv (ddual s)) = - (cos f * qw (ddual s))).
  { rewrite <- E2. destruct s as [[r1 r2 r3 r4] [d1 d2 d3 d4]]. cbn in UD. tfc. lra. }
  rewrite G, E3, E2.
  replace (vscale (f / sin f) (times3 (sin f) k)) with (times3 f k) by (destruct k; tfc; f_equal; field; lra).
  rewrite ln_1. replace ((- (cos f * qw (ddual s)) + cos f * qw (ddual s)) / 1) with 0 by field.
  assert (PU : forall x, mkqv x 0 = pure x) by (intros []; reflexivity). rewrite !PU.
  rewrite duqu_exp_pure. rewrite len_ak by (auto; lra).
  destruct (Rlt_dec _ _) as [B|_]; [destruct (eps_branch f H B)|].
  cbv zeta. rewrite sqrt_square by lra.
  assert (SC : sin f * sin f + cos f * cos f = 1) by (pose proof (sin2_cos2 f) as Q; unfold Rsqr in Q; lra).
  destruct s as [q d]. cbn [dreal ddual] in *. f_equal.
  - clearbody f. rewrite <- (mkqv_vec q), E3, <- E2. f_equal. clear - P1. destruct k. tfc. f_equal; field; lra.
  - assert (G' : sin f * dot k (vecpart d) = - (cos f * qw d)).
    { rewrite <- G. rewrite E3. destruct k, d; tfc; ring. }
    clear G E1 E2 E3 VV N UD U. revert SC S0 G'. generalize (sin f) (cos f). intros S C SC S0 G.
    assert (F0 : f <> 0) by lra. assert (S1 : S <> 0) by lra. clearbody f.
    set (x := vadd _ (vscale (f / S) (qv d))).
    assert (Ex : x = plus3 (times3 (- (C * qw d) * (C - f / S) / S - S * qw d) k) (times3 (f / S) (vecpart d))).
    { unfold x. destruct d as [d1 d2 d3 d4], k as [k1 k2 k3]. tfc. f_equal; field; auto. }
    clearbody x. subst x. set (x := plus3 _ _).
    replace (vscale ((C - S / f) / (f * f) * vdot (times3 f k) x) (times3 f k))
      with (times3 ((C - S / f) * dot k x) k) by (destruct k, x; tfc; f_equal; field; lra).
    replace (- (S / f) * vdot (times3 f k) x) with (- S * dot k x) by (destruct k, x; tfc; field; lra).
    unfold x, Rdiv. pose proof (inv_mul f F0) as HF. pose proof (inv_mul S S1) as HS.
    revert HF HS. generalize (/ f) (/ S). intros b T HF HS.
    unfold unit3 in Uk. clear H L P1 P2 S0 F0 S1 x.
    destruct d as [d1 d2 d3 d4], k as [k1 k2 k3]. tfc. f_equal; nsatz.
Qed.
Lemma duqu_exp_ln_ident v : duqu_exp (duqu_ln (mkD (mkQ 0 0 0 1) (pure v))) = mkD (mkQ 0 0 0 1) (pure v).
Proof.
  unfold duqu_ln. cbn [dreal ddual].
  replace (vdot (qv (mkQ 0 0 0 1)) (qv (mkQ 0 0 0 1))) with 0 by (tfc; ring).
  rewrite sqrt_0. change (qw (mkQ 0 0 0 1)) with 1. replace (0 + 1 * 1) with 1 by ring. rewrite sqrt_1, atan2_01.
  destruct (Rlt_dec 0 _) as [_|N]; [|pose proof (Rinv_0_lt_compat _ (pow2_pos 52)); unfold eps in N; lra].
  rewrite ln_1. assert (PU : forall x, mkqv x 0 = pure x) by (intros []; reflexivity).
  replace ((vdot (qv (mkQ 0 0 0 1)) (qv (pure v)) + 1 * qw (pure v)) / 1) with 0 by (destruct v; tfc; field).
  rewrite !PU.
  match goal with |- context [vscale ?a (qv (mkQ 0 0 0 1))] => replace (vscale a (qv (mkQ 0 0 0 1))) with zero3 by (tfc; f_equal; ring) end.
  rewrite duqu_exp_pure.
  replace (vdot zero3 zero3) with 0 by (tfc; ring).
  destruct (Rlt_dec 0 _) as [_|N]; [|pose proof (Rinv_0_lt_compat _ (pow2_pos 52)); unfold eps in N; lra].
  unfold invsinc_series2, sinc_series2, cos_series2, horner3. destruct v as [v1 v2 v3]. tfc. f_equal; f_equal; field.
Qed.

(** ** Rotation matrix *)
Lemma axang_facts k t : unit3 k ->
  (m00 (axang2rotmat (mkA k t)) + m11 (axang2rotmat (mkA k t)) + m22 (axang2rotmat (mkA k t)) - 1) / 2 = cos t /\
  rotmat_u (axang2rotmat (mkA k t)) = times3 (2 * sin t) k.
Proof.
  intros U. unfold axang2rotmat, rotmat_u. cbn [angle axis]. unfold unit3 in U. destruct k as [k1 k2 k3]. tfc.
  generalize (sin t) (cos t). intros S C. split.
  - apply Rmult_eq_reg_r with 2; [|lra]. unfold Rdiv. rewrite Rmult_assoc, Rinv_l by lra. nsatz.
  - f_equal; ring.
Qed.
Lemma axang_proper k t : unit3 k -> proper_rotation (axang2rotmat (mkA k t)).
Proof.
  intros U. rewrite <- axang2rotmat2_eq by exact U. apply quat2rotmat_proper. now apply axang2quat_unit.
Qed.

Lemma rotmat_q_ok M : proper_rotation M -> m00 M + m11 M + m22 M < 0 ->
  unitq (rotmat_q M) /\ quat2rotmat (rotmat_q M) = M.
Proof.
  intros P T. apply quat_products_ok. unfold rotmat_q. cbv zeta.
  destruct (Rlt_dec (m00 M) (m11 M)); [destruct (Rlt_dec (m11 M) (m22 M)) | destruct (Rlt_dec (m00 M) (m22 M))].
  - destruct (sqrt_pos_sq (1 + m22 M - m00 M - m11 M)) as [S1 S2]; [lra|]. now apply from_z.
  - destruct (sqrt_pos_sq (1 + m11 M - m22 M - m00 M)) as [S1 S2]; [lra|]. now apply from_y.
  - destruct (sqrt_pos_sq (1 + m22 M - m00 M - m11 M)) as [S1 S2]; [lra|]. now apply from_z.
  - destruct (sqrt_pos_sq (1 + m00 M - m11 M - m22 M)) as [S1 S2]; [lra|]. now apply from_x.
Qed.

(** Near a half turn: the quaternion found is that of (k, t) up to sign. *)
Lemma rotmat_q_axang k t : unit3 k -> 0 <= t <= PI -> cos t < - (1) + tf_eps ->
  let q := rotmat_q (axang2rotmat (mkA k t)) in
  0 < sin (t / 2) /\
  ((qv q = times3 (sin (t / 2)) k /\ qw q = cos (t / 2)) \/
   (qv q = times3 (- sin (t / 2)) k /\ qw q = - cos (t / 2))).
Proof.
  intros U T C q. destruct (axang_facts k t U) as [F _].
  assert (0 < t). { destruct (Req_dec t 0) as [->|]; [|lra]. rewrite cos_0 in C. unfold tf_eps in C. lra. }
  split. { apply sin_gt_0; lra. }
  destruct (rotmat_q_ok (axang2rotmat (mkA k t))) as [Q1 Q2].
  - now apply axang_proper.
  - unfold tf_eps in C. lra.
  - rewrite <- (axang2rotmat2_eq (mkA k t)) in Q2 at 2 by exact U. unfold axang2rotmat2 in Q2.
    apply quat2rotmat_inj in Q2; [|exact Q1|now apply axang2quat_unit].
    unfold q. unfold axang2quat in Q2. cbn [angle axis] in Q2. destruct Q2 as [->| ->]; [left|right];
      destruct k; tfc; split; try reflexivity; f_equal; ring.
Qed.

Lemma len_sk s k : unit3 k -> 0 <= s -> sqrt (vdot (times3 s k) (times3 s k)) = s.
Proof. intros U H. rewrite len_ak by auto. now apply sqrt_square. Qed.
Lemma len_nsk s k : unit3 k -> 0 <= s -> sqrt (vdot (times3 (- s) k) (times3 (- s) k)) = s.
Proof.
  intros U H. replace (times3 (- s) k) with (times3 s (times3 (-1) k)) by (destruct k; tfc; f_equal; ring).
  apply len_sk; [|exact H]. unfold unit3 in *. destruct k; tfc. lra.
Qed.
Lemma tf_eps_pos : 0 < tf_eps < 1.
Proof. unfold tf_eps. lra. Qed.
Lemma half_big k : 0 <= k <= PI -> cos k < - (1) + tf_eps -> 1 / 2 <= k / 2.
Proof.
  intros K C. pose proof PI2_1. destruct (Rle_lt_dec (PI / 2) k) as [|L]; [lra|]. exfalso.
  pose proof tf_eps_pos. pose proof (cos_gt_0 k ltac:(lra) L). lra.
Qed.
Lemma small13' : / 2 ^ 13 < 1 / 4.
Proof. replace (1 / 4) with (/ 2 ^ 2) by (simpl; lra). apply Rinv_lt_contravar; [apply Rmult_lt_0_compat; apply pow2_pos|]. apply Rlt_pow; lra || lia. Qed.

Lemma atan2_neg_cos x : 0 <= x < PI -> atan2 (sin x) (- cos x) = PI - x.
Proof.
  intros X. rewrite <- (atan2_sincos (PI - x)) by lra. f_equal.
  - symmetry. apply sin_PI_x.
  - rewrite cos_minus, cos_PI, sin_PI. ring.
Qed.

Lemma rotmat_lnv_axang k t : unit3 k -> / 2 ^ 13 <= t <= PI ->
  rotmat_lnv (axang2rotmat (mkA k t)) = times3 t k \/
  (cos t < - (1) + tf_eps /\ rotmat_lnv (axang2rotmat (mkA k t)) = times3 (2 * PI - t) (times3 (-1) k)).
Proof.
  intros U T. pose proof p13_pos as P13. pose proof PI_RGT_0 as PI0. pose proof small13' as SM.
  destruct (axang_facts k t U) as [F1 F2]. unfold rotmat_lnv. rewrite F1, F2.
  destruct (Rlt_dec (cos t) _) as [C|C].
  - pose proof (half_big t ltac:(lra) C) as HB. rewrite sqrt_sqrt_eps.
    destruct (rotmat_q_axang k t U ltac:(lra) C) as [S0 [[Q1 Q2]|[Q1 Q2]]]; rewrite Q1, Q2.
    + left. rewrite len_sk by (auto; lra). rewrite atan2_sincos by lra.
      destruct (Rlt_dec _ _) as [B|_]; [lra|]. destruct k; tfc; f_equal; field; lra.
    + right. split; [exact C|]. rewrite len_nsk by (auto; lra). rewrite atan2_neg_cos by lra.
      destruct (Rlt_dec _ _) as [B|_]; [pose proof PI2_1; lra|]. destruct k; tfc; f_equal; field; lra.
  - left. assert (TP : t < PI).
    { destruct (Req_dec t PI) as [->|]; [|lra]. rewrite cos_PI in C. pose proof tf_eps_pos. lra. }
    pose proof (sin_gt_0 t ltac:(lra) TP) as S0.
    rewrite len_sk by (auto; lra). replace (2 * sin t / 2) with (sin t) by field.
    rewrite atan2_sincos by lra.
    destruct (Rlt_dec _ _) as [B|_]; [destruct (sq_branch t ltac:(lra) B)|].
    destruct k; tfc; f_equal; field; lra.
Qed.

Lemma unit3_neg k : unit3 k -> unit3 (times3 (-1) k).
Proof. unfold unit3. destruct k; tfc. lra. Qed.
Lemma axang_flip k t : axang2rotmat (mkA (times3 (-1) k) (2 * PI - t)) = axang2rotmat (mkA k t).
Proof.
  unfold axang2rotmat. cbn [angle axis]. rewrite sin_minus, cos_minus.
  replace (2 * PI) with (0 + 2 * INR 1 * PI) by (simpl INR; ring). rewrite sin_period, cos_period, sin_0, cos_0.
  destruct k; tfc; f_equal; ring.
Qed.

Lemma rotmat_exp_ln k t : unit3 k -> / 2 ^ 13 <= t <= PI ->
  rotmat_expv (rotmat_lnv (axang2rotmat (mkA k t))) = axang2rotmat (mkA k t).
Proof.
  intros U T. pose proof PI2_1. pose proof small13'.
  destruct (rotmat_lnv_axang k t U T) as [->|[_ ->]].
  - apply rotmat_expv_axang; [auto|lra].
  - rewrite rotmat_expv_axang; [apply axang_flip|now apply unit3_neg|lra].
Qed.

(** Every proper rotation matrix is a rotation about some axis by an angle in [0, pi]. *)
Lemma euler_axis M : proper_rotation M -> exists k t, unit3 k /\ 0 <= t <= PI /\ M = axang2rotmat (mkA k t).
Proof.
  intros P. destruct (rotmat2quat_ok M P) as [U E]. pose proof (rotmat2quat_w_nonneg M P) as W.
  set (q := rotmat2quat M) in *. pose proof PI_RGT_0.
  destruct (Req_dec (len3 (vecpart q)) 0) as [Z|N].
  - exists (mkV 1 0 0), 0. split; [unfold unit3; tfc; ring|]. split; [lra|].
    rewrite <- axang2rotmat2_eq by (unfold unit3; tfc; ring). rewrite <- E. unfold axang2rotmat2.
    apply len3_zero in Z. clearbody q. destruct q as [x y z w]. unfold axang2quat. cbn [angle axis].
    replace (0 / 2) with 0 by field. rewrite sin_0, cos_0. injection Z as -> -> ->. unfold unitq, norm2 in U.
    cbn in U, W. assert (w = 1) by nra. subst w. tfc. f_equal; ring.
  - assert (L : 0 < len3 (vecpart q)) by (pose proof (len3_nonneg (vecpart q)); lra).
    destruct (unit_polar q U L) as (k & Uk & (P1 & P2) & S0 & E1 & E2 & E3).
    exists k, (2 * qphi q). split; [exact Uk|]. split.
    + split; [lra|]. rewrite E2 in W. destruct (Rle_lt_dec (qphi q) (PI / 2)) as [|G]; [lra|].
      assert (cos (qphi q) < 0) by (apply cos_lt_0; lra). lra.
    + rewrite <- axang2rotmat2_eq by exact Uk. rewrite <- E. unfold axang2rotmat2, axang2quat. cbn [angle axis].
      replace (2 * qphi q / 2) with (qphi q) by field. f_equal.
      rewrite <- (mkqv_vec q) at 1. rewrite E3 at 1. now rewrite E2 at 1.
Qed.

(** ** Transform matrix *)
Lemma tfmat_expv_form k a v : unit3 k -> / 2 ^ 13 <= a ->
  tfmat_expv (mkDX v (times3 a k)) =
  mkT (axang2rotmat (mkA k a)) (mrot (skewsym_scal2 ((1 - cos a) / a) (1 - sin a / a) k) v).
Proof.
  intros U H. pose proof p13_pos as P. unfold tfmat_expv. cbn [dxw dxv]. rewrite len_ak by (auto; lra).
  destruct (Rlt_dec _ _) as [L|_]; [destruct (sq_branch a H L)|].
  rewrite sqrt_square by lra. rewrite skew2_unit by lra.
  replace ((1 - cos a) / (a * a)) with ((1 - cos a) / a / a) by (field; lra).
  rewrite skew2_unit by lra. reflexivity.
Qed.

Lemma tfmat_inv_half k a v : unit3 k -> 0 < a -> sin (a / 2) <> 0 ->
  mrot (skewsym_scal2 ((1 - cos a) / a) (1 - sin a / a) k)
    (plus3 (times3 (a / 2) (xprod v k)) (plus3 (times3 (cos (a / 2) * (a / 2) / sin (a / 2)) v)
      (times3 ((1 - cos (a / 2) * (a / 2) / sin (a / 2)) * dot v k) k))) = v.
Proof.
  intros U A S1. assert (F0 : a <> 0) by lra.
  destruct (double_sc (a / 2)) as (E1 & E2 & SC). replace (2 * (a / 2)) with a in * by field. rewrite E1, E2.
  clear E1 E2. revert S1 SC. generalize (sin (a / 2)) (cos (a / 2)). intros S C S1 SC.
  unfold Rdiv. pose proof (inv_mul a F0) as HF. pose proof (inv_mul S S1) as HS.
  pose proof (inv_mul 2 ltac:(lra)) as H2. revert HF HS H2. generalize (/ a) (/ S) (/ 2). intros b T h HF HS H2.
  unfold unit3 in U. clear A S1 F0.
  destruct v as [v1 v2 v3], k as [k1 k2 k3]. tfc. f_equal; nsatz.
Qed.

Lemma tfmat_exp_ln k t v : unit3 k -> / 2 ^ 13 <= t <= PI ->
  tfmat_expv (tfmat_lnv (mkT (axang2rotmat (mkA k t)) v)) = mkT (axang2rotmat (mkA k t)) v.
Proof.
  intros U T. pose proof p13_pos as P13. pose proof PI_RGT_0 as PI0. pose proof small13' as SM. pose proof PI2_1 as PB.
  destruct (axang_facts k t U) as [F1 F2]. unfold tfmat_lnv. cbn [tR tv]. rewrite F1, F2.
  destruct (Rlt_dec (cos t) _) as [C|C].
  - pose proof (half_big t ltac:(lra) C) as HB.
    destruct (rotmat_q_axang k t U ltac:(lra) C) as [S0 [[Q1 Q2]|[Q1 Q2]]]; rewrite Q1, Q2.
    + rewrite len_sk by (auto; lra). rewrite atan2_sincos by lra.
      match goal with |- tfmat_expv (mkDX ?x ?y) = _ =>
        replace x with (plus3 (times3 (t / 2) (xprod v k)) (plus3 (times3 (cos (t / 2) * (t / 2) / sin (t / 2)) v)
          (times3 ((1 - cos (t / 2) * (t / 2) / sin (t / 2)) * dot v k) k)))
        by (destruct k, v; tfc; f_equal; field; lra);
        replace y with (times3 t k) by (destruct k; tfc; f_equal; field; lra) end.
      rewrite tfmat_expv_form by (auto; lra). f_equal. apply tfmat_inv_half; [auto|lra|lra].
    + rewrite len_nsk by (auto; lra). rewrite atan2_neg_cos by lra.
      rewrite <- axang_flip. set (k' := times3 (-1) k). set (t' := 2 * PI - t).
      assert (U' : unit3 k') by now apply unit3_neg.
      assert (Es : sin (t' / 2) = sin (t / 2)).
      { unfold t'. replace ((2 * PI - t) / 2) with (PI - t / 2) by field. apply sin_PI_x. }
      assert (Ec : cos (t' / 2) = - cos (t / 2)).
      { unfold t'. replace ((2 * PI - t) / 2) with (PI - t / 2) by field. rewrite cos_minus, cos_PI, sin_PI. ring. }
      match goal with |- tfmat_expv (mkDX ?x ?y) = _ =>
        replace x with (plus3 (times3 (t' / 2) (xprod v k')) (plus3 (times3 (cos (t' / 2) * (t' / 2) / sin (t' / 2)) v)
          (times3 ((1 - cos (t' / 2) * (t' / 2) / sin (t' / 2)) * dot v k') k')))
        by (rewrite Es, Ec; unfold t', k'; destruct k, v; tfc; f_equal; field; lra);
        replace y with (times3 t' k') by (unfold t', k'; destruct k; tfc; f_equal; field; lra) end.
      rewrite tfmat_expv_form by (auto; unfold t'; lra). f_equal. apply tfmat_inv_half; [auto|unfold t'; lra|lra].
  - assert (TP : t < PI).
    { destruct (Req_dec t PI) as [->|]; [|lra]. rewrite cos_PI in C. pose proof tf_eps_pos. lra. }
    pose proof (sin_gt_0 t ltac:(lra) TP) as S0.
    rewrite len_sk by (auto; lra). replace (2 * sin t / 2) with (sin t) by field.
    rewrite atan2_sincos by lra.
    destruct (Rlt_dec _ _) as [B|_].
    { exfalso. apply (eps_branch t); [|exact B]. apply Rle_trans with (/ 2 ^ 13); [|lra].
      apply Rinv_le_contravar; [apply pow2_pos|]. apply Rle_pow; lra || lia. }
    replace (vscale (t / sin t / 2) (times3 (2 * sin t) k)) with (times3 t k) by (destruct k; tfc; f_equal; field; lra).
    rewrite tfmat_expv_form by (auto; lra). f_equal.
    pose proof (sin_gt_0 (t / 2) ltac:(lra) ltac:(lra)) as SH.
    rewrite <- (tfmat_inv_half k t v U ltac:(lra) ltac:(lra)) at 2. f_equal.
    destruct (double_sc (t / 2)) as (E1 & E2 & SC). replace (2 * (t / 2)) with t in * by field. rewrite E1, E2.
    rewrite E1 in S0.
    assert (CH : cos (t / 2) <> 0) by (intros Z; rewrite Z in S0; lra).
    clear E1 E2 F1 F2 C. revert SC SH CH. generalize (sin (t / 2)) (cos (t / 2)). intros S C SC SH CH.
    assert (Eb : (2 * (2 * S * C) - t * (1 + (1 - 2 * (S * S)))) / (2 * (t * t) * (2 * S * C)) * (t * t) = 1 - C * (t / 2) / S).
    { replace (1 + (1 - 2 * (S * S))) with (2 * C * C) by lra. field. repeat split; lra. }
    set (b := (2 * (2 * S * C) - _) / _) in *. clearbody b.
    set (z := C * (t / 2) / S) in *. clearbody z.
    unfold unit3 in U. clear S0 SH CH TP SM P13 PI0 PB T.
    pose proof (inv_mul 2 ltac:(lra)) as H2. unfold Rdiv. revert H2. generalize (/ 2). intros h H2.
    destruct v as [v1 v2 v3], k as [k1 k2 k3]. tfc. f_equal; nsatz.
Qed.
Lemma axang_zero k : axang2rotmat (mkA k 0) = ident3.
Proof. unfold axang2rotmat. cbn [angle axis]. rewrite sin_0, cos_0. destruct k; tfc; f_equal; ring. Qed.
Lemma rotmat_lnv_ident : rotmat_lnv ident3 = zero3.
Proof.
  unfold rotmat_lnv. replace ((m00 ident3 + m11 ident3 + m22 ident3 - 1) / 2) with 1 by (tfc; field).
  destruct (Rlt_dec _ _) as [C|_]; [pose proof tf_eps_pos; lra|].
  replace (rotmat_u ident3) with zero3 by (unfold rotmat_u; tfc; f_equal; ring).
  generalize (sqrt (vdot zero3 zero3)). intros. tfc. f_equal; ring.
Qed.
Lemma tfmat_lnv_ident v : tfmat_lnv (mkT ident3 v) = mkDX v zero3.
Proof.
  unfold tfmat_lnv. cbn [tR tv]. replace ((m00 ident3 + m11 ident3 + m22 ident3 - 1) / 2) with 1 by (tfc; field).
  destruct (Rlt_dec _ _) as [C|_]; [pose proof tf_eps_pos; lra|].
  replace (rotmat_u ident3) with zero3 by (unfold rotmat_u; tfc; f_equal; ring).
  replace (vdot zero3 zero3) with 0 by (tfc; ring). rewrite sqrt_0. replace (0 / 2) with 0 by field. rewrite atan2_01.
  destruct (Rlt_dec _ _) as [_|N]; [|pose proof (Rinv_0_lt_compat _ (pow2_pos 52)); unfold eps in N; lra].
  destruct v; tfc. f_equal; f_equal; ring.
Qed.
Lemma tfmat_expv_ident v : tfmat_expv (mkDX v zero3) = mkT ident3 v.
Proof.
  unfold tfmat_expv. cbn [dxw dxv]. replace (vdot zero3 zero3) with 0 by (tfc; ring).
  destruct (Rlt_dec _ _) as [L|N]; [|exfalso; apply N; unfold eps; pose proof (pow2_pos 52); rewrite !Rmult_0_l; now apply Rinv_0_lt_compat].
  destruct v as [v1 v2 v3]. tfc. f_equal; f_equal; ring.
Qed.
