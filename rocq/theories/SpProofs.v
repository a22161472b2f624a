(** Proofs about the C++ transform objects. *)
From Coq Require Import Reals Lra Lia List.
From Verif Require Import TfModel TfExpModel TfSpec TfExpSpec AtanModel AtanProofs SeriesProofs TfProofs TfRotmatProofs TfRepProofs TfCalcProofs TfExpProofs
  TfScrewProofs TfLnProofs TfConvProofs PlanarModel PlanarSpec PlanarProofs SpModel SpSpec.
Import ListNotations.
Open Scope R_scope.

(** ** Rotations *)
Lemma quat_arr_id q : quat_arr (qdata q) 0 = q.
Proof. now destruct q. Qed.
Lemma vec_arr_id v : vec_arr (vdata v) 0 = v.
Proof. now destruct v. Qed.
Lemma rotmat_arr_id M : rotmat_arr (mdata M) 0 = M.
Proof. now destruct M. Qed.
Lemma mrot_rows M p : mrot M p = row_times M p.
Proof. destruct M, p. unfold mrot, row_times; cbn. f_equal; ring. Qed.

Lemma rotvec2quat_axang k t : unit3 k -> / 2 ^ 12 <= t -> rotvec2quat (times3 t k) = axang2quat (mkA k t).
Proof.
  intros U T. pose proof p13_pos as P.
  assert (H : / 2 ^ 13 <= t / 2).
  { replace (/ 2 ^ 13) with (/ 2 ^ 12 / 2); [lra|]. simpl. field. }
  rewrite rotvec2quat_qpexp. replace (times3 (1 / 2) (times3 t k)) with (times3 (t / 2) k)
    by (destruct k; unfold times3; cbn; f_equal; field).
  rewrite (qpexp_times k (t / 2) U) by lra. rewrite sinccos2_exact by lra.
  unfold axang2quat, mkqv, vscale; cbn [vx vy vz axis angle]. f_equal; field; lra.
Qed.
Lemma rotvec2quat_zero : rotvec2quat zero3 = qident.
Proof.
  rewrite rotvec2quat_qpexp. unfold qpexp. set (s := sinccos2 _).
  assert (E : snd s = 1).
  { unfold s, sinccos2. replace (vdot _ _) with 0 by (tfc; ring).
    destruct (Rlt_dec _ _) as [L|N].
    - cbn. unfold cos_series2, horner3. ring.
    - cbn. rewrite sqrt_0. apply cos_0. }
  destruct s as [sc c]. cbn in E. subst c. tfc. unfold qident. f_equal; ring.
Qed.

Lemma rvec_len k t : unit3 k -> 0 <= t -> len3 (times3 t k) = t.
Proof.
  intros U T. unfold len3. replace (dot (times3 t k) (times3 t k)) with (t * t * dot k k) by (destruct k; tfc; ring).
  rewrite U, Rmult_1_r. now apply sqrt_square.
Qed.
Lemma rodrigues_zero k p : rodrigues k 0 p = p.
Proof. unfold rodrigues. rewrite cos_0, sin_0. destruct k, p; tfc; f_equal; ring. Qed.
Lemma qrot_ident p : qrot qident p = p.
Proof. destruct p. unfold qident. tfc. f_equal; ring. Qed.
Lemma unit_qident : unitq qident.
Proof. unfold qident. tfc. ring. Qed.
Lemma ident3_proper : proper_rotation ident3.
Proof. unfold proper_rotation, ident3; tfc; repeat split; ring. Qed.

Lemma p12_pos : 0 < / 2 ^ 12.
Proof. apply Rinv_0_lt_compat. apply pow_lt; lra. Qed.
(** a legal rotation vector is an axis and an angle *)
Lemma rvec_cases v : v = zero3 \/ / 2 ^ 12 <= len3 v ->
  v = zero3 \/ exists k t, unit3 k /\ / 2 ^ 12 <= t /\ v = times3 t k.
Proof.
  intros [Z|L]; [now left|right]. destruct (direction v) as (k & U & E).
  exists k, (len3 v). auto.
Qed.

Lemma angle_unit t : unitq (xangle2quat t) /\ unitq (yangle2quat t) /\ unitq (zangle2quat t).
Proof.
  pose proof (sin2_cos2 (t / 2)) as Q. unfold Rsqr in Q.
  unfold xangle2quat, yangle2quat, zangle2quat, unitq, norm2; cbn. repeat split; lra.
Qed.

Lemma quat_ok s p : rotates s -> unitq (Quat s) /\ turns s p (quat_rotate (Quat s) p).
Proof.
  unfold quat_rotate. destruct s as [|q|M|a|t|t|t|v]; cbn [rotates Quat turns]; intros H.
  - split; [exact unit_qident|exact (qrot_ident p)].
  - rewrite quat_arr_id. split; [exact H|now apply qrot_sandwich].
  - destruct (rotmat2quat_ok M H) as [U E]. split; [exact U|]. now rewrite qrot_mrot, E, mrot_rows.
  - destruct a as [k t]. split; [now apply axang2quat_unit|]. now apply axang_forms.
  - split; [apply angle_unit|]. now rewrite qrot_mrot, xangle_quat, xangle_rot.
  - split; [apply angle_unit|]. now rewrite qrot_mrot, yangle_quat, yangle_rot.
  - split; [apply angle_unit|]. now rewrite qrot_mrot, zangle_quat, zangle_rot.
  - pose proof p12_pos as P12. destruct (rvec_cases v H) as [->|(k & t & U & T & ->)].
    + rewrite rotvec2quat_zero. split; [exact unit_qident|]. intros k t U T E.
      assert (t = 0). { rewrite <- (rvec_len k t U T), <- E. unfold len3. replace (dot zero3 zero3) with 0 by (tfc; ring). apply sqrt_0. }
      subst t. now rewrite rodrigues_zero, qrot_ident.
    + rewrite rotvec2quat_axang by assumption. split; [now apply axang2quat_unit|].
      intros k' t' U' T' E. assert (t' = t).
      { rewrite <- (rvec_len k' t' U' T'), <- E. apply rvec_len; [exact U|lra]. }
      subst t'. assert (k = k').
      { destruct k as [a b c], k' as [a' b' c']. unfold times3 in E; cbn in E. injection E as E1 E2 E3.
        apply Rmult_eq_reg_l in E1, E2, E3; try lra. now subst. }
      subst k'. now apply axang_forms.
Qed.

Lemma rotmat_agrees s : rotates s -> RotMat s = quat2rotmat (Quat s).
Proof.
  destruct s as [|q|M|a|t|t|t|v]; cbn [rotates Quat RotMat]; intros H.
  - unfold rotmat_rows, quat_xyzw. tfc. f_equal; ring.
  - now rewrite quat_arr_id.
  - rewrite rotmat_arr_id. symmetry. now apply rotmat2quat_ok.
  - destruct a as [k t]. symmetry. now apply axang_forms.
  - symmetry; apply xangle_quat.
  - symmetry; apply yangle_quat.
  - symmetry; apply zangle_quat.
  - pose proof p12_pos as P12. destruct (rvec_cases v H) as [->|(k & t & U & T & ->)].
    + rewrite rotmat_expv_zero, rotvec2quat_zero. unfold ident3, qident. tfc. f_equal; ring.
    + rewrite rotvec2quat_axang by assumption.
      rewrite rotmat_expv_axang; [|exact U|]. { symmetry. now apply axang_forms. }
      apply Rle_trans with (/ 2 ^ 12); [|exact T]. simpl. lra.
Qed.
Lemma rotmat_ok s p : rotates s -> proper_rotation (RotMat s) /\ turns s p (rotmat_point (RotMat s) p).
Proof.
  intros H. rewrite rotmat_agrees by exact H. destruct (quat_ok s p H) as [U T].
  split; [now apply quat2rotmat_proper|]. unfold rotmat_point. rewrite <- qrot_mrot. exact T.
Qed.

(** ** Axis-angles *)
Lemma axang_xyz_ok x y z t : mkV x y z <> zero3 -> exists a, axang_xyz x y z t = Some a /\
  unit3 (axis a) /\ angle a = t /\ exists n, 0 < n /\ times3 n (axis a) = mkV x y z.
Proof.
  intros N. unfold axang_xyz. set (n2 := x * x + y * y + z * z).
  assert (P : 0 < n2).
  { assert (Q : 0 <= n2) by (unfold n2; nra). destruct Q as [Q|Q]; [exact Q|]. exfalso. apply N.
    unfold n2 in Q. unfold zero3. f_equal; nra. }
  pose proof (sqrt_lt_R0 n2 P) as S. destruct (Req_EM_T _ _) as [E|_]; [lra|].
  pose proof (sqrt_sqrt n2 (Rlt_le _ _ P)) as SS. set (n := sqrt n2) in *.
  eexists. split; [reflexivity|]. cbn. split; [|split; [reflexivity|]].
  - unfold unit3, dot; cbn. replace (x / n * (x / n) + y / n * (y / n) + z / n * (z / n)) with (n2 / (n * n))
      by (unfold n2; field; lra). rewrite SS. field. lra.
  - exists n. split; [exact S|]. unfold times3; cbn. f_equal; field; lra.
Qed.
Lemma axang_zero_axis t : axang_xyz 0 0 0 t = None.
Proof.
  unfold axang_xyz. replace (0 * 0 + 0 * 0 + 0 * 0) with 0 by ring. rewrite sqrt_0.
  destruct (Req_EM_T _ _); [reflexivity|lra].
Qed.

Lemma atan2_upper y x : 0 <= y -> 0 <= atan2 y x <= PI.
Proof.
  intros Y. pose proof (atan2_bound y x) as B. split; [|lra].
  destruct (Rle_dec 0 (atan2 y x)) as [L|L]; [exact L|exfalso].
  destruct (Req_dec (x * x + y * y) 0) as [Z|Z].
  - assert (x = 0) by nra. assert (y = 0) by nra. subst. apply L. unfold atan2.
    repeat destruct (Rlt_dec _ _); repeat destruct (Rle_dec _ _); try lra.
  - assert (P : 0 < x * x + y * y) by nra. set (r := sqrt (x * x + y * y)).
    assert (Hr : 0 < r) by (now apply sqrt_lt_R0). assert (R2 : x * x + y * y = r * r) by (unfold r; rewrite sqrt_sqrt; lra).
    destruct (atan2_polar x y r Hr R2) as [_ S].
    pose proof (sin_lt_0_var (atan2 y x)) as N. nra.
Qed.
Lemma quat2axang_shape q : unitq q -> unit3 (axis (quat2axang q)) \/
  (axis (quat2axang q) = zero3 /\ sin (angle (quat2axang q) / 2) = 0 /\ sin (angle (quat2axang q)) = 0 /\ cos (angle (quat2axang q)) = 1).
Proof.
  intros U. unfold quat2axang. destruct (Rgt_dec _ _) as [G|G]; cbn [axis angle].
  - left. change (vnorm (qv q)) with (len3 (qv q)) in *. unfold unit3.
    assert (E : len3 (qv q) * len3 (qv q) = dot (qv q) (qv q)).
    { unfold len3. apply sqrt_sqrt. destruct q; unfold qv; tfc; nra. }
    replace (dot (vdivs (qv q) (len3 (qv q))) (vdivs (qv q) (len3 (qv q))))
      with (dot (qv q) (qv q) / (len3 (qv q) * len3 (qv q))).
    + rewrite E. field. intros Z. rewrite Z in E. nra.
    + assert (NZ : len3 (qv q) <> 0) by lra. generalize dependent (len3 (qv q)). intros n _ _ NZ.
      destruct q; unfold qv, vdivs, dot; cbn. field. exact NZ.
  - right. split; [reflexivity|]. change (vnorm (qv q)) with (sqrt (vdot (qv q) (qv q))) in *.
    assert (Z : sqrt (vdot (qv q) (qv q)) = 0) by (pose proof (sqrt_pos (vdot (qv q) (qv q))); lra).
    rewrite Z. assert (W : qw q = 1 \/ qw q = - (1)).
    { apply sqrt_eq_0 in Z; [|destruct q; unfold qv; tfc; nra].
      destruct q as [x y z w]. unfold qv, vdot in Z. unfold unitq, norm2 in U. cbn in Z, U. cbn. assert (w * w = 1) by lra.
      assert ((w - 1) * (w + 1) = 0) by lra. destruct (Rmult_integral _ _ H0); [left|right]; lra. }
    assert (A : AtanModel.atan2 0 (qw q) = 0 \/ AtanModel.atan2 0 (qw q) = PI).
    { destruct W as [->| ->].
      - left. replace (atan2 0 1) with (atan2 (sin 0) (cos 0)) by (now rewrite sin_0, cos_0). apply atan2_sincos. pose proof PI_RGT_0; lra.
      - right. replace (atan2 0 (- (1))) with (atan2 (sin PI) (cos PI)) by (now rewrite sin_PI, cos_PI). apply atan2_sincos. pose proof PI_RGT_0; lra. }
    destruct A as [-> | ->].
    + rewrite Rmult_0_r. replace (0 / 2) with 0 by field. rewrite sin_0, cos_0. auto.
    + replace (2 * PI / 2) with PI by field. rewrite sin_PI, sin_2PI, cos_2PI. auto.
Qed.
Lemma axang_quat_ok q p : unitq q ->
  Quat (RAxang (axang_quat q)) = q /\ turns (RQuat q) p (rotmat_point (RotMat (RAxang (axang_quat q))) p) /\
  0 <= angle (axang_quat q) <= 2 * PI.
Proof.
  intros U. unfold axang_quat. cbn [Quat RotMat]. rewrite axang_of_quat by exact U. split; [reflexivity|]. split.
  - cbn [turns]. unfold rotmat_point. replace (axang2rotmat (quat2axang q)) with (quat2rotmat q).
    + rewrite <- qrot_mrot. now apply qrot_sandwich.
    + destruct (quat2axang_shape q U) as [V|(Z & _ & S & C)].
      * rewrite <- (axang_of_quat q U) at 1. exact (axang2rotmat2_eq (quat2axang q) V).
      * rewrite <- (axang_of_quat q U) at 1. unfold axang2rotmat, axang2quat. rewrite Z, S, C.
        set (h := angle (quat2axang q) / 2). pose proof (sin2_cos2 h) as Q. unfold Rsqr in Q.
        assert (Sh : cos h * cos h = 1).
        { pose proof (double_angle (angle (quat2axang q))) as (D & _). fold h in D. rewrite C in D. lra. }
        tfc. f_equal; try ring; try lra.
  - unfold quat2axang. cbn [angle]. 
    assert (B : 0 <= AtanModel.atan2 (sqrt (vdot (qv q) (qv q))) (qw q) <= PI).
    { apply atan2_upper. apply sqrt_pos. }
    lra.
Qed.

Lemma tf_eps_12 : tf_eps <= / 2 ^ 12.
Proof. unfold tf_eps. simpl. lra. Qed.
Lemma axang_rotvec_zero : axang_rotvec zero3 = mkA zero3 0.
Proof.
  unfold axang_rotvec, rotvec2axang. destruct (Rlt_dec _ _) as [L|N].
  - rewrite rotvec2quat_zero. unfold quat2axang, qident, qv, vnorm. cbn [qx qy qz qw].
    replace (vdot _ _) with 0 by (tfc; ring). rewrite sqrt_0. destruct (Rgt_dec 0 0) as [G|_]; [lra|].
    replace (atan2 0 1) with 0.
    + f_equal. ring.
    + replace (atan2 0 1) with (atan2 (sin 0) (cos 0)) by (now rewrite sin_0, cos_0).
      symmetry. apply atan2_sincos. pose proof PI_RGT_0; lra.
  - exfalso. apply N. replace (vdot _ _) with 0 by (tfc; ring). pose proof tf_eps_pos. nra.
Qed.
Lemma axang_rotvec_ok v : v = zero3 \/ / 2 ^ 12 <= len3 v ->
  angle (axang_rotvec v) = len3 v /\ times3 (angle (axang_rotvec v)) (axis (axang_rotvec v)) = v /\
  (v <> zero3 -> unit3 (axis (axang_rotvec v))).
Proof.
  intros [->|L].
  - rewrite axang_rotvec_zero. cbn [angle axis]. split; [|split].
    + unfold len3. replace (dot zero3 zero3) with 0 by (tfc; ring). now rewrite sqrt_0.
    + tfc. f_equal; ring.
    + congruence.
  - unfold axang_rotvec. pose proof tf_eps_12. destruct (rotvec2axang_ok v ltac:(lra)) as (A & U & T). auto.
Qed.
Lemma axang_rotmat_ok k t : unit3 k -> t = 0 \/ / 2 ^ 13 <= t <= PI ->
  let M := RotMat (RAxang (mkA k t)) in
  RotMat (RAxang (axang_rotmat M)) = M.
Proof.
  intros U [->|T]; cbn [RotMat]; unfold axang_rotmat.
  - rewrite axang_zero. unfold rotmat2axang. rewrite rotmat_lnv_ident.
    change (rotvec2axang zero3) with (axang_rotvec zero3). rewrite axang_rotvec_zero. apply axang_zero.
  - apply (matrix_log_rt k t U (or_intror T)). pose proof p13_pos. lra.
Qed.
Lemma axang_axis_bad k t : dot k k <> 1 -> sin (t / 2) <> 0 ->
  ~ unitq (Quat (RAxang (axang_axis k t))) /\ ~ unitq (quat_axis k t).
Proof.
  intros N S. assert (B : ~ unitq (axang2quat (mkA k t))).
  { intros U. apply N. unfold axang2quat, unitq, norm2 in U. cbn in U.
    pose proof (sin2_cos2 (t / 2)) as Q. unfold Rsqr in Q.
    apply (Rmult_eq_reg_l (sin (t / 2) * sin (t / 2))); [|nra]. unfold dot. destruct k; cbn in *. lra. }
  exact (conj B B).
Qed.

(** ** Transforms *)
Lemma vdata_arr q v : qutr_arr (qdata q) (vdata v) = mkE q v.
Proof. unfold qutr_arr. now rewrite quat_arr_id, vec_arr_id. Qed.
Lemma qutr_moves q v p : unitq q -> exists r, turns (RQuat q) p r /\ qutr_tf (mkE q v) p = plus3 v r.
Proof.
  intros U. exists (qrot q p). split; [now apply qrot_sandwich|]. now rewrite qutr_tf_eq.
Qed.
Lemma duqu_moves s p : unit_duqu s -> moves (TDuqu s) p (qutr_tf (duqu2qutr s) p).
Proof.
  intros [U D]. cbn [moves]. exists (qrot (dreal s) p), (dtrans s). split; [now apply qrot_sandwich|].
  split; [|now rewrite qutr_tf_eq].
  destruct s as [[x y z w] [a b c d]]. tfc. f_equal; lra.
Qed.
Lemma quattran_ok s p : transforms s -> (forall T, s <> TMat T) ->
  exists e, QuatTran s = Done e /\ unit_qutr e /\ moves s p (quattran_transform e p).
Proof.
  unfold quattran_transform.
  destruct s as [|e|q v|t v|t v|t v|d|T]; cbn [transforms QuatTran]; intros H N.
  - eexists. split; [reflexivity|]. split; [unfold unit_qutr, unitq, norm2, quat_xyzw; cbn; ring|].
    cbn [moves]. unfold quat_xyzw, vec_xyz. destruct p. tfc. f_equal; ring.
  - rewrite vdata_arr. eexists. split; [reflexivity|]. split; [exact H|]. cbn [moves]. destruct e. now apply qutr_moves.
  - rewrite vdata_arr. eexists. split; [reflexivity|]. split; [exact H|]. cbn [moves]. now apply qutr_moves.
  - rewrite vdata_arr. eexists. split; [reflexivity|]. destruct (quat_ok (RX t) p I) as [U E].
    split; [exact U|]. cbn [moves]. rewrite qutr_tf_eq. f_equal. exact E.
  - rewrite vdata_arr. eexists. split; [reflexivity|]. destruct (quat_ok (RY t) p I) as [U E].
    split; [exact U|]. cbn [moves]. rewrite qutr_tf_eq. f_equal. exact E.
  - rewrite vdata_arr. eexists. split; [reflexivity|]. destruct (quat_ok (RZ t) p I) as [U E].
    split; [exact U|]. cbn [moves]. rewrite qutr_tf_eq. f_equal. exact E.
  - eexists. split; [reflexivity|]. split; [now apply unit_duqu2qutr|]. now apply duqu_moves.
  - now destruct (N T).
Qed.
Lemma quattran_mat T : QuatTran (TMat T) = Undef.
Proof. unfold QuatTran. destruct (tfmat2duqu T) as [[? ? ? ?] [? ? ? ?]]. reflexivity. Qed.
Lemma tfmat_arr_id T : tfmat_arr (tdata T) = T.
Proof. destruct T as [M v], M, v. reflexivity. Qed.
Lemma tfmat_ok s p T : transforms s -> TfMat s = Some T ->
  proper_tfmat T /\ moves s p (tfmat_transform T p).
Proof.
  unfold tfmat_transform.
  destruct s as [|e|q v|t v|t v|t v|d|M]; cbn [transforms TfMat]; intros H E; try discriminate; injection E as <-.
  - split; [exact ident3_proper|]. cbn [moves]. unfold tfmat_arr, aa_tf_ident, rotmat_arr, vec_arr, at_. cbn [nth plus].
    destruct p. tfc. f_equal; ring.
  - split; [now apply qutr2tfmat_proper|]. cbn [moves]. rewrite qutr2tfmat_tf. destruct e. now apply qutr_moves.
  - split; [now apply qutr2tfmat_proper|]. cbn [moves]. rewrite qutr2tfmat_tf. now apply qutr_moves.
  - rewrite duqu2tfmat_eq. split; [now apply qutr2tfmat_proper, unit_duqu2qutr|].
    rewrite qutr2tfmat_tf. now apply duqu_moves.
  - rewrite tfmat_arr_id. split; [exact H|]. cbn [moves]. now rewrite tfmat_tf_eq, mrot_rows.
Qed.

(** ** DualQuat never comes back *)
Lemma dualquat_forever : forall fuel c, DualQuat fuel c = Forever.
Proof.
  assert (E : forall fuel n, (n <= fuel)%nat -> forall c, DualQuat n c = Forever).
  { induction fuel as [|f IH]; intros n L c.
    - replace n with 0%nat by lia. reflexivity.
    - destruct n as [|n]; [reflexivity|]. cbn [DualQuat].
      assert (N : DualQuat n DNew = Forever) by (apply IH; lia).
      destruct c; rewrite ?N; try reflexivity; apply IH; lia. }
  intros fuel c. now apply (E fuel fuel).
Qed.

(** ** Products, inverses, layout *)
Lemma products_act a b A B p :
  (unitq a -> unitq b -> unitq (mul_quat a b) /\ quat_rotate (mul_quat a b) p = quat_rotate a (quat_rotate b p)) /\
  (proper_rotation A -> proper_rotation B -> proper_rotation (mul_rotmat A B)) /\
  rotmat_point (mul_rotmat A B) p = rotmat_point A (rotmat_point B p).
Proof.
  split; [|split].
  - intros Ua Ub. split; [unfold unitq, mul_quat; rewrite norm2_mul, Ua, Ub; ring|].
    unfold quat_rotate, mul_quat. pose proof (qutr_mul_acts (mkE a zero3) (mkE b zero3) p Ua Ub) as H.
    rewrite !qutr_tf_eq in H. cbn [eq ev qutr_mul] in H.
    replace (tf_qv a zero3 zero3) with zero3 in H by (change (tf_qv a zero3 zero3) with (qutr_tf (mkE a zero3) zero3); rewrite qutr_tf_eq; cbn; rewrite qrot_zero; tfc; f_equal; ring).
    assert (Z : forall v, plus3 zero3 v = v) by (intros [? ? ?]; unfold plus3, zero3; cbn; f_equal; ring).
    now rewrite !Z in H.
  - intros PA PB. pose proof (tfmat_mul_proper (mkT A zero3) (mkT B zero3) PA PB) as H. exact H.
  - unfold rotmat_point, mul_rotmat. destruct A, B, p. tfc. f_equal; ring.
Qed.
Lemma rows_act r11 r12 r13 r21 r22 r23 r31 r32 r33 x y z :
  rotmat_point (rotmat_rows r11 r12 r13 r21 r22 r23 r31 r32 r33) (vec_xyz x y z) =
  mkV (r11 * x + r12 * y + r13 * z) (r21 * x + r22 * y + r23 * z) (r31 * x + r32 * y + r33 * z).
Proof. unfold rotmat_point, rotmat_rows, vec_xyz. tfc. f_equal; ring. Qed.
Lemma origin_parts T s : unit_duqu s ->
  vec_tfmat T = tfmat_transform T zero3 /\ vec_duqu s = duqu_tf s zero3.
Proof.
  intros U. split.
  - unfold tfmat_transform. destruct T as [M v], M, v. unfold vec_tfmat, vec_arr, tdata, mdata, vdata, at_. cbn [app nth plus].
    tfc. f_equal; ring.
  - rewrite duqu_tf_qutr by apply U. rewrite qutr_tf_eq. cbn. rewrite qrot_zero. unfold vec_duqu.
    destruct (dtrans s). unfold plus3, zero3; cbn. f_equal; ring.
Qed.
Lemma eigen_ok M e p :
  mkV (eigen_row (conv_rotmat M) 0 p) (eigen_row (conv_rotmat M) 1 p) (eigen_row (conv_rotmat M) 2 p) = rotmat_point M p /\
  (let E := conv_qutr e in
   mkV (eigen_row E 0 p + E 0%nat 3%nat) (eigen_row E 1 p + E 1%nat 3%nat) (eigen_row E 2 p + E 2%nat 3%nat)
   = quattran_transform e p) /\
  forall T, let E := conv_tfmat T in
   mkV (eigen_row E 0 p + E 0%nat 3%nat) (eigen_row E 1 p + E 1%nat 3%nat) (eigen_row E 2 p + E 2%nat 3%nat)
   = tfmat_transform T p.
Proof.
  assert (G : forall T, let E := conv_tfmat T in
   mkV (eigen_row E 0 p + E 0%nat 3%nat) (eigen_row E 1 p + E 1%nat 3%nat) (eigen_row E 2 p + E 2%nat 3%nat)
   = tfmat_transform T p).
  { intros T. unfold tfmat_transform. rewrite tfmat_tf_eq, mrot_rows. destruct T as [[a1 a2 a3 a4 a5 a6 a7 a8 a9] [b1 b2 b3]], p as [x y z].
    unfold eigen_row, conv_tfmat, tdata, mdata, vdata, at_, row_times, plus3.
    cbn [app nth plus mult vx vy vz tR tv m00 m10 m20 m01 m11 m21 m02 m12 m22]. f_equal; ring. }
  split; [|split; [|exact G]].
  - unfold rotmat_point. rewrite mrot_rows. destruct M, p. unfold row_times. cbn. reflexivity.
  - unfold conv_qutr. rewrite G. unfold tfmat_transform, quattran_transform. apply qutr2tfmat_tf.
Qed.

(** ** Planar *)
Lemma unitc_turns c : unitc c -> exists t, re c = cos t /\ im c = sin t /\ forall p, crot c p = turn t p.
Proof.
  intros U. destruct (unitc_angle c U) as [E _]. exists (cmplx2angle c).
  pose proof E as F.
  split; [rewrite F at 1; reflexivity|]. split; [rewrite F at 1; reflexivity|].
  intros p. rewrite F at 1. apply crot_turn.
Qed.
Lemma c_cmplx_id c : c_cmplx c = c.
Proof. now destruct c. Qed.
Lemma from_c_id c : from_c c = c.
Proof. now destruct c. Qed.
Lemma ident_turn p : p = turn 0 p.
Proof. unfold turn. rewrite cos_0, sin_0. destruct p; cbn. f_equal; ring. Qed.
Lemma unitc_angle2 t : unitc (angle2cmplx t).
Proof. unfold unitc, angle2cmplx, cpexp; cbn. pose proof (sin2_cos2 t) as Q. unfold Rsqr in Q. lra. Qed.
Lemma proper_crot M p : proper2 M -> crot (rotmatp2cmplx M) p = rotmatp_rot M p.
Proof.
  intros P. destruct (rotmatp_cmplx M P) as [E U].
  rewrite <- E at 2. generalize (rotmatp2cmplx M). intros [a b]. destruct p as [x y].
  unfold crot, rotmatp_rot, cmplx2rotmatp, cmplx_mul; cbn. f_equal; ring.
Qed.
Lemma cmplx_ok s p : protates s -> s <> PNone ->
  exists c, Cmplx s = Done c /\ unitc c /\ pturns s p (pmul_cv c p).
Proof.
  unfold pmul_cv. destruct s as [|c|c|t|[t|]|M]; cbn [protates Cmplx pturns]; intros H N; try congruence.
  - rewrite from_c_id. exists c. destruct (unitc_turns c H) as (t & A & B & T). repeat split; auto. exists t. auto.
  - exists c. destruct (unitc_turns c H) as (t & A & B & T). repeat split; auto. exists t. auto.
  - rewrite from_c_id. eexists. split; [reflexivity|]. split; [apply unitc_angle2|apply crot_turn].
  - cbn [anglep_get obind]. rewrite from_c_id. eexists. split; [reflexivity|]. split; [apply unitc_angle2|].
    intros t' E. injection E as <-. apply crot_turn.
  - rewrite from_c_id. eexists. split; [reflexivity|]. split; [now apply rotmatp_cmplx|]. now rewrite proper_crot.
Qed.
Lemma pident_proper : proper2 (mkR4 1 0 0 1).
Proof. unfold proper2; cbn; repeat split; ring. Qed.
Lemma rot_of_cmplx c p : rotmatp_rot (cmplx2rotmatp c) p = crot c p.
Proof. destruct c, p. unfold crot, rotmatp_rot, cmplx2rotmatp, cmplx_mul; cbn. f_equal; ring. Qed.
Lemma rotmatp_ok s p : protates s ->
  exists M, RotMatP s = Done M /\ proper2 M /\ pturns s p (pmul_rv M p).
Proof.
  unfold pmul_rv. destruct s as [|c|c|t|[t|]|M]; cbn [protates RotMatP pturns]; intros H; try congruence.
  - eexists. split; [reflexivity|]. split; [exact pident_proper|]. destruct p. cbn. unfold rotmatp_rot; cbn. f_equal; ring.
  - exists (cmplx2rotmatp c). split; [reflexivity|]. split; [now apply cmplx2rotmatp_proper|].
    destruct (unitc_turns c H) as (t & A & B & T). exists t. rewrite rot_of_cmplx. auto.
  - rewrite c_cmplx_id. exists (cmplx2rotmatp c). split; [reflexivity|]. split; [now apply cmplx2rotmatp_proper|].
    destruct (unitc_turns c H) as (t & A & B & T). exists t. rewrite rot_of_cmplx. auto.
  - eexists. split; [reflexivity|]. split; [apply cmplx2rotmatp_proper, unitc_angle2|apply rotmatp_turn].
  - cbn [anglep_get obind]. eexists. split; [reflexivity|]. split; [apply cmplx2rotmatp_proper, unitc_angle2|].
    intros t' E. injection E as <-. apply rotmatp_turn.
  - exists M. split; [reflexivity|]. split; [exact H|reflexivity].
Qed.
Lemma cv_tf_crot c v p : cv_tf c v p = shift v (crot c p).
Proof. destruct c, v, p. unfold cv_tf, shift, crot, cmplx_mul; cbn. f_equal; ring. Qed.
Lemma tf_rot M v p : tfmatp_tf (tfmatp_rv M v) p = shift v (rotmatp_rot M p).
Proof. destruct M, v, p. unfold tfmatp_tf, shift, rotmatp_rot; cbn. f_equal; ring. Qed.
Lemma unitc_one : unitc (mkC 1 0).
Proof. unfold unitc; cbn; ring. Qed.
Lemma one_crot p : crot (mkC 1 0) p = p.
Proof. destruct p; unfold crot, cmplx_mul; cbn; f_equal; ring. Qed.
Lemma unitc_pturns c p : unitc c -> pturns (PCmplx c) p (crot c p).
Proof. intros H. cbn. destruct (unitc_turns c H) as (t & A & B & T). exists t. auto. Qed.
Lemma cmplxtran_ok s p : ptransforms s ->
  exists e, CmplxTran s = Done e /\ unitc (fst e) /\ pmoves s p (pmul_ep e p).
Proof.
  unfold pmul_ep. destruct s as [|r v|c v|T]; cbn [ptransforms pmoves]; intros H.
  - eexists. split; [reflexivity|]. split; [exact unitc_one|]. cbn. destruct p. unfold cv_tf; cbn. f_equal; ring.
  - destruct r as [|c|c|t|a|M].
    1: { eexists. split; [reflexivity|]. split; [exact unitc_one|]. exists p. split; [reflexivity|].
         cbn [fst snd]. now rewrite cv_tf_crot, one_crot. }
    5: { eexists. split; [reflexivity|]. split; [now apply rotmatp_cmplx|]. exists (rotmatp_rot M p).
         split; [reflexivity|]. cbn [fst snd]. now rewrite cv_tf_crot, proper_crot. }
    all: match goal with |- context [QRot ?r ?v] =>
           destruct (cmplx_ok r p H ltac:(discriminate)) as (c' & E & U & T);
           exists (c', v); split;
           [ change (CmplxTran (QRot r v)) with (obind (Cmplx r) (fun c => Done (c_cmplx c, v)));
             rewrite E; cbn [obind]; now rewrite c_cmplx_id
           | split; [exact U|exists (crot c' p); split; [exact T|apply cv_tf_crot]] ] end.
  - exists (c, v). split; [reflexivity|]. split; [exact H|]. exists (crot c p). split; [now apply unitc_pturns|apply cv_tf_crot].
  - eexists. split; [reflexivity|]. cbn [tfmatp2cv fst snd]. split; [now apply rotmatp_cmplx|].
    exists (rotmatp_rot (tr T) p). split; [reflexivity|]. now rewrite cv_tf_crot, proper_crot.
Qed.
Lemma tfmatp_ok s p : ptransforms s ->
  exists T, TfMatP s = Done T /\ proper2 (tr T) /\ pmoves s p (pmul_tp T p).
Proof.
  unfold pmul_tp. destruct s as [|r v|c v|T]; cbn [ptransforms pmoves]; intros H.
  - eexists. split; [reflexivity|]. split; [exact pident_proper|]. cbn. destruct p. unfold tfmatp_tf; cbn. f_equal; ring.
  - destruct r as [|c|c|t|a|M].
    1: { eexists. split; [reflexivity|]. split; [exact pident_proper|]. exists p. split; [reflexivity|].
         rewrite tf_rot. f_equal. destruct p. unfold rotmatp_rot; cbn. f_equal; ring. }
    5: { eexists. split; [reflexivity|]. split; [exact H|]. exists (rotmatp_rot M p).
         split; [reflexivity|]. apply tf_rot. }
    all: match goal with |- context [QRot ?r ?v] =>
           destruct (cmplx_ok r p H ltac:(discriminate)) as (c' & E & U & T);
           exists (tfmatp_rv (cmplx2rotmatp c') v); split;
           [ change (TfMatP (QRot r v)) with (obind (Cmplx r) (fun c => Done (tfmatp_rv (cmplx2rotmatp (c_cmplx c)) v)));
             rewrite E; cbn [obind]; now rewrite c_cmplx_id
           | split; [now apply cmplx2rotmatp_proper|exists (crot c' p); split; [exact T|now rewrite tf_rot, rot_of_cmplx]] ] end.
  - exists (tfmatp_rv (cmplx2rotmatp c) v). split; [reflexivity|]. split; [now apply cmplx2rotmatp_proper|].
    exists (crot c p). split; [now apply unitc_pturns|now rewrite tf_rot, rot_of_cmplx].
  - exists T. split; [reflexivity|]. split; [exact H|]. exists (rotmatp_rot (tr T) p). split; [reflexivity|].
    destruct T as [M x y]. exact (tf_rot M (mkC x y) p).
Qed.
Lemma anglep_none_bad : anglep_get anglep_none = Undef /\ Cmplx (PAngleP anglep_none) = Undef /\
  RotMatP (PAngleP anglep_none) = Undef /\
  forall v, CmplxTran (QRot (PAngleP anglep_none) v) = Undef /\ TfMatP (QRot (PAngleP anglep_none) v) = Undef.
Proof. repeat split. Qed.
Lemma cmplx_none_bad p : exists c, Cmplx PNone = Done c /\ ~ unitc c /\ pmul_cv c p = mkC 0 0.
Proof.
  exists (mkC 0 0). split; [reflexivity|]. split; [unfold unitc; cbn; lra|].
  unfold pmul_cv, crot, cmplx_mul; cbn. f_equal; ring.
Qed.
Lemma anglep_ok t c M p : unitc c -> proper2 M ->
  anglep_get (anglep_of t) = Done t /\
  (exists a, anglep_get (anglep_cmplx c) = Done a /\ anglep_get (anglep_std c) = Done a /\ - PI < a <= PI /\ turn a p = crot c p) /\
  (exists a, anglep_get (anglep_rotmat M) = Done a /\ - PI < a <= PI /\ turn a p = rotmatp_rot M p).
Proof.
  intros U P. split; [reflexivity|]. split.
  - exists (cmplx2angle c). split; [reflexivity|]. split; [reflexivity|].
    destruct (unitc_angle c U) as [E B]. split; [exact B|]. rewrite <- crot_turn. f_equal. exact (eq_sym E).
  - exists (rotmatp2angle M). split; [reflexivity|]. destruct (rotmatp2angle_ok M P) as [E B]. split; [exact B|].
    rewrite <- rotmatp_turn. now rewrite E.
Qed.
Lemma planar_products A B a b p :
  pmul_rv (pmul_rr A B) p = pmul_rv A (pmul_rv B p) /\
  pmul_ep (pmul_ee a b) p = pmul_ep a (pmul_ep b p).
Proof.
  split.
  - destruct A, B, p. unfold pmul_rv, pmul_rr, rotmatp_rot, rotmatp_mul; cbn. f_equal; ring.
  - destruct a as [c1 v1], b as [c2 v2]. apply cv_mul_acts.
Qed.
Lemma rotmatp_undo M p : proper2 M -> pmul_rv (rotmatp_inverse M) (pmul_rv M p) = p.
Proof.
  intros P. destruct (rotmatp_inv_ok M P) as [_ L]. unfold pmul_rv, rotmatp_inverse.
  destruct (planar_products (rotmatp_inv2 M) M (mkC 1 0, mkC 0 0) (mkC 1 0, mkC 0 0) p) as [H _].
  unfold pmul_rv, pmul_rr in H. rewrite <- H, L. destruct p. unfold rotmatp_rot; cbn. f_equal; ring.
Qed.
Lemma cmplx_undo c p : unitc c -> pmul_cv (cmplx_conj c) (pmul_cv c p) = p.
Proof.
  intros U. unfold pmul_cv, cmplx_conj, crot, cconj, cmplx_mul. destruct c as [a b], p as [x y]. unfold unitc in U. cbn in *.
  f_equal; [transitivity ((a * a + b * b) * x)|transitivity ((a * a + b * b) * y)]; try ring; rewrite U; ring.
Qed.
