(** Pose errors: what the error quaternion says about the two poses. *)
From Coq Require Import Reals Lra Lia List Nsatz.
From Verif Require Import TfModel TfSpec AtanModel AtanProofs TfExpModel TfExpSpec TfProofs TfRepProofs TfRotmatProofs TfCalcProofs TfFrameProofs
  SeriesProofs TfExpProofs TfScrewProofs TfLnProofs TfConvProofs PdeModel PdeProofs Pde2Proofs SgModel SgSpec SgFkProofs2 IkModel IkProofs IkSpec.
Open Scope R_scope.

Lemma qrot_axang k t p : unit3 k -> qrot (axang2quat (mkA k t)) p = rodrigues k t p.
Proof.
  intros U. rewrite qrot_mrot. change (quat2rotmat (axang2quat (mkA k t))) with (axang2rotmat2 (mkA k t)).
  rewrite axang2rotmat2_eq by exact U. now rewrite axang2rotmat_rodrigues.
Qed.
Lemma qrot_inj a b : unitq a -> unitq b -> (forall p, qrot a p = qrot b p) -> exists f, a = flip f b.
Proof.
  intros A B H. destruct (quat2rotmat_inj a b A B) as [->| ->].
  - apply mrot_ext. intros p. rewrite <- !qrot_mrot. apply H.
  - now exists false.
  - exists true. unfold flip, qneg, TfModel.qneg. destruct b. cbn. f_equal; ring.
Qed.
Lemma plus3_reg a b c : plus3 a b = plus3 a c -> b = c.
Proof. destruct a, b, c. unfold plus3. cbn. intros H. injection H. intros. f_equal; lra. Qed.
Lemma plus3_zero a : plus3 a zero3 = a.
Proof. destruct a. unfold plus3, zero3. cbn. f_equal; ring. Qed.
Lemma qrot_zero q : qrot q zero3 = zero3.
Proof. destruct q. unfold zero3. tfc. f_equal; ring. Qed.
Lemma place_rot q v p : unitq q -> place q v p = plus3 v (qrot q p).
Proof. intros U. rewrite place_tf by exact U. apply qutr_tf_eq. Qed.
Lemma place_zero q v : unitq q -> place q v zero3 = v.
Proof. intros U. rewrite place_rot, qrot_zero, plus3_zero by exact U. reflexivity. Qed.
Lemma qcmul_mul a u : unitq a -> qcmul a (qmul a u) = u.
Proof. destruct a, u. unfold unitq, norm2. tfc. intros U. f_equal; match goal with |- ?l = ?r => cut (l - r = 0); [lra|] end; nsatz. Qed.
Lemma flip_mul b a u : qmul a (flip b u) = flip b (qmul a u).
Proof. destruct b; [|reflexivity]. destruct a, u. unfold flip, qneg. tfc. f_equal; ring. Qed.

Lemma qmul_unit a b : unitq a -> unitq b -> unitq (qmul a b).
Proof. destruct a, b. unfold unitq, norm2. tfc. intros A B. match goal with |- ?l = ?r => cut (l - r = 0); [lra|] end. nsatz. Qed.

Lemma turn_err qa va qr phi : unitq qa -> unitq qr -> turn_to (place qa va) qr phi ->
  0 <= phi <= PI /\ exists k b, unit3 k /\ qcmul qa qr = flip b (axang2quat (mkA k phi)).
Proof.
  intros A B [P (k & K & H)]. split; [exact P|].
  assert (U : unitq (axang2quat (mkA k phi))) by (apply axang2quat_unit; exact K).
  destruct (qrot_inj qr (qmul qa (axang2quat (mkA k phi)))) as [b E]; [exact B|apply qmul_unit; assumption| |].
  - intros p. rewrite qrot_mul, qrot_axang by assumption.
    specialize (H p). rewrite place_zero, !place_rot in H by assumption.
    apply plus3_reg in H. rewrite <- H. destruct (qrot qr p). unfold plus3, zero3. cbn. f_equal; ring.
  - exists k, b. split; [exact K|]. rewrite E, <- flip_mul. now apply qcmul_mul.
Qed.

(** Every two unit quaternions differ by some turn *)
Lemma turn_exists qa va qr : unitq qa -> unitq qr -> exists phi, turn_to (place qa va) qr phi.
Proof.
  intros A B. assert (C : unitq (qcmul qa qr)) by (rewrite qcmul_eq; apply qmul_unit; [apply unitq_conj|]; assumption).
  destruct (euler_axis _ (quat2rotmat_proper _ C)) as (k & t & K & T & E).
  exists t. split; [exact T|]. exists k. split; [exact K|]. intros p.
  rewrite place_zero, !place_rot by assumption. f_equal.
  rewrite <- qrot_axang, (qrot_mrot (axang2quat _)) by exact K. change (quat2rotmat (axang2quat (mkA k t))) with (axang2rotmat2 (mkA k t)).
  rewrite axang2rotmat2_eq, <- E, <- qrot_mrot, <- qrot_mul by assumption.
  replace (qmul qa (qcmul qa qr)) with qr.
  - destruct (qrot qr p). unfold plus3, zero3. cbn. f_equal; ring.
  - clear - A. destruct qa, qr. unfold unitq, norm2 in A. tfc. f_equal; match goal with |- ?l = ?r => cut (l - r = 0); [lra|] end; nsatz.
Qed.

(** ** The minimized error quaternion *)
Lemma err_min Ea Er phi : unit_qutr Ea -> unit_qutr Er ->
  turn_to (place (TfModel.eq Ea) (ev Ea)) (TfModel.eq Er) phi ->
  exists k, unit3 k /\ fst (qerr_of Ea Er) = mkqv (times3 (sin (phi / 2)) k) (cos (phi / 2)).
Proof.
  intros A B T. destruct (turn_err _ _ _ _ A B T) as (P & k & b & K & E).
  unfold qerr_of. rewrite E.
  assert (C : 0 <= cos (phi / 2)) by (apply cos_ge_0; lra).
  assert (F : forall f, qw (flip f (axang2quat (mkA k phi))) = if f then - cos (phi / 2) else cos (phi / 2)).
  { intros []; [unfold flip, qneg|]; unfold axang2quat; cbn; [ring|reflexivity]. }
  assert (M : axang2quat (mkA k phi) = mkqv (times3 (sin (phi / 2)) k) (cos (phi / 2))) by (destruct k; reflexivity).
  rewrite F. destruct (Rlt_dec _ 0) as [L|L]; destruct b; try lra; cbn [fst flip].
  - exists k. split; [exact K|]. rewrite M. unfold qneg. destruct k. tfc. f_equal; ring.
  - exists (times3 (-1) k). split; [now apply unit3_neg|]. rewrite M. assert (Z : cos (phi / 2) = 0) by lra. rewrite Z.
    unfold qneg. destruct k. tfc. f_equal; ring.
  - exists k. auto.
Qed.
Lemma err_w Ea Er phi : unit_qutr Ea -> unit_qutr Er ->
  turn_to (place (TfModel.eq Ea) (ev Ea)) (TfModel.eq Er) phi -> phi < PI ->
  qw (qcmul (TfModel.eq Ea) (TfModel.eq Er)) <> 0.
Proof.
  intros A B T L. destruct (turn_err _ _ _ _ A B T) as (P & k & b & K & E). rewrite E.
  assert (C : 0 < cos (phi / 2)) by (apply cos_gt_0; lra).
  destruct b; [unfold flip, qneg|]; unfold axang2quat; cbn; lra.
Qed.

Lemma polar_angle k h : unit3 k -> 0 <= h <= PI / 2 ->
  atan2 (len3 (vecpart (mkqv (times3 (sin h) k) (cos h)))) (qw (mkqv (times3 (sin h) k) (cos h))) = h.
Proof.
  intros K H. pose proof PI_RGT_0. assert (V : vecpart (mkqv (times3 (sin h) k) (cos h)) = times3 (sin h) k) by (destruct k; reflexivity).
  rewrite V. change (qw (mkqv (times3 (sin h) k) (cos h))) with (cos h).
  change (len3 (times3 (sin h) k)) with (sqrt (vdot (times3 (sin h) k) (times3 (sin h) k))).
  rewrite len_sk; [|exact K|apply sin_ge_0; lra]. apply atan2_sincos. lra.
Qed.

Lemma polar_ln_ok lim k h : unit3 k -> 0 < lim -> h = 0 \/ (lim < h /\ h <= PI / 2) -> 
  ln_ok lim (mkqv (times3 (sin h) k) (cos h)).
Proof.
  intros K L [->|[H1 H2]].
  - left. rewrite sin_0. destruct k. unfold zero3. tfc. f_equal; ring.
  - right. rewrite polar_angle by (auto; lra). split; [|exact H1].
    assert (S : 0 < sin h) by (apply sin_gt_0; [lra|pose proof PI_RGT_0; lra]).
    intros Z. assert (V : times3 (sin h) k = zero3) by (rewrite <- Z; destruct k; reflexivity).
    unfold unit3, dot in K. destruct k as [a b c]. unfold times3, zero3 in V. cbn in *. injection V. intros.
    assert (a = 0) by nra. assert (b = 0) by nra. assert (c = 0) by nra. subst. lra.
Qed.

Lemma polar_qln k h : unit3 k -> h = 0 \/ (/ 2 ^ 13 <= h <= PI / 2) ->
  qln (mkqv (times3 (sin h) k) (cos h)) = pure (times3 h k).
Proof.
  intros K H. assert (P : 0 <= h <= PI / 2) by (pose proof p13_pos; pose proof PI_RGT_0; destruct H as [->|]; lra).
  pose proof PI_RGT_0. assert (S : 0 <= sin h) by (apply sin_ge_0; lra).
  unfold qln. assert (V : qv (mkqv (times3 (sin h) k) (cos h)) = times3 (sin h) k) by (destruct k; reflexivity).
  rewrite V. change (qw (mkqv (times3 (sin h) k) (cos h))) with (cos h).
  assert (N : vdot (times3 (sin h) k) (times3 (sin h) k) + cos h * cos h = 1).
  { pose proof (sin2_cos2 h) as Q. unfold Rsqr in Q. unfold unit3, dot in K. destruct k as [a b c]. tfc. cbn in K.
    transitivity (sin h * sin h * (a * a + b * b + c * c) + cos h * cos h); [ring|]. rewrite K. lra. }
  rewrite N, sqrt_1, ln_1, len_sk, atan2_sincos, sqrt_sqrt_eps by (auto; lra).
  destruct (Rlt_dec h _) as [L|L].
  - destruct H as [->|]; [|lra]. rewrite sin_0. destruct k. tfc. f_equal; ring.
  - assert (0 < h) by (destruct H as [->|]; pose proof p13_pos; lra).
    assert (0 < sin h) by (apply sin_gt_0; lra). destruct k. tfc. f_equal; field; lra.
Qed.

Lemma minus3_sub a b : vsub a b = minus3 a b.
Proof. destruct a, b. unfold vsub, minus3, plus3, times3. cbn. f_equal; ring. Qed.
Lemma trans_val_dist Ea Er : trans_val Ea Er = dist2 (ev Ea) (ev Er).
Proof. unfold trans_val, v_err, dist2. rewrite minus3_sub. reflexivity. Qed.

Lemma qlnpv_val_ok Ea Er phi : unit_qutr Ea -> unit_qutr Er ->
  turn_to (place (TfModel.eq Ea) (ev Ea)) (TfModel.eq Er) phi -> phi = 0 \/ / 2 ^ 12 <= phi ->
  qlnpv_val Ea Er = dist2 (ev Ea) (ev Er) + (phi / 2) * (phi / 2).
Proof.
  intros A B T H. destruct (err_min _ _ _ A B T) as (k & K & E). destruct T as [P _].
  unfold qlnpv_val. rewrite E, polar_qln, trans_val_dist; [|exact K|].
  - cbv zeta. rewrite Rplus_comm. f_equal. unfold unit3, dot in K. destruct k as [a b c]. tfc. cbn in K.
    transitivity (phi / 2 * (phi / 2) * (a * a + b * b + c * c)); [ring|]. rewrite K. ring.
  - replace (/ 2 ^ 12) with (2 * / 2 ^ 13) in H by (simpl; lra). lra.
Qed.

(** ** Dual quaternion error *)
Lemma serr_real Ea Er : dreal (fst (serr_of Ea Er)) = fst (qerr_of Ea Er).
Proof.
  unfold serr_of, qerr_of. assert (R : dreal (dcmul (qutr2duqu Ea) (qutr2duqu Er)) = qcmul (TfModel.eq Ea) (TfModel.eq Er)).
  { rewrite qcmul_eq. reflexivity. }
  cbv zeta. rewrite <- R. destruct (Rlt_dec _ 0); reflexivity.
Qed.
Lemma dneg_unit s : unit_duqu s -> unit_duqu (dneg s).
Proof. destruct s as [[a b c d] [x y z w]]. unfold unit_duqu, norm2, dneg, qneg. cbn. intros [H1 H2]. split; [unfold unitq, norm2 in *; cbn in *|]; lra. Qed.
Lemma dneg_tf s p : duqu_tf (dneg s) p = duqu_tf s p.
Proof. destruct s as [[a b c d] [x y z w]], p. unfold dneg, qneg. tfc. f_equal; ring. Qed.
Lemma serr_unit Ea Er : unit_qutr Ea -> unit_qutr Er -> unit_duqu (fst (serr_of Ea Er)).
Proof.
  intros A B. assert (U : unit_duqu (dcmul (qutr2duqu Ea) (qutr2duqu Er))).
  { unfold dcmul. apply unit_duqu_mul; [apply unit_duqu_conj|]; now apply unit_qutr2duqu. }
  unfold serr_of. destruct (Rlt_dec _ 0); [now apply dneg_unit|exact U].
Qed.
Lemma serr_tf Ea Er p : unit_qutr Ea -> unit_qutr Er ->
  duqu_tf (qutr2duqu Ea) (duqu_tf (fst (serr_of Ea Er)) p) = duqu_tf (qutr2duqu Er) p.
Proof.
  intros A B. rewrite <- (dcmul_acts (qutr2duqu Ea) (qutr2duqu Er)) by now apply unit_qutr2duqu. f_equal.
  unfold serr_of. destruct (Rlt_dec _ 0); [apply dneg_tf|reflexivity].
Qed.

Lemma duqu_ln_polar s k h : unit_duqu s -> dreal s = mkqv (times3 (sin h) k) (cos h) -> unit3 k ->
  h = 0 \/ / 2 ^ 26 <= h <= PI / 2 -> exists v, duqu_ln s = mkD (pure (times3 h k)) (pure v).
Proof.
  intros [U D] E K H. pose proof PI_RGT_0. pose proof p26_pos.
  assert (P : 0 <= h <= PI / 2) by (destruct H as [->|]; lra). assert (S : 0 <= sin h) by (apply sin_ge_0; lra).
  assert (V : qv (dreal s) = times3 (sin h) k) by (rewrite E; destruct k; reflexivity).
  assert (W : qw (dreal s) = cos h) by (rewrite E; reflexivity).
  assert (N : vdot (qv (dreal s)) (qv (dreal s)) + qw (dreal s) * qw (dreal s) = 1).
  { unfold unitq, norm2 in U. rewrite <- U. destruct (dreal s); reflexivity. }
  assert (G : vdot (qv (dreal s)) (qv (ddual s)) + qw (dreal s) * qw (ddual s) = 0).
  { rewrite <- D. destruct s as [[] []]. unfold dot4. tfc. ring. }
  unfold duqu_ln. cbv zeta. rewrite N, G, sqrt_1, ln_1, V, W, len_sk, atan2_sincos by (auto; lra).
  assert (PU : forall x, mkqv x 0 = pure x) by (intros []; reflexivity).
  replace (0 / 1) with 0 by field.
  destruct (Rlt_dec h eps) as [L|L]; rewrite !PU; eexists; f_equal; f_equal.
  - destruct H as [->|]; [|exfalso; assert (eps <= / 2 ^ 26); [|lra]].
    + rewrite sin_0. destruct k. tfc. f_equal; ring.
    + apply Rinv_le_contravar; [apply pow2_pos|]. apply Rle_pow; lra || lia.
  - assert (0 < h). { destruct H as [->|]; [|lra]. exfalso. apply L. unfold eps. apply Rinv_0_lt_compat, pow2_pos. }
    assert (0 < sin h) by (apply sin_gt_0; lra). destruct k. tfc. f_equal; field; lra.
Qed.

Lemma polar_cond k h : unit3 k -> h = 0 \/ / 2 ^ 26 <= h <= PI / 2 ->
  let q := mkqv (times3 (sin h) k) (cos h) in
  (vecpart q = zero3 /\ qw q = 1) \/ (0 < len3 (vecpart q) /\ / 2 ^ 26 <= atan2 (len3 (vecpart q)) (qw q)).
Proof.
  intros K H q. pose proof PI_RGT_0. pose proof p26_pos. destruct H as [->|H].
  - left. unfold q. rewrite sin_0, cos_0. destruct k. unfold zero3. tfc. split; [f_equal; ring|reflexivity].
  - right. unfold q. rewrite polar_angle by (auto; lra). split; [|lra].
    assert (V : vecpart (mkqv (times3 (sin h) k) (cos h)) = times3 (sin h) k) by (destruct k; reflexivity).
    rewrite V. change (len3 (times3 (sin h) k)) with (sqrt (vdot (times3 (sin h) k) (times3 (sin h) k))).
    assert (0 < sin h) by (apply sin_gt_0; lra). rewrite len_sk by (auto; lra). assumption.
Qed.

Lemma dqln_val_ok Ea Er phi : unit_qutr Ea -> unit_qutr Er ->
  turn_to (place (TfModel.eq Ea) (ev Ea)) (TfModel.eq Er) phi -> phi = 0 \/ / 2 ^ 25 <= phi ->
  exists v w, dqln_val Ea Er = dot v v + dot w w /\ len3 w = phi / 2 /\
    forall F, screw_flow (times3 2 v) (times3 2 w) F ->
    forall p, place (TfModel.eq Ea) (ev Ea) (F 1 p) = place (TfModel.eq Er) (ev Er) p.
Proof.
  intros A B T H. destruct (err_min _ _ _ A B T) as (k & K & E). destruct T as [P _].
  rewrite <- serr_real in E. pose proof (serr_unit Ea Er A B) as U.
  assert (H' : phi / 2 = 0 \/ / 2 ^ 26 <= phi / 2 <= PI / 2).
  { replace (/ 2 ^ 25) with (2 * / 2 ^ 26) in H by (simpl; lra). lra. }
  destruct (duqu_ln_polar _ _ _ U E K H') as [v L].
  assert (LW : len3 (times3 (phi / 2) k) = phi / 2).
  { change (len3 (times3 (phi / 2) k)) with (sqrt (vdot (times3 (phi / 2) k) (times3 (phi / 2) k))). apply len_sk; [exact K|lra]. }
  exists v, (times3 (phi / 2) k). split; [|split].
  - unfold dqln_val. rewrite L. unfold ddot. destruct k, v. tfc. ring.
  - exact LW.
  - intros F HF p. rewrite !place_E by assumption. rewrite <- !duqu_tf_of_qutr by assumption.
    rewrite <- (serr_tf Ea Er p A B). f_equal.
    rewrite <- (duqu_exp_ok v (times3 (phi / 2) k) F HF).
    + rewrite <- L, duqu_exp_ln_all; [reflexivity|exact U|]. rewrite E. now apply polar_cond.
    + pose proof p26_pos. destruct H' as [Z|Z]; [left; rewrite Z; destruct k; unfold zero3; tfc; f_equal; ring|right; rewrite LW; lra].
Qed.

(** ** A pose is known up to the sign of its quaternion *)
Definition eflip (b : bool) (e : QV) : QV := mkE (flip b (TfModel.eq e)) (ev e).
Lemma qerr_flip b Ea Er : qw (qcmul (TfModel.eq Ea) (TfModel.eq Er)) <> 0 -> fst (qerr_of (eflip b Ea) Er) = fst (qerr_of Ea Er).
Proof.
  destruct b; [|destruct Ea; reflexivity]. intros N. unfold qerr_of. cbn [eflip TfModel.eq ev flip].
  assert (Q : qcmul (qneg (TfModel.eq Ea)) (TfModel.eq Er) = qneg (qcmul (TfModel.eq Ea) (TfModel.eq Er))).
  { destruct (TfModel.eq Ea), (TfModel.eq Er). unfold qneg. tfc. f_equal; ring. }
  rewrite Q. revert N. generalize (qcmul (TfModel.eq Ea) (TfModel.eq Er)). intros [x y z w]. unfold qneg. cbn. intros N.
  destruct (Rlt_dec (w * -1) 0), (Rlt_dec w 0); cbn; try (exfalso; lra); f_equal; ring.
Qed.
Lemma qlnpv_val_flip b Ea Er : qw (qcmul (TfModel.eq Ea) (TfModel.eq Er)) <> 0 -> qlnpv_val (eflip b Ea) Er = qlnpv_val Ea Er.
Proof. intros N. unfold qlnpv_val. rewrite qerr_flip by exact N. reflexivity. Qed.
Lemma serr_flip b Ea Er : qw (qcmul (TfModel.eq Ea) (TfModel.eq Er)) <> 0 -> fst (serr_of (eflip b Ea) Er) = fst (serr_of Ea Er).
Proof.
  destruct b; [|destruct Ea; reflexivity]. intros N. unfold serr_of.
  assert (Q : dcmul (qutr2duqu (eflip true Ea)) (qutr2duqu Er) = dneg (dcmul (qutr2duqu Ea) (qutr2duqu Er))).
  { destruct Ea as [[] []], Er as [[] []]. unfold eflip, flip, dneg, qneg. tfc. f_equal; f_equal; field. }
  rewrite Q. rewrite qcmul_eq in N. change (qmul (qconj (TfModel.eq Ea)) (TfModel.eq Er)) with (dreal (dcmul (qutr2duqu Ea) (qutr2duqu Er))) in N.
  revert N. generalize (dcmul (qutr2duqu Ea) (qutr2duqu Er)). intros [[x y z w] [x' y' z' w']]. unfold dneg, qneg. cbn. intros N.
  destruct (Rlt_dec (w * -1) 0), (Rlt_dec w 0); cbn; try (exfalso; lra); f_equal; f_equal; ring.
Qed.
Lemma dqln_val_flip b Ea Er : qw (qcmul (TfModel.eq Ea) (TfModel.eq Er)) <> 0 -> dqln_val (eflip b Ea) Er = dqln_val Ea Er.
Proof. intros N. unfold dqln_val. rewrite serr_flip by exact N. reflexivity. Qed.
