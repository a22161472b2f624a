(** Quaternion exponential and logarithm: lemmas. *)
From Coq Require Import Reals Lra Lia.
From Verif Require Import TfModel TfSpec TfProofs AtanModel AtanProofs TfExpModel TfExpSpec SeriesProofs.
Open Scope R_scope.

(** ** Norms *)
Lemma dot_nonneg v : 0 <= dot v v.
Proof. unfold dot. nra. Qed.
Lemma norm2_nonneg q : 0 <= norm2 q.
Proof. unfold norm2. nra. Qed.
Lemma vnorm_len v : vnorm v = len3 v.
Proof. reflexivity. Qed.
Lemma len3_sq v : len3 v * len3 v = dot v v.
Proof. apply sqrt_sqrt, dot_nonneg. Qed.
Lemma len3_nonneg v : 0 <= len3 v.
Proof. apply sqrt_pos. Qed.
Lemma len4_sq q : len4 q * len4 q = norm2 q.
Proof. apply sqrt_sqrt, norm2_nonneg. Qed.
Lemma len4_nonneg q : 0 <= len4 q.
Proof. apply sqrt_pos. Qed.
Lemma len3_zero v : len3 v = 0 -> v = zero3.
Proof.
  intros H. pose proof (len3_sq v) as E. rewrite H in E. destruct v as [a b c]. unfold dot in E. cbn [vx vy vz] in E.
  assert (a = 0 /\ b = 0 /\ c = 0) as (-> & -> & ->) by (repeat split; nra). reflexivity.
Qed.
Lemma len3_pos v : v <> zero3 -> 0 < len3 v.
Proof. intros H. pose proof (len3_nonneg v) as [P|P]; [exact P|]. exfalso. apply H, len3_zero. auto. Qed.
Lemma comp_le_len v : Rabs (vx v) <= len3 v /\ Rabs (vy v) <= len3 v /\ Rabs (vz v) <= len3 v.
Proof.
  pose proof (len3_sq v) as E. pose proof (len3_nonneg v) as N. unfold dot in E.
  assert (G : forall c, c * c <= len3 v * len3 v -> Rabs c <= len3 v).
  { intros c H. apply Rsqr_le_abs_0 in H. rewrite (Rabs_right (len3 v)) in H by lra. exact H. }
  repeat split; apply G; nra.
Qed.
Lemma len3_times k v : len3 (times3 k v) = Rabs k * len3 v.
Proof.
  unfold len3. replace (dot (times3 k v) (times3 k v)) with (Rsqr k * dot v v) by (unfold dot, Rsqr; destruct v; cbn; ring).
  rewrite sqrt_mult by (try apply Rle_0_sqr; apply dot_nonneg). rewrite sqrt_Rsqr_abs. reflexivity.
Qed.
Lemma len3_unit k : unit3 k -> len3 k = 1.
Proof. unfold unit3, len3. intros ->. apply sqrt_1. Qed.
(** every vector is a length times a unit vector *)
Lemma direction v : exists k, unit3 k /\ v = times3 (len3 v) k.
Proof.
  destruct (Req_dec (len3 v) 0) as [Z|Z].
  - exists (mkV 1 0 0). split; [unfold unit3, dot; cbn; ring|]. rewrite (len3_zero v Z) at 1. rewrite Z.
    unfold times3, zero3; cbn; f_equal; ring.
  - exists (times3 (/ len3 v) v). split.
    + unfold unit3. pose proof (len3_sq v) as E. transitivity (/ len3 v * / len3 v * dot v v).
      { unfold dot; destruct v; cbn; ring. } rewrite <- E. field. exact Z.
    + destruct v as [v1 v2 v3]; unfold times3; cbn [vx vy vz]; f_equal; field; exact Z.
Qed.
Lemma len4_qv q : len4 q * len4 q = len3 (qv q) * len3 (qv q) + qw q * qw q.
Proof. rewrite len4_sq, len3_sq. unfold norm2, dot. destruct q; cbn; ring. Qed.

(** polar form of a quaternion *)
Lemma polar q : 0 < len4 q -> let phi := atan2 (len3 (qv q)) (qw q) in
  len4 q * cos phi = qw q /\ len4 q * sin phi = len3 (qv q) /\ 0 <= phi <= PI.
Proof.
  intros H phi. destruct (atan2_polar (qw q) (len3 (qv q)) (len4 q) H) as [C S].
  { rewrite len4_qv. ring. }
  fold phi in C, S. split; [exact C|]. split; [exact S|]. split; [|apply atan2_bound].
  destruct (Rle_dec 0 phi) as [|N]; [assumption|]. exfalso.
  pose proof (atan2_bound (len3 (qv q)) (qw q)) as B. fold phi in B.
  assert (sin phi < 0) by (apply sin_lt_0_var; lra). pose proof (len3_nonneg (qv q)). nra.
Qed.

Lemma unit_comp k : unit3 k -> Rabs (vx k) <= 1 /\ Rabs (vy k) <= 1 /\ Rabs (vz k) <= 1.
Proof. intros U. pose proof (comp_le_len k) as C. rewrite (len3_unit k U) in C. exact C. Qed.

Lemma sin_lip x y : Rabs (sin x - sin y) <= Rabs (x - y).
Proof.
  assert (A : forall z, Rabs (sin z) <= Rabs z).
  { intros z. destruct (Rtotal_order z 0) as [L|[->|G]].
    - replace (Rabs (sin z)) with (Rabs (sin (- z))) by (rewrite sin_neg; apply Rabs_Ropp).
      replace (Rabs z) with (Rabs (- z)) by apply Rabs_Ropp.
      destruct (Rle_dec 1 (-z)).
      + apply Rle_trans with 1; [|rewrite Rabs_right; lra]. apply Rabs_le. apply SIN_bound.
      + pose proof (sin_pos_lower (-z) ltac:(lra)). rewrite !Rabs_right; lra.
    - rewrite sin_0. lra.
    - destruct (Rle_dec 1 z).
      + apply Rle_trans with 1; [|rewrite Rabs_right; lra]. apply Rabs_le. apply SIN_bound.
      + pose proof (sin_pos_lower z ltac:(lra)). rewrite !Rabs_right; lra. }
  rewrite form4. rewrite !Rabs_mult. rewrite (Rabs_right 2) by lra.
  assert (Rabs (cos ((x + y) / 2)) <= 1) by (apply Rabs_le, COS_bound).
  pose proof (A ((x - y) / 2)) as B. unfold Rdiv in B at 2. rewrite Rabs_mult, (Rabs_right (/2)) in B by lra.
  pose proof (Rabs_pos (sin ((x - y) / 2))). pose proof (Rabs_pos (cos ((x + y) / 2))). nra.
Qed.
Lemma cos_lip x y : Rabs (cos x - cos y) <= Rabs (x - y).
Proof.
  rewrite <- !sin_shift. eapply Rle_trans; [apply sin_lip|].
  replace (PI / 2 - x - (PI / 2 - y)) with (- (x - y)) by ring. rewrite Rabs_Ropp. lra.
Qed.
Lemma tiny_pos : 0 < tiny.
Proof. apply Rinv_0_lt_compat, pow2_pos. Qed.
Lemma p13_pos : 0 < / 2 ^ 13.
Proof. apply Rinv_0_lt_compat, pow2_pos. Qed.

(** ** Pure exponential *)
Lemma pure_exp_ex v : exists q, pure_exp v q.
Proof. destruct (direction v) as (k & U & E). eexists. exists k, (len3 v). eauto. Qed.
Lemma pure_exp_len v k a : unit3 k -> v = times3 a k -> 
  pure_exp v (mkQ (sin a * vx k) (sin a * vy k) (sin a * vz k) (cos a)).
Proof. intros. exists k, a. auto. Qed.
Lemma pure_exp_unit v q : pure_exp v q -> unitq q.
Proof.
  intros (k & a & U & _ & ->). unfold unitq, norm2, unit3, dot in *; cbn [qx qy qz qw].
  pose proof (sin2_cos2 a) as S. unfold Rsqr in S.
  replace (sin a * vx k * (sin a * vx k) + sin a * vy k * (sin a * vy k) + sin a * vz k * (sin a * vz k) + cos a * cos a)
   with (sin a * sin a * (vx k * vx k + vy k * vy k + vz k * vz k) + cos a * cos a) by ring.
  rewrite U. lra.
Qed.

Lemma qpexp_times k a : unit3 k -> 0 <= a ->
  qpexp (times3 a k) = let '(sc, c) := sinccos2 (a * a) in mkqv (vscale (sc * a) k) c.
Proof.
  intros U H. unfold qpexp. replace (vdot (times3 a k) (times3 a k)) with (a * a).
  - destruct (sinccos2 (a * a)). unfold vscale, times3, mkqv. cbn. f_equal; ring.
  - transitivity (a * a * dot k k); [rewrite U; ring|]. unfold vdot, dot, times3; cbn; ring.
Qed.

Lemma qpexp_near v : exists q, pure_exp v q /\ qnear tiny (qpexp v) q.
Proof.
  destruct (direction v) as (k & U & E). pose proof (len3_nonneg v) as [P|Z].
  - set (a := len3 v) in *. exists (mkQ (sin a * vx k) (sin a * vy k) (sin a * vz k) (cos a)).
    split; [exists k, a; auto|]. rewrite E, (qpexp_times k a U) by lra.
    pose proof tiny_pos as T. destruct (unit_comp k U) as (K1 & K2 & K3).
    destruct (Rlt_dec a (/ 2 ^ 13)) as [B|B].
    + destruct (sinccos2_close a P) as [[S1 S2] [C1 C2]]. destruct (sinccos2 (a * a)) as [sc c]. cbn [fst snd] in *.
      pose proof small13.
      assert (G : forall t, Rabs t <= 1 -> Rabs (sc * a * t - sin a * t) <= tiny).
      { intros t Ht. replace (sc * a * t - sin a * t) with ((sc - sin a / a) * a * t) by (field; lra).
        rewrite !Rabs_mult. rewrite (Rabs_right (sc - sin a / a)), (Rabs_right a) by lra.
        apply Rle_trans with (tiny / 5040 * 1 * 1); [|lra].
        apply Rmult_le_compat; try apply Rmult_le_compat; try lra; try apply Rabs_pos.
        apply Rmult_le_pos; lra. }
      unfold qnear, mkqv, vscale; cbn [vx vy vz qx qy qz qw].
      repeat split; try (apply G; assumption). rewrite Rabs_right by lra. lra.
    + rewrite (sinccos2_exact a) by lra. unfold qnear, mkqv, vscale; cbn [vx vy vz qx qy qz qw].
      assert (Z : forall t, sin a / a * a * t - sin a * t = 0) by (intros; field; lra).
      rewrite !Z, Rminus_diag_eq, Rabs_R0 by reflexivity. lra.
  - exists (mkQ 0 0 0 1). rewrite <- Z in E. split.
    + exists k, 0. split; [exact U|]. split; [exact E|]. rewrite sin_0, cos_0. f_equal; ring.
    + rewrite E, (qpexp_times k 0 U) by lra. rewrite Rmult_0_l, sinccos2_0.
      unfold qnear, mkqv, vscale; cbn [vx vy vz qx qy qz qw]. pose proof tiny_pos.
      rewrite !Rmult_0_r, !Rmult_0_l, !Rminus_0_r, (Rminus_diag_eq 1 1), Rabs_R0 by reflexivity. lra.
Qed.
Lemma qpexp_exact v : / 2 ^ 13 <= len3 v -> pure_exp v (qpexp v).
Proof.
  intros H. pose proof p13_pos. destruct (direction v) as (k & U & E). set (a := len3 v) in *.
  exists k, a. split; [exact U|]. split; [exact E|].
  rewrite E, (qpexp_times k a U) by lra. rewrite sinccos2_exact by lra.
  unfold mkqv, vscale; cbn [vx vy vz]. f_equal; field; lra.
Qed.

Lemma qexp_qpexp q : qexp q = qscal (qpexp (qv q)) (exp (qw q)).
Proof.
  unfold qexp, qpexp. rewrite vnorm_len, sinccos_eq by apply len3_nonneg.
  replace (len3 (qv q) * len3 (qv q)) with (vdot (qv q) (qv q)) by (rewrite len3_sq; reflexivity).
  destruct (sinccos2 _) as [sc c]. unfold qscal, mkqv, vscale; cbn. f_equal; ring.
Qed.
Lemma qexp_near q : exists r, quat_exp q r /\ qnear (exp (qw q) * tiny) (qexp q) r.
Proof.
  destruct (qpexp_near (qv q)) as (p & P & N). eexists. split.
  - exists p. split; [exact P|reflexivity].
  - rewrite qexp_qpexp. destruct N as (N1 & N2 & N3 & N4). pose proof (exp_pos (qw q)) as X.
    unfold qnear, qscal; cbn [qx qy qz qw].
    assert (G : forall s t, Rabs (s - t) <= tiny -> Rabs (s * exp (qw q) - exp (qw q) * t) <= exp (qw q) * tiny).
    { intros s t H. replace (s * exp (qw q) - exp (qw q) * t) with (exp (qw q) * (s - t)) by ring.
      rewrite Rabs_mult, (Rabs_right (exp _)) by lra. apply Rmult_le_compat_l; lra. }
    repeat split; apply G; assumption.
Qed.
Lemma qexp_exact q : / 2 ^ 13 <= len3 (vecpart q) -> quat_exp q (qexp q).
Proof.
  intros H. rewrite qexp_qpexp. exists (qpexp (qv q)). split; [apply qpexp_exact, H|].
  unfold qscal. f_equal; ring.
Qed.
Lemma qexp_n_exact q : eps <= len3 (vecpart q) -> quat_exp q (qexp_n q).
Proof.
  intros H. assert (0 < eps) by (apply Rinv_0_lt_compat, pow2_pos).
  change (vecpart q) with (qv q) in H. destruct (direction (qv q)) as (k & U & E). set (a := len3 (qv q)) in *.
  exists (mkQ (sin a * vx k) (sin a * vy k) (sin a * vz k) (cos a)). split; [exists k, a; auto|].
  unfold qexp_n. rewrite vnorm_len. fold a. destruct (Rlt_dec a eps) as [L|L]; [lra|].
  rewrite E. unfold mkqv, vscale, times3; cbn [vx vy vz qx qy qz qw]. f_equal; field; lra.
Qed.
(** aa_tf_qexp_n forgets the real part when the vector part is negligible. *)
Lemma qexp_n_bad : exists q r, quat_exp q r /\ ~ qnear (1 / 2) (qexp_n q) r.
Proof.
  exists (mkQ 0 0 0 1), (mkQ 0 0 0 (exp 1)). split.
  - exists (mkQ 0 0 0 1). split.
    + exists (mkV 1 0 0), 0. repeat split; [unfold unit3, dot; cbn; ring| |].
      * unfold times3, vecpart; cbn. f_equal; ring.
      * rewrite sin_0, cos_0; cbn. f_equal; ring.
    + cbn. f_equal; ring.
  - unfold qexp_n, vnorm, vdot, qv. cbn [qx qy qz qw vx vy vz].
    replace (0 * 0 + 0 * 0 + 0 * 0) with 0 by ring. rewrite sqrt_0.
    destruct (Rlt_dec 0 eps) as [L|L]; [|exfalso; apply L, Rinv_0_lt_compat, pow2_pos].
    intros (_ & _ & _ & B). cbn in B. pose proof (exp_ineq1 1 ltac:(lra)).
    apply Rabs_def2 with (a := 1) in B || idtac. 
    unfold Rabs in B. destruct (Rcase_abs (1 - exp 1)); lra.
Qed.
