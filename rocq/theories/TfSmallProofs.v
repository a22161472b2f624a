(** Small-angle branches of the exponentials: error bounds and refutations. *)
From Coq Require Import Reals Lra Lia Nsatz.
From Verif Require Import TfModel TfSpec TfProofs TfRotmatProofs TfRepProofs TfCalcProofs AtanModel AtanProofs
  TfExpModel TfExpSpec SeriesProofs TfExpProofs TfLogProofs TfScrewProofs TfLnProofs.
Open Scope R_scope.

(** ** Bounds on components *)
Lemma abs_mul x y a b : Rabs x <= a -> Rabs y <= b -> Rabs (x * y) <= a * b.
Proof. intros. rewrite Rabs_mult. apply Rmult_le_compat; auto; apply Rabs_pos. Qed.
Lemma abs_add x y a b : Rabs x <= a -> Rabs y <= b -> Rabs (x + y) <= a + b.
Proof. intros. eapply Rle_trans; [apply Rabs_triang|]. lra. Qed.
Lemma abs_sub x y a b : Rabs x <= a -> Rabs y <= b -> Rabs (x - y) <= a + b.
Proof. intros. unfold Rminus. apply abs_add; [auto|]. now rewrite Rabs_Ropp. Qed.
Lemma abs_ge0 x a : 0 <= x <= a -> Rabs x <= a.
Proof. intros. rewrite Rabs_right; lra. Qed.

Lemma abs_le_inv x a : Rabs x <= a -> - a <= x <= a.
Proof. intros H. unfold Rabs in H. destruct (Rcase_abs x); lra. Qed.

Lemma comb_bound k v A B D e : unit3 k -> 0 <= e -> Rabs A <= e -> Rabs B <= e -> Rabs D <= e ->
  let x := plus3 (times3 A (xprod k v)) (plus3 (times3 B v) (times3 (D * dot k v) k)) in
  Rabs (vx x) <= 6 * e * len3 v /\ Rabs (vy x) <= 6 * e * len3 v /\ Rabs (vz x) <= 6 * e * len3 v.
Proof.
  intros U He HA HB HD. destruct (unit_comp k U) as (K1 & K2 & K3). destruct (comp_le_len v) as (V1 & V2 & V3).
  pose proof (len3_nonneg v) as L. set (l := len3 v) in *. clearbody l.
  destruct k as [k1 k2 k3], v as [v1 v2 v3]. tfc.
  assert (DP : Rabs (k1 * v1 + k2 * v2 + k3 * v3) <= 1 * l + 1 * l + 1 * l).
  { apply abs_add; [apply abs_add|]; apply abs_mul; auto. }
  assert (G : forall c d y kk, Rabs c <= 1 * l -> Rabs d <= 1 * l -> Rabs y <= l -> Rabs kk <= 1 ->
    Rabs (A * (c - d) + (B * y + D * (k1 * v1 + k2 * v2 + k3 * v3) * kk)) <= 6 * e * l).
  { intros. replace (6 * e * l) with (e * (1 * l + 1 * l) + (e * l + e * (1 * l + 1 * l + 1 * l) * 1)) by ring.
    apply abs_add; [apply abs_mul; [auto|apply abs_sub; auto]|].
    apply abs_add; [apply abs_mul; auto|]. apply abs_mul; [apply abs_mul; auto|auto]. }
  repeat split; apply G; auto; apply abs_mul; auto.
Qed.

Lemma vnear_comb k v t t' A B D e : unit3 k -> 0 <= e -> Rabs A <= e -> Rabs B <= e -> Rabs D <= e ->
  t = plus3 t' (plus3 (times3 A (xprod k v)) (plus3 (times3 B v) (times3 (D * dot k v) k))) ->
  vnear (6 * e * len3 v) t t'.
Proof.
  intros U He HA HB HD ->. destruct (comb_bound k v A B D e U He HA HB HD) as (X & Y & Z).
  set (c := plus3 (times3 A (xprod k v)) _) in *. clearbody c. clear - X Y Z.
  unfold vnear, plus3. cbn [vx vy vz].
  replace (vx t' + vx c - vx t') with (vx c) by ring.
  replace (vy t' + vy c - vy t') with (vy c) by ring.
  replace (vz t' + vz c - vz t') with (vz c) by ring. auto.
Qed.

(** ** Quaternion-translation exponential *)
Definition qutr_exact (k : V3) (a : R) (v : V3) : QV :=
  mkE (mkqv (times3 (sin a) k) (cos a))
    (plus3 (times3 (2 * sin a * sin a / a) (xprod k v)) (plus3 (times3 (2 * cos a * sin a / a) v)
      (times3 ((2 - 2 * cos a * sin a / a) * dot k v) k))).

Lemma qutr_exact_eq k a v : unit3 k -> / 2 ^ 13 <= a -> qutr_expv (mkDX v (times3 a k)) = qutr_exact k a v.
Proof.
  intros U H. pose proof p13_pos as P. unfold qutr_expv. cbn [dxw dxv]. rewrite len_ak by (auto; lra).
  rewrite sqrt_eps. destruct (Rlt_dec _ _) as [L|_]; [apply sq_lt_26 in L; lra|].
  rewrite sqrt_square by lra. unfold qutr_exact. destruct k as [k1 k2 k3], v as [v1 v2 v3]. tfc.
  f_equal; f_equal; field; lra.
Qed.
Lemma qutr_exact_flow k a v p : unit3 k -> a <> 0 ->
  qutr_tf (qutr_exact k a v) p = flow_k k (2 * a) (times3 2 v) 1 p.
Proof.
  intros U H. unfold flow_k, rodrigues. rewrite Rmult_1_r.
  destruct (double_sc a) as (E1 & E2 & E3). rewrite E1, E2. unfold qutr_exact. revert E3.
  generalize (sin a) (cos a). intros S C E3. unfold unit3 in U.
  rewrite qutr_tf_eq. cbn [eq ev].
  replace (2 * S * C / (2 * a)) with (S * C * / a) by (field; lra).
  replace ((1 - (1 - 2 * (S * S))) / (2 * a)) with (S * S * / a) by (field; lra).
  unfold Rdiv. set (b := / a) in *. clearbody b. clear E1 E2 H.
  destruct k as [k1 k2 k3], v as [v1 v2 v3], p as [p1 p2 p3]. tfc.
  f_equal; nsatz.
Qed.
Lemma qutr_exact_unit k a v : unit3 k -> unit_qutr (qutr_exact k a v).
Proof. intros. unfold unit_qutr, qutr_exact. cbn [eq]. now apply rodrigues_unit_quat. Qed.

Lemma sinc_le1 a : 0 < a <= 1 -> 0 <= sin a / a <= 1.
Proof.
  intros H. destruct (sin_pos_lower a) as [P1 P2]; [lra|]. split.
  - apply Rmult_le_pos; [lra|]. left. apply Rinv_0_lt_compat. lra.
  - apply Rmult_le_reg_r with a; [lra|]. unfold Rdiv. rewrite Rmult_assoc, Rinv_l by lra. lra.
Qed.

Lemma qutr_md_bound a : 0 < a <= 1 ->
  0 <= a * a * horner3 (a * a) (4/3) (- (4)/15) (8/315) - (2 - 2 * cos a * sin a / a) <= 8 / 315 * a ^ 6.
Proof.
  intros H. destruct (sin_poly (2 * a)) as [L U]; [lra|]. rewrite sin_2a in L, U.
  assert (E : a * a * horner3 (a * a) (4/3) (- (4)/15) (8/315) - (2 - 2 * cos a * sin a / a) =
    (2 * sin a * cos a - (2 * a - (2 * a) ^ 3 / 6 + (2 * a) ^ 5 / 120 - (2 * a) ^ 7 / 5040)) / a).
  { unfold horner3. field. lra. }
  rewrite E. split.
  - apply Rmult_le_pos; [lra|]. left. apply Rinv_0_lt_compat. lra.
  - apply Rmult_le_reg_r with a; [lra|]. unfold Rdiv at 1. rewrite Rmult_assoc, Rinv_l by lra.
    replace (8 / 315 * a ^ 6 * a) with ((2 * a) ^ 7 / 5040) by field. lra.
Qed.

Lemma qutr_small k a v : unit3 k -> 0 < a < / 2 ^ 13 ->
  qnear tiny (eq (qutr_expv (mkDX v (times3 a k)))) (eq (qutr_exact k a v)) /\
  vnear (tiny * len3 v) (ev (qutr_expv (mkDX v (times3 a k)))) (ev (qutr_exact k a v)).
Proof.
  intros U H. pose proof small13' as SM. pose proof tiny_pos as T.
  unfold qutr_expv. cbn [dxw dxv]. rewrite len_ak by (auto; lra).
  rewrite sqrt_eps. destruct (Rlt_dec _ _) as [_|N]; [|exfalso; apply N; apply sq_lt_26; lra].
  pose proof (sinc_series_bound a ltac:(lra)) as B1. pose proof (cos_series_bound a ltac:(lra)) as B2.
  pose proof (qutr_md_bound a ltac:(lra)) as B3. pose proof (sixth a ltac:(lra) ltac:(lra)) as B6.
  pose proof (sinc_le1 a ltac:(lra)) as B7. pose proof (COS_bound a) as B8.
  assert (SC : sin a = sin a / a * a) by (field; lra).
  unfold qutr_exact. cbn [eq ev]. set (sc := sinc_series2 (a * a)) in *. set (c := cos_series2 (a * a)) in *.
  set (md := horner3 (a * a) (4/3) (- (4)/15) (8/315)) in *. set (x := sin a / a) in *.
  replace (2 * cos a * sin a / a) with (2 * cos a * x) in * by (unfold x; field; lra).
  replace (2 * sin a * sin a / a) with (2 * a * x * x) by (unfold x; field; lra).
  rewrite SC. clear SC. clearbody sc c md x. set (C := cos a) in *. clearbody C.
  assert (Tm : tiny < 1) by (pose proof tiny_small; lra). split.
  - destruct (unit_comp k U) as (K1 & K2 & K3). destruct k as [k1 k2 k3].
    assert (G : forall t, Rabs t <= 1 -> Rabs (sc * (a * t) - x * a * t) <= tiny).
    { intros t Ht. replace (sc * (a * t) - x * a * t) with ((sc - x) * a * t) by ring.
      replace tiny with (tiny * 1 * 1) by ring.
      repeat apply abs_mul; auto; apply abs_ge0; lra. }
    unfold qnear. tfc. repeat split; try (apply G; auto). apply abs_ge0. lra.
  - replace (tiny * len3 v) with (6 * (tiny / 6) * len3 v) by field.
    apply (vnear_comb k v _ _ (2 * a * (sc * sc - x * x)) (2 * (c * sc - C * x)) (a * a * md - (2 - 2 * C * x)));
      [exact U|lra| | | |].
    + replace (2 * a * (sc * sc - x * x)) with (2 * a * ((sc - x) * (sc + x))) by ring.
      apply Rle_trans with (2 * (1 / 4) * (tiny / 5040 * 3)); [|lra].
      apply abs_mul; [apply abs_ge0; lra|]. apply abs_mul; apply abs_ge0; lra.
    + replace (c * sc - C * x) with ((c - C) * sc + C * (sc - x)) by ring.
      apply Rle_trans with (2 * (tiny / 720 * 2 + 1 * (tiny / 5040))); [|lra].
      apply abs_mul; [apply abs_ge0; lra|]. apply abs_add; apply abs_mul; try (apply abs_ge0; lra).
      apply Rabs_le. lra.
    + apply abs_ge0. lra.
    + destruct k as [k1 k2 k3], v as [v1 v2 v3]. clear B1 B2 B3 B6 B7 B8. tfc. f_equal; ring.
Qed.

Lemma qutr_expv_near v w F : screw_flow (times3 2 v) (times3 2 w) F ->
  exists e, unit_qutr e /\ (forall p, qutr_tf e p = F 1 p) /\
    qnear tiny (eq (qutr_expv (mkDX v w))) (eq e) /\
    vnear (tiny * len3 v) (ev (qutr_expv (mkDX v w))) (ev e).
Proof.
  intros HF. pose proof tiny_pos as T. pose proof p13_pos. pose proof (len3_nonneg v) as LV.
  assert (R0 : forall e, qnear tiny (eq e) (eq e) /\ vnear (tiny * len3 v) (ev e) (ev e)).
  { intros e. assert (0 <= tiny * len3 v) by nra. unfold qnear, vnear.
    rewrite !Rminus_diag_eq, Rabs_R0 by reflexivity. repeat split; lra. }
  destruct (Req_dec (len3 w) 0) as [Z|N].
  - apply len3_zero in Z. subst w. eexists. split; [apply qutr_expv_unit0|]. split; [|apply R0].
    apply qutr_expv_ok; [exact HF|now left].
  - destruct (direction w) as (k & U & E). pose proof (len3_nonneg w).
    destruct (Rlt_dec (len3 w) (/ 2 ^ 13)) as [B|B].
    + exists (qutr_exact k (len3 w) v). split; [now apply qutr_exact_unit|]. split.
      * intros p. rewrite qutr_exact_flow by (auto; lra). eapply flow_unique; [|exact HF].
        rewrite E at 1. rewrite times_times. apply flow_k_ok; [auto|lra].
      * rewrite E at 1 3. apply qutr_small; [auto|lra].
    + exists (qutr_expv (mkDX v w)). split; [rewrite E; apply qutr_expv_unit; [auto|lra]|]. split; [|apply R0].
      apply qutr_expv_ok; [exact HF|right; lra].
Qed.

(** ** The matrix exponentials jump *)
Lemma mat_branch a : 0 < a < / 2 ^ 13 -> a * a * (a * a) < eps.
Proof.
  intros H. pose proof p13_pos.
  assert (a * a < / 2 ^ 26) by (apply sq_lt_26; lra).
  replace eps with (/ 2 ^ 26 * / 2 ^ 26) by (unfold eps; rewrite <- Rinv_mult, <- pow_add; reflexivity).
  apply Rmult_gt_0_lt_compat; try nra. 
Qed.

Lemma rotmat_expv_jump a : 0 < a < / 2 ^ 13 ->
  ~ vnear (a * a / 4) (mrot (rotmat_expv (times3 a (mkV 1 0 0))) (mkV 0 1 0)) (rodrigues (mkV 1 0 0) a (mkV 0 1 0)).
Proof.
  intros H (_ & Y & _). pose proof small13' as SM. assert (U : unit3 (mkV 1 0 0)) by (unfold unit3; tfc; ring).
  revert Y. unfold rotmat_expv. rewrite len_ak by (auto; lra).
  destruct (Rlt_dec _ _) as [_|N]; [|exfalso; apply N; now apply mat_branch].
  rewrite sqrt_square by lra. unfold rodrigues. tfc. unfold horner3.
  destruct (cos_poly a ltac:(lra)) as [_ C2]. set (y := a * a) in *.
  intros Y. apply abs_le_inv in Y as [_ Y].
  assert (Y1 : 0 < y <= 1 / 16) by (unfold y; nra).
  assert (E4 : a ^ 4 = y * y) by (unfold y; ring). assert (E2 : a ^ 2 = y) by (unfold y; ring). rewrite E4, E2 in C2.
  assert (0 <= a * (1 / 2 + y * (- (1) / 24 + y * (1 / 720))) <= 1 / 8).
  { assert (0 <= 1 / 2 + y * (- (1) / 24 + y * (1 / 720)) <= 1 / 2) by nra. nra. }
  set (g := a * (1 / 2 + y * (- (1) / 24 + y * (1 / 720)))) in *.
  replace (g * (a * 1)) with (g * a) in Y by ring.
  assert (g * a * (a * 1) = g * y) by (unfold y; ring).
  assert (g * y <= 1 / 8 * y) by nra.
  assert (y * y <= 1 / 16 * y) by nra.
  nra.
Qed.

Lemma tfmat_expv_jump a F : 0 < a < / 2 ^ 13 -> screw_flow (mkV 0 1 0) (times3 a (mkV 1 0 0)) F ->
  ~ vnear (a / 4) (tfmat_tf (tfmat_expv (mkDX (mkV 0 1 0) (times3 a (mkV 1 0 0)))) zero3) (F 1 zero3).
Proof.
  intros H HF (_ & _ & Y). pose proof small13' as SM. assert (U : unit3 (mkV 1 0 0)) by (unfold unit3; tfc; ring).
  rewrite (flow_unique _ _ _ _ HF (flow_k_ok _ a (mkV 0 1 0) U ltac:(lra))) in Y.
  revert Y. unfold tfmat_expv. cbn [dxw dxv]. rewrite len_ak by (auto; lra).
  destruct (Rlt_dec _ _) as [_|N]; [|exfalso; apply N; now apply mat_branch].
  rewrite sqrt_square by lra. unfold flow_k, rodrigues. rewrite Rmult_1_r. tfc. unfold horner3.
  destruct (cos_poly a ltac:(lra)) as [_ C2]. set (y := a * a) in *.
  intros Y. apply abs_le_inv in Y as [Y _].
  assert (Y1 : 0 < y <= 1 / 16 /\ y <= a / 4) by (unfold y; split; nra).
  assert (E4 : a ^ 4 = y * y) by (unfold y; ring). assert (E2 : a ^ 2 = y) by (unfold y; ring). rewrite E4, E2 in C2.
  assert (CC : 3 / 8 * a <= (1 - cos a) / a).
  { apply Rmult_le_reg_r with a; [lra|]. unfold Rdiv. rewrite (Rmult_assoc (1 - cos a)), Rinv_l by lra.
    assert (y * y <= 1 / 16 * y) by nra. replace (3 * / 8 * a * a) with (3 / 8 * y) by (unfold y; field). lra. }
  assert (0 <= 1 / 2 + y * (- (1) / 24 + y * (1 / 720)) <= 1 / 2) by nra.
  set (g := 1 / 2 + y * (- (1) / 24 + y * (1 / 720))) in *. 
  assert (a * g * (a * 1) <= a / 8). { replace (a * g * (a * 1)) with (g * y) by (unfold y; ring). nra. }
  nra.
Qed.
