(** The logarithms of poses, including their small-angle branches. *)
From Coq Require Import Reals Lra Lia Nsatz.
From Verif Require Import TfModel TfSpec TfProofs TfRotmatProofs TfRepProofs TfCalcProofs AtanModel AtanProofs
  TfExpModel TfExpSpec SeriesProofs TfExpProofs TfLogProofs TfScrewProofs TfLnProofs TfSmallProofs.
Open Scope R_scope.

(** The translational part of the logarithm of the turn by a about k with translation v *)
Definition lnV (k : V3) (a : R) (v : V3) : V3 :=
  plus3 (times3 (a / 2) (xprod v k)) (plus3 (times3 (cos (a / 2) * (a / 2) / sin (a / 2)) v)
    (times3 ((1 - cos (a / 2) * (a / 2) / sin (a / 2)) * dot v k) k)).

Lemma ln_flow k a v F : unit3 k -> 0 < a -> sin (a / 2) <> 0 -> screw_flow (lnV k a v) (times3 a k) F ->
  forall p, F 1 p = plus3 v (rodrigues k a p).
Proof.
  intros U A S HF p. rewrite (flow_unique _ _ _ _ HF (flow_k_ok k a (lnV k a v) U ltac:(lra))).
  unfold flow_k. rewrite Rmult_1_r. pose proof (tfmat_inv_half k a v U A S) as E. fold (lnV k a v) in E.
  set (x := lnV k a v) in *. clearbody x. generalize (rodrigues k a p). intros r. subst v.
  generalize (sin a / a) ((1 - cos a) / a). intros b c.
  unfold unit3 in U. destruct k as [k1 k2 k3], x as [x1 x2 x3], r as [r1 r2 r3]. tfc.
  assert (W : forall l r x, l - r = (1 - b) * x * ((k1 * k1 + k2 * k2 + k3 * k3) - 1) -> l = r).
  { intros l r x H. rewrite U in H. lra. }
  f_equal; [apply (W _ _ x1)|apply (W _ _ x2)|apply (W _ _ x3)]; ring.
Qed.

Lemma cot_bound h : 0 < h <= 1 ->
  Rabs (h * h * horner3 (h * h) (1/3) (1/45) (2/945) - (1 - cos h * h / sin h)) <= h ^ 6 / 100.
Proof.
  intros H. destruct (sin_poly h) as [L U]; [lra|]. destruct (cos_poly h) as [Lc Uc]; [lra|].
  destruct (sin_pos_lower h) as [P1 P2]; [lra|].
  set (x := h * h). assert (Hx : 0 < x <= 1) by (unfold x; nra).
  assert (E2 : h ^ 2 = x) by (unfold x; ring). assert (E4 : h ^ 4 = x * x) by (unfold x; ring).
  assert (E3 : h ^ 3 = h * x) by (unfold x; ring). assert (E5 : h ^ 5 = h * (x * x)) by (unfold x; ring).
  assert (E7 : h ^ 7 = h * (x * x * x)) by (unfold x; ring). assert (E6 : h ^ 6 = x * x * x) by (unfold x; ring).
  rewrite E2, E4, E6 in *. rewrite E3, E5, E7 in *. clear E2 E3 E4 E5 E6 E7.
  set (I := x * horner3 x (1/3) (1/45) (2/945)).
  assert (EI : I = x * (1/3 + x * (1/45 + x * (2/945)))) by reflexivity.
  assert (x2 : 0 <= x * x <= x) by nra. assert (x3 : 0 <= x * x * x <= x * x) by nra. assert (x4 : 0 <= x * x * x * x <= x * x * x) by nra.
  assert (HI : 0 <= I <= 1 / 2) by nra.
  assert (E : I - (1 - cos h * h / sin h) = (I * sin h - sin h + h * cos h) / sin h) by (field; lra).
  rewrite E. unfold Rdiv at 1. rewrite Rabs_mult, (Rabs_right (/ sin h)) by (apply Rle_ge, Rlt_le, Rinv_0_lt_compat; lra).
  apply Rmult_le_reg_r with (sin h); [lra|]. rewrite Rmult_assoc, Rinv_l, Rmult_1_r by lra.
  apply Rle_trans with (x * x * x / 100 * (h / 2)); [|apply Rmult_le_compat_l; lra].
  set (S0 := 1 - x / 6 + x * x / 120). set (C0 := 1 - x / 2 + x * x / 24).
  assert (HS : exists ds, sin h = h * (S0 - ds) /\ 0 <= ds <= x * x * x / 5040).
  { exists (S0 - sin h / h). split; [field; lra|]. unfold S0. split.
    - apply Rmult_le_reg_r with h; [lra|]. replace ((1 - x / 6 + x * x / 120 - sin h / h) * h) with (h - h * x / 6 + h * (x * x) / 120 - sin h) by (field; lra). lra.
    - apply Rmult_le_reg_r with h; [lra|]. replace ((1 - x / 6 + x * x / 120 - sin h / h) * h) with (h - h * x / 6 + h * (x * x) / 120 - sin h) by (field; lra). lra. }
  destruct HS as (ds & -> & Hds). assert (HC : exists dc, cos h = C0 - dc /\ 0 <= dc <= x * x * x / 720).
  { exists (C0 - cos h). split; [ring|]. unfold C0. lra. }
  destruct HC as (dc & -> & Hdc).
  replace (I * (h * (S0 - ds)) - h * (S0 - ds) + h * (C0 - dc)) with (h * ((I - 1) * S0 + C0 + (1 - I) * ds - dc)) by ring.
  assert (P : (I - 1) * S0 + C0 = x * x * x * (1 / 840 - 1/1350 * x * (11/42) + x * x * (2 / 113400)) + x*x*x*x*(1/1350*(11/42) + 1/5400 - 2/5670)).
  { rewrite EI. unfold S0, C0. field. }
  rewrite P. rewrite Rabs_mult, (Rabs_right h) by lra.
  replace (x * x * x / 100 * (h / 2)) with (h * (x * x * x / 200)) by field. apply Rmult_le_compat_l; [lra|].
  assert (D1 : 0 <= (1 - I) * ds <= ds) by nra. set (y := x * x * x) in *. apply Rabs_le.
  assert (y * x <= y) by nra. assert (0 <= y * x) by nra. assert (0 <= y * (x * x) <= y) by nra.
  replace (y * (1 / 840 - 1 / 1350 * x * (11 / 42) + x * x * (2 / 113400)) + y * x * (1 / 1350 * (11 / 42) + 1 / 5400 - 2 / 5670))
    with (y / 840 + (y * x) * (1/5400 - 2/5670) + (y * (x * x)) * (2 / 113400)) by field. lra.
Qed.

Lemma eps_26 a : 0 <= a -> (a * a < eps <-> a < / 2 ^ 26).
Proof.
  intros H. assert (P : 0 < / 2 ^ 26) by apply p26_pos.
  replace eps with (/ 2 ^ 26 * / 2 ^ 26) by (unfold eps; rewrite <- Rinv_mult, <- pow_add; reflexivity). split; intros L.
  - destruct (Rlt_dec a (/ 2 ^ 26)) as [|N]; [assumption|]. exfalso. apply Rnot_lt_le in N.
    assert (/ 2 ^ 26 * / 2 ^ 26 <= a * a) by (apply Rmult_le_compat; lra). lra.
  - apply Rmult_le_0_lt_compat; lra.
Qed.

Lemma skew2_k k m b v : unit3 k -> mrot (skewsym_scal2 (- (1/2)) b (times3 m k)) v =
  plus3 (times3 (m / 2) (xprod v k)) (plus3 (times3 (1 - b * (m * m)) v) (times3 (b * (m * m) * dot v k) k)).
Proof.
  intros U. unfold unit3 in U. destruct k as [k1 k2 k3], v as [v1 v2 v3]. tfc.
  assert (W : forall l r x, l - r = - (b * (m * m)) * x * ((k1 * k1 + k2 * k2 + k3 * k3) - 1) -> l = r).
  { intros l r x H. rewrite U in H. lra. }
  f_equal; [apply (W _ _ v1)|apply (W _ _ v2)|apply (W _ _ v3)]; field.
Qed.

(** ** Matrices *)
Lemma tfmat_lnv_form k t v : unit3 k -> / 2 ^ 26 <= t <= PI ->
  tfmat_lnv (mkT (axang2rotmat (mkA k t)) v) = mkDX (lnV k t v) (times3 t k) \/
  tfmat_lnv (mkT (axang2rotmat (mkA k t)) v) = mkDX (lnV (times3 (-1) k) (2 * PI - t) v) (times3 (2 * PI - t) (times3 (-1) k)).
Proof.
  intros U T. pose proof p26_pos as P26. pose proof PI_RGT_0 as PI0. pose proof PI2_1 as PB.
  destruct (axang_facts k t U) as [F1 F2]. unfold tfmat_lnv. cbn [tR tv]. rewrite F1, F2.
  destruct (Rlt_dec (cos t) _) as [C|C].
  - pose proof (half_big t ltac:(lra) C) as HB.
    destruct (rotmat_q_axang k t U ltac:(lra) C) as [S0 [[Q1 Q2]|[Q1 Q2]]]; rewrite Q1, Q2.
    + left. rewrite len_sk by (auto; lra). rewrite atan2_sincos by lra. unfold lnV.
      f_equal; [destruct k, v; tfc; f_equal; field; lra|destruct k; tfc; f_equal; field; lra].
    + right. rewrite len_nsk by (auto; lra). rewrite atan2_neg_cos by lra. unfold lnV.
      set (k' := times3 (-1) k). set (t' := 2 * PI - t).
      assert (Es : sin (t' / 2) = sin (t / 2)).
      { unfold t'. replace ((2 * PI - t) / 2) with (PI - t / 2) by field. apply sin_PI_x. }
      assert (Ec : cos (t' / 2) = - cos (t / 2)).
      { unfold t'. replace ((2 * PI - t) / 2) with (PI - t / 2) by field. rewrite cos_minus, cos_PI, sin_PI. ring. }
      rewrite Es, Ec. unfold t', k'. f_equal; [destruct k, v; tfc; f_equal; field; lra|destruct k; tfc; f_equal; field; lra].
  - left. assert (TP : t < PI).
    { destruct (Req_dec t PI) as [->|]; [|lra]. rewrite cos_PI in C. pose proof tf_eps_pos. lra. }
    pose proof (sin_gt_0 t ltac:(lra) TP) as S0.
    rewrite len_sk by (auto; lra). replace (2 * sin t / 2) with (sin t) by field.
    rewrite atan2_sincos by lra.
    destruct (Rlt_dec _ _) as [B|_]; [apply eps_26 in B; lra|].
    replace (vscale (t / sin t / 2) (times3 (2 * sin t) k)) with (times3 t k) by (destruct k; tfc; f_equal; field; lra).
    f_equal. unfold lnV.
    pose proof (sin_gt_0 (t / 2) ltac:(lra) ltac:(lra)) as SH.
    destruct (double_sc (t / 2)) as (E1 & E2 & SC). replace (2 * (t / 2)) with t in * by field. rewrite E1, E2.
    rewrite E1 in S0.
    assert (CH : cos (t / 2) <> 0) by (intros Z; rewrite Z in S0; lra).
    clear E1 E2 F1 F2 C. revert SC SH CH. generalize (sin (t / 2)) (cos (t / 2)). intros S C SC SH CH.
    assert (Eb : (2 * (2 * S * C) - t * (1 + (1 - 2 * (S * S)))) / (2 * (t * t) * (2 * S * C)) * (t * t) = 1 - C * (t / 2) / S).
    { replace (1 + (1 - 2 * (S * S))) with (2 * C * C) by lra. field. repeat split; lra. }
    set (b := (2 * (2 * S * C) - _) / _) in *. clearbody b.
    set (z := C * (t / 2) / S) in *. clearbody z.
    rewrite skew2_k by exact U. rewrite Eb. destruct k, v; tfc; f_equal; ring.
Qed.

Lemma tfmat_ln_exact k t v F : unit3 k -> t = 0 \/ / 2 ^ 26 <= t <= PI ->
  let L := tfmat_lnv (mkT (axang2rotmat (mkA k t)) v) in
  screw_flow (dxv L) (dxw L) F -> forall p, F 1 p = plus3 v (rodrigues k t p).
Proof.
  intros U T L HF p. pose proof p26_pos. pose proof PI_RGT_0. destruct T as [->|T].
  - unfold L in HF. rewrite axang_zero, tfmat_lnv_ident in HF. cbn [dxv dxw] in HF.
    rewrite (flow_unique _ _ _ _ HF (flow_0_ok v)). unfold flow_0, rodrigues. rewrite sin_0, cos_0. destruct p, v, k. tfc. f_equal; ring.
  - unfold L in HF. destruct (tfmat_lnv_form k t v U T) as [E|E]; rewrite E in HF; cbn [dxv dxw] in HF.
    + apply (ln_flow k t v F); auto; [lra|]. assert (0 < sin (t / 2)) by (apply sin_gt_0; lra). lra.
    + rewrite (ln_flow (times3 (-1) k) (2 * PI - t) v F); auto; [|now apply unit3_neg|lra|].
      * f_equal. pose proof (axang2rotmat_rodrigues (mkA k t) p U) as R1. pose proof (axang2rotmat_rodrigues (mkA (times3 (-1) k) (2 * PI - t)) p (unit3_neg k U)) as R2.
        cbn [axis angle] in R1, R2. rewrite <- R1, <- R2, axang_flip. reflexivity.
      * assert (0 < sin ((2 * PI - t) / 2)) by (apply sin_gt_0; lra). lra.
Qed.

Lemma invsinc_m t : 0 < t <= 1 -> Rabs (invsinc_series2 (t * t) * sin t - t) <= t ^ 7 / 100.
Proof.
  intros H. pose proof (invsinc_series_bound t H) as B. destruct (sin_pos_lower t) as [P1 P2]; [lra|].
  replace (invsinc_series2 (t * t) * sin t - t) with (- ((t / sin t - invsinc_series2 (t * t)) * sin t)) by (field; lra).
  rewrite Rabs_Ropp. replace (t ^ 7 / 100) with (t ^ 6 / 100 * t) by field. apply abs_mul; apply abs_ge0; lra.
Qed.
Lemma pow_small t n : 0 <= t <= 1 -> 0 <= t ^ n <= 1.
Proof. intros H. split; [apply pow_le; lra|]. induction n; cbn; [lra|]. assert (0 <= t ^ n) by (apply pow_le; lra). nra. Qed.
Lemma ser_bounds y : 0 <= y <= 1 -> 0 <= horner3 y (1/3) (1/45) (2/945) <= 1/2.
Proof. intros H. unfold horner3. assert (0 <= y * y <= 1) by nra. split; nra. Qed.

Lemma md_bound h m : 0 < h <= 1 -> Rabs (m - h) <= h ^ 7 / 100 ->
  Rabs (horner3 (h * h) (1/3) (1/45) (2/945) * (m * m) - (1 - cos h * h / sin h)) <= h ^ 6 / 40.
Proof.
  intros H M. pose proof (cot_bound h H) as B. pose proof (ser_bounds (h * h) ltac:(nra)) as S.
  set (I := horner3 (h * h) (1/3) (1/45) (2/945)) in *. set (z := 1 - cos h * h / sin h) in *. clearbody I z.
  replace (I * (m * m) - z) with ((h * h * I - z) + I * ((m - h) * ((m - h) + 2 * h))) by ring.
  pose proof (pow_small h 6 ltac:(lra)) as P6. assert (E7 : h ^ 7 = h ^ 6 * h) by ring.
  assert (P7 : 0 <= h ^ 7 <= h ^ 6) by (rewrite E7; nra).
  apply Rle_trans with (h ^ 6 / 100 + 1 / 2 * (h ^ 7 / 100 * (h ^ 7 / 100 + 2))).
  - apply abs_add; [exact B|]. apply abs_mul; [apply abs_ge0; exact S|]. apply abs_mul; [exact M|]. apply abs_add; [exact M|apply abs_ge0; lra].
  - set (x := h ^ 6) in *. set (y := h ^ 7) in *. clearbody x y. assert (0 <= y * y <= x) by nra. nra.
Qed.

Lemma times3_near k a b e : unit3 k -> Rabs (a - b) <= e -> vnear e (times3 a k) (times3 b k).
Proof.
  intros U H. destruct (unit_comp k U) as (K1 & K2 & K3). destruct k as [x y z]. cbn in *. unfold vnear. cbn.
  assert (G : forall c, Rabs c <= 1 -> Rabs (a * c - b * c) <= e).
  { intros c Hc. replace (a * c - b * c) with ((a - b) * c) by ring. rewrite <- (Rmult_1_r e). apply abs_mul; assumption. }
  auto.
Qed.
Lemma vnear_le a b x y : vnear a x y -> a <= b -> vnear b x y.
Proof. intros (A & B & C) H. repeat split; lra. Qed.

Lemma tfmat_ln_small k t v : unit3 k -> 0 < t < / 2 ^ 26 ->
  let L := tfmat_lnv (mkT (axang2rotmat (mkA k t)) v) in
  vnear (t ^ 6) (dxw L) (times3 t k) /\ vnear (t ^ 6 * len3 v) (dxv L) (lnV k t v).
Proof.
  intros U T L. assert (T1 : t <= 1) by (assert (/ 2 ^ 26 < 1) by (simpl; lra); lra).
  pose proof PI_RGT_0 as PI0. pose proof PI2_1 as PB.
  pose proof (invsinc_m t ltac:(lra)) as Bm.
  destruct (sin_pos_lower t) as [P1 P2]; [lra|].
  destruct (axang_facts k t U) as [F1 F2]. unfold L, tfmat_lnv. cbn [tR tv]. rewrite F1, F2.
  assert (CP : 0 < cos t) by (apply cos_gt_0; lra).
  destruct (Rlt_dec (cos t) _) as [C|_]; [pose proof tf_eps_pos; lra|].
  rewrite len_sk by (auto; lra). replace (2 * sin t / 2) with (sin t) by field. rewrite atan2_sincos by lra.
  destruct (Rlt_dec _ _) as [_|N]; [|exfalso; apply N; apply eps_26; lra].
  set (m := invsinc_series2 (t * t) * sin t) in *.
  replace (vscale (invsinc_series2 (t * t) / 2) (times3 (2 * sin t) k)) with (times3 m k) by (unfold m; destruct k; tfc; f_equal; field).
  cbn [dxv dxw]. clearbody m.
  pose proof (pow_small t 6 ltac:(lra)) as P6. assert (E7 : t ^ 7 = t ^ 6 * t) by ring.
  assert (P7 : 0 <= t ^ 7 <= t ^ 6) by (rewrite E7; nra).
  split; [eapply vnear_le; [apply times3_near; [exact U|exact Bm]|lra]|].
  set (h := t / 2). assert (Hh : 0 < h <= 1) by (unfold h; lra).
  pose proof (cot_bound h Hh) as Bc. pose proof (ser_bounds (h * h) ltac:(nra)) as Sb.
  assert (E6 : h ^ 6 = t ^ 6 / 64) by (unfold h; field). rewrite E6 in Bc.
  assert (EI : horner3 (t * t) (1/12) (1/720) (1/30240) * 4 = horner3 (h * h) (1/3) (1/45) (2/945)) by (unfold horner3, h; field).
  set (b := horner3 (t * t) (1/12) (1/720) (1/30240)) in *. set (I := horner3 (h * h) (1/3) (1/45) (2/945)) in *.
  assert (BD : Rabs (b * (m * m) - (1 - cos h * h / sin h)) <= t ^ 6 / 6).
  { replace (b * (m * m) - (1 - cos h * h / sin h)) with ((h * h * I - (1 - cos h * h / sin h)) + b * ((m - t) * ((m - t) + 2 * t))).
    2:{ rewrite <- EI. unfold h. field. assert (0 < sin (t / 2)) by (apply sin_gt_0; lra). lra. }
    apply Rle_trans with (t ^ 6 / 64 / 100 + 1 / 8 * (t ^ 7 / 100 * (t ^ 7 / 100 + 2))).
    - apply abs_add; [exact Bc|]. apply abs_mul; [apply abs_ge0; lra|]. apply abs_mul; [exact Bm|]. apply abs_add; [exact Bm|apply abs_ge0; lra].
    - set (x := t ^ 6) in *. set (y := t ^ 7) in *. clearbody x y. assert (0 <= y * y <= x) by nra. nra. }
  unfold lnV. fold h. set (z := cos h * h / sin h) in *. clearbody z b.
  replace (t ^ 6 * len3 v) with (6 * (t ^ 6 / 6) * len3 v) by field.
  apply (vnear_comb k v _ _ (h - m / 2) (- (b * (m * m) - (1 - z))) (b * (m * m) - (1 - z))); [exact U|lra| | | |].
  - replace (h - m / 2) with (- (m - t) * (/ 2)) by (unfold h; field). apply Rle_trans with (t ^ 7 / 100 * / 2); [|lra].
    apply abs_mul; [now rewrite Rabs_Ropp|]. rewrite Rabs_right; lra.
  - now rewrite Rabs_Ropp.
  - exact BD.
  - rewrite skew2_k by exact U. unfold h. destruct k, v; tfc; f_equal; field.
Qed.

(** ** Quaternion-translation *)
Definition turn_q (k : V3) (h : R) : Q4 := mkqv (times3 (sin h) k) (cos h).
Lemma turn_rot k h p : unit3 k -> qrot (turn_q k h) p = rodrigues k (2 * h) p.
Proof.
  intros U. rewrite qrot_mrot. replace (turn_q k h) with (axang2quat (mkA k (2 * h))).
  - change (quat2rotmat (axang2quat (mkA k (2 * h)))) with (axang2rotmat2 (mkA k (2 * h))).
    rewrite axang2rotmat2_eq by exact U. now rewrite axang2rotmat_rodrigues.
  - unfold axang2quat, turn_q. cbn [axis angle]. replace (2 * h / 2) with h by field. destruct k. tfc. f_equal; ring.
Qed.
Lemma turn_len k h : unit3 k -> 0 <= h <= PI -> sqrt (vdot (qv (turn_q k h)) (qv (turn_q k h))) = sin h.
Proof.
  intros U H. change (qv (turn_q k h)) with (times3 (sin h) k). rewrite len_ak; [|exact U|apply sin_ge_0; lra].
  apply sqrt_square. apply sin_ge_0; lra.
Qed.

Lemma qutr_lnv_form k h v : unit3 k -> / 2 ^ 26 <= h < PI ->
  qutr_lnv (mkE (turn_q k h) v) = mkDX (times3 (1/2) (lnV k (2 * h) v)) (times3 h k).
Proof.
  intros U H. pose proof p26_pos as P26. pose proof (sin_gt_0 h ltac:(lra) ltac:(lra)) as S0.
  unfold qutr_lnv. cbn [eq ev]. rewrite turn_len by (auto; lra). change (qw (turn_q k h)) with (cos h).
  change (qv (turn_q k h)) with (times3 (sin h) k). rewrite atan2_sincos by lra. rewrite sqrt_eps.
  destruct (Rlt_dec h _) as [L|_]; [lra|]. unfold lnV. replace (2 * h / 2) with h by field.
  f_equal; [destruct k, v; tfc; f_equal; field; lra|destruct k; tfc; f_equal; field; lra].
Qed.

Lemma times3_back (x : V3) : times3 2 (times3 (1/2) x) = x.
Proof. destruct x. tfc. f_equal; field. Qed.

Lemma qutr_ln_exact k h v F : unit3 k -> h = 0 \/ / 2 ^ 26 <= h < PI ->
  let L := qutr_lnv (mkE (turn_q k h) v) in
  screw_flow (times3 2 (dxv L)) (times3 2 (dxw L)) F -> forall p, F 1 p = plus3 v (qrot (turn_q k h) p).
Proof.
  intros U H L HF p. pose proof p26_pos. pose proof PI_RGT_0. rewrite turn_rot by exact U. destruct H as [->|H].
  - assert (E : times3 2 (dxv L) = v /\ times3 2 (dxw L) = zero3).
    { unfold L, qutr_lnv. cbn [eq ev]. rewrite turn_len by (auto; lra). change (qw (turn_q k 0)) with (cos 0).
      change (qv (turn_q k 0)) with (times3 (sin 0) k). rewrite atan2_sincos by lra. rewrite sqrt_eps.
      destruct (Rlt_dec 0 _) as [_|N]; [|lra]. cbn [dxv dxw]. rewrite sin_0. destruct v, k.
      unfold horner3. split; tfc; f_equal; field. }
    destruct E as [E1 E2]. rewrite E1, E2 in HF.
    rewrite (flow_unique _ _ _ _ HF (flow_0_ok v)). unfold flow_0, rodrigues. rewrite Rmult_0_r, sin_0, cos_0. destruct p, v, k. tfc. f_equal; ring.
  - unfold L in HF. rewrite qutr_lnv_form in HF by auto. cbn [dxv dxw] in HF. rewrite times3_back in HF.
    replace (times3 2 (times3 h k)) with (times3 (2 * h) k) in HF by (destruct k; tfc; f_equal; ring).
    apply (ln_flow k (2 * h) v F); auto; [lra|]. replace (2 * h / 2) with h by field.
    pose proof (sin_gt_0 h ltac:(lra) ltac:(lra)). lra.
Qed.

Lemma qutr_ln_small k h v : unit3 k -> 0 < h < / 2 ^ 26 ->
  let L := qutr_lnv (mkE (turn_q k h) v) in
  vnear (h ^ 6) (dxw L) (times3 h k) /\ vnear (h ^ 6 * len3 v) (dxv L) (times3 (1/2) (lnV k (2 * h) v)).
Proof.
  intros U T L. assert (T1 : h <= 1) by (assert (/ 2 ^ 26 < 1) by (simpl; lra); lra).
  pose proof PI_RGT_0 as PI0. pose proof PI2_1 as PB.
  pose proof (invsinc_m h ltac:(lra)) as Bm. pose proof (cot_bound h ltac:(lra)) as Bc.
  pose proof (ser_bounds (h * h) ltac:(nra)) as Sb. pose proof (md_bound h _ ltac:(lra) Bm) as Bd.
  assert (E : L = mkDX (plus3 (times3 (invsinc_series2 (h * h) * sin h / 2) (xprod v k))
      (plus3 (times3 ((1 - h * h * horner3 (h * h) (1/3) (1/45) (2/945)) / 2) v)
        (times3 (horner3 (h * h) (1/3) (1/45) (2/945) * ((invsinc_series2 (h * h) * sin h) * (invsinc_series2 (h * h) * sin h)) / 2 * dot v k) k)))
      (times3 (invsinc_series2 (h * h) * sin h) k)).
  { unfold L, qutr_lnv. cbn [eq ev]. rewrite turn_len by (auto; lra). change (qw (turn_q k h)) with (cos h).
    change (qv (turn_q k h)) with (times3 (sin h) k). rewrite atan2_sincos by lra. rewrite sqrt_eps.
    destruct (Rlt_dec h _) as [_|N]; [|lra].
    f_equal; [destruct k, v; tfc; f_equal; field|destruct k; tfc; f_equal; field]. }
  rewrite E. cbn [dxv dxw]. clear E L.
  set (m := invsinc_series2 (h * h) * sin h) in *. clearbody m.
  set (I := horner3 (h * h) (1/3) (1/45) (2/945)) in *. clearbody I.
  pose proof (pow_small h 6 ltac:(lra)) as P6. assert (E7 : h ^ 7 = h ^ 6 * h) by ring.
  assert (P7 : 0 <= h ^ 7 <= h ^ 6) by (rewrite E7; nra).
  split; [eapply vnear_le; [apply times3_near; [exact U|exact Bm]|lra]|].
  unfold lnV. replace (2 * h / 2) with h by field. set (z := cos h * h / sin h) in *. clearbody z.
  replace (h ^ 6 * len3 v) with (6 * (h ^ 6 / 6) * len3 v) by field.
  apply (vnear_comb k v _ _ ((h - m) / 2) (- (h * h * I - (1 - z)) / 2) ((I * (m * m) - (1 - z)) / 2)); [exact U|lra| | | |].
  - replace ((h - m) / 2) with (- (m - h) * (/ 2)) by field. apply Rle_trans with (h ^ 7 / 100 * / 2); [|lra].
    apply abs_mul; [now rewrite Rabs_Ropp|]. rewrite Rabs_right; lra.
  - unfold Rdiv. apply Rle_trans with (h ^ 6 / 100 * / 2); [|lra]. apply abs_mul; [now rewrite Rabs_Ropp|]. rewrite Rabs_right; lra.
  - unfold Rdiv. apply Rle_trans with (h ^ 6 / 40 * / 2); [|lra]. apply abs_mul; [exact Bd|]. rewrite Rabs_right; lra.
  - destruct k, v; tfc; f_equal; field.
Qed.

(** ** Together *)
Lemma tf_rod k t v p : unit3 k -> tfmat_tf (mkT (axang2rotmat (mkA k t)) v) p = plus3 v (rodrigues k t p).
Proof.
  intros U. rewrite tfmat_tf_eq. cbn [tR tv]. now rewrite (axang2rotmat_rodrigues (mkA k t) p U).
Qed.

Lemma tfmat_ln_exact_all k t v F : unit3 k -> t = 0 \/ / 2 ^ 26 <= t <= PI ->
  let T := mkT (axang2rotmat (mkA k t)) v in
  screw_flow (dxv (tfmat_lnv T)) (dxw (tfmat_lnv T)) F -> forall p, F 1 p = tfmat_tf T p.
Proof. intros U H T HF p. unfold T. rewrite tf_rod by exact U. now apply (tfmat_ln_exact k t v F). Qed.

Lemma tfmat_ln_near_all k t v : unit3 k -> 0 < t < / 2 ^ 26 ->
  let T := mkT (axang2rotmat (mkA k t)) v in
  exists V W, (forall F, screw_flow V W F -> forall p, F 1 p = tfmat_tf T p) /\
    vnear (t ^ 6) (dxw (tfmat_lnv T)) W /\ vnear (t ^ 6 * len3 v) (dxv (tfmat_lnv T)) V.
Proof.
  intros U H T. exists (lnV k t v), (times3 t k). split; [|now apply tfmat_ln_small].
  intros F HF p. unfold T. rewrite tf_rod by exact U. apply (ln_flow k t v F); auto; [lra|].
  assert (/ 2 ^ 26 < 1) by (simpl; lra). pose proof PI2_1. assert (0 < sin (t / 2)) by (apply sin_gt_0; lra). lra.
Qed.

Lemma axang_turn k h : axang2quat (mkA k (2 * h)) = turn_q k h.
Proof. unfold axang2quat, turn_q. cbn [axis angle]. replace (2 * h / 2) with h by field. destruct k. tfc. f_equal; ring. Qed.

Lemma qutr_ln_exact_all k h v F : unit3 k -> h = 0 \/ / 2 ^ 26 <= h < PI ->
  let e := mkE (axang2quat (mkA k (2 * h))) v in
  screw_flow (times3 2 (dxv (qutr_lnv e))) (times3 2 (dxw (qutr_lnv e))) F -> forall p, F 1 p = qutr_tf e p.
Proof. intros U H e. unfold e. rewrite axang_turn. intros HF p. rewrite qutr_tf_eq. now apply (qutr_ln_exact k h v F). Qed.

Lemma qutr_ln_near_all k h v : unit3 k -> 0 < h < / 2 ^ 26 ->
  let e := mkE (axang2quat (mkA k (2 * h))) v in
  exists V W, (forall F, screw_flow (times3 2 V) (times3 2 W) F -> forall p, F 1 p = qutr_tf e p) /\
    vnear (h ^ 6) (dxw (qutr_lnv e)) W /\ vnear (h ^ 6 * len3 v) (dxv (qutr_lnv e)) V.
Proof.
  intros U H e. unfold e. rewrite axang_turn. exists (times3 (1/2) (lnV k (2 * h) v)), (times3 h k). split; [|now apply qutr_ln_small].
  intros F HF p. rewrite times3_back in HF.
  replace (times3 2 (times3 h k)) with (times3 (2 * h) k) in HF by (destruct k; tfc; f_equal; ring).
  rewrite qutr_tf_eq. cbn [ev eq]. rewrite turn_rot by exact U. apply (ln_flow k (2 * h) v F); auto; [lra|]. replace (2 * h / 2) with h by field.
  assert (/ 2 ^ 26 < 1) by (simpl; lra). pose proof PI2_1. pose proof (sin_gt_0 h ltac:(lra) ltac:(lra)). lra.
Qed.
