(** Quaternion logarithm against the exponential: lemmas. *)
From Coq Require Import Reals Lra Lia.
From Verif Require Import TfModel TfSpec TfProofs AtanModel AtanProofs TfExpModel TfExpSpec SeriesProofs TfExpProofs.
Open Scope R_scope.

Definition qphi (q : Q4) : R := atan2 (len3 (qv q)) (qw q).

Lemma qln_unfold q : qln q =
  mkqv (vscale (if Rlt_dec (qphi q) (/ 2 ^ 13) then invsinc_series (qphi q) / len4 q
                else qphi q / len3 (qv q)) (qv q)) (ln (len4 q)).
Proof. unfold qln. rewrite sqrt_sqrt_eps. reflexivity. Qed.

Lemma len4_pos_v q : 0 < len3 (qv q) -> 0 < len4 q.
Proof.
  intros H. pose proof (len4_qv q). pose proof (len4_nonneg q) as [P|P]; [exact P|].
  rewrite <- P in *. nra.
Qed.
Lemma len4_pos_w q : 0 < qw q -> 0 < len4 q.
Proof.
  intros H. pose proof (len4_qv q). pose proof (len4_nonneg q) as [P|P]; [exact P|].
  rewrite <- P in *. nra.
Qed.
Lemma qphi_pos q : 0 < len3 (qv q) -> 0 < qphi q < PI.
Proof.
  intros H. pose proof (len4_pos_v q H) as L. destruct (polar q L) as (C & S & B). fold (qphi q) in *.
  split; destruct B as [B1 B2].
  - destruct B1 as [|E]; [assumption|]. rewrite <- E, sin_0 in S. lra.
  - destruct B2 as [|E]; [assumption|]. rewrite E, sin_PI in S. lra.
Qed.

Lemma qln_v0 w : 0 < w -> qln (mkQ 0 0 0 w) = mkQ 0 0 0 (ln w).
Proof.
  intros H. rewrite qln_unfold. unfold mkqv, vscale, qv; cbn [vx vy vz qx qy qz qw].
  replace (len4 (mkQ 0 0 0 w)) with w.
  - f_equal; ring.
  - unfold len4, norm2; cbn [qx qy qz qw].
    replace (0 * 0 + 0 * 0 + 0 * 0 + w * w) with (w * w) by ring. now rewrite sqrt_square by lra.
Qed.
Lemma qexp_v0 w : qexp (mkQ 0 0 0 w) = mkQ 0 0 0 (exp w).
Proof.
  rewrite qexp_qpexp. unfold qpexp, qv, vdot; cbn [vx vy vz qx qy qz qw].
  replace (0 * 0 + 0 * 0 + 0 * 0) with 0 by ring. rewrite sinccos2_0.
  unfold qscal, mkqv, vscale; cbn [vx vy vz qx qy qz qw]. f_equal; ring.
Qed.

(** with v = n sin(phi) k, w = n cos(phi) *)
Lemma qpolar q : 0 < len3 (qv q) -> exists k, unit3 k /\
  q = mkqv (times3 (len4 q * sin (qphi q)) k) (len4 q * cos (qphi q)).
Proof.
  intros H. pose proof (len4_pos_v q H) as L. destruct (polar q L) as (C & S & _). fold (qphi q) in *.
  destruct (direction (qv q)) as (k & U & E). exists k. split; [exact U|].
  rewrite S, C. destruct q as [x y z w]. cbn [qw]. unfold mkqv. rewrite <- E. reflexivity.
Qed.

Lemma qexp_scaled k a w : unit3 k -> 0 <= a ->
  qexp (mkqv (times3 a k) w) =
  mkqv (times3 (exp w * (fst (sinccos2 (a * a)) * a)) k) (exp w * snd (sinccos2 (a * a))).
Proof.
  intros U H. rewrite qexp_qpexp. replace (qv (mkqv (times3 a k) w)) with (times3 a k) by reflexivity.
  rewrite (qpexp_times k a U H). destruct (sinccos2 (a * a)) as [sc c].
  unfold qscal, mkqv, vscale, times3; cbn [vx vy vz qx qy qz qw fst snd]. f_equal; ring.
Qed.

Lemma len3_mkqv k a w : unit3 k -> 0 <= a -> len3 (qv (mkqv (times3 a k) w)) = a.
Proof.
  intros U H. change (qv (mkqv (times3 a k) w)) with (times3 a k).
  rewrite len3_times, (len3_unit k U), Rabs_right by lra. ring.
Qed.

Definition lnfac (q : Q4) : R :=
  if Rlt_dec (qphi q) (/ 2 ^ 13) then invsinc_series (qphi q) * sin (qphi q) else qphi q.
Lemma qln_scaled q k : 0 < len3 (qv q) -> unit3 k ->
  q = mkqv (times3 (len4 q * sin (qphi q)) k) (len4 q * cos (qphi q)) ->
  qln q = mkqv (times3 (lnfac q) k) (ln (len4 q)).
Proof.
  intros H U E. pose proof (len4_pos_v q H) as L. destruct (polar q L) as (_ & S & _). fold (qphi q) in S.
  pose proof (qphi_pos q H) as P. assert (0 < sin (qphi q)) by (apply sin_gt_0; lra).
  rewrite qln_unfold. unfold lnfac. rewrite <- S.
  set (f := qphi q) in *. set (n := len4 q) in *.
  assert (V : qv q = times3 (n * sin f) k) by (rewrite E; reflexivity).
  rewrite V. unfold mkqv, vscale, times3; cbn [vx vy vz]. destruct (Rlt_dec f (/ 2 ^ 13)); f_equal; field; lra.
Qed.

Lemma qexp_qln_exact q : 0 < len3 (vecpart q) -> / 2 ^ 13 <= atan2 (len3 (vecpart q)) (qw q) ->
  qexp (qln q) = q.
Proof.
  change (vecpart q) with (qv q). fold (qphi q). intros H F.
  destruct (qpolar q H) as (k & U & E). rewrite (qln_scaled q k H U E). unfold lnfac.
  pose proof (len4_pos_v q H) as L. pose proof p13_pos as P13.
  destruct (Rlt_dec (qphi q) (/ 2 ^ 13)) as [B|B]; [lra|].
  rewrite qexp_scaled, exp_ln, sinccos2_exact by lra || assumption. cbn [fst snd].
  transitivity (mkqv (times3 (len4 q * sin (qphi q)) k) (len4 q * cos (qphi q))); [|symmetry; exact E].
  f_equal. f_equal. field. lra.
Qed.

Lemma seventh a : 0 <= a -> a < / 2 ^ 13 -> a ^ 7 <= a * tiny.
Proof. intros H B. pose proof (sixth a H B). replace (a ^ 7) with (a * a ^ 6) by ring. nra. Qed.

(** the small-angle logarithm factor *)
Lemma lnfac_small f : 0 < f -> f < / 2 ^ 13 ->
  let g := invsinc_series f * sin f in
  0 < g <= f /\ f - g <= f * (tiny / 100).
Proof.
  intros H B g. pose proof small13. destruct (sin_pos_lower f ltac:(lra)) as [S1 S2].
  destruct (invsinc_series_bound f ltac:(lra)) as [I1 I2]. fold (invsinc_series f) in *.
  pose proof (sixth f ltac:(lra) B) as P6. pose proof tiny_pos.
  assert (E : f - g = sin f * (f / sin f - invsinc_series f)) by (unfold g; field; lra).
  assert (0 <= f - g) by (rewrite E; apply Rmult_le_pos; lra).
  assert (f - g <= f * (tiny / 100)).
  { rewrite E. apply Rle_trans with (sin f * (tiny / 100)); [apply Rmult_le_compat_l; lra|].
    apply Rmult_le_compat_r; lra. }
  assert (0 < g).
  { unfold g. apply Rmult_lt_0_compat; [|lra]. unfold invsinc_series, invsinc_series2, horner3. nra. }
  lra.
Qed.

Lemma qexp_qln_near q : vecpart q <> zero3 \/ 0 < qw q ->
  qnear (len4 q * tiny) (qexp (qln q)) q.
Proof.
  change (vecpart q) with (qv q). intros Hq. pose proof tiny_pos as T.
  destruct (Req_dec (len3 (qv q)) 0) as [Z|Z].
  - apply len3_zero in Z. destruct Hq as [N|W]; [congruence|].
    destruct q as [x y z w]. unfold qv, zero3 in Z. cbn [qx qy qz qw] in *. injection Z as -> -> ->.
    rewrite qln_v0, qexp_v0, exp_ln by assumption. unfold qnear; cbn [qx qy qz qw].
    rewrite !Rminus_diag_eq, Rabs_R0 by reflexivity.
    pose proof (len4_nonneg (mkQ 0 0 0 w)). assert (0 <= len4 (mkQ 0 0 0 w) * tiny) by nra. lra.
  - pose proof (len3_nonneg (qv q)) as NN. assert (H : 0 < len3 (qv q)) by lra.
    pose proof (len4_pos_v q H) as L.
    destruct (Rlt_dec (qphi q) (/ 2 ^ 13)) as [B|B].
    2:{ rewrite qexp_qln_exact; [|exact H|change (/ 2 ^ 13 <= qphi q); lra].
        unfold qnear. rewrite !Rminus_diag_eq, Rabs_R0 by reflexivity.
        assert (0 <= len4 q * tiny) by nra. lra. }
    destruct (qpolar q H) as (k & U & E). rewrite (qln_scaled q k H U E). unfold lnfac.
    destruct (Rlt_dec (qphi q) (/ 2 ^ 13)) as [B'|B']; [|lra].
    pose proof (qphi_pos q H) as [P _]. set (f := qphi q) in *. set (n := len4 q) in *.
    destruct (lnfac_small f P B) as [[G1 G2] G3]. set (g := invsinc_series f * sin f) in *.
    rewrite qexp_scaled, exp_ln by lra || assumption.
    destruct (sinccos2_close g G1) as [[S1 S2] [C1 C2]].
    destruct (sinccos2 (g * g)) as [sc c]. cbn [fst snd] in *.
    pose proof small13 as S13. pose proof p13_pos.
    assert (D : Rabs (sc * g - sin f) <= tiny).
    { replace (sc * g - sin f) with ((sc - sin g / g) * g + (sin g - sin f)) by (field; lra).
      eapply Rle_trans; [apply Rabs_triang|]. rewrite Rabs_mult, (Rabs_right (sc - _)), (Rabs_right g) by lra.
      pose proof (sin_lip g f) as SL. rewrite (Rabs_left1 (g - f)) in SL by lra.
      assert ((sc - sin g / g) * g <= tiny / 5040 * 1) by (apply Rmult_le_compat; lra).
      assert (f * (tiny / 100) <= 1 * (tiny / 100)) by (apply Rmult_le_compat_r; lra). lra. }
    assert (D2 : Rabs (c - cos f) <= tiny).
    { replace (c - cos f) with ((c - cos g) + (cos g - cos f)) by ring.
      eapply Rle_trans; [apply Rabs_triang|]. rewrite (Rabs_right (c - _)) by lra.
      pose proof (cos_lip g f) as SL. rewrite (Rabs_left1 (g - f)) in SL by lra.
      assert (f * (tiny / 100) <= 1 * (tiny / 100)) by (apply Rmult_le_compat_r; lra). lra. }
    rewrite E. unfold qnear, mkqv, times3; cbn [vx vy vz qx qy qz qw].
    destruct (unit_comp k U) as (K1 & K2 & K3).
    assert (Gk : forall t, Rabs t <= 1 -> Rabs (n * (sc * g) * t - n * sin f * t) <= n * tiny).
    { intros t Ht. replace (n * (sc * g) * t - n * sin f * t) with (n * ((sc * g - sin f) * t)) by ring.
      rewrite !Rabs_mult, (Rabs_right n) by lra. apply Rmult_le_compat_l; [lra|].
      replace tiny with (tiny * 1) by ring. apply Rmult_le_compat; try apply Rabs_pos; assumption. }
    repeat split; try (apply Gk; assumption).
    replace (n * c - n * cos f) with (n * (c - cos f)) by ring. rewrite Rabs_mult, (Rabs_right n) by lra.
    apply Rmult_le_compat_l; lra.
Qed.

Lemma qphi_of k n a : unit3 k -> 0 < n -> 0 <= a <= PI ->
  qphi (mkqv (times3 (n * sin a) k) (n * cos a)) = a.
Proof.
  intros U N H. assert (0 <= sin a) by (apply sin_ge_0; lra). unfold qphi.
  rewrite len3_mkqv by (assumption || nra). cbn [mkqv qw].
  apply atan2_pol; [assumption|]. pose proof PI_RGT_0. lra.
Qed.
Lemma len4_of k n a : unit3 k -> 0 < n -> len4 (mkqv (times3 (n * sin a) k) (n * cos a)) = n.
Proof.
  intros U N. unfold len4. replace (norm2 _) with (n * n); [apply sqrt_square; lra|].
  unfold norm2, mkqv, times3; cbn [vx vy vz qx qy qz qw].
  transitivity (n * n * (sin a * sin a * dot k k + cos a * cos a)); [|unfold dot; ring].
  rewrite U. pose proof (sin2_cos2 a) as S2. unfold Rsqr in S2.
  replace (sin a * sin a * 1 + cos a * cos a) with 1 by lra. ring.
Qed.
Lemma qln_qexp_exact x : / 2 ^ 13 <= len3 (vecpart x) < PI -> qln (qexp x) = x.
Proof.
  change (vecpart x) with (qv x). intros [H1 H2]. pose proof p13_pos.
  destruct (direction (qv x)) as (k & U & E). set (a := len3 (qv x)) in *.
  assert (X : x = mkqv (times3 a k) (qw x)) by (rewrite <- E; destruct x; reflexivity).
  rewrite X. rewrite qexp_scaled by (assumption || lra). rewrite sinccos2_exact by lra. cbn [fst snd].
  replace (sin a / a * a) with (sin a) by (field; lra).
  pose proof (exp_pos (qw x)) as P. set (n := exp (qw x)) in *.
  assert (0 < sin a) by (apply sin_gt_0; lra).
  rewrite (qln_scaled _ k).
  - unfold lnfac. rewrite qphi_of, len4_of by (assumption || lra).
    destruct (Rlt_dec a (/ 2 ^ 13)); [lra|]. unfold n. now rewrite ln_exp.
  - rewrite len3_mkqv by (assumption || nra). nra.
  - exact U.
  - rewrite qphi_of, len4_of by (assumption || lra). reflexivity.
Qed.

Lemma lnfac_bounds f g : 0 < f -> g = (if Rlt_dec f (/ 2 ^ 13) then invsinc_series f * sin f else f) ->
  f - f * (tiny / 100) <= g <= f.
Proof.
  intros P ->. pose proof tiny_pos. destruct (Rlt_dec f (/ 2 ^ 13)) as [B|B].
  - destruct (lnfac_small f P B) as [G1 G2]. lra.
  - assert (0 < f * (tiny / 100)) by (apply Rmult_lt_0_compat; lra). lra.
Qed.
Lemma tiny_small : tiny < 1 / 1000000.
Proof. unfold tiny. simpl. lra. Qed.

Lemma ln_le_minus1 x : 0 < x -> ln x <= x - 1.
Proof.
  intros H. pose proof (exp_ineq1_le (ln x)) as E. rewrite exp_ln in E by exact H. lra.
Qed.

Lemma qln_qexp_small k a w : unit3 k -> 0 < a -> a < / 2 ^ 13 ->
  let x := mkqv (times3 a k) w in qnear tiny (qln (qexp x)) x.
Proof.
  intros U Ha B x. unfold x. rewrite qexp_scaled by (assumption || lra).
  destruct (sinccos2_close a Ha) as [[S1 S2] [C1 C2]].
  destruct (sinccos2 (a * a)) as [sc c]. cbn [fst snd] in *.
  pose proof small13 as P13. pose proof tiny_pos as T. pose proof tiny_small as TS.
  destruct (sin_pos_lower a ltac:(lra)) as [L1 L2].
  pose proof (exp_pos w) as Pn. set (n := exp w) in *. set (s := sc * a) in *.
  assert (A1 : 0 <= s - sin a <= a * (tiny / 5040)).
  { replace (s - sin a) with (a * (sc - sin a / a)) by (unfold s; field; lra). split.
    - apply Rmult_le_pos; lra.
    - apply Rmult_le_compat_l; lra. }
  assert (Cpos : 1 / 2 <= cos a <= 1).
  { split; [|apply COS_bound]. destruct (cos_poly a ltac:(lra)) as [CL _].
    assert (a ^ 2 <= 1) by (simpl; nra). assert (0 <= a ^ 4) by (apply pow_le; lra).
    assert (a ^ 6 <= a ^ 4) by (replace (a ^ 6) with (a ^ 4 * a ^ 2) by ring; nra). lra. }
  assert (SP : 0 < s) by lra.
  set (q := mkqv (times3 (n * s) k) (n * c)).
  assert (LV : len3 (qv q) = n * s) by (unfold q; apply len3_mkqv; [exact U|nra]).
  assert (HV : 0 < len3 (qv q)) by (rewrite LV; nra).
  pose proof (len4_pos_v q HV) as PL. destruct (polar q PL) as (PC & PS & _). fold (qphi q) in PC, PS.
  rewrite LV in PS. replace (qw q) with (n * c) in PC by reflexivity.
  rewrite (qln_scaled q k HV U); [|rewrite PC, PS; reflexivity].
  pose proof (qphi_pos q HV) as [F1 F2]. pose proof (lnfac_bounds (qphi q) (lnfac q) F1 eq_refl) as LB.
  pose proof (len4_qv q) as LQ. rewrite LV in LQ. replace (qw q) with (n * c) in LQ by reflexivity.
  set (f := qphi q) in *. set (L := len4 q) in *.
  assert (LL : n / 2 <= L).
  { pose proof (COS_bound f). assert (n * (1/2) <= n * c) by (apply Rmult_le_compat_l; lra). nra. }
  assert (SD : L * sin (f - a) = n * ((s - sin a) * cos a - (c - cos a) * sin a)).
  { rewrite sin_minus. replace (L * (sin f * cos a - cos f * sin a)) with (L * sin f * cos a - L * cos f * sin a) by ring.
    rewrite PC, PS. ring. }
  assert (SB : Rabs (sin (f - a)) <= a * (tiny / 300)).
  { assert (E0 : Rabs ((s - sin a) * cos a - (c - cos a) * sin a) <= a * (tiny / 600)).
    { assert (0 <= (s - sin a) * cos a <= a * (tiny / 5040) * 1) by (split; [apply Rmult_le_pos|apply Rmult_le_compat]; lra).
      assert (0 <= (c - cos a) * sin a <= tiny / 720 * a) by (split; [apply Rmult_le_pos|apply Rmult_le_compat]; lra).
      assert (0 < a * tiny) by nra. apply Rabs_le. split; lra. }
    apply Rmult_le_reg_l with L; [exact PL|]. rewrite <- (Rabs_right L) at 1 by lra. rewrite <- Rabs_mult, SD.
    rewrite Rabs_mult, (Rabs_right n) by lra.
    apply Rle_trans with (n * (a * (tiny / 600))); [apply Rmult_le_compat_l; lra|].
    assert (0 < a * tiny) by nra. nra. }
  assert (FH : f < PI / 2).
  { destruct (Rlt_dec f (PI / 2)) as [|N]; [assumption|]. exfalso.
    assert (cos f <= 0) by (apply cos_le_0; lra). assert (0 < n * c) by nra. nra. }
  pose proof PI_4 as P4. assert (a * tiny < tiny) by nra.
  assert (FA : Rabs (f - a) <= a * (tiny / 150)).
  { destruct (Rle_dec (f - a) 1) as [Q|Q].
    - destruct (Rle_dec 0 (f - a)) as [Z|Z].
      + pose proof (sin_pos_lower (f - a) ltac:(lra)). rewrite Rabs_right in SB by lra. rewrite Rabs_right by lra. lra.
      + pose proof (sin_pos_lower (- (f - a)) ltac:(lra)) as Q2. rewrite sin_neg in Q2.
        rewrite Rabs_left1 in SB by lra. rewrite Rabs_left1 by lra. lra.
    - exfalso. assert (Q3 : sin 1 <= sin (f - a)) by (apply sin_incr_1; pose proof PI2_3_2; lra).
      pose proof (sin_pos_lower 1 ltac:(lra)). rewrite Rabs_right in SB by lra. lra. }
  assert (FA' : Rabs (lnfac q - a) <= tiny).
  { apply Rabs_le. assert (Q := FA). apply Rabs_def2' in Q || unfold Rabs in Q.
    destruct (Rcase_abs (f - a)); assert (f <= 2) by (pose proof PI_4; lra);
      assert (f * (tiny / 100) <= 2 * (tiny / 100)) by (apply Rmult_le_compat_r; lra); split; lra. }
  assert (LN : Rabs (ln L - w) <= tiny).
  { set (r := L / n). assert (Er : L = n * r) by (unfold r; field; lra).
    assert (Pr : 0 < r) by (apply Rmult_lt_0_compat; [lra|apply Rinv_0_lt_compat; lra]).
    assert (R2 : r * r = s * s + c * c).
    { apply Rmult_eq_reg_l with (n * n); [|nra]. rewrite Er in LQ. lra. }
    pose proof (sin2_cos2 a) as SC. unfold Rsqr in SC.
    assert (R2b : 1 <= r * r <= 1 + tiny / 100).
    { rewrite R2. assert (E1 : s * s + c * c - 1 = (s - sin a) * (s + sin a) + (c - cos a) * (c + cos a)) by lra.
      assert (0 <= (s - sin a) * (s + sin a) <= tiny / 5040 * 3).
      { assert (s - sin a <= tiny / 5040) by (assert (a * (tiny / 5040) <= 1 * (tiny / 5040)) by (apply Rmult_le_compat_r; lra); lra).
        split; [apply Rmult_le_pos|apply Rmult_le_compat]; lra. }
      assert (0 <= (c - cos a) * (c + cos a) <= tiny / 720 * 3) by (split; [apply Rmult_le_pos|apply Rmult_le_compat]; lra).
      lra. }
    assert (1 <= r) by nra. assert (r - 1 <= tiny / 100) by nra.
    rewrite Er, ln_mult by lra. unfold n at 1. rewrite ln_exp.
    replace (w + ln r - w) with (ln r) by ring. pose proof (ln_le_minus1 r Pr).
    assert (0 <= ln r). { destruct (Req_dec r 1) as [->|]; [rewrite ln_1; lra|]. left. rewrite <- ln_1. apply ln_increasing; lra. }
    rewrite Rabs_right by lra. lra. }
  unfold qnear, mkqv, times3; cbn [vx vy vz qx qy qz qw].
  destruct (unit_comp k U) as (K1 & K2 & K3).
  assert (Gk : forall t, Rabs t <= 1 -> Rabs (lnfac q * t - a * t) <= tiny).
  { intros t Ht. replace (lnfac q * t - a * t) with ((lnfac q - a) * t) by ring. rewrite Rabs_mult.
    replace tiny with (tiny * 1) by ring. apply Rmult_le_compat; try apply Rabs_pos; assumption. }
  repeat split; try (apply Gk; assumption). exact LN.
Qed.

Lemma qln_qexp_near x : len3 (vecpart x) < PI -> qnear tiny (qln (qexp x)) x.
Proof.
  change (vecpart x) with (qv x). intros H. pose proof tiny_pos as T.
  destruct (direction (qv x)) as (k & U & E). pose proof (len3_nonneg (qv x)) as [P|Z].
  - destruct (Rlt_dec (len3 (qv x)) (/ 2 ^ 13)) as [B|B].
    + assert (X : x = mkqv (times3 (len3 (qv x)) k) (qw x)) by (rewrite <- E; destruct x; reflexivity).
      rewrite X. now apply qln_qexp_small.
    + rewrite qln_qexp_exact by (change (vecpart x) with (qv x); lra).
      unfold qnear. rewrite !Rminus_diag_eq, Rabs_R0 by reflexivity. lra.
  - assert (V : qv x = zero3) by (apply len3_zero; auto). destruct x as [x1 x2 x3 w]. unfold qv, zero3 in V.
    cbn [qx qy qz] in V. injection V as -> -> ->.
    rewrite qexp_v0, qln_v0, ln_exp by apply exp_pos. unfold qnear. rewrite !Rminus_diag_eq, Rabs_R0 by reflexivity. lra.
Qed.
