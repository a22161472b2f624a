(** Spherical interpolation: lemmas. *)
From Coq Require Import Reals Lra Lia Nsatz Psatz.
From Verif Require Import TfModel TfSpec TfProofs TfRotmatProofs TfRepProofs TfCalcProofs AtanModel AtanProofs
  TfExpModel TfExpSpec SeriesProofs TfExpProofs TfLogProofs TfScrewProofs TfLnProofs TfSmallProofs.
Open Scope R_scope.

Lemma qdot_dot4 a b : qdot a b = dot4 a b.
Proof. reflexivity. Qed.
Lemma dot4_norm2 a : dot4 a a = norm2 a.
Proof. reflexivity. Qed.
Lemma qnorm_len4 q : qnorm q = len4 q.
Proof. reflexivity. Qed.

(** The angle between two unit quaternions, as computed. *)
Lemma hypangle a b : unitq a -> unitq b ->
  0 <= quhypangle2 a b <= PI /\ cos (quhypangle2 a b) = dot4 a b.
Proof.
  intros Ua Ub. unfold quhypangle2. rewrite (qnorm_len4 (qsub a b)), (qnorm_len4 (qadd a b)).
  set (m := len4 (qsub a b)). set (p := len4 (qadd a b)).
  assert (Hm : m * m = 2 - 2 * dot4 a b).
  { unfold m. rewrite len4_sq. unfold unitq, norm2 in *. destruct a, b; unfold dot4; tfc. lra. }
  assert (Hp : p * p = 2 + 2 * dot4 a b).
  { unfold p. rewrite len4_sq. unfold unitq, norm2 in *. destruct a, b; unfold dot4; tfc. lra. }
  assert (m0 : 0 <= m) by apply len4_nonneg. assert (p0 : 0 <= p) by apply len4_nonneg.
  destruct (atan2_polar p m 2 ltac:(lra) ltac:(lra)) as [C S].
  destruct (atan2_bound m p) as [B1 B2]. set (x := atan2 m p) in *.
  assert (C0 : 0 <= cos x) by lra. assert (S0 : 0 <= sin x) by lra.
  pose proof PI_RGT_0.
  assert (X0 : 0 <= x). { destruct (Rle_lt_dec 0 x); [auto|]. exfalso. 
    assert (sin x < 0). { apply sin_lt_0_var; lra. } lra. }
  assert (X1 : x <= PI / 2). { destruct (Rle_lt_dec x (PI / 2)); [auto|]. exfalso.
    assert (cos x < 0). { apply cos_lt_0; lra. } lra. }
  split; [split; lra|]. rewrite cos_2a_cos.
  assert (E : 4 * (cos x * cos x) = p * p) by (rewrite <- C; ring).
  lra.
Qed.

Lemma hyp_flip a b : dot4 a (scale4 (-1) b) = - dot4 a b.
Proof. destruct a, b; unfold dot4, scale4; cbn; ring. Qed.
Lemma scale_unit b : unitq b -> unitq (scale4 (-1) b).
Proof. unfold unitq, scale4. destruct b; tfc. lra. Qed.

Lemma ortho_exists q : unitq q -> exists e, norm2 e = 1 /\ dot4 q e = 0.
Proof.
  intros U. destruct q as [x y z w]. exists (mkQ (-y) x (-w) z). unfold dot4, unitq in *. tfc. split; [lra|ring].
Qed.

(** The second end point, taken the short way round, and the angle used. *)
Definition short_end (q1 q2 : Q4) : Q4 := if Rlt_dec (dot4 q1 q2) 0 then scale4 (-1) q2 else q2.
Definition slerp_angle (q1 q2 : Q4) : R := fst (fst (qslerp_param q1 q2)).

Lemma slerp_param q1 q2 : unitq q1 -> unitq q2 ->
  let th := slerp_angle q1 q2 in
  0 <= th <= PI / 2 /\ cos th = dot4 q1 (short_end q1 q2) /\ unitq (short_end q1 q2) /\
  forall tau, qslerp tau q1 q2 =
    if Rlt_dec 0 th then plus4 (scale4 (sin (th - tau * th) / sin th) q1) (scale4 (sin (tau * th) / sin th) (short_end q1 q2))
    else q1.
Proof.
  intros U1 U2. unfold slerp_angle, qslerp, qslerp_param. destruct (hypangle q1 q2 U1 U2) as [B C].
  rewrite (Rabs_right (quhypangle2 q1 q2)) by lra. set (h := quhypangle2 q1 q2) in *. clearbody h.
  assert (HS : forall a b x, qadd (qscal q1 a) (qscal x b) = plus4 (scale4 a q1) (scale4 b x)).
  { intros. destruct q1, x; unfold plus4, scale4; tfc; f_equal; ring. }
  unfold short_end. destruct (Rgt_dec h (PI / 2)) as [G|G]; cbn [fst snd].
  - assert (Cn : cos h < 0) by (apply cos_lt_0; lra).
    destruct (Rlt_dec (dot4 q1 q2) 0) as [_|N]; [|lra].
    split; [lra|]. split; [rewrite hyp_flip, <- C; rewrite cos_minus, cos_PI, sin_PI; ring|].
    split; [now apply scale_unit|]. intros tau. unfold qslerp_eval.
    rewrite (Rabs_right (PI - h)) by lra.
    destruct (Rlt_dec 0 (PI - h)) as [P|P]; [|reflexivity].
    rewrite HS. assert (E : sin h = sin (PI - h)) by (symmetry; apply sin_PI_x).
    rewrite E. assert (S0 : 0 < sin (PI - h)) by (apply sin_gt_0; lra). set (s := sin (PI - h)) in *. clearbody s.
    destruct q1, q2; unfold plus4, scale4; cbn; f_equal; field; lra.
  - assert (Cn : 0 <= cos h) by (apply cos_ge_0; lra).
    destruct (Rlt_dec (dot4 q1 q2) 0) as [L|_]; [lra|].
    split; [lra|]. split; [lra|]. split; [auto|]. intros tau. unfold qslerp_eval.
    rewrite (Rabs_right h) by lra.
    destruct (Rlt_dec 0 h) as [P|P]; [|reflexivity]. apply HS.
Qed.

Lemma eq_of_dot1 a b : unitq a -> unitq b -> dot4 a b = 1 -> a = b.
Proof.
  intros Ua Ub D.
  assert (N : norm2 (qsub a b) = 0).
  { unfold unitq, norm2, dot4 in *. destruct a, b; tfc. lra. }
  destruct a as [a1 a2 a3 a4], b as [b1 b2 b3 b4]. tfc.
  assert (H : forall x y : R, 0 <= (x - y) * (x - y)) by (intros; apply Rle_0_sqr).
  assert (H0 : forall x y : R, (x - y) * (x - y) <= 0 -> x = y).
  { intros x y L. apply Rminus_diag_uniq, Rsqr_0_uniq. pose proof (H x y). unfold Rsqr. lra. }
  pose proof (H a1 b1); pose proof (H a2 b2); pose proof (H a3 b3); pose proof (H a4 b4).
  f_equal; apply H0; lra.
Qed.

Lemma slerp_arc q1 q2 tau : unitq q1 -> unitq q2 ->
  on_arc q1 (short_end q1 q2) (slerp_angle q1 q2) tau (qslerp tau q1 q2).
Proof.
  intros U1 U2. destruct (slerp_param q1 q2 U1 U2) as (B & C & U & Q). rewrite Q.
  set (th := slerp_angle q1 q2) in *. set (q := short_end q1 q2) in *. clearbody th q. clear Q.
  destruct (Rlt_dec 0 th) as [P|P].
  - assert (S0 : 0 < sin th) by (apply sin_gt_0; pose proof PI_RGT_0; lra).
    pose proof (sin2_cos2 th) as SC. unfold Rsqr in SC.
    exists (scale4 (/ sin th) (plus4 q (scale4 (- cos th) q1))). repeat split.
    + transitivity ((norm2 q - 2 * cos th * dot4 q1 q + cos th * cos th * norm2 q1) / (sin th * sin th)).
      { destruct q, q1; unfold norm2, dot4, scale4, plus4; cbn; field; lra. }
      rewrite U, U1, <- C. replace (1 - 2 * cos th * cos th + cos th * cos th * 1) with (sin th * sin th) by lra. field. lra.
    + transitivity ((dot4 q1 q - cos th * norm2 q1) / sin th).
      { destruct q, q1; unfold norm2, dot4, scale4, plus4; cbn; field; lra. }
      rewrite U1, <- C. field. lra.
    + destruct q, q1; unfold scale4, plus4; cbn; f_equal; field; lra.
    + rewrite sin_minus. destruct q, q1; unfold scale4, plus4; cbn; f_equal; field; lra.
  - assert (th = 0) by lra. subst th. rewrite cos_0 in C.
    assert (E : q = q1) by (symmetry; apply eq_of_dot1; auto). subst q.
    destruct (ortho_exists q1 U1) as (e & E1 & E2). exists e. repeat split; auto;
    rewrite ?Rmult_0_r, ?cos_0, ?sin_0; destruct q1, e; unfold scale4, plus4; cbn; f_equal; ring.
Qed.

(** Consequences of lying on the arc. *)
Lemma arc_unit p q th tau r : unitq p -> on_arc p q th tau r -> unitq r.
Proof.
  intros U (e & E1 & E2 & _ & ->). pose proof (sin2_cos2 (tau * th)) as SC. unfold Rsqr in SC.
  revert SC. generalize (sin (tau * th)) (cos (tau * th)). intros S C SC. unfold unitq in *.
  transitivity (C * C * norm2 p + 2 * C * S * dot4 p e + S * S * norm2 e).
  { destruct p, e; unfold norm2, dot4, scale4, plus4; cbn; ring. }
  rewrite U, E1, E2. lra.
Qed.
Lemma arc_0 p q th r : on_arc p q th 0 r -> r = p.
Proof.
  intros (e & _ & _ & _ & ->). rewrite Rmult_0_l, cos_0, sin_0. destruct p, e; unfold scale4, plus4; cbn; f_equal; ring.
Qed.
Lemma arc_1 p q th r : on_arc p q th 1 r -> r = q.
Proof. intros (e & _ & _ & -> & ->). now rewrite Rmult_1_l. Qed.

Lemma slerp_0 q1 q2 : unitq q1 -> unitq q2 -> qslerp 0 q1 q2 = q1.
Proof. intros U1 U2. eapply arc_0. now apply slerp_arc. Qed.
Lemma slerp_1 q1 q2 : unitq q1 -> unitq q2 -> qslerp 1 q1 q2 = short_end q1 q2.
Proof. intros U1 U2. eapply arc_1. now apply slerp_arc. Qed.
Lemma slerp_unit tau q1 q2 : unitq q1 -> unitq q2 -> unitq (qslerp tau q1 q2).
Proof. intros U1 U2. eapply arc_unit; [exact U1|]. now apply slerp_arc. Qed.

(** Constant rate: the angle between the results at s and t is (t - s) theta. *)
Lemma slerp_rate q1 q2 s t : unitq q1 -> unitq q2 ->
  dot4 (qslerp s q1 q2) (qslerp t q1 q2) = cos ((t - s) * slerp_angle q1 q2).
Proof.
  intros U1 U2. destruct (slerp_param q1 q2 U1 U2) as (B & C & U & Q). rewrite !Q.
  set (th := slerp_angle q1 q2) in *. set (q := short_end q1 q2) in *. clearbody th q. clear Q.
  destruct (Rlt_dec 0 th) as [P|P].
  - assert (S0 : 0 < sin th) by (apply sin_gt_0; pose proof PI_RGT_0; lra).
    pose proof (sin2_cos2 th) as SC. unfold Rsqr in SC.
    rewrite !sin_minus. replace ((t - s) * th) with (t * th - s * th) by ring. rewrite cos_minus.
    set (S := sin th) in *. set (K := cos th) in *.
    pose proof (sin2_cos2 (s * th)) as SC1. pose proof (sin2_cos2 (t * th)) as SC2. unfold Rsqr in *.
    revert SC1 SC2. generalize (sin (s * th)) (cos (s * th)) (sin (t * th)) (cos (t * th)). intros a b c d SC1 SC2.
    transitivity (((S * b - K * a) * (S * d - K * c) * norm2 q1 + ((S * b - K * a) * c + a * (S * d - K * c)) * dot4 q1 q + a * c * norm2 q) / (S * S)).
    { destruct q, q1; unfold norm2, dot4, scale4, plus4; cbn. field. lra. }
    rewrite U1, U, <- C.
    assert (E : (S * b - K * a) * (S * d - K * c) * 1 + ((S * b - K * a) * c + a * (S * d - K * c)) * K + a * c * 1 = (d * b + c * a) * (S * S)).
    { assert (K * K = 1 - S * S) by lra. nsatz. }
    rewrite E. field. lra.
  - assert (th = 0) by lra. subst th. rewrite Rmult_0_r, cos_0, dot4_norm2. exact U1.
Qed.

(** ** Derivative with respect to the parameter *)
Lemma dpl_sin_lin c b t : derivable_pt_lim (fun s => sin (c * s + b)) t (c * cos (c * t + b)).
Proof.
  assert (L : derivable_pt_lim (fun s => c * s + b) t c).
  { eapply dpl_eq; [|apply dpl_plus; [apply dpl_mult; [apply dpl_const|apply dpl_id]|apply dpl_const]]. cbv beta; ring. }
  eapply dpl_eq; [|apply (derivable_pt_lim_comp (fun s => c * s + b) sin); [exact L|apply derivable_pt_lim_sin]]. ring.
Qed.
Lemma slerp_comb_deriv th x y u du t : derivable_pt_lim u t du ->
  derivable_pt_lim (fun s => sin (th - u s * th) * x + sin (u s * th) * y) t
    (du * th * (- cos (th - u t * th) * x + cos (u t * th) * y)).
Proof.
  intros Hu.
  assert (A : derivable_pt_lim (fun s => u s * th) t (du * th)).
  { eapply dpl_eq; [|apply dpl_mult; [exact Hu|apply dpl_const]]. cbv beta; ring. }
  assert (B : derivable_pt_lim (fun s => th - u s * th) t (- (du * th))).
  { eapply dpl_eq; [|apply dpl_minus; [apply dpl_const|exact A]]. ring. }
  eapply dpl_eq; [|apply dpl_plus; apply dpl_mult;
    [apply (derivable_pt_lim_comp (fun s => th - u s * th) sin); [exact B|apply derivable_pt_lim_sin]|apply dpl_const
    |apply (derivable_pt_lim_comp (fun s => u s * th) sin); [exact A|apply derivable_pt_lim_sin]|apply dpl_const]].
  cbv beta. ring.
Qed.

Lemma slerp_deriv_gen q1 q2 u du t : unitq q1 -> unitq q2 -> derivable_pt_lim u t du ->
  let th := slerp_angle q1 q2 in 0 < th ->
  qderiv (fun s => qslerp (u s) q1 q2) t
    (plus4 (scale4 (- (du * th * cos (th - u t * th)) / sin th) q1) (scale4 (du * th * cos (u t * th) / sin th) (short_end q1 q2))).
Proof.
  intros U1 U2 Hu th P. destruct (slerp_param q1 q2 U1 U2) as (B & C & U & Q). fold th in B, C, Q.
  assert (S0 : 0 < sin th) by (apply sin_gt_0; pose proof PI_RGT_0; lra).
  clearbody th. set (q := short_end q1 q2) in *. clearbody q.
  assert (X : forall s, qslerp (u s) q1 q2 = plus4 (scale4 (sin (th - u s * th) / sin th) q1) (scale4 (sin (u s * th) / sin th) q)).
  { intros. rewrite Q. destruct (Rlt_dec 0 th); [reflexivity|lra]. }
  eapply qderiv_ext; [intros s; symmetry; apply X|]. destruct q1 as [a1 a2 a3 a4], q as [b1 b2 b3 b4].
  unfold qderiv, plus4, scale4; cbn [qx qy qz qw].
  assert (G : forall a b, derivable_pt_lim (fun s => sin (th - u s * th) / sin th * a + sin (u s * th) / sin th * b) t
    (- (du * th * cos (th - u t * th)) / sin th * a + du * th * cos (u t * th) / sin th * b)).
  { intros a b. eapply dpl_ext; [|eapply dpl_eq; [|apply (slerp_comb_deriv th (a / sin th) (b / sin th) u du t Hu)]];
    [intros s; cbv beta|]; field; lra. }
  repeat split; apply G.
Qed.

Lemma sinc_exact t : / 2 ^ 13 <= t -> sinc t = sin t / t.
Proof.
  intros H. pose proof p13_pos. unfold sinc. rewrite sqrt_sqrt_eps, Rabs_right by lra.
  destruct (Rlt_dec _ _); [lra|reflexivity].
Qed.
Lemma sinc_0 : sinc 0 = 1.
Proof.
  pose proof p13_pos. unfold sinc. rewrite sqrt_sqrt_eps, Rabs_R0.
  destruct (Rlt_dec _ _); [|lra]. unfold sinc_series, sinc_series2, horner3. ring.
Qed.

Lemma qslerpdiff_form tau q1 q2 : unitq q1 -> unitq q2 -> let th := slerp_angle q1 q2 in
  qslerpdiff tau q1 q2 = plus4 (scale4 (- cos (th - tau * th) / sinc th) q1) (scale4 (cos (tau * th) / sinc th) (short_end q1 q2)).
Proof.
  intros U1 U2. unfold slerp_angle, qslerpdiff, qslerp_param. destruct (hypangle q1 q2 U1 U2) as [B C].
  rewrite (Rabs_right (quhypangle2 q1 q2)) by lra. set (h := quhypangle2 q1 q2) in *. clearbody h.
  assert (HS : forall a b x, qadd (qscal q1 a) (qscal x b) = plus4 (scale4 a q1) (scale4 b x)).
  { intros. destruct q1, x; unfold plus4, scale4; tfc; f_equal; ring. }
  unfold short_end. destruct (Rgt_dec h (PI / 2)) as [G|G]; cbn [fst snd].
  - assert (Cn : cos h < 0) by (apply cos_lt_0; lra).
    destruct (Rlt_dec (dot4 q1 q2) 0) as [_|N]; [|lra]. rewrite HS. f_equal.
    destruct q2; unfold scale4; cbn. unfold Rdiv. rewrite Rinv_opp. f_equal; ring.
  - assert (Cn : 0 <= cos h) by (apply cos_ge_0; lra).
    destruct (Rlt_dec (dot4 q1 q2) 0) as [L|_]; [lra|]. apply HS.
Qed.

Lemma qslerpdiff_ok tau q1 q2 : unitq q1 -> unitq q2 ->
  slerp_angle q1 q2 = 0 \/ / 2 ^ 13 <= slerp_angle q1 q2 ->
  qderiv (fun s => qslerp s q1 q2) tau (qslerpdiff tau q1 q2).
Proof.
  intros U1 U2 [Z|H].
  - rewrite qslerpdiff_form by auto. rewrite Z, Rmult_0_r, Rminus_0_r, cos_0, sinc_0.
    destruct (slerp_param q1 q2 U1 U2) as (B & C & U & Q). rewrite Z, cos_0 in C.
    rewrite <- (eq_of_dot1 _ _ U1 U) by auto.
    eapply qderiv_ext; [intros s; symmetry; rewrite Q, Z; destruct (Rlt_dec 0 0); [lra|reflexivity]|].
    destruct q1 as [a1 a2 a3 a4]; unfold qderiv, plus4, scale4; cbn [qx qy qz qw].
    repeat split; (eapply dpl_eq; [|apply dpl_const]); field.
  - pose proof p13_pos.
    pose proof (slerp_deriv_gen q1 q2 (fun s => s) 1 tau U1 U2 (dpl_id tau) ltac:(lra)) as D. cbv beta in D.
    destruct (slerp_param q1 q2 U1 U2) as (B & _).
    assert (0 < sin (slerp_angle q1 q2)) by (apply sin_gt_0; pose proof PI_RGT_0; lra).
    rewrite qslerpdiff_form, sinc_exact by auto. cbv zeta in D.
    match goal with D : qderiv _ _ ?x |- qderiv _ _ ?y => replace y with x; [exact D|] end.
    generalize (short_end q1 q2). intros q. destruct q, q1; unfold plus4, scale4; cbn. f_equal; field; lra.
Qed.

(** ** Chain derivative *)
Lemma chaindiff_fixed u du t q1 q2 : unitq q1 -> unitq q2 -> derivable_pt_lim u t du ->
  fst (qslerpchaindiff (u t) du q1 (mkQ 0 0 0 0) q2 (mkQ 0 0 0 0)) = qslerp (u t) q1 q2 /\
  qderiv (fun s => qslerp (u s) q1 q2) t (snd (qslerpchaindiff (u t) du q1 (mkQ 0 0 0 0) q2 (mkQ 0 0 0 0))).
Proof.
  intros U1 U2 Hu. destruct (slerp_param q1 q2 U1 U2) as (B & C & U & Q).
  unfold qslerpchaindiff.
  assert (PE : qslerp_param q1 q2 = (slerp_angle q1 q2, sin (slerp_angle q1 q2),
     if Rlt_dec (dot4 q1 q2) 0 then - sin (slerp_angle q1 q2) else sin (slerp_angle q1 q2))).
  { unfold slerp_angle, qslerp_param. destruct (hypangle q1 q2 U1 U2) as [B' C'].
    rewrite (Rabs_right (quhypangle2 q1 q2)) by lra. set (h := quhypangle2 q1 q2) in *. clearbody h.
    destruct (Rgt_dec h (PI / 2)) as [G|G]; cbn [fst snd].
    - assert (Cn : cos h < 0) by (apply cos_lt_0; lra).
      destruct (Rlt_dec (dot4 q1 q2) 0) as [_|N]; [|lra]. now rewrite sin_PI_x.
    - assert (Cn : 0 <= cos h) by (apply cos_ge_0; lra).
      destruct (Rlt_dec (dot4 q1 q2) 0) as [L|_]; [lra|]. reflexivity. }
  rewrite PE. set (th := slerp_angle q1 q2) in *.
  destruct (Req_EM_T th 0) as [Z|N]; cbn [fst snd].
  - split.
    + rewrite Q. destruct (Rlt_dec 0 th); [lra|reflexivity].
    + eapply qderiv_ext; [intros s; symmetry; rewrite Q; destruct (Rlt_dec 0 th); [exfalso; lra|reflexivity]|].
      repeat split; apply dpl_const.
  - assert (P : 0 < th) by lra.
    assert (S0 : 0 < sin th) by (apply sin_gt_0; pose proof PI_RGT_0; lra).
    replace ((1 - u t) * th) with (th - u t * th) by ring.
    split.
    + rewrite Q. destruct (Rlt_dec 0 th); [|lra]. unfold short_end.
      destruct (Rlt_dec (dot4 q1 q2) 0); destruct q1, q2; unfold plus4, scale4; tfc; f_equal; field; lra.
    + pose proof (slerp_deriv_gen q1 q2 u du t U1 U2 Hu P) as D. cbv zeta in D. fold th in D.
      replace (qdot q1 (mkQ 0 0 0 0) + qdot (mkQ 0 0 0 0) q2) with 0 by (destruct q1, q2; tfc; ring).
      replace (0 / cos th) with 0 by (unfold Rdiv; ring).
      match goal with D : qderiv _ _ ?x |- qderiv _ _ ?y => replace y with x; [exact D|] end.
      unfold short_end. destruct (Rlt_dec (dot4 q1 q2) 0); destruct q1, q2; unfold plus4, scale4; tfc; f_equal; field; lra.
Qed.

Lemma dpl_loc f g t d a b : a < t < b -> (forall s, a < s < b -> f s = g s) ->
  derivable_pt_lim f t d -> derivable_pt_lim g t d.
Proof.
  intros I E H eps He. destruct (H eps He) as [del Hd].
  assert (P : 0 < Rmin del (Rmin (t - a) (b - t))).
  { apply Rmin_pos; [apply cond_pos|apply Rmin_pos; lra]. }
  exists (mkposreal _ P). intros h Hh Hl. cbn in Hl.
  assert (Rabs h < del) by (eapply Rlt_le_trans; [exact Hl|apply Rmin_l]).
  assert (Rabs h < Rmin (t - a) (b - t)) by (eapply Rlt_le_trans; [exact Hl|apply Rmin_r]).
  assert (Rabs h < t - a) by (eapply Rlt_le_trans; [exact H1|apply Rmin_l]).
  assert (Rabs h < b - t) by (eapply Rlt_le_trans; [exact H1|apply Rmin_r]).
  assert (- (t - a) < h < b - t). { unfold Rabs in *. destruct (Rcase_abs h); lra. }
  rewrite <- !E by lra. now apply Hd.
Qed.

(** q1 = 1 fixed, q2(t) turning about x: half way is the half-angle rotation. *)
Definition turn_x (t : R) : Q4 := mkQ (sin t) 0 0 (cos t).
Lemma turn_x_unit t : unitq (turn_x t).
Proof. unfold unitq, turn_x, norm2; cbn. pose proof (sin2_cos2 t) as Q. unfold Rsqr in Q. lra. Qed.
Lemma turn_angle t : 0 <= t <= PI / 2 -> slerp_angle qident (turn_x t) = t.
Proof.
  intros T. pose proof PI_RGT_0. destruct (slerp_param qident (turn_x t) unitq_ident (turn_x_unit t)) as (B & C & _).
  assert (D : dot4 qident (turn_x t) = cos t) by (unfold dot4, qident, turn_x; cbn; ring).
  assert (0 <= cos t) by (apply cos_ge_0; lra).
  unfold short_end in C. rewrite D in C. destruct (Rlt_dec _ _); [lra|]. rewrite D in C.
  apply cos_inj; try lra. 
Qed.
Lemma turn_half t : 0 < t < PI / 2 -> qslerp (1 / 2) qident (turn_x t) = turn_x (t / 2).
Proof.
  intros T. pose proof PI_RGT_0. destruct (slerp_param qident (turn_x t) unitq_ident (turn_x_unit t)) as (B & C & _ & Q).
  rewrite Q. rewrite turn_angle in * by lra. destruct (Rlt_dec 0 t); [|lra].
  assert (D : dot4 qident (turn_x t) = cos t) by (unfold dot4, qident, turn_x; cbn; ring).
  assert (0 < cos t) by (apply cos_gt_0; lra).
  unfold short_end. rewrite D. destruct (Rlt_dec (cos t) 0); [lra|].
  replace (t - 1 / 2 * t) with (t / 2) by field. replace (1 / 2 * t) with (t / 2) by field.
  destruct (double_sc (t / 2)) as (E1 & E2 & SC). replace (2 * (t / 2)) with t in * by field.
  assert (S0 : 0 < sin (t / 2)) by (apply sin_gt_0; lra). assert (C0 : 0 < cos (t / 2)) by (apply cos_gt_0; lra).
  assert (E2' : cos t = 2 * (cos (t / 2) * cos (t / 2)) - 1) by lra.
  unfold plus4, scale4, turn_x, qident; cbn. rewrite E2', E1. f_equal; field; split; lra.
Qed.

Lemma chaindiff_wrong :
  snd (qslerpchaindiff (1 / 2) 0 qident (mkQ 0 0 0 0) (turn_x (PI / 3)) (mkQ (cos (PI / 3)) 0 0 (- sin (PI / 3)))) <>
  mkQ (cos (PI / 6) / 2) 0 0 (- sin (PI / 6) / 2).
Proof.
  pose proof PI_RGT_0.
  unfold qslerpchaindiff.
  assert (PE : qslerp_param qident (turn_x (PI / 3)) = (PI / 3, sin (PI / 3), sin (PI / 3))).
  { pose proof (turn_angle (PI / 3) ltac:(lra)) as A. unfold slerp_angle, qslerp_param in *.
    destruct (hypangle qident (turn_x (PI / 3)) unitq_ident (turn_x_unit _)) as [B' C'].
    assert (D : dot4 qident (turn_x (PI / 3)) = cos (PI / 3)) by (unfold dot4, qident, turn_x; cbn; ring).
    rewrite D, cos_PI3 in C'.
    rewrite (Rabs_right (quhypangle2 _ _)) in * by lra. set (h := quhypangle2 _ _) in *. clearbody h.
    destruct (Rgt_dec h (PI / 2)) as [G|G]; cbn [fst snd] in A.
    - exfalso. assert (cos h < 0) by (apply cos_lt_0; lra). lra.
    - now rewrite A. }
  rewrite PE. destruct (Req_EM_T (PI / 3) 0) as [Z|_]; [lra|]. cbn [snd].
  replace ((1 - 1 / 2) * (PI / 3)) with (PI / 6) by field. replace (1 / 2 * (PI / 3)) with (PI / 6) by field.
  unfold turn_x, qident. intros E. injection E as E _ _ _. revert E. cbn [qx].
  unfold qdot; cbn [qx qy qz qw]. rewrite sin_PI3, cos_PI3, sin_PI6, cos_PI6.
  assert (S3 : sqrt 3 * sqrt 3 = 3) by (apply sqrt_sqrt; lra).
  assert (S0 : 0 < sqrt 3) by (apply sqrt_lt_R0; lra).
  set (s := sqrt 3) in *. clearbody s. intros E.
  apply (f_equal (fun x => x * (24 * s))) in E.
  match type of E with ?a = ?b => assert (E' : 12 - 6 * (s * s) * s + 12 * s = 6 * (s * s))
    by (transitivity a; [field; lra|rewrite E; field; lra]) end.
  rewrite S3 in E'. lra.
Qed.

Lemma chaindiff_bad : exists q1 q2 dq1 dq2 t u,
  (forall s, unitq (q1 s)) /\ (forall s, unitq (q2 s)) /\ qderiv q1 t dq1 /\ qderiv q2 t dq2 /\
  ~ qderiv (fun s => qslerp u (q1 s) (q2 s)) t (snd (qslerpchaindiff u 0 (q1 t) dq1 (q2 t) dq2)).
Proof.
  exists (fun _ => qident), turn_x, (mkQ 0 0 0 0), (mkQ (cos (PI / 3)) 0 0 (- sin (PI / 3))), (PI / 3), (1 / 2).
  split; [intros; apply unitq_ident|]. split; [apply turn_x_unit|].
  split; [repeat split; apply dpl_const|].
  split. { repeat split; cbn [qx qy qz qw turn_x]; try apply dpl_const; [apply derivable_pt_lim_sin|apply derivable_pt_lim_cos]. }
  intros D. apply chaindiff_wrong. pose proof PI_RGT_0.
  assert (T : qderiv (fun s => turn_x (s / 2)) (PI / 3) (mkQ (cos (PI / 6) / 2) 0 0 (- sin (PI / 6) / 2))).
  { assert (L : derivable_pt_lim (fun s => s / 2) (PI / 3) (/ 2)).
    { eapply dpl_eq; [|apply (dpl_mult (fun s => s) (fun _ => / 2)); [apply dpl_id|apply dpl_const]]. ring. }
    replace (PI / 6) with (PI / 3 / 2) by field.
    repeat split; cbn [qx qy qz qw turn_x]; try apply dpl_const.
    - eapply dpl_eq; [|apply (derivable_pt_lim_comp (fun s => s / 2) sin); [exact L|apply derivable_pt_lim_sin]]. field.
    - eapply dpl_eq; [|apply (derivable_pt_lim_comp (fun s => s / 2) cos); [exact L|apply derivable_pt_lim_cos]]. field. }
  eapply qderiv_uniq; [exact D|].
  destruct T as (T1 & T2 & T3 & T4).
  assert (I : 0 < PI / 3 < PI / 2) by lra.
  repeat split; (eapply dpl_loc; [exact I|intros s Hs; cbv beta; rewrite turn_half by exact Hs; reflexivity|]); assumption.
Qed.

(** ** Statements in specification vocabulary *)
Lemma short_end_cases q1 q2 : let e := short_end q1 q2 in
  (e = q2 \/ e = scale4 (-1) q2) /\ 0 <= dot4 q1 e /\ dot4 q1 e = Rabs (dot4 q1 q2).
Proof.
  unfold short_end. destruct (Rlt_dec (dot4 q1 q2) 0) as [L|L].
  - rewrite hyp_flip, Rabs_left by lra. split; [now right|]. lra.
  - rewrite Rabs_right by lra. split; [now left|]. lra.
Qed.
Lemma slerp_spec q1 q2 : unitq q1 -> unitq q2 -> exists th e,
  0 <= th <= PI / 2 /\ cos th = Rabs (dot4 q1 q2) /\ (e = q2 \/ e = scale4 (-1) q2) /\ 0 <= dot4 q1 e /\
  qslerp 0 q1 q2 = q1 /\ qslerp 1 q1 q2 = e /\
  forall tau, unitq (qslerp tau q1 q2) /\ on_arc q1 e th tau (qslerp tau q1 q2).
Proof.
  intros U1 U2. exists (slerp_angle q1 q2), (short_end q1 q2).
  destruct (slerp_param q1 q2 U1 U2) as (B & C & U & _). destruct (short_end_cases q1 q2) as (S1 & S2 & S3).
  split; [exact B|]. split; [congruence|]. split; [exact S1|]. split; [exact S2|].
  split; [now apply slerp_0|]. split; [now apply slerp_1|].
  intros tau. split; [now apply slerp_unit|now apply slerp_arc].
Qed.
Lemma slerp_angle_of q1 q2 th : unitq q1 -> unitq q2 -> 0 <= th <= PI / 2 -> cos th = Rabs (dot4 q1 q2) ->
  th = slerp_angle q1 q2.
Proof.
  intros U1 U2 B C. destruct (slerp_param q1 q2 U1 U2) as (B' & C' & _ & _).
  destruct (short_end_cases q1 q2) as (_ & _ & S3). pose proof PI_RGT_0.
  apply cos_inj; try lra. 
Qed.
Lemma slerp_rate_spec q1 q2 th s t : unitq q1 -> unitq q2 -> 0 <= th <= PI / 2 -> cos th = Rabs (dot4 q1 q2) ->
  dot4 (qslerp s q1 q2) (qslerp t q1 q2) = cos ((t - s) * th).
Proof. intros U1 U2 B C. rewrite (slerp_angle_of q1 q2 th U1 U2 B C). now apply slerp_rate. Qed.
Lemma slerpdiff_spec q1 q2 th tau : unitq q1 -> unitq q2 -> 0 <= th <= PI / 2 -> cos th = Rabs (dot4 q1 q2) ->
  th = 0 \/ / 2 ^ 13 <= th -> qderiv (fun s => qslerp s q1 q2) tau (qslerpdiff tau q1 q2).
Proof. intros U1 U2 B C T. apply qslerpdiff_ok; auto. rewrite (slerp_angle_of q1 q2 th U1 U2 B C) in T. exact T. Qed.
