(** Box-Muller: radius, inverse, bijection, density. *)
From Coq Require Import Reals Lra Arith.
From Verif Require Import AtanModel AtanProofs BoxModel BoxSpec.
Open Scope R_scope.

Lemma dpl_ext_loc f g t d e : 0 < e -> (forall s, Rabs (s - t) < e -> f s = g s) ->
  derivable_pt_lim f t d -> derivable_pt_lim g t d.
Proof.
  intros He H D eps0 P. destruct (D eps0 P) as [del K].
  assert (M : 0 < Rmin del e) by (apply Rmin_pos; [apply cond_pos|exact He]).
  exists (mkposreal _ M). intros h h0 hd. cbn in hd. rewrite <- H, <- H.
  - apply K; [exact h0|]. eapply Rlt_le_trans; [exact hd|apply Rmin_l].
  - replace (t - t) with 0 by ring. rewrite Rabs_R0. exact He.
  - replace (t + h - t) with h by ring. eapply Rlt_le_trans; [exact hd|apply Rmin_r].
Qed.

Definition rad (x : R) : R := sqrt (-2 * ln x).

Lemma ln_le0 x : 0 < x <= 1 -> ln x <= 0.
Proof.
  intros [H [L| ->]].
  - left. rewrite <- ln_1. apply ln_increasing; assumption.
  - rewrite ln_1. lra.
Qed.

Lemma ln_lt0 x : 0 < x < 1 -> ln x < 0.
Proof. intros [H L]. rewrite <- ln_1. apply ln_increasing; assumption. Qed.

Lemma bm_eq x1 x2 : 0 < x1 <= 1 ->
  box_muller x1 x2 = Some (rad x1 * cos (2 * PI * x2), rad x1 * sin (2 * PI * x2)).
Proof.
  intro H. unfold box_muller, flog. destruct (Rlt_dec 0 x1) as [P|P]; [|exfalso; lra].
  unfold fsqrt. destruct (Rle_dec 0 (-2 * ln x1)) as [Q|Q].
  - reflexivity.
  - exfalso. apply Q. generalize (ln_le0 x1 H). lra.
Qed.

Lemma rad_sq x : 0 < x <= 1 -> rad x * rad x = -2 * ln x.
Proof. intro H. apply sqrt_sqrt. generalize (ln_le0 x H). lra. Qed.

Lemma rad_pos x : 0 < x < 1 -> 0 < rad x.
Proof. intro H. apply sqrt_lt_R0. generalize (ln_lt0 x H). lra. Qed.

Lemma bm_domain_thm x1 x2 : (exists z, box_muller x1 x2 = Some z) <-> 0 < x1 <= 1.
Proof.
  split.
  - intros [z H]. unfold box_muller, flog in H. destruct (Rlt_dec 0 x1) as [P|P]; [|discriminate].
    split; [exact P|]. unfold fsqrt in H. destruct (Rle_dec 0 (-2 * ln x1)) as [Q|Q]; [|discriminate].
    destruct (Rle_dec x1 1) as [L|L]; [exact L|exfalso].
    assert (ln 1 < ln x1) by (apply ln_increasing; lra). rewrite ln_1 in H0. lra.
  - intro H. eexists. apply bm_eq. exact H.
Qed.

Lemma circ a b : (a * cos b) * (a * cos b) + (a * sin b) * (a * sin b) = a * a.
Proof.
  generalize (sin2_cos2 b). unfold Rsqr. intro H.
  transitivity (a * a * (sin b * sin b + cos b * cos b)); [ring|]. rewrite H. ring.
Qed.

Lemma bm_radius_thm x1 x2 z1 z2 : box_muller x1 x2 = Some (z1, z2) ->
  z1 * z1 + z2 * z2 = -2 * ln x1 /\ x1 = exp (- (z1 * z1 + z2 * z2) / 2).
Proof.
  intro E.
  assert (H : 0 < x1 <= 1) by (apply (bm_domain_thm x1 x2); eauto).
  rewrite (bm_eq x1 x2 H) in E. injection E as <- <-. rewrite circ, rad_sq by exact H.
  split; [reflexivity|]. replace (- (-2 * ln x1) / 2) with (ln x1) by field.
  symmetry. apply exp_ln. apply H.
Qed.

Lemma turn_unique a b : 0 < a <= 1 -> 0 < b <= 1 ->
  cos (2 * PI * a) = cos (2 * PI * b) -> sin (2 * PI * a) = sin (2 * PI * b) -> a = b.
Proof.
  intros Ha Hb Hc Hs. assert (P := PI_RGT_0).
  assert (K : forall t, 0 < t <= 1 -> - PI < 2 * PI * t - PI <= PI).
  { intros t Ht. split.
    - assert (0 < 2 * PI * t) by (apply Rmult_lt_0_compat; lra). lra.
    - assert (2 * PI * t <= 2 * PI * 1) by (apply Rmult_le_compat_l; lra). lra. }
  assert (S : forall t, sin (2 * PI * t - PI) = - sin (2 * PI * t)).
  { intro t. rewrite sin_minus, cos_PI, sin_PI. ring. }
  assert (C : forall t, cos (2 * PI * t - PI) = - cos (2 * PI * t)).
  { intro t. rewrite cos_minus, cos_PI, sin_PI. ring. }
  assert (E : 2 * PI * a - PI = 2 * PI * b - PI).
  { rewrite <- (atan2_sincos _ (K a Ha)), <- (atan2_sincos _ (K b Hb)), !S, !C, Hc, Hs. reflexivity. }
  apply (Rmult_eq_reg_l (2 * PI)); lra.
Qed.

Lemma bm_inj_thm x1 x2 y1 y2 :
  0 < x1 < 1 -> 0 < x2 <= 1 -> 0 < y1 < 1 -> 0 < y2 <= 1 ->
  box_muller x1 x2 = box_muller y1 y2 -> x1 = y1 /\ x2 = y2.
Proof.
  intros H1 H2 H3 H4 E.
  destruct (box_muller x1 x2) as [[z1 z2]|] eqn:A.
  2:{ exfalso. rewrite bm_eq in A by lra. discriminate. }
  symmetry in E. generalize (proj2 (bm_radius_thm _ _ _ _ A)) (proj2 (bm_radius_thm _ _ _ _ E)).
  intros X Y. assert (Z : x1 = y1) by congruence. split; [exact Z|]. clear X Y. subst y1.
  rewrite bm_eq in A by lra. rewrite bm_eq in E by lra. rewrite <- A in E.
  injection E as E1 E2. assert (R0 := rad_pos x1 H1).
  apply turn_unique; auto; apply (Rmult_eq_reg_l (rad x1)); lra.
Qed.

Lemma bm_onto_thm z1 z2 : z1 <> 0 \/ z2 <> 0 ->
  exists x1 x2, 0 < x1 < 1 /\ 0 < x2 <= 1 /\ box_muller x1 x2 = Some (z1, z2).
Proof.
  intro N.
  assert (Q : 0 < z1 * z1 + z2 * z2).
  { destruct N as [N|N]; generalize (Rsqr_pos_lt _ N) (Rle_0_sqr z1) (Rle_0_sqr z2);
      unfold Rsqr; lra. }
  set (w := z1 * z1 + z2 * z2) in *.
  assert (E1 : 0 < exp (- w / 2) < 1).
  { split; [apply exp_pos|]. rewrite <- exp_0. apply exp_increasing. lra. }
  assert (Rw : rad (exp (- w / 2)) = sqrt w).
  { unfold rad. rewrite ln_exp. f_equal. field. }
  assert (Sw : 0 < sqrt w) by (apply sqrt_lt_R0; exact Q).
  assert (Ss : z1 * z1 + z2 * z2 = sqrt w * sqrt w).
  { rewrite sqrt_sqrt by lra. reflexivity. }
  destruct (atan2_polar z1 z2 (sqrt w) Sw Ss) as [Pc Ps].
  assert (B := atan2_bound z2 z1). set (t := atan2 z2 z1) in *.
  assert (P := PI_RGT_0).
  exists (exp (- w / 2)).
  exists (if Rlt_dec 0 t then t / (2 * PI) else t / (2 * PI) + 1).
  split; [exact E1|].
  assert (D : forall u, u * / (2 * PI) * (2 * PI) = u) by (intro u; field; lra).
  assert (I2 : 0 < / (2 * PI)) by (apply Rinv_0_lt_compat; lra).
  destruct (Rlt_dec 0 t) as [T|T].
  - split.
    + split.
      * unfold Rdiv. apply Rmult_lt_0_compat; lra.
      * apply (Rmult_le_reg_r (2 * PI)); [lra|]. unfold Rdiv. rewrite D. lra.
    + rewrite bm_eq by lra. rewrite Rw.
      replace (2 * PI * (t / (2 * PI))) with t by (field; lra).
      rewrite Pc, Ps. reflexivity.
  - split.
    + split.
      * apply (Rmult_lt_reg_r (2 * PI)); [lra|]. unfold Rdiv. rewrite Rmult_plus_distr_r, D. lra.
      * apply (Rmult_le_reg_r (2 * PI)); [lra|]. unfold Rdiv. rewrite Rmult_plus_distr_r, D. lra.
    + rewrite bm_eq by lra. rewrite Rw.
      replace (2 * PI * (t / (2 * PI) + 1)) with (t + 2 * PI) by (field; lra).
      rewrite cos_plus, sin_plus, cos_2PI, sin_2PI.
      replace (cos t * 1 - sin t * 0) with (cos t) by ring.
      replace (sin t * 1 + cos t * 0) with (sin t) by ring.
      rewrite Pc, Ps. reflexivity.
Qed.

Lemma dpl_rad x : 0 < x < 1 -> derivable_pt_lim rad x (- / (x * rad x)).
Proof.
  intro H. assert (L := ln_lt0 x H). assert (R0 := rad_pos x H).
  assert (D1 : derivable_pt_lim (fun t => -2 * ln t) x (-2 * / x)).
  { apply (derivable_pt_lim_scal ln (-2) x (/ x)). apply derivable_pt_lim_ln. apply H. }
  assert (D2 : derivable_pt_lim (comp sqrt (fun t => -2 * ln t)) x (/ (2 * sqrt (-2 * ln x)) * (-2 * / x))).
  { apply (derivable_pt_lim_comp (fun t => -2 * ln t) sqrt); [exact D1|].
    apply derivable_pt_lim_sqrt. lra. }
  replace (- / (x * rad x)) with (/ (2 * sqrt (-2 * ln x)) * (-2 * / x)).
  - exact D2.
  - fold (rad x). field. split; lra.
Qed.

Lemma dpl_lin k x : derivable_pt_lim (fun t => k * t) x k.
Proof.
  assert (E := derivable_pt_lim_scal id k x 1 (derivable_pt_lim_id x)).
  rewrite Rmult_1_r in E. exact E.
Qed.

Lemma dpl_lin_cos k x : derivable_pt_lim (fun t => cos (k * t)) x (- sin (k * x) * k).
Proof.
  apply (derivable_pt_lim_comp (fun t => k * t) cos x k).
  - apply dpl_lin.
  - apply derivable_pt_lim_cos.
Qed.

Lemma dpl_lin_sin k x : derivable_pt_lim (fun t => sin (k * t)) x (cos (k * x) * k).
Proof.
  apply (derivable_pt_lim_comp (fun t => k * t) sin x k).
  - apply dpl_lin.
  - apply derivable_pt_lim_sin.
Qed.

Lemma dpl_rscal f c x d : derivable_pt_lim f x d -> derivable_pt_lim (fun t => f t * c) x (c * d).
Proof.
  intro H. apply (dpl_ext_loc (mult_real_fct c f) _ x (c * d) 1); [lra| |].
  - intros s _. unfold mult_real_fct. ring.
  - apply derivable_pt_lim_scal. exact H.
Qed.

Lemma bm_jac x1 x2 : 0 < x1 < 1 ->
  jacobian box_muller x1 x2
    (cos (2 * PI * x2) * (- / (x1 * rad x1))) (rad x1 * (- sin (2 * PI * x2) * (2 * PI)))
    (sin (2 * PI * x2) * (- / (x1 * rad x1))) (rad x1 * (cos (2 * PI * x2) * (2 * PI))).
Proof.
  intro H. set (e := Rmin x1 (1 - x1)).
  assert (He : 0 < e) by (unfold e; apply Rmin_glb_lt; lra).
  assert (Near : forall s, Rabs (s - x1) < e -> 0 < s <= 1).
  { intros s Hs. apply Rabs_def2 in Hs. unfold e in Hs.
    generalize (Rmin_l x1 (1 - x1)) (Rmin_r x1 (1 - x1)). lra. }
  split; [|split; [|split]].
  - apply (dpl_ext_loc (fun t => rad t * cos (2 * PI * x2)) _ x1 _ e He).
    + intros s Hs. rewrite bm_eq by exact (Near s Hs). reflexivity.
    + apply dpl_rscal. apply dpl_rad. exact H.
  - apply (dpl_ext_loc (mult_real_fct (rad x1) (fun t => cos (2 * PI * t))) _ x2 _ 1 Rlt_0_1).
    + intros s _. rewrite bm_eq by lra. reflexivity.
    + apply derivable_pt_lim_scal. apply dpl_lin_cos.
  - apply (dpl_ext_loc (fun t => rad t * sin (2 * PI * x2)) _ x1 _ e He).
    + intros s Hs. rewrite bm_eq by exact (Near s Hs). reflexivity.
    + apply dpl_rscal. apply dpl_rad. exact H.
  - apply (dpl_ext_loc (mult_real_fct (rad x1) (fun t => sin (2 * PI * t))) _ x2 _ 1 Rlt_0_1).
    + intros s _. rewrite bm_eq by lra. reflexivity.
    + apply derivable_pt_lim_scal. apply dpl_lin_sin.
Qed.

Lemma gauss_prod z1 z2 : gauss z1 * gauss z2 = exp (- (z1 * z1 + z2 * z2) / 2) / (2 * PI).
Proof.
  unfold gauss. assert (P := PI_RGT_0).
  assert (S : sqrt (2 * PI) * sqrt (2 * PI) = 2 * PI) by (apply sqrt_sqrt; lra).
  assert (S0 : 0 < sqrt (2 * PI)) by (apply sqrt_lt_R0; lra).
  replace (- (z1 * z1 + z2 * z2) / 2) with (- (z1 * z1) / 2 + - (z2 * z2) / 2) by field.
  rewrite exp_plus. rewrite <- S at 3. field. lra.
Qed.

Lemma bm_density_thm x1 x2 z1 z2 : 0 < x1 < 1 -> box_muller x1 x2 = Some (z1, z2) ->
  exists d11 d12 d21 d22, jacobian box_muller x1 x2 d11 d12 d21 d22 /\
    d11 * d22 - d12 * d21 <> 0 /\
    gauss z1 * gauss z2 = 1 / Rabs (d11 * d22 - d12 * d21).
Proof.
  intros H E. do 4 eexists. split; [apply bm_jac; exact H|].
  assert (P := PI_RGT_0). assert (R0 := rad_pos x1 H).
  assert (D : cos (2 * PI * x2) * (- / (x1 * rad x1)) * (rad x1 * (cos (2 * PI * x2) * (2 * PI)))
     - rad x1 * (- sin (2 * PI * x2) * (2 * PI)) * (sin (2 * PI * x2) * (- / (x1 * rad x1)))
     = - (2 * PI / x1)).
  { transitivity (- (2 * PI / x1) * (Rsqr (sin (2 * PI * x2)) + Rsqr (cos (2 * PI * x2)))).
    - unfold Rsqr. field. split; lra.
    - rewrite sin2_cos2. ring. }
  rewrite D. assert (T : 0 < 2 * PI / x1).
  { unfold Rdiv. apply Rmult_lt_0_compat; [lra|]. apply Rinv_0_lt_compat. apply H. }
  split; [lra|]. rewrite Rabs_Ropp, (Rabs_pos_eq (2 * PI / x1)) by lra.
  rewrite gauss_prod, <- (proj2 (bm_radius_thm _ _ _ _ E)). field. split; lra.
Qed.

Lemma frand_range_thm r m : (0 < m)%nat -> (r <= m)%nat -> 0 <= frand r m <= 1.
Proof.
  intros Hm Hr. unfold frand. apply lt_INR in Hm. apply le_INR in Hr. simpl in Hm.
  assert (0 <= INR r) by apply pos_INR. assert (0 < / INR m) by (apply Rinv_0_lt_compat; lra).
  split.
  - unfold Rdiv. apply Rmult_le_pos; lra.
  - apply (Rmult_le_reg_r (INR m)); [lra|]. unfold Rdiv. rewrite Rmult_assoc, Rinv_l by lra. lra.
Qed.

Lemma frand_ok_thm r m x2 : (0 < r)%nat -> (r <= m)%nat ->
  exists z, box_muller (frand r m) x2 = Some z.
Proof.
  intros H0 H. apply bm_domain_thm.
  assert (Hm : (0 < m)%nat) by (apply Nat.lt_le_trans with r; assumption).
  split; [|apply frand_range_thm; assumption].
  unfold frand, Rdiv. apply Rmult_lt_0_compat; [apply (lt_INR 0); exact H0|].
  apply Rinv_0_lt_compat. apply (lt_INR 0). exact Hm.
Qed.

Lemma frand_bad_thm : ~ (forall r m x2, (0 < m)%nat -> (r <= m)%nat ->
  exists z, box_muller (frand r m) x2 = Some z).
Proof.
  intro H. specialize (H 0%nat 1%nat 0 (le_n _) (le_S _ _ (le_n _))).
  apply bm_domain_thm in H. unfold frand in H. simpl in H. lra.
Qed.

Lemma scores_thm mu sigma : 0 < sigma ->
  (forall z, x2z (z2x z mu sigma) mu sigma = z) /\
  (forall x, z2x (x2z x mu sigma) mu sigma = x) /\
  (forall z, gauss z = gauss2 mu sigma (z2x z mu sigma) * sigma).
Proof.
  intro H. unfold x2z, z2x. split; [|split].
  - intro z. field. lra.
  - intro x. field. lra.
  - intro z. unfold gauss, gauss2.
    assert (P := PI_RGT_0). assert (S0 : 0 < sqrt (2 * PI)) by (apply sqrt_lt_R0; lra).
    replace (- ((z * sigma + mu - mu) * (z * sigma + mu - mu)) / (2 * (sigma * sigma)))
      with (- (z * z) / 2) by (field; lra).
    field. split; lra.
Qed.

Lemma box_example : box_muller 1 (1 / 2) = Some (0, 0) /\
  box_muller (exp (-2)) (1 / 2) = Some (-2, 0) /\ (exists z, box_muller (frand 3 7) (frand 2 7) = Some z).
Proof.
  assert (Q : sin (2 * PI * (1 / 2)) = 0 /\ cos (2 * PI * (1 / 2)) = -1).
  { replace (2 * PI * (1 / 2)) with PI by field. split; [apply sin_PI|apply cos_PI]. }
  destruct Q as [Q1 Q2]. split; [|split].
  - rewrite bm_eq by lra. unfold rad. rewrite ln_1, Rmult_0_r, sqrt_0, !Rmult_0_l. reflexivity.
  - assert (E : 0 < exp (-2) <= 1).
    { split; [apply exp_pos|]. left. rewrite <- exp_0. apply exp_increasing. lra. }
    rewrite bm_eq by exact E. unfold rad. rewrite ln_exp, Q1, Q2.
    replace (-2 * -2) with (2 * 2) by ring. rewrite sqrt_square by lra. f_equal. f_equal; ring.
  - apply frand_ok_thm; [apply Nat.lt_0_succ|]. do 4 apply le_S. apply le_n.
Qed.
