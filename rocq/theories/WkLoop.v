(** Proportional pose control in closed loop: lemmas. *)
From Coq Require Import Reals Lra Lia Nsatz.
From Verif Require Import TfModel TfSpec AtanModel AtanProofs TfExpModel TfExpSpec TfProofs TfRepProofs TfRotmatProofs TfCalcProofs TfFrameProofs
  SeriesProofs TfExpProofs TfLogProofs TfScrewProofs TfLnProofs TfConvProofs TfLnNear SgSpec SgFkProofs2 SgJacProofs IkModel IkProofs IkSpec IkPose
  WkModel WkSpec WkServo.
Open Scope R_scope.

(** the logarithm undoes the flow *)
Lemma ln_of_flow k a x : unit3 k -> a <> 0 -> sin (a / 2) <> 0 ->
  lnV k a (plus3 (times3 (sin a / a) x) (plus3 (times3 ((1 - cos a) / a) (xprod k x)) (times3 ((1 - sin a / a) * dot k x) k))) = x.
Proof.
  intros U F0 S1. unfold lnV.
  destruct (double_sc (a / 2)) as (E1 & E2 & SC). replace (2 * (a / 2)) with a in * by field. rewrite E1, E2.
  clear E1 E2. revert S1 SC. generalize (sin (a / 2)) (cos (a / 2)). intros S C S1 SC.
  unfold Rdiv. pose proof (inv_mul a F0) as HF. pose proof (inv_mul S S1) as HS.
  pose proof (inv_mul 2 ltac:(lra)) as H2. revert HF HS H2. generalize (/ a) (/ S) (/ 2). intros b T h HF HS H2.
  unfold unit3 in U. clear S1 F0.
  destruct x as [v1 v2 v3], k as [k1 k2 k3]. tfc. f_equal; nsatz.
Qed.

(** ** The pose at fraction s of the way from the reference *)
Section Way.
Context (k : V3) (h : R) (v : V3) (U : unit3 k) (Hh : h = 0 \/ / 2 ^ 26 <= h <= PI / 2).
Let L := qutr_lnv (mkE (turn_q k h) v).
Context (G : R -> V3 -> V3) (HG : screw_flow (times3 2 (dxv L)) (times3 2 (dxw L)) G).
Definition way (s : R) : QV := mkE (turn_q k (h * s)) (G s zero3).

Lemma L_w : dxw L = times3 h k.
Proof.
  pose proof p26_pos. pose proof PI_RGT_0. unfold L. destruct Hh as [Z|Z].
  - rewrite Z. unfold qutr_lnv. cbn [TfModel.eq ev]. rewrite turn_len by (auto; lra). change (qw (turn_q k 0)) with (cos 0).
    change (qv (turn_q k 0)) with (times3 (sin 0) k). rewrite atan2_sincos by lra. rewrite sqrt_eps.
    destruct (Rlt_dec 0 _) as [_|N]; [|lra]. cbn [dxw]. rewrite sin_0. destruct k. tfc. f_equal; ring.
  - rewrite qutr_lnv_form by (auto; lra). reflexivity.
Qed.
Lemma G_form s : h <> 0 -> forall p, G s p = flow_k k (2 * h) (times3 2 (dxv L)) s p.
Proof.
  intros N p. apply (flow_unique _ _ _ _ HG). rewrite L_w. replace (times3 2 (times3 h k)) with (times3 (2 * h) k) by (destruct k; tfc; f_equal; ring).
  apply flow_k_ok; [exact U|lra].
Qed.
Lemma G_zero s : h = 0 -> forall p, G s p = flow_0 (times3 2 (dxv L)) s p.
Proof.
  intros Z p. apply (flow_unique _ _ _ _ HG). rewrite L_w, Z. replace (times3 2 (times3 0 k)) with zero3 by (destruct k; unfold zero3; tfc; f_equal; ring).
  apply flow_0_ok.
Qed.
Lemma rod_zero t : rodrigues k t zero3 = zero3.
Proof. destruct k. unfold rodrigues, zero3. tfc. f_equal; ring. Qed.
Lemma G_rigid s p : G s p = plus3 (G s zero3) (rodrigues k (2 * (h * s)) p).
Proof.
  destruct (Req_dec h 0) as [Z|N].
  - rewrite !(G_zero s Z), Z. unfold flow_0, rodrigues. replace (2 * (0 * s)) with 0 by ring. rewrite sin_0, cos_0.
    destruct p, k, (dxv L). unfold zero3. tfc. f_equal; ring.
  - rewrite !(G_form s N). unfold flow_k. rewrite rod_zero. replace (2 * h * s) with (2 * (h * s)) by ring.
    generalize (rodrigues k (2 * (h * s)) p) (plus3 (times3 (sin (2 * (h * s)) / (2 * h)) (times3 2 (dxv L)))
     (plus3 (times3 ((1 - cos (2 * (h * s))) / (2 * h)) (xprod k (times3 2 (dxv L)))) (times3 ((s - sin (2 * (h * s)) / (2 * h)) * dot k (times3 2 (dxv L))) k))).
    intros [] []. unfold zero3. tfc. f_equal; ring.
Qed.
Lemma way_unit s : unit_qutr (way s).
Proof. unfold unit_qutr, way. cbn [TfModel.eq]. now apply rodrigues_unit_quat. Qed.
Lemma way_tf s p : qutr_tf (way s) p = G s p.
Proof. rewrite qutr_tf_eq, (G_rigid s p). unfold way. cbn [ev TfModel.eq]. now rewrite turn_rot. Qed.

Lemma way_ln s : 0 <= s <= 1 -> h = 0 \/ / 2 ^ 26 <= h * s ->
  qutr_lnv (way s) = mkDX (times3 s (dxv L)) (times3 s (dxw L)).
Proof.
  intros S H. pose proof p26_pos. pose proof PI_RGT_0. rewrite L_w. destruct (Req_dec h 0) as [Z|N].
  - assert (V : G s zero3 = times3 (2 * s) (dxv L)).
    { rewrite (G_zero s Z). unfold flow_0, zero3. destruct (dxv L). tfc. f_equal; ring. }
    unfold way. rewrite V, Z, Rmult_0_l. unfold qutr_lnv. cbn [TfModel.eq ev]. rewrite turn_len by (auto; lra). change (qw (turn_q k 0)) with (cos 0).
    change (qv (turn_q k 0)) with (times3 (sin 0) k). rewrite atan2_sincos by lra. rewrite sqrt_eps.
    destruct (Rlt_dec 0 _) as [_|Q]; [|lra]. rewrite sin_0. unfold horner3. destruct k, (dxv L). tfc. f_equal; f_equal; field.
  - destruct H as [?|H]; [contradiction|]. destruct Hh as [?|Hh']; [contradiction|].
    assert (hs : 0 < h * s <= h) by nra. assert (s0 : s <> 0) by (intros ->; lra).
    assert (S0 : 0 < sin (h * s)) by (apply sin_gt_0; lra).
    unfold way. rewrite qutr_lnv_form by (auto; lra). f_equal; [|destruct k; tfc; f_equal; ring].
    rewrite (G_form s N). unfold flow_k. rewrite rod_zero. replace (2 * h * s) with (2 * (h * s)) by ring.
    set (x := times3 s (dxv L)).
    match goal with |- times3 _ (lnV _ _ ?y) = _ => replace y with (plus3 (times3 (sin (2 * (h * s)) / (2 * (h * s))) (times3 2 x))
      (plus3 (times3 ((1 - cos (2 * (h * s))) / (2 * (h * s))) (xprod k (times3 2 x)))
        (times3 ((1 - sin (2 * (h * s)) / (2 * (h * s))) * dot k (times3 2 x)) k))) end.
    + rewrite ln_of_flow; [|exact U|lra|]. 2:{ replace (2 * (h * s) / 2) with (h * s) by field. lra. }
      destruct x. tfc. f_equal; field.
    + unfold x. destruct k, (dxv L). unfold zero3. tfc. f_equal; field; split; assumption.
Qed.
End Way.

(** ** Closed loop *)
Lemma rot_rodrigues f k t p : rotation_map f -> f (rodrigues k t p) = rodrigues (f k) t (f p).
Proof.
  intros R. unfold rodrigues. rewrite !(rm_add _ R), !(rm_scale _ R), (rm_cross _ R). rewrite <- (rm_dot _ R k p). reflexivity.
Qed.
Lemma rod_neg k t p : unit3 k -> rodrigues (times3 (-1) k) t (rodrigues k t p) = p.
Proof.
  intros U. unfold rodrigues. pose proof (sin2_cos2 t) as SC. unfold Rsqr in SC. revert SC. generalize (sin t) (cos t). intros S C SC.
  unfold unit3 in U. destruct k as [k1 k2 k3], p as [p1 p2 p3]. tfc. f_equal; nsatz.
Qed.

Lemma decay_pos g t : 0 < decay g t.
Proof. apply exp_pos. Qed.
Lemma decay_le g t : 0 < g -> 0 <= t -> decay g t <= 1.
Proof.
  intros G T. unfold decay. rewrite <- exp_0. destruct (Req_dec t 0) as [->|N]; [rewrite Rmult_0_r; lra|].
  left. apply exp_increasing. nra.
Qed.
Lemma decay_deriv g t : derivable_pt_lim (decay g) t (- (g / 2) * decay g t).
Proof.
  unfold decay. assert (D : derivable_pt_lim (fun s => - (g / 2) * s) t (- (g / 2))).
  { eapply dpl_eq; [|apply dpl_mult; [apply dpl_const|apply dpl_id]]. cbv beta. ring. }
  eapply dpl_eq; [|apply (derivable_pt_lim_comp (fun s => - (g / 2) * s) exp); [exact D|apply derivable_pt_lim_exp]].
  ring.
Qed.
Lemma decay_small g e : 0 < g -> 0 < e -> exists T, 0 <= T /\ forall t, T < t -> decay g t < e.
Proof.
  intros G E. exists (Rmax 0 (- 2 / g * ln e)). split; [apply Rmax_l|]. intros t T.
  assert (T' : - 2 / g * ln e < t) by (eapply Rle_lt_trans; [apply Rmax_r|exact T]).
  unfold decay. rewrite <- (exp_ln e E). apply exp_increasing.
  apply Rmult_lt_compat_l with (r := g / 2) in T'; [|lra]. replace (g / 2 * (- 2 / g * ln e)) with (- ln e) in T' by (field; lra). lra.
Qed.

Lemma flow_cont v w F p e : screw_flow v w F -> 0 < e -> exists d, 0 < d /\ forall s, 0 <= s < d -> dist (F s p) p < e.
Proof.
  intros [F0 F1] E. destruct (F1 0 p) as (f1 & f2 & f3).
  assert (C : forall f l, derivable_pt_lim f 0 l -> exists d, 0 < d /\ forall s, 0 <= s < d -> Rabs (f s - f 0) < e / 2).
  { intros f l D. assert (K : continuity_pt f 0) by (apply derivable_continuous_pt; exists l; exact D).
    destruct (K (e / 2) ltac:(lra)) as (d & D0 & Hd). exists d. split; [exact D0|]. intros s [S1 S2].
    destruct (Req_dec s 0) as [->|N].
    - replace (f 0 - f 0) with 0 by ring. rewrite Rabs_R0. lra.
    - apply Hd. split; [split; [exact I|auto]|]. unfold dist. cbn. unfold R_dist. rewrite Rminus_0_r, Rabs_right by lra. exact S2. }
  destruct (C _ _ f1) as (d1 & P1 & H1). destruct (C _ _ f2) as (d2 & P2 & H2). destruct (C _ _ f3) as (d3 & P3 & H3).
  exists (Rmin d1 (Rmin d2 d3)). split; [repeat apply Rmin_glb_lt; assumption|]. intros s [S1 S2].
  assert (Q1 : s < d1) by (eapply Rlt_le_trans; [exact S2|apply Rmin_l]).
  assert (Q2 : s < d2) by (eapply Rlt_le_trans; [exact S2|eapply Rle_trans; [apply Rmin_r|apply Rmin_l]]).
  assert (Q3 : s < d3) by (eapply Rlt_le_trans; [exact S2|eapply Rle_trans; [apply Rmin_r|apply Rmin_r]]).
  specialize (H1 s ltac:(lra)). specialize (H2 s ltac:(lra)). specialize (H3 s ltac:(lra)). rewrite F0 in *.
  unfold IkSpec.dist. rewrite <- (sqrt_square e) by lra. apply sqrt_lt_1_alt. split; [unfold dist2; apply dot_nonneg|].
  unfold dist2, minus3, dot. destruct (F s p) as [a b c], p as [x y z]. tfc. cbn [vx vy vz] in *.
  assert (Q : forall u, Rabs u < e / 2 -> u * u < e / 2 * (e / 2)).
  { intros u Hu. apply Rabs_def2 in Hu. nra. }
  apply Q in H1, H2, H3. nra.
Qed.

Lemma rodrigues_axis_neg k t : unit3 k -> rodrigues k t (times3 (-1) k) = times3 (-1) k.
Proof.
  intros U. unfold unit3 in U. unfold rodrigues. generalize (cos t) (sin t). intros C S. destruct k as [k1 k2 k3]. tfc. f_equal; nsatz.
Qed.
Lemma mulc_way Er P : unit_qutr Er -> unit_qutr P -> qutr_mulc (qutr_mul P Er) Er = P.
Proof.
  intros B A. unfold qutr_mulc. rewrite <- qutr_mul_assoc by assumption. rewrite qutr_conj_r by exact B. apply qutr_mul_ident_r.
Qed.

Lemma servo_loop g Ea Er phi : 0 < g -> unit_qutr Ea -> unit_qutr Er -> turn_to (point Ea) (TfModel.eq Er) phi ->
  phi = 0 \/ / 2 ^ 25 <= phi ->
  exists E : R -> QV,
    (forall p, point (E 0) p = point Ea p) /\ (forall t, unit_qutr (E t)) /\
    (forall t, 0 <= t -> phi = 0 \/ / 2 ^ 25 <= phi * decay g t ->
       let d := wk_dx_pos g g (E t) Er still in body_velocity (fun u => point (E u)) t (dxv d) (dxw d)) /\
    (forall t, 0 <= t -> turn_to (point (E t)) (TfModel.eq Er) (phi * decay g t)) /\
    (forall p e, 0 < e -> exists T, forall t, T < t -> dist (point (E t) p) (point Er p) < e).
Proof.
  intros Hg A B T H. destruct (err_polar Ea Er phi A B T) as (P & k & K & E). rewrite p25_26 in *. pose proof p26_pos as P26. pose proof PI_RGT_0.
  set (h := phi / 2) in *. set (v := ev (err_pose Ea Er)).
  assert (Hh : h = 0 \/ / 2 ^ 26 <= h <= PI / 2) by (unfold h; lra).
  assert (EP : err_pose Ea Er = mkE (turn_q k h) v) by (unfold v; rewrite <- E; now destruct (err_pose Ea Er)).
  set (L := qutr_lnv (mkE (turn_q k h) v)).
  destruct (flow_of_twist (times3 2 (dxv L)) (times3 2 (dxw L))) as [G HG].
  set (W := fun s => way k h G s).
  exists (fun t => qutr_mul (W (decay g t)) Er).
  assert (UW : forall s, unit_qutr (W s)) by (intros; now apply way_unit).
  assert (UE : forall t, unit_qutr (qutr_mul (W (decay g t)) Er)) by (intros; now apply qutr_mul_unit).
  assert (PE : forall t p, point (qutr_mul (W (decay g t)) Er) p = G (decay g t) (point Er p)).
  { intros t p. rewrite !point_tf by auto. rewrite qutr_mul_acts by auto. unfold W. now apply (way_tf k h v K Hh G HG). }
  split; [|split; [exact UE|split; [|split]]].
  - intros p. rewrite PE. unfold decay. rewrite Rmult_0_r, exp_0. rewrite <- (err_acts Ea Er p A B), EP, qutr_tf_eq. cbn [ev TfModel.eq].
    apply (qutr_ln_exact k h v G K); [lra|exact HG].
  - intros t Ht Hs. set (s := decay g t) in *.
    assert (S : 0 <= s <= 1) by (pose proof (decay_pos g t); pose proof (decay_le g t Hg Ht); unfold s; lra).
    assert (Hs' : h = 0 \/ / 2 ^ 26 <= h * s) by (unfold h; lra).
    assert (ER : err_pose (qutr_mul (W s) Er) Er = W s).
    { unfold err_pose. rewrite mulc_way by auto. unfold qminimize. destruct (Rlt_dec _ 0) as [N|_]; [|now destruct (W s)].
      exfalso. change (qw (TfModel.eq (W s))) with (cos (h * s)) in N.
      assert (0 <= cos (h * s)) by (apply cos_ge_0; unfold h in *; nra). lra. }
    pose proof (servo_form g g (qutr_mul (W s) Er) Er still) as SF. cbv zeta in SF. rewrite ER in SF.
    change (qutr_lnv (W s)) with (qutr_lnv (way k h G s)) in SF. rewrite (way_ln k h v K Hh G HG s S Hs') in SF. fold L in SF. cbn [dxv dxw] in SF.
    cbv zeta. fold s. rewrite SF. cbn [dxv dxw]. unfold still. cbn [dxv dxw]. clear SF ER.
    intros p.
    assert (D : vderiv (fun u => G (decay g u) (point Er p)) t
      (times3 (- (g / 2) * s) (plus3 (times3 2 (dxv L)) (xprod (times3 2 (dxw L)) (G s (point Er p)))))).
    { apply (flow_comp _ _ G (decay g) t (- (g / 2) * decay g t) (point Er p) HG (decay_deriv g t)). }
    eapply vderiv_ext; [intros u; symmetry; apply PE|].
    match goal with |- vderiv _ _ ?x => match type of D with vderiv _ _ ?y => replace x with y; [exact D|] end end.
    rewrite !PE. fold s.
    assert (OE : ev (qutr_mul (W s) Er) = G s (point Er zero3)).
    { unfold s. rewrite <- PE. unfold point. rewrite place_zero by apply UE. reflexivity. }
    rewrite OE. generalize (G s (point Er p)) (G s (point Er zero3)) (dxv L) (dxw L). intros [a1 a2 a3] [b1 b2 b3] [c1 c2 c3] [d1 d2 d3].
    unfold zero3. tfc. f_equal; field.
  - intros t Ht. set (s := decay g t).
    assert (S : 0 <= s <= 1) by (pose proof (decay_pos g t); pose proof (decay_le g t Hg Ht); unfold s; lra).
    split; [split; nra|].
    set (q := TfModel.eq (qutr_mul (W s) Er)). assert (Uq : unitq q) by apply UE.
    pose proof (qrot_rotation _ Uq) as Rq. pose proof (qrot_rotation _ B) as Rr.
    assert (Q : forall p, qrot q p = rodrigues k (phi * s) (qrot (TfModel.eq Er) p)).
    { intros p. change q with (qmul (turn_q k (h * s)) (TfModel.eq Er)). rewrite qrot_mul; [|now apply rodrigues_unit_quat|exact B].
      rewrite turn_rot by exact K. f_equal. unfold h. field. }
    pose (k0 := qrot (qconj (TfModel.eq Er)) (times3 (-1) k)).
    assert (K0 : unit3 k0).
    { unfold k0, unit3. rewrite (rm_dot _ (qrot_rotation _ (unitq_conj _ B))). now apply unit3_neg. }
    assert (Rk : qrot q k0 = times3 (-1) k).
    { rewrite Q. unfold k0. rewrite <- qrot_mul by (auto using unitq_conj).
      replace (qmul (TfModel.eq Er) (qconj (TfModel.eq Er))) with (mkQ 0 0 0 1).
      - replace (qrot (mkQ 0 0 0 1) (times3 (-1) k)) with (times3 (-1) k) by (destruct k; tfc; f_equal; ring).
        rewrite rodrigues_axis_neg by exact K. reflexivity.
      - clear - B. unfold unit_qutr, unitq, norm2 in B. destruct (TfModel.eq Er) as [x y z w]. cbn [qx qy qz qw] in B. tfc. f_equal; lra. }
    exists k0. split; [exact K0|]. intros p. unfold point. rewrite place_zero, !place_rot by auto. f_equal.
    + change (TfModel.eq (qutr_mul (W (decay g t)) Er)) with q.
      replace (plus3 zero3 (qrot (TfModel.eq Er) p)) with (qrot (TfModel.eq Er) p) by (destruct (qrot (TfModel.eq Er) p); unfold zero3; tfc; f_equal; ring).
      rewrite (rot_rodrigues _ k0 _ p Rq), Rk, Q, rod_neg by exact K. reflexivity.
  - intros p e He. destruct (flow_cont _ _ G (point Er p) e HG He) as (d & D0 & Hd).
    destruct (decay_small g d Hg D0) as (T0 & TP & HT). exists T0. intros t Ht. rewrite PE. apply Hd. split; [left; apply decay_pos|now apply HT].
Qed.

Lemma turn_same Ea Er : unit_qutr Ea -> TfModel.eq Ea = TfModel.eq Er -> turn_to (point Ea) (TfModel.eq Er) 0.
Proof.
  intros A H. split; [pose proof PI_RGT_0; lra|]. exists (mkV 0 0 1). split; [unfold unit3; tfc; ring|].
  intros p. unfold point. rewrite place_zero, !place_rot by (try rewrite <- H; assumption). rewrite <- H.
  replace (rodrigues (mkV 0 0 1) 0 p) with p by (unfold rodrigues; rewrite cos_0, sin_0; destruct p; tfc; f_equal; ring).
  generalize (qrot (TfModel.eq Ea) p). intros [a b c]. unfold zero3. tfc. f_equal; ring.
Qed.

Lemma len3_zero w : len3 w = 0 -> w = zero3.
Proof.
  destruct w as [a b c]. unfold len3. tfc. intros H. apply sqrt_eq_0 in H; [|nra]. unfold zero3. f_equal; nra.
Qed.

Lemma servo_trans ga gt Ea Er dx : unit_qutr Ea -> TfModel.eq Ea = TfModel.eq Er ->
  wk_dx_pos ga gt Ea Er dx = mkDX (plus3 (dxv dx) (times3 (gt / 2) (minus3 (ev Er) (ev Ea)))) (dxw dx).
Proof.
  intros A H. assert (B : unit_qutr Er) by (unfold unit_qutr in *; now rewrite <- H).
  destruct (servo_ok ga gt Ea Er dx 0 A B (turn_same Ea Er A H) (or_introl eq_refl)) as (V & W & E & L & M).
  rewrite E. assert (W = zero3) by (apply len3_zero; lra). subst W. clear E L.
  assert (F : moved_by V zero3 (ev Ea) (fun t p => plus3 p (times3 t V))).
  { split; intros;  [destruct p, V; tfc; f_equal; ring|].
    assert (D : vderiv (fun s => plus3 p (times3 s V)) t V).
      { destruct p as [p1 p2 p3], V as [v1 v2 v3].
        assert (X : forall a b, derivable_pt_lim (fun s => a + s * b) t b).
        { intros a b. eapply dpl_eq; [|apply dpl_plus; [apply dpl_const|apply dpl_mult; [apply dpl_id|apply dpl_const]]]. cbv beta. ring. }
        repeat split; tfc; apply X. }
      match goal with |- vderiv _ _ ?x => replace x with V; [exact D|] end.
      generalize (plus3 p (times3 t V)). intros [a b c]. destruct V, (ev Ea). unfold minus3, zero3. tfc. f_equal; ring. }
  specialize (M _ F zero3). unfold point in M. rewrite !place_zero in M by assumption. rewrite <- M.
  destruct (dxv dx), (dxw dx), V, (ev Ea). unfold minus3, zero3. tfc. f_equal; f_equal; field.
Qed.
