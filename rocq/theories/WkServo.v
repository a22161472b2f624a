(** Proportional pose control: lemmas. *)
From Coq Require Import Reals Lra Lia Nsatz.
From Verif Require Import TfModel TfSpec AtanModel AtanProofs TfExpModel TfExpSpec TfProofs TfRepProofs TfRotmatProofs TfCalcProofs TfFrameProofs
  SeriesProofs TfExpProofs TfLogProofs TfScrewProofs TfLnProofs TfConvProofs TfLnNear SgSpec SgFkProofs2 IkModel IkProofs IkSpec IkPose WkModel WkSpec.
Open Scope R_scope.

(** ** Flows form a group *)
Lemma traj_unique v w (f g : R -> V3) :
  (forall t, vderiv f t (plus3 v (xprod w (f t)))) -> (forall t, vderiv g t (plus3 v (xprod w (g t)))) ->
  f 0 = g 0 -> forall t, f t = g t.
Proof.
  intros F1 G1 E0 t.
  set (D := fun s => (vx (f s) - vx (g s)) * (vx (f s) - vx (g s))
    + (vy (f s) - vy (g s)) * (vy (f s) - vy (g s)) + (vz (f s) - vz (g s)) * (vz (f s) - vz (g s))).
  assert (K : forall s, derivable_pt_lim D s 0).
  { intros s. destruct (F1 s) as (f1 & f2 & f3). destruct (G1 s) as (g1 & g2 & g3). unfold D.
    eapply dpl_eq; [|apply dpl_plus; [apply dpl_plus|]; apply dpl_mult; apply dpl_minus; eassumption].
    cbv beta. destruct (f s) as [a1 a2 a3], (g s) as [b1 b2 b3], v as [v1 v2 v3], w as [w1 w2 w3]. tfc. ring. }
  pose proof (const_deriv D K t) as E. unfold D in E at 2. rewrite E0 in E.
  replace ((vx (g 0) - vx (g 0)) * (vx (g 0) - vx (g 0)) + (vy (g 0) - vy (g 0)) * (vy (g 0) - vy (g 0)) + (vz (g 0) - vz (g 0)) * (vz (g 0) - vz (g 0))) with 0 in E by ring.
  unfold D in E. destruct (sumsq0 _ _ _ E) as (A & B & C).
  destruct (f t) as [a1 a2 a3], (g t) as [b1 b2 b3]. cbn [vx vy vz] in *. f_equal; lra.
Qed.
(** along a reparametrised flow *)
Lemma flow_comp v w F (r : R -> R) t dr p : screw_flow v w F -> derivable_pt_lim r t dr ->
  vderiv (fun s => F (r s) p) t (times3 dr (plus3 v (xprod w (F (r t) p)))).
Proof.
  intros [_ F1] L. destruct (F1 (r t) p) as (f1 & f2 & f3).
  repeat split; (eapply dpl_eq; [|apply (derivable_pt_lim_comp r (fun s => _ (F s p))); [exact L|eassumption]]);
    destruct (F (r t) p), v, w; tfc; ring.
Qed.
Lemma flow_add v w F s t p : screw_flow v w F -> F s (F t p) = F (t + s) p.
Proof.
  intros HF. apply (traj_unique v w (fun s => F s (F t p)) (fun s => F (t + s) p)).
  - intros u. apply HF.
  - intros u. assert (L : derivable_pt_lim (fun s => t + s) u 1).
    { eapply dpl_eq; [|apply dpl_plus; [apply dpl_const|apply dpl_id]]. ring. }
    pose proof (flow_comp v w F _ u 1 p HF L) as D. cbv beta in D.
    replace (times3 1 (plus3 v (xprod w (F (t + u) p)))) with (plus3 v (xprod w (F (t + u) p))) in D; [exact D|].
    destruct (F (t + u) p), v, w. tfc. f_equal; ring.
  - cbv beta. rewrite Rplus_0_r. apply HF.
Qed.

(** ** The error pose *)
Lemma turn_conj qa k s c : unitq qa ->
  qmul qa (qmul (qconj (mkqv (times3 s k) c)) (qconj qa)) = mkqv (times3 (- s) (qrot qa k)) c.
Proof.
  destruct qa as [a1 a2 a3 a4], k as [k1 k2 k3]. unfold unitq, norm2. cbn [qx qy qz qw]. intros U.
  assert (U' : a4 * a4 = 1 - a1 * a1 - a2 * a2 - a3 * a3) by lra.
  assert (W : forall l r m, l - r = m * (a1 * a1 + a2 * a2 + a3 * a3 + a4 * a4 - 1) -> l = r).
  { intros l r m H. rewrite U in H. lra. }
  tfc. f_equal; [apply (W _ _ (- s * k1))|apply (W _ _ (- s * k2))|apply (W _ _ (- s * k3))|apply (W _ _ c)]; ring.
Qed.

Definition err_pose (Ea Er : QV) : QV := mkE (qminimize (TfModel.eq (qutr_mulc Ea Er))) (ev (qutr_mulc Ea Er)).

Lemma min_polar b k h : unit3 k -> 0 <= h <= PI / 2 ->
  exists k', unit3 k' /\ qminimize (flip b (turn_q k h)) = turn_q k' h.
Proof.
  intros K P. assert (C : 0 <= cos h) by (apply cos_ge_0; lra).
  unfold qminimize. destruct b; cbn [flip].
  - change (qw (qneg (turn_q k h))) with (cos h * -1). destruct (Rlt_dec _ 0) as [L|L].
    + exists k. split; [exact K|]. unfold turn_q, qneg. destruct k. tfc. f_equal; ring.
    + exists (times3 (-1) k). split; [now apply unit3_neg|]. assert (Z : cos h = 0) by lra.
      unfold turn_q, qneg. rewrite Z. destruct k. tfc. f_equal; ring.
  - change (qw (turn_q k h)) with (cos h). destruct (Rlt_dec _ 0) as [L|L]; [lra|]. now exists k.
Qed.

Lemma err_polar Ea Er phi : unit_qutr Ea -> unit_qutr Er -> turn_to (point Ea) (TfModel.eq Er) phi ->
  0 <= phi <= PI /\ exists k, unit3 k /\ TfModel.eq (err_pose Ea Er) = turn_q k (phi / 2).
Proof.
  intros A B T. destruct (turn_err _ _ _ _ A B T) as (P & k & b & K & E). split; [exact P|].
  assert (Q : TfModel.eq (qutr_mulc Ea Er) = flip b (turn_q (times3 (-1) (qrot (TfModel.eq Ea) k)) (phi / 2))).
  { change (TfModel.eq (qutr_mulc Ea Er)) with (qmul (TfModel.eq Ea) (qconj (TfModel.eq Er))).
    assert (R : TfModel.eq Er = flip b (qmul (TfModel.eq Ea) (axang2quat (mkA k phi)))).
    { rewrite <- flip_mul, <- E. clear - A. unfold unit_qutr in A. destruct (TfModel.eq Ea) as [a1 a2 a3 a4], (TfModel.eq Er) as [r1 r2 r3 r4].
      unfold unitq, norm2 in A. cbn [qx qy qz qw] in A.
      assert (W : forall l r m, l - r = m * (a1 * a1 + a2 * a2 + a3 * a3 + a4 * a4 - 1) -> l = r).
      { intros l r m H. rewrite A in H. lra. }
      tfc. f_equal; [apply (W _ _ (- r1))|apply (W _ _ (- r2))|apply (W _ _ (- r3))|apply (W _ _ (- r4))]; ring. }
    rewrite R. assert (C : qconj (flip b (qmul (TfModel.eq Ea) (axang2quat (mkA k phi)))) =
      flip b (qmul (qconj (axang2quat (mkA k phi))) (qconj (TfModel.eq Ea)))).
    { generalize (axang2quat (mkA k phi)). intros [x1 x2 x3 x4]. destruct (TfModel.eq Ea) as [a1 a2 a3 a4], b; unfold flip, qneg; tfc; f_equal; ring. }
    rewrite C, flip_mul. replace phi with (2 * (phi / 2)) at 1 by field. rewrite axang_turn. unfold turn_q at 1.
    rewrite turn_conj by exact A. unfold turn_q. f_equal. generalize (qrot (TfModel.eq Ea) k). intros []. tfc. f_equal; ring. }
  unfold err_pose. cbn [TfModel.eq]. rewrite Q. apply min_polar; [|lra].
  apply unit3_neg. unfold unit3. rewrite (rm_dot _ (qrot_rotation _ A)). exact K.
Qed.

Lemma qminimize_rot q p : qrot (qminimize q) p = qrot q p.
Proof. unfold qminimize. destruct (Rlt_dec _ 0); [|reflexivity]. destruct q, p. tfc. f_equal; ring. Qed.
Lemma point_tf E p : unit_qutr E -> point E p = qutr_tf E p.
Proof. intros U. unfold point. rewrite place_tf by exact U. now destruct E. Qed.
Lemma err_acts Ea Er p : unit_qutr Ea -> unit_qutr Er -> qutr_tf (err_pose Ea Er) (point Er p) = point Ea p.
Proof.
  intros A B. rewrite !point_tf by assumption. rewrite <- (qutr_mulc_acts Ea Er p A B), !qutr_tf_eq. unfold err_pose. cbn [ev TfModel.eq].
  now rewrite qminimize_rot.
Qed.

(** ** Held velocity *)
Lemma servo_form ga gt Ea Er dx : let L := qutr_lnv (err_pose Ea Er) in
  let W := times3 (-1) (dxw L) in
  let V := plus3 (times3 (-1) (dxv L)) (xprod W (ev Ea)) in
  wk_dx_pos ga gt Ea Er dx = mkDX (plus3 (dxv dx) (times3 gt V)) (plus3 (dxw dx) (times3 ga W)).
Proof.
  unfold wk_dx_pos. fold (err_pose Ea Er). cbv zeta. generalize (qutr_lnv (err_pose Ea Er)). intros [[l1 l2 l3] [w1 w2 w3]].
  destruct dx as [[x1 x2 x3] [y1 y2 y3]], Ea as [q [e1 e2 e3]]. tfc. f_equal; f_equal; ring.
Qed.

Lemma p25_26 : / 2 ^ 25 = 2 * / 2 ^ 26.
Proof. simpl. lra. Qed.

Lemma servo_ok ga gt Ea Er dx phi : unit_qutr Ea -> unit_qutr Er -> turn_to (point Ea) (TfModel.eq Er) phi ->
  phi = 0 \/ / 2 ^ 25 <= phi ->
  exists V W, wk_dx_pos ga gt Ea Er dx = mkDX (plus3 (dxv dx) (times3 gt V)) (plus3 (dxw dx) (times3 ga W)) /\
    len3 W = phi / 2 /\
    forall F, moved_by V W (ev Ea) F -> forall p, F 2 (point Ea p) = point Er p.
Proof.
  intros A B T H. destruct (err_polar Ea Er phi A B T) as (P & k & K & E). rewrite p25_26 in H. pose proof p26_pos as P26. pose proof PI_RGT_0.
  assert (H' : phi / 2 = 0 \/ / 2 ^ 26 <= phi / 2 < PI) by lra.
  pose proof (servo_form ga gt Ea Er dx) as S. cbv zeta in S.
  set (L := qutr_lnv (err_pose Ea Er)) in *.
  set (W := times3 (-1) (dxw L)) in *. set (V := plus3 (times3 (-1) (dxv L)) (xprod W (ev Ea))) in *.
  exists V, W. split; [exact S|].
  assert (EP : err_pose Ea Er = mkE (turn_q k (phi / 2)) (ev (err_pose Ea Er))) by (rewrite <- E; now destruct (err_pose Ea Er)).
  assert (LW : dxw L = times3 (phi / 2) k).
  { unfold L. rewrite EP. destruct H' as [Z|Z].
    - rewrite Z. unfold qutr_lnv. cbn [TfModel.eq ev]. rewrite turn_len by (auto; lra). change (qw (turn_q k 0)) with (cos 0).
      change (qv (turn_q k 0)) with (times3 (sin 0) k). rewrite atan2_sincos by lra. rewrite sqrt_eps.
      destruct (Rlt_dec 0 _) as [_|N]; [|lra]. cbn [dxw]. rewrite sin_0. destruct k. tfc. f_equal; ring.
    - rewrite qutr_lnv_form by auto. reflexivity. }
  split.
  - unfold W. rewrite LW. replace (times3 (-1) (times3 (phi / 2) k)) with (times3 (phi / 2) (times3 (-1) k)) by (destruct k; tfc; f_equal; ring).
    change (len3 (times3 (phi / 2) (times3 (-1) k))) with (sqrt (vdot (times3 (phi / 2) (times3 (-1) k)) (times3 (phi / 2) (times3 (-1) k)))).
    apply len_sk; [now apply unit3_neg|lra].
  - intros F HF p. unfold moved_by in HF.
    replace (minus3 V (xprod W (ev Ea))) with (times3 (-1) (dxv L)) in HF.
    2:{ unfold V. generalize (xprod W (ev Ea)). intros x. destruct x, (dxv L). unfold minus3. tfc. f_equal; ring. }
    unfold W in HF. rewrite <- (err_acts Ea Er p A B).
    pose proof (flow_scale _ _ _ (-2) HF) as G.
    replace (times3 (-2) (times3 (-1) (dxv L))) with (times3 2 (dxv L)) in G by (destruct (dxv L); tfc; f_equal; ring).
    replace (times3 (-2) (times3 (-1) (dxw L))) with (times3 2 (dxw L)) in G by (destruct (dxw L); tfc; f_equal; ring).
    assert (Q : qutr_tf (err_pose Ea Er) (point Er p) = F (-2 * 1) (point Er p)).
    { rewrite EP, qutr_tf_eq. cbn [ev TfModel.eq]. symmetry.
      apply (qutr_ln_exact k (phi / 2) (ev (err_pose Ea Er)) (fun t => F (-2 * t)) K H'). rewrite <- EP. exact G. }
    rewrite Q, (flow_add _ _ F _ _ _ HF). replace (-2 * 1 + 2) with 0 by ring. apply HF.
Qed.
