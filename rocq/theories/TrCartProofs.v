(** The Cartesian slerp trajectory: its poses, its velocity, and its return value. *)
From Coq Require Import List Reals Arith ZArith Lra.
From Verif Require Import AtanModel AtanProofs SeriesProofs TfModel TfSpec TfProofs TfCalcProofs TfExpModel TfExpSpec TfExpProofs
  TfLogProofs TfLnProofs TfInterpProofs TrModel TrEvalProofs TrCartModel.
Import ListNotations.
Open Scope R_scope.

Definition slerp_X (e0 e1 : QV) (t : R) : QV :=
  if Rle_dec t 0 then e0 else if Rle_dec 1 t then e1
  else mkE (qslerp t (eq e0) (eq e1)) (plus3 (ev e0) (times3 t (plus3 (ev e1) (times3 (-1) (ev e0))))).

Lemma slerp_eval_run e0 e1 : exists l dx, slerp_generate [e0; e1] = Some (l, 1) /\
  dx = mkDX (plus3 (ev e1) (times3 (-1) (ev e0))) (times3 2 (qv (qln (qminimize (qmulc (eq e1) (eq e0)))))) /\
  forall it s t, (it = None \/ it = Some 0%nat) -> slerp_list_eval l it s t =
    Some (false, mkXS (xput (slerp_X e0 e1 t) (x_X s))
                      (xput (if Rle_dec t 0 then dx0 else if Rle_dec 1 t then dx0 else dx) (x_dX s))
                      (xput dx0 (x_ddX s)), None).
Proof.
  do 2 eexists. split; [reflexivity|]. split; [reflexivity|]. intros it s t Hit.
  unfold slerp_list_eval, list_eval. replace (match it with Some k => k | None => 0%nat end) with 0%nat by (destruct Hit as [-> | ->]; auto).
  cbn [length Nat.leb Nat.sub eval_loop slerp_ev nth_error obind].
  unfold slerp_ev. cbn [nth_error obind]. unfold slerp_seg_eval, slerp_X. cbn [ss_0 ss_1 ss_dx ss_dt]. unfold Rle_b.
  destruct (Rle_dec t 0); [reflexivity|]. destruct (Rle_dec 1 t); [reflexivity|]. cbn [obind].
  do 2 f_equal. f_equal. f_equal.
  - f_equal. f_equal. unfold linterp3, plus3, times3. cbn [vx vy vz]. f_equal; field.
  - f_equal. f_equal; [|set (w := qv _)]; unfold plus3, times3; cbn [vx vy vz]; f_equal; field.
Qed.

Lemma turn_mul k p a : unit3 k -> unitq p ->
  qmul (mkqv (times3 (sin a) k) (cos a)) p = plus4 (scale4 (cos a) p) (scale4 (sin a) (qmul (pure k) p)).
Proof. intros _ _. destruct k, p. unfold plus4, scale4, pure. tfc. f_equal; ring. Qed.

Lemma min_short q1 q2 : qminimize (qmulc q2 q1) = qmulc (short_end q1 q2) q1.
Proof.
  unfold qminimize, short_end.
  assert (E : qw (qmulc q2 q1) = dot4 q1 q2) by (destruct q1, q2; unfold dot4; tfc; ring).
  rewrite E. destruct (Rlt_dec (dot4 q1 q2) 0); [|reflexivity].
  destruct q1, q2. unfold scale4. tfc. f_equal; ring.
Qed.

Lemma on_arc_axis p q th : unitq p -> (exists tau r, on_arc p q th tau r) -> exists k, unit3 k /\
  qmulc q p = mkqv (times3 (sin th) k) (cos th) /\
  forall tau r, 0 < sin th -> on_arc p q th tau r -> r = plus4 (scale4 (cos (tau * th)) p) (scale4 (sin (tau * th)) (qmul (pure k) p)).
Proof.
  intros U (tau & r & e & E1 & E2 & E3 & _). exists (qv (qmulc e p)).
  assert (W : qw (qmulc e p) = 0) by (rewrite <- E2; destruct e, p; unfold dot4; tfc; ring).
  assert (P : qmul (pure (qv (qmulc e p))) p = e).
  { transitivity (qmul (qmulc e p) p).
    { f_equal. destruct (qmulc e p) as [a b c d]. cbn in W. subst d. reflexivity. }
    unfold unitq in U. transitivity (scale4 (norm2 p) e); [|rewrite U; destruct e; unfold scale4; tfc; f_equal; ring].
    destruct e, p. unfold scale4, norm2. tfc. f_equal; ring. }
  split; [|split].
  - unfold unit3. transitivity (norm2 e * norm2 p - dot4 p e * dot4 p e).
    { destruct e, p. unfold dot, norm2, dot4. tfc. ring. }
    unfold unitq in U. rewrite E1, E2, U. ring.
  - rewrite E3. transitivity (mkqv (times3 (sin th) (qv (qmulc e p))) (cos th * norm2 p + sin th * dot4 p e)).
    { destruct e, p. unfold mkqv, times3, plus4, scale4, norm2, dot4. tfc. f_equal; ring. }
    unfold unitq in U. rewrite U, E2. f_equal; ring.
  - intros tau' r' S0 (e' & _ & _ & E3' & ->). rewrite P. do 2 f_equal.
    assert (scale4 (sin th) e' = scale4 (sin th) e).
    { rewrite E3 in E3'. destruct e, e', p. unfold plus4, scale4 in *. cbn in *. injection E3' as F1 F2 F3 F4. f_equal; lra. }
    assert (J : forall a b, sin th * a = sin th * b -> a = b) by (intros a b H0; apply Rmult_eq_reg_l with (sin th); lra).
    destruct e, e'. unfold scale4 in H. cbn in H. injection H as F1 F2 F3 F4. f_equal; apply J; auto.
Qed.

Lemma slerp_velocity e0 e1 th t dx : unit_qutr e0 -> unit_qutr e1 -> 0 <= th <= PI / 2 -> cos th = Rabs (dot4 (eq e0) (eq e1)) ->
  (th = 0 \/ / 2 ^ 13 <= th) -> 0 < t < 1 ->
  dx = mkDX (plus3 (ev e1) (times3 (-1) (ev e0))) (times3 2 (qv (qln (qminimize (qmulc (eq e1) (eq e0)))))) ->
  body_velocity (fun u p => qutr_tf (slerp_X e0 e1 u) p) t (dxv dx) (dxw dx).
Proof.
  intros U0 U1 B C HT Ht Hdx.
  assert (LOC : forall u, 0 < u < 1 -> slerp_X e0 e1 u =
    mkE (qslerp u (eq e0) (eq e1)) (plus3 (ev e0) (times3 u (plus3 (ev e1) (times3 (-1) (ev e0)))))).
  { intros u Hu. unfold slerp_X. destruct (Rle_dec u 0); [lra|]. destruct (Rle_dec 1 u); [lra|reflexivity]. }
  set (e := fun u => mkE (qslerp u (eq e0) (eq e1)) (plus3 (ev e0) (times3 u (plus3 (ev e1) (times3 (-1) (ev e0)))))).
  assert (BV : body_velocity (fun u p => qutr_tf (e u) p) t (dxv dx) (dxw dx)).
  { apply qutr_vel_ok.
    { apply (slerp_unit t (eq e0) (eq e1)); [apply U0|apply U1]. }
    split.
    2:{ unfold e. cbn [ev qutr_vel2diff]. rewrite Hdx. cbn [dxv]. destruct (plus3 (ev e1) (times3 (-1) (ev e0))) as [a b c], (ev e0) as [x y z].
        unfold plus3, times3. cbn [vx vy vz].
        repeat split; cbn [vx vy vz]; (eapply dpl_eq; [|apply dpl_plus; [apply dpl_const|apply dpl_mult; [apply dpl_id|apply dpl_const]]]); cbv beta; ring. }
    unfold e. cbn [eq qutr_vel2diff]. rewrite Hdx. cbn [dxw].
    set (p := eq e0) in *. set (q := eq e1) in *.
    assert (Up : unitq p) by apply U0. assert (Uq : unitq q) by apply U1.
    pose proof (slerp_angle_of p q th Up Uq B C) as TH.
    destruct HT as [Z|HT].
    { rewrite Z in *.
      assert (K : forall u, qslerp u p q = p).
      { intros u. destruct (slerp_param p q Up Uq) as (_ & _ & _ & Q). rewrite Q, <- TH. destruct (Rlt_dec 0 0); [lra|reflexivity]. }
      assert (S : short_end p q = p).
      { rewrite <- (slerp_1 p q Up Uq). apply K. }
      rewrite min_short, S. assert (I : qmulc p p = mkQ 0 0 0 1).
      { unfold unitq in Up. transitivity (mkQ 0 0 0 (norm2 p)); [destruct p; unfold norm2; tfc; f_equal; ring|rewrite Up; reflexivity]. }
      rewrite I, qln_v0 by lra. rewrite K.
      eapply qderiv_ext; [intros s; symmetry; apply K|].
      replace (qvel2diff p (times3 2 (qv (mkQ 0 0 0 (ln 1))))) with (mkQ 0 0 0 0).
      { repeat split; cbn; apply dpl_const. }
      destruct p. unfold times3. tfc. f_equal; field. }
    assert (T0 : 0 < th) by (pose proof p13_pos; lra).
    assert (S0 : 0 < sin th) by (apply sin_gt_0; pose proof PI_RGT_0; lra).
    pose proof (slerp_arc p q t Up Uq) as ARC. rewrite <- TH in ARC.
    destruct (on_arc_axis p (short_end p q) th Up) as (k & K1 & K2 & K3); [eauto|].
    rewrite (K3 t _ S0 ARC).
    assert (LN : qv (qln (qminimize (qmulc q p))) = times3 th k).
    { rewrite min_short, K2.
      assert (F : qphi (mkqv (times3 (sin th) k) (cos th)) = th).
      { pose proof (qphi_of k 1 th K1 Rlt_0_1) as X. rewrite !Rmult_1_l in X. apply X. pose proof PI_RGT_0. lra. }
      assert (G : len4 (mkqv (times3 (sin th) k) (cos th)) = 1).
      { pose proof (len4_of k 1 th K1 Rlt_0_1) as X. rewrite !Rmult_1_l in X. exact X. }
      rewrite (qln_scaled _ k).
      - unfold lnfac. rewrite F. destruct (Rlt_dec th (/ 2 ^ 13)); [lra|]. reflexivity.
      - rewrite len3_mkqv; auto; lra.
      - auto.
      - rewrite F, G, !Rmult_1_l. reflexivity. }
    rewrite LN.
    (* derivative of the closed form *)
    assert (FORM : forall s, qslerp s p q = plus4 (scale4 (cos (s * th)) p) (scale4 (sin (s * th)) (qmul (pure k) p))).
    { intros s. apply K3; auto. pose proof (slerp_arc p q s Up Uq) as A. rewrite <- TH in A. exact A. }
    eapply qderiv_ext; [intros s; symmetry; apply FORM|].
    assert (VD : qvel2diff (plus4 (scale4 (cos (t * th)) p) (scale4 (sin (t * th)) (qmul (pure k) p))) (times3 2 (times3 th k)) =
      plus4 (scale4 (- (th * sin (t * th))) p) (scale4 (th * cos (t * th)) (qmul (pure k) p))).
    { transitivity (plus4 (scale4 (- (th * sin (t * th)) * dot k k) p) (scale4 (th * cos (t * th)) (qmul (pure k) p))).
      - destruct p, k. unfold plus4, scale4, pure, times3, dot. tfc. f_equal; field.
      - rewrite K1, Rmult_1_r. reflexivity. }
    rewrite VD. set (r := qmul (pure k) p). clearbody r.
    assert (LIN : derivable_pt_lim (fun s => s * th) t th).
    { eapply dpl_eq; [|apply dpl_mult; [apply dpl_id|apply dpl_const]]. cbv beta. ring. }
    assert (GG : forall a b, derivable_pt_lim (fun s => cos (s * th) * a + sin (s * th) * b) t (- (th * sin (t * th)) * a + th * cos (t * th) * b)).
    { intros a b. eapply dpl_eq; [|apply dpl_plus; apply dpl_mult;
        [apply (derivable_pt_lim_comp (fun s => s * th) cos); [exact LIN|apply derivable_pt_lim_cos]|apply dpl_const
        |apply (derivable_pt_lim_comp (fun s => s * th) sin); [exact LIN|apply derivable_pt_lim_sin]|apply dpl_const]].
      cbv beta. ring. }
    destruct p as [p1 p2 p3 p4], r as [r1 r2 r3 r4]. unfold plus4, scale4. repeat split; cbn [qx qy qz qw]; apply GG. }
  intros p. specialize (BV p). unfold e in BV. rewrite (LOC t Ht).
  destruct BV as (V1 & V2 & V3).
  repeat split; (eapply dpl_loc; [exact Ht| |eassumption]); intros s Hs; cbv beta; rewrite (LOC s Hs); reflexivity.
Qed.

Lemma slerp_pose e0 e1 : unit_qutr e0 -> unit_qutr e1 -> exists th e1',
  0 <= th <= PI / 2 /\ cos th = Rabs (dot4 (eq e0) (eq e1)) /\ (e1' = eq e1 \/ e1' = scale4 (-1) (eq e1)) /\
  (forall t, t <= 0 -> slerp_X e0 e1 t = e0) /\ (forall t, 1 <= t -> slerp_X e0 e1 t = e1) /\
  forall t, 0 < t < 1 -> unit_qutr (slerp_X e0 e1 t) /\ on_arc (eq e0) e1' th t (eq (slerp_X e0 e1 t)) /\
    ev (slerp_X e0 e1 t) = plus3 (ev e0) (times3 t (plus3 (ev e1) (times3 (-1) (ev e0)))).
Proof.
  intros U0 U1. destruct (slerp_spec (eq e0) (eq e1) U0 U1) as (th & e & S1 & S2 & S3 & _ & _ & _ & S4).
  exists th, e. split; auto. split; auto. split; auto.
  split. { intros t Ht. unfold slerp_X. destruct (Rle_dec t 0); [reflexivity|lra]. }
  split. { intros t Ht. unfold slerp_X. destruct (Rle_dec t 0); [lra|]. destruct (Rle_dec 1 t); [reflexivity|lra]. }
  intros t Ht. unfold slerp_X. destruct (Rle_dec t 0); [lra|]. destruct (Rle_dec 1 t); [lra|].
  cbn [eq ev]. destruct (S4 t) as (A & A'). split; [exact A|]. split; [exact A'|reflexivity].
Qed.

Lemma slerp_check_blind e0 e1 l D fuel fn dt s : slerp_generate [e0; e1] = Some (l, D) -> 
  check_loop (S fuel) (slerp_list_eval l) fn dt None s 0 = Some (0%Z, None).
Proof.
  intros G. destruct (slerp_eval_run e0 e1) as (l' & dx & G' & _ & E). rewrite G in G'. injection G' as <- ->.
  cbn [check_loop]. rewrite E by auto. reflexivity.
Qed.

Lemma slerp_pose_claim e0 e1 : unit_qutr e0 -> unit_qutr e1 ->
  exists l X dX th q1, slerp_generate [e0; e1] = Some (l, 1) /\
  (forall it s t, (it = None \/ it = Some 0%nat) -> exists s' r, slerp_list_eval l it s t = Some (r, s', None) /\
     x_X s' = xput (X t) (x_X s) /\ x_dX s' = xput (dX t) (x_dX s)) /\
  0 <= th <= PI / 2 /\ cos th = Rabs (dot4 (eq e0) (eq e1)) /\ (q1 = eq e1 \/ q1 = scale4 (-1) (eq e1)) /\
  (forall t, t <= 0 -> X t = e0) /\ (forall t, 1 <= t -> X t = e1) /\
  forall t, 0 < t < 1 -> unit_qutr (X t) /\ on_arc (eq e0) q1 th t (eq (X t)) /\
    ev (X t) = plus3 (ev e0) (times3 t (plus3 (ev e1) (times3 (-1) (ev e0)))).
Proof.
  intros U0 U1. destruct (slerp_eval_run e0 e1) as (l & dx & G & _ & E). destruct (slerp_pose e0 e1 U0 U1) as (th & q1 & P).
  exists l, (slerp_X e0 e1), (fun t => if Rle_dec t 0 then dx0 else if Rle_dec 1 t then dx0 else dx), th, q1.
  split; auto. split; [|exact P]. intros it s t Hit. rewrite (E it s t Hit). eauto.
Qed.
Lemma slerp_velocity_claim e0 e1 th : unit_qutr e0 -> unit_qutr e1 ->
  0 <= th <= PI / 2 -> cos th = Rabs (dot4 (eq e0) (eq e1)) -> th = 0 \/ / 2 ^ 13 <= th ->
  exists l X dx, slerp_generate [e0; e1] = Some (l, 1) /\
  (forall it s t, (it = None \/ it = Some 0%nat) -> 0 < t < 1 -> exists s' r, slerp_list_eval l it s t = Some (r, s', None) /\
     x_X s' = xput (X t) (x_X s) /\ x_dX s' = xput dx (x_dX s)) /\
  forall t, 0 < t < 1 -> body_velocity (fun u p => qutr_tf (X u) p) t (dxv dx) (dxw dx).
Proof.
  intros U0 U1 B C T. destruct (slerp_eval_run e0 e1) as (l & dx & G & D & E).
  exists l, (slerp_X e0 e1), dx. split; auto. split.
  - intros it s t Hit Ht. rewrite (E it s t Hit). destruct (Rle_dec t 0); [lra|]. destruct (Rle_dec 1 t); [lra|]. eauto.
  - intros t Ht. eapply slerp_velocity; eauto.
Qed.
Lemma slerp_out_claim e0 e1 : exists l, slerp_generate [e0; e1] = Some (l, 1) /\
  forall it s t, (it = None \/ it = Some 0%nat) -> exists s', slerp_list_eval l it s t = Some (false, s', None).
Proof.
  destruct (slerp_eval_run e0 e1) as (l & dx & G & _ & E). exists l. split; auto. intros it s t Hit. rewrite (E it s t Hit). eauto.
Qed.
Lemma slerp_example : unit_qutr (mkE (mkQ 0 0 0 1) (mkV 0 0 0)) /\
  unit_qutr (mkE (mkQ (sin (PI / 4)) 0 0 (cos (PI / 4))) (mkV 1 0 0)) /\ 0 <= PI / 4 <= PI / 2 /\ / 2 ^ 13 <= PI / 4 /\
  cos (PI / 4) = Rabs (dot4 (mkQ 0 0 0 1) (mkQ (sin (PI / 4)) 0 0 (cos (PI / 4)))).
Proof.
  pose proof PI_RGT_0. pose proof PI2_1. pose proof (sin2_cos2 (PI / 4)) as SC. unfold Rsqr in SC.
  split; [unfold unit_qutr, unitq, norm2; cbn; lra|]. split; [unfold unit_qutr, unitq, norm2; cbn; lra|].
  split; [lra|]. split; [pose proof small13'; lra|].
  unfold dot4. cbn [qx qy qz qw]. rewrite !Rmult_0_l, !Rplus_0_l, Rmult_1_l, Rabs_right; auto. left. apply cos_gt_0; lra.
Qed.
