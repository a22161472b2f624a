(** The Jacobians of the logarithms on the positive real axis. *)
From Coq Require Import Reals Lra Psatz.
From Verif Require Import TfModel TfSpec AtanModel AtanProofs TfExpModel TfExpSpec TfCalcProofs TfLogProofs SgJacProofs PdeModel PdeProofs.
Open Scope R_scope.

(** ** On the positive real axis *)
Lemma atan_le x : 0 <= x -> 0 <= atan x <= x.
Proof.
  intro H. destruct (atan_sign x) as (A & _). split; [exact (A H)|].
  destruct H as [H|H]; [|rewrite <- H, atan_0; lra].
  destruct (MVT_cor2 atan (fun u => / (1 + u * u)) 0 x H) as (c & E & C).
  { intros c _. pose proof (derivable_pt_lim_atan c) as D. unfold Rsqr in D. refine (dpl_eq _ _ _ _ _ D). field. pose proof (Rle_0_sqr c). unfold Rsqr in *. lra. }
  rewrite atan_0, Rminus_0_r, Rminus_0_r in E. rewrite E.
  assert (/ (1 + c * c) <= 1). { rewrite <- Rinv_1 at 2. apply Rinv_le_contravar; [lra|]. pose proof (Rle_0_sqr c). unfold Rsqr in *. lra. }
  nra.
Qed.

Lemma squeeze_deriv f g t C e : 0 < e -> g t = 0 -> 0 < C ->
  (forall s, Rabs (s - t) < e -> 0 <= f s <= C * g s) -> derivable_pt_lim g t 0 -> derivable_pt_lim f t 0.
Proof.
  intros He Hg HC H D x Hx. assert (P : 0 < x / C) by (apply Rdiv_lt_0_compat; lra).
  destruct (D _ P) as [del K]. assert (M : 0 < Rmin del e) by (apply Rmin_pos; [apply cond_pos|exact He]).
  exists (mkposreal _ M). intros h h0 hd. cbn in hd.
  assert (Ft : f t = 0). { assert (A := H t). rewrite Rminus_eq_0, Rabs_R0, Hg in A. specialize (A He). lra. }
  specialize (K h h0 ltac:(eapply Rlt_le_trans; [exact hd|apply Rmin_l])).
  rewrite Hg in K. rewrite Ft. replace ((f (t + h) - 0) / h - 0) with (f (t + h) / h) by (field; exact h0).
  replace ((g (t + h) - 0) / h - 0) with (g (t + h) / h) in K by (field; exact h0).
  assert (B := H (t + h)). replace (t + h - t) with h in B by ring. specialize (B ltac:(eapply Rlt_le_trans; [exact hd|apply Rmin_r])).
  assert (Hh := Rabs_pos_lt _ h0). unfold Rdiv in *. rewrite Rabs_mult, (Rabs_inv h) in *.
  rewrite Rabs_pos_eq by lra. rewrite (Rabs_pos_eq (g (t + h))) in K by nra.
  assert (G := Rinv_0_lt_compat _ Hh).
  apply Rle_lt_trans with (C * (g (t + h) * / Rabs h)).
  - rewrite <- Rmult_assoc. apply Rmult_le_compat_r; lra.
  - apply Rmult_lt_reg_l with (/ C); [apply Rinv_0_lt_compat; lra|]. rewrite <- Rmult_assoc, Rinv_l, Rmult_1_l by lra. rewrite (Rmult_comm (/ C)). exact K.
Qed.

Section Axis.
Context (q : R -> Q4) (t : R) (dq : Q4).
Hypothesis D : qderiv q t dq.
Hypothesis Z : vecpart (q t) = zero3.
Hypothesis W : 0 < qw (q t).

Lemma ax_xyz : qx (q t) = 0 /\ qy (q t) = 0 /\ qz (q t) = 0.
Proof. unfold vecpart, zero3 in Z. injection Z as A B C. auto. Qed.
Lemma ax_vv : vvof (q t) = 0.
Proof. destruct ax_xyz as (A & B & C). unfold vvof, vdot, qv. cbn. rewrite A, B, C. ring. Qed.
Lemma ax_qq : qqof (q t) = qw (q t) * qw (q t).
Proof. unfold qqof. rewrite ax_vv. ring. Qed.
Lemma ax_dvv : derivable_pt_lim (fun s => vvof (q s)) t 0.
Proof.
  refine (dpl_eq _ _ _ _ _ (d_vv q t dq D)). destruct ax_xyz as (A & B & C). unfold vdv, vdot, qv. cbn. rewrite A, B, C. ring.
Qed.
Lemma ax_dqq : derivable_pt_lim (fun s => qqof (q s)) t (2 * (qw (q t) * qw dq)).
Proof.
  refine (dpl_eq _ _ _ _ _ (d_qq q t dq D)). destruct ax_xyz as (A & B & C). unfold vdv, vdot, qv. cbn. rewrite A, B, C. ring.
Qed.
Lemma ax_sqq : sqrt (qqof (q t)) = qw (q t).
Proof. rewrite ax_qq. apply sqrt_square. lra. Qed.
Lemma ax_dsq : derivable_pt_lim (fun s => sqrt (qqof (q s))) t (qw dq).
Proof.
  refine (dpl_eq _ _ _ _ _ (dpl_sqrt (fun s => qqof (q s)) t _ _ ax_dqq)).
  - rewrite ax_sqq. field. lra.
  - rewrite ax_qq. apply Rmult_lt_0_compat; exact W.
Qed.
Lemma th_small p : 0 < qw p -> 0 <= thof p /\ thof p * thof p <= / (qw p * qw p) * vvof p.
Proof.
  intro P. unfold thof, atan2. destruct (Rlt_dec 0 (qw p)); [|lra].
  pose proof (sqrt_pos (vvof p)) as S. pose proof (sqrt_sqrt _ (vv_nonneg p)) as S2.
  assert (0 <= sqrt (vvof p) / qw p) by (apply Rmult_le_pos; [exact S|left; apply Rinv_0_lt_compat, P]).
  destruct (atan_le (sqrt (vvof p) / qw p)) as [A B]; [assumption|]. split; [exact A|].
  apply Rle_trans with (sqrt (vvof p) / qw p * (sqrt (vvof p) / qw p)); [apply Rmult_le_compat; lra|].
  rewrite <- S2 at 3. right. field. lra.
Qed.
Lemma ax_dth2 : derivable_pt_lim (fun s => thof (q s) * thof (q s)) t 0.
Proof.
  destruct (dpl_gt (fun s => qw (q s)) t _ (qw (q t) / 2) (proj2 (proj2 (proj2 D))) ltac:(lra)) as (del & Hd & K).
  apply (squeeze_deriv _ (fun s => vvof (q s)) t (4 / (qw (q t) * qw (q t))) del Hd).
  - exact ax_vv.
  - apply Rdiv_lt_0_compat; [lra|]. apply Rmult_lt_0_compat; lra.
  - intros s Hs. specialize (K s Hs). cbv beta in K. destruct (th_small (q s)) as [A B]; [lra|]. split; [apply Rle_0_sqr|].
    eapply Rle_trans; [exact B|]. apply Rmult_le_compat_r; [apply vv_nonneg|].
    unfold Rdiv. rewrite <- (Rinv_inv 4), <- Rinv_mult. apply Rinv_le_contravar; nra.
  - exact ax_dvv.
Qed.
Lemma ax_th : thof (q t) = 0.
Proof.
  destruct (th_small (q t) W) as [A B]. rewrite ax_vv, Rmult_0_r in B. pose proof (Rle_0_sqr (thof (q t))). unfold Rsqr in *.
  apply Rsqr_0_uniq. unfold Rsqr. lra.
Qed.
Lemma ax_near c : 0 < c -> exists del, 0 < del /\ forall s, Rabs (s - t) < del -> thof (q s) < c.
Proof.
  intro Hc.
  assert (D2 : derivable_pt_lim (fun s => - (thof (q s) * thof (q s))) t 0) by (refine (dpl_eq _ _ _ _ _ (dpl_opp _ _ _ ax_dth2)); ring).
  destruct (dpl_gt _ t _ (- (c * c)) D2) as (d1 & H1 & K1).
  { cbv beta. rewrite ax_th. nra. }
  exists d1. split; [exact H1|]. intros s Hs. specialize (K1 s Hs). cbv beta in K1.
  destruct (Rlt_dec (thof (q s)) c); [assumption|]. exfalso. nra.
Qed.

Definition etasm (p : Q4) := invsinc_series2 (thof p * thof p) / sqrt (qqof p).
Definition zetasm (p : Q4) := horner3 (thof p * thof p) (- (2) / 3) (- (1) / 5) (- (17) / 420) / (qqof p * sqrt (qqof p)).
Lemma dpl_horner f a b c : derivable_pt_lim f t 0 -> derivable_pt_lim (fun s => horner3 (f s) a b c) t 0.
Proof.
  intro F. unfold horner3.
  refine (dpl_eq _ _ _ _ _ (dpl_plus (fun _ => a) (fun s => f s * (b + f s * c)) t _ _ (dpl_const a t)
    (dpl_mult f (fun s => b + f s * c) t _ _ F (dpl_plus (fun _ => b) (fun s => f s * c) t _ _ (dpl_const b t) (dpl_mult f (fun _ => c) t _ _ F (dpl_const c t)))))).
  ring.
Qed.
Lemma ax_eta : etasm (q t) = / qw (q t).
Proof. unfold etasm, invsinc_series2, horner3. rewrite ax_th, ax_sqq. field. lra. Qed.
Lemma ax_zeta : zetasm (q t) = - (2) / 3 / (qw (q t) * qw (q t) * qw (q t)).
Proof. unfold zetasm, horner3. rewrite ax_th, ax_sqq, ax_qq. field. lra. Qed.
Lemma ax_deta : derivable_pt_lim (fun s => etasm (q s)) t (- qw dq / (qw (q t) * qw (q t))).
Proof.
  refine (dpl_eq _ _ _ _ _ (dpl_div (fun s => invsinc_series2 (thof (q s) * thof (q s))) (fun s => sqrt (qqof (q s))) t _ _ _ (dpl_horner _ _ _ _ ax_dth2) ax_dsq)).
  - cbv beta. rewrite ax_sqq. unfold invsinc_series2, horner3. rewrite ax_th. field. lra.
  - rewrite ax_sqq. lra.
Qed.
Lemma ax_dzeta : exists z, derivable_pt_lim (fun s => zetasm (q s)) t z.
Proof.
  eexists. refine (dpl_div (fun s => horner3 (thof (q s) * thof (q s)) (- (2) / 3) (- (1) / 5) (- (17) / 420)) (fun s => qqof (q s) * sqrt (qqof (q s))) t _ _ _
     (dpl_horner _ _ _ _ ax_dth2) (dpl_mult (fun s => qqof (q s)) (fun s => sqrt (qqof (q s))) t _ _ ax_dqq ax_dsq)).
  cbv beta. rewrite ax_sqq, ax_qq. assert (0 < qw (q t) * qw (q t) * qw (q t)) by (repeat apply Rmult_lt_0_compat; exact W). lra.
Qed.
Lemma ax_dln : derivable_pt_lim (fun s => ln (sqrt (qqof (q s)))) t (qw dq / qw (q t)).
Proof.
  refine (dpl_eq _ _ _ _ _ (dpl_ln (fun s => sqrt (qqof (q s))) t _ _ ax_dsq)); cbv beta; rewrite ax_sqq; [reflexivity|exact W].
Qed.
Lemma ax_coef : ln_coef (q t) = (etasm (q t), zetasm (q t)).
Proof.
  unfold ln_coef. fold (vvof (q t)). fold (qqof (q t)). fold (thof (q t)).
  destruct (Rlt_dec (thof (q t)) eps) as [_|N]; [reflexivity|]. rewrite ax_th in N. pose proof eps_pos. lra.
Qed.
Definition lnsm (p : Q4) : Q4 := mkqv (vscale (etasm p) (qv p)) (ln (sqrt (qqof p))).
Lemma lnsm_deriv : qderiv (fun s => lnsm (q s)) t (m44_app (qln_jac_fill (q t) (qqof (q t)) (zetasm (q t)) (etasm (q t))) dq).
Proof.
  pose proof ax_deta as De. pose proof ax_dln as Dl. destruct ax_xyz as (A & B & C). destruct D as (Dx & Dy & Dz & Dw).
  unfold qderiv, lnsm, mkqv, vscale, qv. cbn [qx qy qz qw vx vy vz].
  repeat split.
  - refine (dpl_eq _ _ _ _ _ (dpl_mult _ _ _ _ _ De Dx)). unfold m44_app, qln_jac_fill, fill_uplo, qadd, qscal. cbn. rewrite ax_eta, ax_qq, A, B, C. field. lra.
  - refine (dpl_eq _ _ _ _ _ (dpl_mult _ _ _ _ _ De Dy)). unfold m44_app, qln_jac_fill, fill_uplo, qadd, qscal. cbn. rewrite ax_eta, ax_qq, A, B, C. field. lra.
  - refine (dpl_eq _ _ _ _ _ (dpl_mult _ _ _ _ _ De Dz)). unfold m44_app, qln_jac_fill, fill_uplo, qadd, qscal. cbn. rewrite ax_eta, ax_qq, A, B, C. field. lra.
  - refine (dpl_eq _ _ _ _ _ Dl). unfold m44_app, qln_jac_fill, fill_uplo, qadd, qscal. cbn. rewrite ax_qq, A, B, C. field. lra.
Qed.
End Axis.

Lemma qln_jac_axis q t dq : qderiv q t dq -> vecpart (q t) = zero3 -> 0 < qw (q t) ->
  qderiv (fun s => qln (q s)) t (m44_app (qln_jac (q t)) dq).
Proof.
  intros D Z W. destruct (ax_near q t dq D Z W (/ 2 ^ 13)) as (del & Hd & K).
  { apply Rinv_0_lt_compat, pow_lt. lra. }
  apply (qderiv_ext_loc (fun s => lnsm (q s)) _ t _ del Hd).
  { intros s Hs. rewrite qln_unfold. change (qphi (q s)) with (thof (q s)). destruct (Rlt_dec (thof (q s)) (/ 2 ^ 13)) as [_|N]; [|exfalso; apply N, K, Hs]. reflexivity. }
  unfold qln_jac. rewrite (ax_coef q t Z W). apply lnsm_deriv; assumption.
Qed.

Lemma duqu_ln_jac_axis S t dS : dderiv S t dS -> vecpart (dreal (S t)) = zero3 -> 0 < qw (dreal (S t)) ->
  dderiv (fun s => duqu_ln (S s)) t (m88_app (duqu_ln_jac (S t)) dS).
Proof.
  intros [Dr Dd] Z W.
  assert (ES : forall s, mkD (dreal (S s)) (ddual (S s)) = S s) by (intro s; destruct (S s); reflexivity).
  assert (EdS : mkD (dreal dS) (ddual dS) = dS) by (destruct dS; reflexivity).
  rewrite <- ES, <- EdS.
  set (q := fun s => dreal (S s)) in *. set (d := fun s => ddual (S s)) in *.
  set (dq := dreal dS) in *. set (dd := ddual dS) in *. change (dreal (S t)) with (q t) in *. change (ddual (S t)) with (d t) in *.
  destruct (ax_near q t dq Dr Z W eps eps_pos) as (del & Hd & K).
  assert (EX : forall s, Rabs (s - t) < del -> duqu_ln (S s) = 
     mkD (lnsm (q s)) (mkqv (vadd (vscale (vdot (qv (q s)) (qv (d s)) * zetasm (q s) - qw (d s) / qqof (q s)) (qv (q s))) (vscale (etasm (q s)) (qv (d s)))) ((vdot (qv (q s)) (qv (d s)) + qw (q s) * qw (d s)) / qqof (q s)))).
  { intros s Hs. specialize (K s Hs). unfold duqu_ln. change (dreal (S s)) with (q s). change (ddual (S s)) with (d s).
    fold (vvof (q s)). fold (qqof (q s)). fold (thof (q s)). destruct (Rlt_dec (thof (q s)) eps); [reflexivity|contradiction]. }
  pose proof (lnsm_deriv q t dq Dr Z W) as DL. pose proof (ax_deta q t dq Dr Z W) as De. destruct (ax_dzeta q t dq Dr Z W) as (z & Dz).
  pose proof (ax_dqq q t dq Dr Z) as Dq. pose proof (ax_coef q t Z W) as EC. pose proof (ax_qq q t Z) as QQ. pose proof (ax_eta q t Z W) as ET.
  pose proof (ax_th q t Z W) as TH.
  destruct (ax_xyz q t Z) as (X & Y & ZZ).
  assert (Dg : derivable_pt_lim (fun s => vdot (qv (q s)) (qv (d s))) t (vdot (qv dq) (qv (d t)))).
  { destruct Dr as (A1 & A2 & A3 & _). destruct Dd as (B1 & B2 & B3 & _).
    unfold vdot, qv. cbn [vx vy vz].
    refine (dpl_eq _ _ _ _ _ (dpl_plus _ _ _ _ _ (dpl_plus _ _ _ _ _ (dpl_mult _ _ _ _ _ A1 B1) (dpl_mult _ _ _ _ _ A2 B2)) (dpl_mult _ _ _ _ _ A3 B3))).
    cbn. rewrite X, Y, ZZ. ring. }
  destruct Dr as (A1 & A2 & A3 & A4). destruct Dd as (B1 & B2 & B3 & B4).
  assert (WW : 0 < qw (q t) * qw (q t)) by (apply Rmult_lt_0_compat; exact W).
  assert (QN : qqof (q t) <> 0) by (rewrite QQ; lra).
  assert (Dk : exists k, derivable_pt_lim (fun s => vdot (qv (q s)) (qv (d s)) * zetasm (q s) - qw (d s) / qqof (q s)) t k).
  { eexists. apply (dpl_minus (fun s => vdot (qv (q s)) (qv (d s)) * zetasm (q s)) (fun s => qw (d s) / qqof (q s))).
    - exact (dpl_mult _ _ _ _ _ Dg Dz).
    - apply (dpl_div (fun s => qw (d s)) (fun s => qqof (q s))); [exact QN|exact B4|exact Dq]. }
  destruct Dk as (k & Dk).
  unfold duqu_ln_jac. cbn [dreal ddual]. rewrite EC. fold (vvof (q t)). fold (qqof (q t)). fold (thof (q t)).
  unfold m88_app. cbn [jrr jrd jdr jdd dreal ddual]. clearbody q d dq dd. split; cbn [dreal ddual].
  - match goal with |- qderiv _ _ ?r => replace r with (m44_app (qln_jac_fill (q t) (qqof (q t)) (zetasm (q t)) (etasm (q t))) dq) end.
    + eapply qderiv_ext_loc; [exact Hd| |exact DL]. intros s Hs. rewrite (EX s Hs). reflexivity.
    + unfold qadd, m44_app, zero44, qscal, qadd. cbn. f_equal; ring.
  - eapply qderiv_ext_loc; [exact Hd|intros s Hs; rewrite (EX s Hs); cbn [ddual]; reflexivity|].
    unfold qderiv, mkqv, vadd, vscale. cbn [qx qy qz qw vx vy vz].
    repeat split.
    + refine (dpl_eq _ _ _ _ _ (dpl_plus _ _ _ _ _ (dpl_mult _ _ _ _ _ Dk A1) (dpl_mult _ _ _ _ _ De B1))).
      unfold vdot, qv, m44_app, qln_jac_fill, fill_uplo, qadd, qscal, s_ff, s_ff_diag. cbn. rewrite ET, QQ, X, Y, ZZ. field. lra.
    + refine (dpl_eq _ _ _ _ _ (dpl_plus _ _ _ _ _ (dpl_mult _ _ _ _ _ Dk A2) (dpl_mult _ _ _ _ _ De B2))).
      unfold vdot, qv, m44_app, qln_jac_fill, fill_uplo, qadd, qscal, s_ff, s_ff_diag. cbn. rewrite ET, QQ, X, Y, ZZ. field. lra.
    + refine (dpl_eq _ _ _ _ _ (dpl_plus _ _ _ _ _ (dpl_mult _ _ _ _ _ Dk A3) (dpl_mult _ _ _ _ _ De B3))).
      unfold vdot, qv, m44_app, qln_jac_fill, fill_uplo, qadd, qscal, s_ff, s_ff_diag. cbn. rewrite ET, QQ, X, Y, ZZ. field. lra.
    + refine (dpl_eq _ _ _ _ _ (dpl_div (fun s => vdot (qv (q s)) (qv (d s)) + qw (q s) * qw (d s)) (fun s => qqof (q s)) t _ _ QN
         (dpl_plus (fun s => vdot (qv (q s)) (qv (d s))) (fun s => qw (q s) * qw (d s)) t _ _ Dg (dpl_mult _ _ _ _ _ A4 B4)) Dq)).
      cbv beta. unfold vdot, qv, m44_app, qln_jac_fill, fill_uplo, qadd, qscal, s_ff, s_ff_diag. cbn. rewrite QQ, X, Y, ZZ. field. lra.
Qed.
