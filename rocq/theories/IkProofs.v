From Coq Require Import Reals Lra Nsatz List.
From Verif Require Import TfModel TfSpec AtanModel TfExpModel TfExpSpec TfProofs TfCalcProofs PdeModel PdeProofs Pde2Proofs SgModel IkModel.
Import ListNotations.
Open Scope R_scope.

(** ** Lifting a rotation to a differentiable quaternion *)
Lemma dot_deriv a f t d : vderiv f t d -> derivable_pt_lim (fun s => dot a (f s)) t (dot a d).
Proof. intros (A & B & C). unfold dot. dplring. Qed.

Definition e0 := mkV 1 0 0. Definition e1 := mkV 0 1 0. Definition e2 := mkV 0 0 1.
Definition rel_w (p q : Q4) : R := dot4 p q.
(** entries of the relative rotation *)
Definition rel_m (p q : Q4) (a b : V3) : R := dot (qrot p a) (qrot q b).

Lemma rel_trace p q : unitq p -> unitq q ->
  (1 + (rel_m p q e0 e0 + rel_m p q e1 e1 + rel_m p q e2 e2)) / 4 = rel_w p q * rel_w p q.
Proof.
  destruct p as [a b c d], q as [x y z w]. unfold unitq, norm2, rel_m, rel_w, dot4, e0, e1, e2. tfc. intros U V.
  match goal with |- ?l / 4 = ?r => cut (l - 4 * r = 0); [lra|] end. nsatz.
Qed.
Definition rel_q (p q : Q4) : Q4 := qmul (qconj p) q.
Lemma rel_x p q : unitq p -> unitq q -> rel_m p q e2 e1 - rel_m p q e1 e2 = 4 * rel_w p q * qx (rel_q p q).
Proof.
  destruct p as [a b c d], q as [x y z w]. unfold unitq, norm2, rel_m, rel_q, rel_w, dot4, e0, e1, e2. tfc. intros U V.
  match goal with |- ?l = ?r => cut (l - r = 0); [lra|] end. nsatz.
Qed.
Lemma rel_y p q : unitq p -> unitq q -> rel_m p q e0 e2 - rel_m p q e2 e0 = 4 * rel_w p q * qy (rel_q p q).
Proof.
  destruct p as [a b c d], q as [x y z w]. unfold unitq, norm2, rel_m, rel_q, rel_w, dot4, e0, e1, e2. tfc. intros U V.
  match goal with |- ?l = ?r => cut (l - r = 0); [lra|] end. nsatz.
Qed.
Lemma rel_z p q : unitq p -> unitq q -> rel_m p q e1 e0 - rel_m p q e0 e1 = 4 * rel_w p q * qz (rel_q p q).
Proof.
  destruct p as [a b c d], q as [x y z w]. unfold unitq, norm2, rel_m, rel_q, rel_w, dot4, e0, e1, e2. tfc. intros U V.
  match goal with |- ?l = ?r => cut (l - r = 0); [lra|] end. nsatz.
Qed.

Definition flip (b : bool) (q : Q4) : Q4 := if b then qneg q else q.
Definition eflip (b : bool) (e : QV) : QV := mkE (flip b (TfModel.eq e)) (ev e).
Lemma unit_mul_rel p q : unitq p -> q = qmul p (rel_q p q).
Proof.
  destruct p as [a b c d], q as [x y z w]. unfold unitq, norm2, rel_q. tfc. intros U. f_equal;
  match goal with |- ?l = ?r => cut (l - r = 0); [lra|] end; nsatz.
Qed.
Lemma rel_q_w p q : qw (rel_q p q) = rel_w p q.
Proof. destruct p, q. unfold rel_q, rel_w, dot4. tfc. ring. Qed.
Lemma rel_flip p q : rel_w p (qneg q) = - rel_w p q.
Proof. destruct p, q. unfold rel_w, dot4, qneg. cbn. ring. Qed.
Lemma qrot_neg q p : qrot (qneg q) p = qrot q p.
Proof. destruct q, p. unfold qneg. tfc. f_equal; ring. Qed.
Lemma qneg_unit q : unitq q -> unitq (qneg q).
Proof. destruct q. unfold unitq, norm2, qneg. cbn. intros <-. ring. Qed.
Lemma flip_unit b q : unitq q -> unitq (flip b q).
Proof. destruct b; [apply qneg_unit|auto]. Qed.
Lemma flip_rot b q p : qrot (flip b q) p = qrot q p.
Proof. destruct b; [apply qrot_neg|reflexivity]. Qed.
Lemma rel_self p : unitq p -> rel_w p p = 1.
Proof. destruct p. unfold unitq, norm2, rel_w, dot4. cbn. auto. Qed.

Lemma lift_quat q t w : (forall s, unitq (q s)) ->
  (forall p, vderiv (fun s => qrot (q s) p) t (xprod w (qrot (q t) p))) ->
  exists b : R -> bool, b t = false /\ qderiv (fun s => flip (b s) (q s)) t (qvel2diff (q t) w).
Proof.
  intros U D.
  set (b := fun s => if Rlt_dec (rel_w (q t) (q s)) 0 then true else false).
  exists b. assert (Bt : b t = false).
  { unfold b. rewrite rel_self by apply U. destruct (Rlt_dec 1 0); [lra|reflexivity]. }
  split; [exact Bt|].
  assert (W0 : forall s, 0 <= rel_w (q t) (flip (b s) (q s))).
  { intros s. unfold b. destruct (Rlt_dec (rel_w (q t) (q s)) 0); cbn [flip]; [rewrite rel_flip|]; lra. }
  assert (Dm : forall x y, derivable_pt_lim (fun s => rel_m (q t) (q s) x y) t (dot (qrot (q t) x) (xprod w (qrot (q t) y)))).
  { intros x y. unfold rel_m. apply dot_deriv, D. }
  assert (Mf : forall s x y, rel_m (q t) (flip (b s) (q s)) x y = rel_m (q t) (q s) x y).
  { intros. unfold rel_m. now rewrite flip_rot. }
  set (f := fun s => (1 + (rel_m (q t) (q s) e0 e0 + rel_m (q t) (q s) e1 e1 + rel_m (q t) (q s) e2 e2)) / 4).
  assert (F : forall s, rel_w (q t) (flip (b s) (q s)) = sqrt (f s)).
  { intros s. unfold f. rewrite <- !Mf, rel_trace by auto using flip_unit. symmetry. apply sqrt_square, W0. }
  assert (Ft : f t = 1).
  { unfold f. rewrite rel_trace by apply U. rewrite rel_self by apply U. ring. }
  assert (Df : derivable_pt_lim f t 0).
  { unfold f, Rdiv. eapply dpl_eq; [|apply dpl_mult; [apply dpl_plus; [apply dpl_const|apply dpl_plus; [apply dpl_plus; apply Dm|apply Dm]]|apply dpl_const]].
    unfold dot, xprod. cbn. ring. }
  assert (Ds : derivable_pt_lim (fun s => sqrt (f s)) t 0).
  { refine (dpl_eq _ _ _ _ _ (dpl_sqrt f t 0 _ Df)); [unfold Rdiv; ring|lra]. }
  assert (St : sqrt (f t) = 1) by (rewrite Ft; apply sqrt_1).
  destruct (dpl_gt _ _ _ 0 Ds) as (del & Hd & Pos). { cbv beta. rewrite St. lra. }
  set (a0 := qrot (q t) e0). set (a1 := qrot (q t) e1). set (a2 := qrot (q t) e2).
  assert (Dr : qderiv (fun s => rel_q (q t) (flip (b s) (q s))) t (mkQ (dot a0 w / 2) (dot a1 w / 2) (dot a2 w / 2) 0)).
  { assert (G : forall x y (c : Q4 -> R) r,
      (forall p, unitq p -> rel_m (q t) p x y - rel_m (q t) p y x = 4 * rel_w (q t) p * c (rel_q (q t) p)) ->
      dot (qrot (q t) x) (xprod w (qrot (q t) y)) - dot (qrot (q t) y) (xprod w (qrot (q t) x)) = 2 * r ->
      derivable_pt_lim (fun s => c (rel_q (q t) (flip (b s) (q s)))) t (r / 2)).
    { intros x y c r Hc Hr.
      apply (dpl_ext_loc (fun s => (rel_m (q t) (q s) x y - rel_m (q t) (q s) y x) / (4 * sqrt (f s))) _ t _ del Hd).
      - intros s Hs. specialize (Pos s Hs). rewrite <- !(Mf s), Hc by auto using flip_unit. rewrite F. field. lra.
      - refine (dpl_eq _ _ _ _ _ (dpl_div (fun s => rel_m (q t) (q s) x y - rel_m (q t) (q s) y x) (fun s => 4 * sqrt (f s)) t _ _ _
          (dpl_minus _ _ _ _ _ (Dm x y) (Dm y x)) (dpl_mult (fun _ => 4) _ t 0 _ (dpl_const 4 t) Ds))).
        + cbv beta. rewrite St, Hr. field.
        + cbv beta. rewrite St. lra. }
    assert (X0 : xprod a1 a2 = a0 /\ xprod a2 a0 = a1 /\ xprod a0 a1 = a2).
    { unfold a0, a1, a2, e0, e1, e2. pose proof (U t) as Ut. clear -Ut. destruct (q t) as [x y z s]. revert Ut. unfold unitq, norm2. tfc. intros Ut.
      repeat split; f_equal; match goal with |- ?l = ?r => cut (l - r = 0); [lra|] end; nsatz. }
    destruct X0 as (X0 & X1 & X2).
    assert (Y : forall a c, dot c (xprod w a) - dot a (xprod w c) = 2 * dot (xprod a c) w).
    { intros [? ? ?] [? ? ?]. destruct w. unfold dot, xprod. cbn. ring. }
    split; [|split; [|split]]; cbn [qx qy qz qw].
    - apply (G e2 e1); [intros; apply rel_x; auto|]. fold a1 a2. rewrite Y, X0. reflexivity.
    - apply (G e0 e2); [intros; apply rel_y; auto|]. fold a0 a2. rewrite Y, X1. reflexivity.
    - apply (G e1 e0); [intros; apply rel_z; auto|]. fold a0 a1. rewrite Y, X2. reflexivity.
    - apply (dpl_ext (fun s => sqrt (f s))); [intros s; rewrite rel_q_w, F; reflexivity|exact Ds]. }
  apply (qderiv_ext (fun s => qmul (q t) (rel_q (q t) (flip (b s) (q s))))).
  { intros s. symmetry. apply unit_mul_rel, U. }
  destruct Dr as (Dx & Dy & Dz & Dw). cbn [qx qy qz qw] in Dx, Dy, Dz, Dw.
  assert (Ev : qvel2diff (q t) w = qmul (q t) (mkQ (dot a0 w / 2) (dot a1 w / 2) (dot a2 w / 2) 0)).
  { assert (Hh : forall a, dot a w / 2 = dot a (vdivs w 2)) by (intros [? ? ?]; destruct w; unfold dot, vdivs; cbn; field).
    rewrite !Hh. unfold qvel2diff. generalize (vdivs w 2). intros h.
    unfold a0, a1, a2, e0, e1, e2. pose proof (U t) as Ut. clear -Ut. destruct (q t) as [x y z s], h as [h1 h2 h3]. revert Ut. unfold unitq, norm2.
    tfc. intros Ut. f_equal; match goal with |- ?l = ?r => cut (l - r = 0); [lra|] end; nsatz. }
  rewrite Ev.
  split; [|split; [|split]]; unfold qmul; cbn [qx qy qz qw]; dplring.
Qed.

(** ** Linear algebra of the helpers *)
Lemma tapp_dot M x y : qdot x (m44_app M y) = qdot (m44_tapp M x) y.
Proof. destruct M as [[] [] [] []], x, y. unfold m44_app, m44_tapp, qdot, qadd, qscal. cbn. ring. Qed.
Lemma flip_dot_app b M x y : qdot x (m44_app M (flip b y)) = qdot (m44_tapp M (flip b x)) y.
Proof. destruct b; cbn [flip]; [|apply tapp_dot]. destruct M as [[] [] [] []], x, y. unfold m44_app, m44_tapp, qneg, qdot, qadd, qscal. cbn. ring. Qed.
Lemma rmul_dot a c r : qdot a (qmul c r) = qdot (q_rmul r a) c.
Proof. destruct a, c, r. unfold q_rmul, m44_tapp, qmatrix_r. tfc. ring. Qed.
Lemma conj_dot a b : qdot a (qconj b) = qdot (qconj a) b.
Proof. destruct a, b. tfc. ring. Qed.
Lemma vel_dot q w c : 2 * qdot c (qvel2diff q w) = dot (qv (q_rmul q c)) w.
Proof. destruct q, w, c. unfold q_rmul, m44_tapp, qmatrix_r. tfc. field. Qed.

(** ** Derivatives of the objective functions along a moving pose *)
Lemma trans_deriv E t dx Er : ederiv E t (qutr_vel2diff (E t) dx) ->
  derivable_pt_lim (fun s => trans_val (E s) Er) t (2 * dot (dxv dx) (v_err (E t) Er)).
Proof.
  intros [_ (A & B & C)]. cbn [ev qutr_vel2diff] in A, B, C. destruct dx as [[d1 d2 d3] w]. cbn in A, B, C.
  unfold trans_val, v_err, vdot, vsub, dot. cbn [vx vy vz dxv].
  eapply dpl_eq; [|apply dpl_plus; [apply dpl_plus|]; apply dpl_mult; apply dpl_minus; try apply dpl_const; eassumption]. cbv beta. ring.
Qed.

Lemma qcmul_deriv q t dq r : qderiv q t dq -> qderiv (fun s => qcmul (q s) r) t (qmul (qconj dq) r).
Proof. intros (A & B & C & D). destruct r as [r1 r2 r3 r4]. repeat split; unfold qcmul, qmul, qconj; cbn [qx qy qz qw]; dplring. Qed.
Lemma flip_deriv b q t dq : qderiv q t dq -> qderiv (fun s => flip b (q s)) t (flip b dq).
Proof. destruct b; [|auto]. intros (A & B & C & D). repeat split; unfold flip, qneg; cbn [qx qy qz qw]; dplring. Qed.
Lemma qdot_deriv q t dq : qderiv q t dq -> derivable_pt_lim (fun s => qdot (q s) (q s)) t (2 * qdot (q t) dq).
Proof. intros (A & B & C & D). unfold qdot. dplring. Qed.
Lemma qcmul_eq a b : qcmul a b = qmul (qconj a) b.
Proof. destruct a, b. tfc. f_equal; ring. Qed.

(** where the logarithm's Jacobian is right *)
Definition ln_ok (lim : R) (e : Q4) : Prop :=
  vecpart e = zero3 \/ (vecpart e <> zero3 /\ lim < atan2 (len3 (vecpart e)) (qw e)).
Lemma qln_jac_both q t dq : qderiv q t dq -> 0 < qw (q t) -> ln_ok (/ 2 ^ 13) (q t) ->
  qderiv (fun s => qln (q s)) t (m44_app (qln_jac (q t)) dq).
Proof. intros D W [Z|[N H]]; [apply qln_jac_axis|apply qln_jac_ok]; assumption. Qed.
Lemma duqu_ln_jac_both q t dq : dderiv q t dq -> 0 < qw (dreal (q t)) -> ln_ok eps (dreal (q t)) ->
  dderiv (fun s => duqu_ln (q s)) t (m88_app (duqu_ln_jac (q t)) dq).
Proof. intros D W [Z|[N H]]; [apply duqu_ln_jac_axis|apply duqu_ln_jac_ok]; assumption. Qed.

(** the sign does not change nearby *)
Lemma sign_loc f t d : derivable_pt_lim f t d -> f t <> 0 ->
  exists (b : bool) del, 0 < del /\ (forall s, Rabs (s - t) < del -> if b then f s < 0 else 0 < f s).
Proof.
  intros D N. destruct (Rlt_dec (f t) 0) as [L|L].
  - destruct (dpl_gt (fun s => - f s) t _ 0 (dpl_opp _ _ _ D)) as (del & P & K); [cbv beta; lra|].
    exists true, del. split; [exact P|]. intros s Hs. specialize (K s Hs). lra.
  - destruct (dpl_gt f t _ 0 D) as (del & P & K); [lra|]. exists false, del. split; assumption.
Qed.
Lemma near_self t del : 0 < del -> Rabs (t - t) < del.
Proof. intros. rewrite Rminus_diag_eq, Rabs_R0 by reflexivity. assumption. Qed.

Lemma qlnpv_deriv E t dx Er : ederiv E t (qutr_vel2diff (E t) dx) ->
  qw (qcmul (TfModel.eq (E t)) (TfModel.eq Er)) <> 0 -> ln_ok (/ 2 ^ 13) (fst (qerr_of (E t) Er)) ->
  derivable_pt_lim (fun s => qlnpv_val (E s) Er) t
    (dot (qlnpv_cov (E t) Er) (dxw dx) + 2 * dot (dxv dx) (v_err (E t) Er)).
Proof.
  intros D N Ok. pose proof (trans_deriv _ _ _ Er D) as Dt. destruct D as [Dq _]. cbn [TfModel.eq qutr_vel2diff] in Dq.
  pose proof (qcmul_deriv _ _ _ (TfModel.eq Er) Dq) as De.
  destruct (sign_loc (fun s => qw (qcmul (TfModel.eq (E s)) (TfModel.eq Er))) t _ (proj2 (proj2 (proj2 De))) N) as (b & del & Hd & K).
  assert (Q : forall s, Rabs (s - t) < del -> qerr_of (E s) Er = (flip b (qcmul (TfModel.eq (E s)) (TfModel.eq Er)), b)).
  { intros s Hs. specialize (K s Hs). cbv beta in K. unfold qerr_of.
    destruct (Rlt_dec (qw (qcmul (TfModel.eq (E s)) (TfModel.eq Er))) 0), b; cbn [flip]; try reflexivity; lra. }
  assert (Qt := Q t (near_self t del Hd)). rewrite Qt in Ok. cbn [fst] in Ok.
  assert (Pt : 0 < qw (flip b (qcmul (TfModel.eq (E t)) (TfModel.eq Er)))).
  { specialize (K t (near_self t del Hd)). cbv beta in K. destruct b; cbn [flip]; unfold qneg; cbn [qw]; lra. }
  pose proof (qdot_deriv _ _ _ (qln_jac_both _ _ _ (flip_deriv b _ _ _ De) Pt Ok)) as Dl. cbv beta in Dl.
  apply (dpl_ext_loc (fun s => qdot (qln (flip b (qcmul (TfModel.eq (E s)) (TfModel.eq Er)))) (qln (flip b (qcmul (TfModel.eq (E s)) (TfModel.eq Er)))) + trans_val (E s) Er) _ t _ del Hd).
  { intros s Hs. unfold qlnpv_val. rewrite (Q s Hs). reflexivity. }
  eapply dpl_eq; [|apply dpl_plus; [exact Dl|exact Dt]]. f_equal. unfold qlnpv_cov. rewrite Qt.
  rewrite flip_dot_app, rmul_dot, conj_dot, vel_dot. reflexivity.
Qed.

(** ** Dual quaternions *)
Definition dflip (b : bool) (s : DQ) : DQ := if b then dneg s else s.
Lemma dflip_deriv b S t d : dderiv S t d -> dderiv (fun s => dflip b (S s)) t (dflip b d).
Proof.
  intros [A B]. destruct b; [|split; assumption].
  split; [exact (flip_deriv true _ _ _ A)|exact (flip_deriv true _ _ _ B)].
Qed.
Lemma ddot_deriv S t d : dderiv S t d -> derivable_pt_lim (fun s => ddot (S s) (S s)) t (2 * ddot (S t) d).
Proof.
  intros [A B]. unfold ddot. eapply dpl_eq; [|apply dpl_plus; [exact (qdot_deriv _ _ _ A)|exact (qdot_deriv _ _ _ B)]]. cbv beta. ring.
Qed.
Lemma dcmul_deriv S t d r : dderiv S t d -> dderiv (fun s => dcmul (S s) r) t (dmul (dconj d) r).
Proof.
  intros [(A1 & A2 & A3 & A4) (B1 & B2 & B3 & B4)]. destruct r as [[r1 r2 r3 r4] [p1 p2 p3 p4]].
  split; repeat split; unfold dcmul, dmul, dconj, qmul, qmul_a, qadd, qconj; cbn [dreal ddual qx qy qz qw]; dplring.
Qed.
Lemma block_dot M x y : jrd M = zero44 -> jdd M = jrr M -> ddot x (m88_app M y) = ddot (mv_block M x) y.
Proof.
  destruct M as [r z d s]. cbn. intros -> ->. destruct r as [[] [] [] []], d as [[] [] [] []], x as [[] []], y as [[] []].
  unfold ddot, m88_app, mv_block, m44_app, m44_tapp, zero44, qdot, qadd, qscal. cbn. ring.
Qed.
Lemma dflip_dot_app b M x y : jrd M = zero44 -> jdd M = jrr M -> ddot x (m88_app M (dflip b y)) = ddot (mv_block M (dflip b x)) y.
Proof.
  intros H1 H2. destruct b; [|now apply block_dot]. rewrite block_dot by assumption. cbn [dflip].
  destruct M as [r z d s]. destruct r as [[] [] [] []], d as [[] [] [] []], x as [[] []], y as [[] []].
  unfold ddot, dneg, qneg, m88_app, mv_block, m44_app, m44_tapp, zero44, qdot, qadd, qscal. cbn. ring.
Qed.
Lemma ln_jac_blocks S : jrd (duqu_ln_jac S) = zero44 /\ jdd (duqu_ln_jac S) = jrr (duqu_ln_jac S).
Proof. unfold duqu_ln_jac. destruct (ln_coef (dreal S)). split; reflexivity. Qed.
Lemma drmul_dot a c r : ddot a (dmul c r) = ddot (duqu_rmul r a) c.
Proof.
  destruct a as [[] []], c as [[] []], r as [[] []]. unfold duqu_rmul, mv_block, duqu_matrix_r, m44_tapp, qmatrix_r, ddot, dmul, qmul, qmul_a, qadd, qdot. cbn. ring.
Qed.
Lemma dconj_dot a b : ddot a (dconj b) = ddot (dconj a) b.
Proof. destruct a as [[] []], b as [[] []]. unfold ddot, dconj, qconj, qdot. cbn. ring. Qed.
Lemma dvel_dot S w v c : 2 * ddot c (duqu_twist2diff S (mkD (mkqv w 0) (mkqv v 0))) =
  dot (dxw (duqu2pure (duqu_rmul S c))) w + dot (dxv (duqu2pure (duqu_rmul S c))) v.
Proof.
  destruct S as [[] []], w, v, c as [[] []]. unfold duqu2pure, duqu_rmul, mv_block, duqu_matrix_r, m44_tapp, qmatrix_r, ddot, duqu_twist2diff, dmul, qmul, qmul_a, qadd, qdot, qdivs, mkqv, dot, qv. cbn. field.
Qed.

Lemma dqln_deriv E t dx Er : (forall s, unit_qutr (E s)) -> ederiv E t (qutr_vel2diff (E t) dx) ->
  qw (qcmul (TfModel.eq (E t)) (TfModel.eq Er)) <> 0 -> ln_ok eps (fst (qerr_of (E t) Er)) ->
  derivable_pt_lim (fun s => dqln_val (E s) Er) t
    (dot (dxw (dqln_cov (E t) Er)) (dxw dx) + dot (dxv (dqln_cov (E t) Er)) (plus3 (dxv dx) (xprod (ev (E t)) (dxw dx)))).
Proof.
  intros U D N Ok. pose proof (qutr2duqu_deriv _ _ _ U D) as DS. rewrite qutr_diff2vel_vel2diff in DS by apply U.
  pose proof (dcmul_deriv _ _ _ (qutr2duqu Er) DS) as De.
  assert (R : forall e, dreal (dcmul (qutr2duqu e) (qutr2duqu Er)) = qcmul (TfModel.eq e) (TfModel.eq Er)).
  { intros e. rewrite qcmul_eq. reflexivity. }
  destruct (sign_loc (fun s => qw (dreal (dcmul (qutr2duqu (E s)) (qutr2duqu Er)))) t _ (proj2 (proj2 (proj2 (proj1 De)))) ltac:(cbv beta; rewrite R; exact N)) as (b & del & Hd & K).
  assert (Q : forall s, Rabs (s - t) < del -> serr_of (E s) Er = (dflip b (dcmul (qutr2duqu (E s)) (qutr2duqu Er)), b)).
  { intros s Hs. specialize (K s Hs). cbv beta in K. unfold serr_of.
    destruct (Rlt_dec (qw (dreal (dcmul (qutr2duqu (E s)) (qutr2duqu Er)))) 0), b; cbn [dflip]; try reflexivity; lra. }
  assert (Qt := Q t (near_self t del Hd)).
  assert (Fr : dreal (dflip b (dcmul (qutr2duqu (E t)) (qutr2duqu Er))) = fst (qerr_of (E t) Er)).
  { specialize (K t (near_self t del Hd)). cbv beta in K. rewrite R in K. unfold qerr_of.
    destruct (Rlt_dec (qw (qcmul (TfModel.eq (E t)) (TfModel.eq Er))) 0), b; cbn [dflip fst]; try lra; [exact (f_equal qneg (R (E t)))|exact (R (E t))]. }
  assert (Pt : 0 < qw (dreal (dflip b (dcmul (qutr2duqu (E t)) (qutr2duqu Er))))).
  { specialize (K t (near_self t del Hd)). cbv beta in K. destruct b; cbn [dflip]; [unfold dneg, qneg; cbn [dreal qw]|]; lra. }
  rewrite <- Fr in Ok.
  pose proof (ddot_deriv _ _ _ (duqu_ln_jac_both _ _ _ (dflip_deriv b _ _ _ De) Pt Ok)) as Dl. cbv beta in Dl.
  apply (dpl_ext_loc (fun s => ddot (duqu_ln (dflip b (dcmul (qutr2duqu (E s)) (qutr2duqu Er)))) (duqu_ln (dflip b (dcmul (qutr2duqu (E s)) (qutr2duqu Er))))) _ t _ del Hd).
  { intros s Hs. unfold dqln_val. rewrite (Q s Hs). reflexivity. }
  eapply dpl_eq; [|exact Dl]. unfold dqln_cov. rewrite Qt.
  destruct (ln_jac_blocks (dflip b (dcmul (qutr2duqu (E t)) (qutr2duqu Er)))) as [B1 B2].
  rewrite dflip_dot_app by assumption. rewrite drmul_dot, dconj_dot.
  unfold duqu_vel2diff, duqu_vel2twist, qv_vel2twist. rewrite dtrans_qutr2duqu by apply U. rewrite dvel_dot.
  f_equal. f_equal. destruct (ev (E t)), dx as [[] []]. unfold plus3, xprod, cross_a. cbn. f_equal; ring.
Qed.
