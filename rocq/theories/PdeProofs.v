(** The Jacobians of the logarithms are their derivatives. *)
From Coq Require Import Reals Lra Psatz.
From Verif Require Import TfModel TfSpec AtanModel AtanProofs TfExpModel TfExpSpec TfCalcProofs TfLogProofs SgJacProofs PdeModel.
Open Scope R_scope.

Lemma dpl_ext_loc f g t d e : 0 < e -> (forall s, Rabs (s - t) < e -> f s = g s) ->
  derivable_pt_lim f t d -> derivable_pt_lim g t d.
Proof.
  intros He H D eps0 P. destruct (D eps0 P) as [del K].
  assert (M : 0 < Rmin del e) by (apply Rmin_pos; [apply cond_pos|exact He]).
  exists (mkposreal _ M). intros h h0 hd. cbn in hd. rewrite <- H, <- H.
  - apply K; [exact h0|]. eapply Rlt_le_trans; [exact hd|apply Rmin_l].
  - replace (t - t) with 0 by ring. rewrite Rabs_R0. exact He.
  - replace (t + h - t) with h by ring. eapply Rlt_le_trans; [exact hd|apply Rmin_r].
Qed.

Lemma dpl_cont f t d : derivable_pt_lim f t d -> forall e, 0 < e ->
  exists del, 0 < del /\ forall s, Rabs (s - t) < del -> Rabs (f s - f t) < e.
Proof.
  intros D e He. assert (C : continuity_pt f t) by (apply derivable_continuous_pt; exists d; exact D).
  destruct (C e He) as (del & P & K). exists del. split; [exact P|]. intros s Hs.
  destruct (Req_dec s t) as [->|N].
  - replace (f t - f t) with 0 by ring. rewrite Rabs_R0. exact He.
  - apply K. split; [split; [exact I|intro Q; apply N; symmetry; exact Q]|exact Hs].
Qed.

Lemma dpl_gt f t d c : derivable_pt_lim f t d -> c < f t ->
  exists del, 0 < del /\ forall s, Rabs (s - t) < del -> c < f s.
Proof.
  intros D H. destruct (dpl_cont _ _ _ D (f t - c) ltac:(lra)) as (del & P & K). exists del. split; [exact P|].
  intros s Hs. specialize (K s Hs). apply Rabs_def2 in K. lra.
Qed.

Lemma dpl_comp' f g t a b : derivable_pt_lim f t a -> derivable_pt_lim g (f t) b -> derivable_pt_lim (fun s => g (f s)) t (b * a).
Proof. exact (dpl_comp f g t a b). Qed.

Lemma dpl_inv f t a : f t <> 0 -> derivable_pt_lim f t a -> derivable_pt_lim (fun s => / f s) t (- a / (f t * f t)).
Proof.
  intros N D. apply (dpl_ext (fun s => 1 / f s)); [intro; unfold Rdiv; ring|].
  refine (dpl_eq _ _ _ _ _ (derivable_pt_lim_div (fun _ => 1) f t 0 a (dpl_const 1 t) D N)).
  unfold Rsqr. field. exact N.
Qed.
Lemma dpl_div f g t a b : g t <> 0 -> derivable_pt_lim f t a -> derivable_pt_lim g t b ->
  derivable_pt_lim (fun s => f s / g s) t (a / g t - f t * b / (g t * g t)).
Proof.
  intros N D E. refine (dpl_eq _ _ _ _ _ (dpl_mult _ _ _ _ _ D (dpl_inv _ _ _ N E))). field. exact N.
Qed.
Lemma dpl_sqrt f t a : 0 < f t -> derivable_pt_lim f t a -> derivable_pt_lim (fun s => sqrt (f s)) t (a / (2 * sqrt (f t))).
Proof.
  intros P D. refine (dpl_eq _ _ _ _ _ (dpl_comp' f sqrt t _ _ D (derivable_pt_lim_sqrt _ P))).
  pose proof (sqrt_lt_R0 _ P). field. lra.
Qed.
Lemma dpl_ln f t a : 0 < f t -> derivable_pt_lim f t a -> derivable_pt_lim (fun s => ln (f s)) t (a / f t).
Proof.
  intros P D. refine (dpl_eq _ _ _ _ _ (dpl_comp' f ln t _ _ D (derivable_pt_lim_ln _ P))). field. lra.
Qed.

Lemma atan2_up y x : 0 < y -> atan2 y x = PI / 2 - atan (x / y).
Proof.
  intro P. assert (B := atan_bound (x / y)).
  set (r := sqrt (x * x + y * y)). assert (Hr : 0 < r) by (apply sqrt_lt_R0; nra).
  assert (R2 : x * x + y * y = r * r) by (unfold r; rewrite sqrt_sqrt; nra).
  destruct (atan2_polar x y r Hr R2) as [Hc Hs].
  pose proof (atan2_bound y x) as B2.
  apply angle_unique; [exact B2|lra| |].
  - rewrite cos_shift, sin_atan_eq.
    assert (C := cos_pos_atan (x / y)).
    assert (E := sin2_cos2 (atan (x / y))). unfold Rsqr in E. rewrite sin_atan_eq in E.
    set (c := cos (atan (x / y))) in *.
    assert (E2 : c * c * (r * r) = y * y).
    { rewrite <- R2. transitivity (y * y * (x / y * c * (x / y * c) + c * c)); [field; lra|]. rewrite E. ring. }
    assert (E3 : c * r = y) by (apply Rsqr_inj; [apply Rmult_le_pos; lra|lra|unfold Rsqr; lra]).
    apply (Rmult_eq_reg_r r); [|lra]. replace (x / y * c * r) with (x / y * (c * r)) by ring. rewrite E3, Rmult_comm, Hc. field. lra.
  - rewrite sin_shift.
    assert (C := cos_pos_atan (x / y)).
    assert (E := sin2_cos2 (atan (x / y))). unfold Rsqr in E. rewrite sin_atan_eq in E.
    set (c := cos (atan (x / y))) in *.
    assert (E2 : c * c * (r * r) = y * y).
    { rewrite <- R2. transitivity (y * y * (x / y * c * (x / y * c) + c * c)); [field; lra|]. rewrite E. ring. }
    assert (E3 : c * r = y) by (apply Rsqr_inj; [apply Rmult_le_pos; lra|lra|unfold Rsqr; lra]).
    apply (Rmult_eq_reg_r r); [|lra]. lra.
Qed.

Lemma dpl_atan2 f g t a b : 0 < f t -> derivable_pt_lim f t a -> derivable_pt_lim g t b ->
  derivable_pt_lim (fun s => atan2 (f s) (g s)) t ((a * g t - f t * b) / (f t * f t + g t * g t)).
Proof.
  intros P D E. destruct (dpl_gt _ _ _ 0 D P) as (del & Hd & K).
  apply (dpl_ext_loc (fun s => PI / 2 - atan (g s / f s)) _ t _ del Hd).
  { intros s Hs. symmetry. apply atan2_up, K, Hs. }
  refine (dpl_eq _ _ _ _ _ (dpl_minus _ _ _ _ _ (dpl_const (PI/2) t) (dpl_comp' (fun s => g s / f s) atan t _ _ (dpl_div _ _ _ _ _ _ E D) (derivable_pt_lim_atan _)))); [|lra].
  assert (Q : 0 < f t * f t + g t * g t) by (pose proof (Rle_0_sqr (g t)); unfold Rsqr in *; nra).
  unfold Rsqr. field. split; lra.
Qed.

Definition vvof (q : Q4) := vdot (qv q) (qv q).
Definition qqof (q : Q4) := vvof q + qw q * qw q.
Definition thof (q : Q4) := atan2 (sqrt (vvof q)) (qw q).
Definition etaof (q : Q4) := thof q / sqrt (vvof q).
Definition zetaof (q : Q4) := (qw q / qqof q - etaof q) / vvof q.
Definition muof (q : Q4) := (-2 * qw q / (qqof q * qqof q) - 3 * zetaof q) / vvof q.
(** half the derivative of |v|^2 *)
Definition vdv (q dq : Q4) := vdot (qv q) (qv dq).

Section Curve.
Context (q : R -> Q4) (t : R) (dq : Q4).
Hypothesis D : qderiv q t dq.
Hypothesis V : 0 < vvof (q t).

Lemma d_vv : derivable_pt_lim (fun s => vvof (q s)) t (2 * vdv (q t) dq).
Proof.
  destruct D as (Dx & Dy & Dz & Dw). unfold vvof, vdv, vdot, qv. cbn [vx vy vz].
  refine (dpl_eq _ _ _ _ _ (dpl_plus _ _ _ _ _ (dpl_plus _ _ _ _ _ (dpl_mult _ _ _ _ _ Dx Dx) (dpl_mult _ _ _ _ _ Dy Dy)) (dpl_mult _ _ _ _ _ Dz Dz))). ring.
Qed.
Lemma d_qq : derivable_pt_lim (fun s => qqof (q s)) t (2 * vdv (q t) dq + 2 * (qw (q t) * qw dq)).
Proof.
  destruct D as (Dx & Dy & Dz & Dw).
  refine (dpl_eq _ _ _ _ _ (dpl_plus _ _ _ _ _ d_vv (dpl_mult _ _ _ _ _ Dw Dw))). ring.
Qed.
Lemma qq_pos : 0 < qqof (q t).
Proof. unfold qqof. pose proof (Rle_0_sqr (qw (q t))). unfold Rsqr in *. lra. Qed.
Lemma vn_pos : 0 < sqrt (vvof (q t)).
Proof. apply sqrt_lt_R0, V. Qed.
Lemma vn_sq : sqrt (vvof (q t)) * sqrt (vvof (q t)) = vvof (q t).
Proof. apply sqrt_sqrt. lra. Qed.
Lemma d_vn : derivable_pt_lim (fun s => sqrt (vvof (q s))) t (2 * vdv (q t) dq / (2 * sqrt (vvof (q t)))).
Proof. exact (dpl_sqrt (fun s => vvof (q s)) t _ V d_vv). Qed.
Lemma d_th : derivable_pt_lim (fun s => thof (q s)) t
  ((qw (q t) * vdv (q t) dq / sqrt (vvof (q t)) - sqrt (vvof (q t)) * qw dq) / qqof (q t)).
Proof.
  destruct D as (Dx & Dy & Dz & Dw).
  refine (dpl_eq _ _ _ _ _ (dpl_atan2 (fun s => sqrt (vvof (q s))) (fun s => qw (q s)) t _ _ vn_pos d_vn Dw)).
  cbv beta. rewrite vn_sq. fold (qqof (q t)). pose proof vn_pos. pose proof qq_pos. field. lra.
Qed.
Lemma d_eta : derivable_pt_lim (fun s => etaof (q s)) t (zetaof (q t) * vdv (q t) dq - qw dq / qqof (q t)).
Proof.
  pose proof vn_pos as N. pose proof qq_pos. pose proof vn_sq as E.
  refine (dpl_eq _ _ _ _ _ (dpl_div (fun s => thof (q s)) (fun s => sqrt (vvof (q s))) t _ _ _ d_th d_vn)); [|lra].
  unfold zetaof, etaof. cbv beta. set (n := sqrt (vvof (q t))) in *. clearbody n. rewrite <- E. field. lra.
Qed.
Lemma d_zeta : derivable_pt_lim (fun s => zetaof (q s)) t
  (muof (q t) * vdv (q t) dq + 2 * qw dq / (qqof (q t) * qqof (q t))).
Proof.
  destruct D as (Dx & Dy & Dz & Dw). pose proof qq_pos.
  refine (dpl_eq _ _ _ _ _ (dpl_div (fun s => qw (q s) / qqof (q s) - etaof (q s)) (fun s => vvof (q s)) t _ _ _
    (dpl_minus (fun s => qw (q s) / qqof (q s)) (fun s => etaof (q s)) t _ _
      (dpl_div (fun s => qw (q s)) (fun s => qqof (q s)) t _ _ _ Dw d_qq) d_eta) d_vv)); [|lra|lra].
  cbv beta.
  unfold muof. unfold zetaof. set (e := etaof (q t)). unfold qqof in *. set (v := vvof (q t)) in *. field. lra.
Qed.
End Curve.

Lemma ln_coef_far p : eps <= thof p -> ln_coef p = (etaof p, zetaof p).
Proof.
  intro H. unfold ln_coef. fold (vvof p) (qqof p). fold (thof p). destruct (Rlt_dec (thof p) eps); [lra|]. reflexivity.
Qed.
Lemma eps_pos : 0 < eps.
Proof. unfold eps. apply Rinv_0_lt_compat, pow_lt. lra. Qed.
Lemma sqrt_le_0 x : sqrt x <= 0 -> sqrt x = 0.
Proof. intro H. pose proof (sqrt_pos x). lra. Qed.
(** A positive angle less than pi: the vector part is not zero, or it is zero and the angle is pi *)
Lemma vv_nonneg p : 0 <= vvof p.
Proof. unfold vvof, vdot, qv. cbn [vx vy vz]. pose proof (Rle_0_sqr (qx p)). pose proof (Rle_0_sqr (qy p)). pose proof (Rle_0_sqr (qz p)). unfold Rsqr in *. lra. Qed.
Lemma vv_len p : vvof p = dot (vecpart p) (vecpart p).
Proof. reflexivity. Qed.
Lemma vv_pos p : vecpart p <> zero3 -> 0 < vvof p.
Proof.
  intro N. destruct (Rle_lt_or_eq_dec 0 (vvof p) (vv_nonneg p)) as [H|H]; [exact H|]. exfalso. apply N.
  unfold vvof, vdot, qv in H. cbn [vx vy vz] in H.
  pose proof (Rle_0_sqr (qx p)). pose proof (Rle_0_sqr (qy p)). pose proof (Rle_0_sqr (qz p)). unfold Rsqr in *.
  unfold vecpart, zero3. f_equal; apply Rsqr_0_uniq; unfold Rsqr; lra.
Qed.

(** the derivative of the formula used away from the series *)
Definition lnfar (p : Q4) : Q4 := mkqv (vscale (etaof p) (qv p)) (ln (sqrt (qqof p))).
Lemma lnfar_deriv q t dq : qderiv q t dq -> 0 < vvof (q t) ->
  qderiv (fun s => lnfar (q s)) t (m44_app (qln_jac_fill (q t) (qqof (q t)) (zetaof (q t)) (etaof (q t))) dq).
Proof.
  intros D V. pose proof (d_eta q t dq D V) as De. pose proof (qq_pos q t V) as P. pose proof (d_qq q t dq D) as Dq.
  assert (Dl : derivable_pt_lim (fun s => ln (sqrt (qqof (q s)))) t ((vdv (q t) dq + qw (q t) * qw dq) / qqof (q t))).
  { pose proof (sqrt_lt_R0 _ P).
    refine (dpl_eq _ _ _ _ _ (dpl_ln (fun s => sqrt (qqof (q s))) t _ _ (dpl_sqrt (fun s => qqof (q s)) t _ P Dq))); [|lra].
    rewrite <- (sqrt_sqrt (qqof (q t))) at 3 by lra. field. lra. }
  destruct D as (Dx & Dy & Dz & Dw).
  unfold qderiv, lnfar, mkqv, vscale, qv. cbn [qx qy qz qw vx vy vz].
  repeat split.
  - refine (dpl_eq _ _ _ _ _ (dpl_mult _ _ _ _ _ De Dx)). unfold vdv, vdot, qv, m44_app, qln_jac_fill, fill_uplo, qadd, qscal. cbn. field. lra.
  - refine (dpl_eq _ _ _ _ _ (dpl_mult _ _ _ _ _ De Dy)). unfold vdv, vdot, qv, m44_app, qln_jac_fill, fill_uplo, qadd, qscal. cbn. field. lra.
  - refine (dpl_eq _ _ _ _ _ (dpl_mult _ _ _ _ _ De Dz)). unfold vdv, vdot, qv, m44_app, qln_jac_fill, fill_uplo, qadd, qscal. cbn. field. lra.
  - refine (dpl_eq _ _ _ _ _ Dl). unfold vdv, vdot, qv, m44_app, qln_jac_fill, fill_uplo, qadd, qscal. cbn. field. lra.
Qed.

Lemma qderiv_ext_loc f g t d e : 0 < e -> (forall s, Rabs (s - t) < e -> f s = g s) -> qderiv f t d -> qderiv g t d.
Proof.
  intros He H (A & B & C & E). repeat split;
  (eapply dpl_ext_loc; [exact He| |eassumption]; intros s Hs; cbn; now rewrite H).
Qed.

Lemma th_gt q t dq c : qderiv q t dq -> 0 < vvof (q t) -> c < thof (q t) ->
  exists del, 0 < del /\ forall s, Rabs (s - t) < del -> c < thof (q s).
Proof. intros D V H. exact (dpl_gt (fun s => thof (q s)) t _ c (d_th q t dq D V) H). Qed.

Lemma qln_far p : / 2 ^ 13 <= thof p -> qln p = lnfar p.
Proof.
  intro H. rewrite qln_unfold. change (qphi p) with (thof p). destruct (Rlt_dec (thof p) (/ 2 ^ 13)); [lra|].
  unfold lnfar, etaof, len4. reflexivity.
Qed.
Lemma eps_13 : eps <= / 2 ^ 13.
Proof. unfold eps. apply Rinv_le_contravar; [apply pow_lt; lra|]. apply Rle_pow; [lra|]. repeat constructor. Qed.

Lemma qln_jac_ok q t dq : qderiv q t dq -> vecpart (q t) <> zero3 ->
  / 2 ^ 13 < atan2 (len3 (vecpart (q t))) (qw (q t)) ->
  qderiv (fun s => qln (q s)) t (m44_app (qln_jac (q t)) dq).
Proof.
  intros D N H. change (/ 2 ^ 13 < thof (q t)) in H. pose proof (vv_pos _ N) as V.
  destruct (th_gt q t dq _ D V H) as (del & Hd & K).
  apply (qderiv_ext_loc (fun s => lnfar (q s)) _ t _ del Hd).
  { intros s Hs. symmetry. apply qln_far. specialize (K s Hs). lra. }
  pose proof (lnfar_deriv q t dq D V) as L. unfold qln_jac. rewrite ln_coef_far by (pose proof eps_13; lra). exact L.
Qed.

(** ** Against the true logarithm *)
Lemma log_unique_pos w k a p : unit3 k -> 0 <= a < PI ->
  p = mkqv (times3 (exp w * sin a) k) (exp w * cos a) -> 0 < vvof p ->
  lnfar p = mkqv (times3 a k) w.
Proof.
  intros U A E V. set (r := exp w) in *. assert (Hr : 0 < r) by apply exp_pos.
  assert (U' : vx k * vx k + vy k * vy k + vz k * vz k = 1) by exact U.
  assert (VV : vvof p = (r * sin a) * (r * sin a)).
  { rewrite E. unfold vvof, vdot, qv, mkqv, times3. cbn. transitivity ((r * sin a) * (r * sin a) * (vx k * vx k + vy k * vy k + vz k * vz k)); [ring|rewrite U'; ring]. }
  assert (S0 : 0 <= sin a) by (apply sin_ge_0; lra).
  assert (S : 0 < sin a).
  { destruct S0 as [S0|S0]; [exact S0|]. rewrite VV, <- S0 in V. lra. }
  assert (SQ : sqrt (vvof p) = r * sin a) by (rewrite VV; apply sqrt_square, Rmult_le_pos; lra).
  assert (QQ : qqof p = r * r).
  { unfold qqof. rewrite VV, E. unfold mkqv. cbn. pose proof (sin2_cos2 a) as P. unfold Rsqr in P.
    transitivity (r * r * (sin a * sin a + cos a * cos a)); [ring|rewrite P; ring]. }
  assert (TH : thof p = a).
  { unfold thof. rewrite SQ, E. unfold mkqv. cbn. apply atan2_pol; [exact Hr|lra]. }
  unfold lnfar, etaof. rewrite TH, SQ, QQ, sqrt_square by lra. unfold r at 2. rewrite ln_exp.
  rewrite E. unfold mkqv, vscale, times3, qv. cbn. f_equal; field; lra.
Qed.
Lemma log_unique l p : quat_exp l p -> len3 (vecpart l) < PI -> 0 < vvof p -> lnfar p = l.
Proof.
  intros (p0 & (k & a & U & E & P) & F) B V.
  assert (U' : vx k * vx k + vy k * vy k + vz k * vz k = 1) by exact U.
  assert (La : len3 (vecpart l) = Rabs a).
  { rewrite E. unfold len3, dot, times3. cbn. rewrite <- sqrt_Rsqr_abs. f_equal. unfold Rsqr.
    transitivity (a * a * (vx k * vx k + vy k * vy k + vz k * vz k)); [ring|rewrite U'; ring]. }
  rewrite La in B. subst p0. cbn in F.
  assert (LE : l = mkqv (times3 a k) (qw l)) by (rewrite <- E; destruct l; reflexivity).
  rewrite LE. destruct (Rle_dec 0 a) as [G|G].
  - rewrite Rabs_pos_eq in B by lra. apply log_unique_pos; [exact U|lra| |exact V].
    rewrite F. unfold mkqv, times3. cbn. f_equal; ring.
  - rewrite Rabs_left in B by lra.
    replace (times3 a k) with (times3 (- a) (times3 (-1) k)) by (unfold times3; cbn; f_equal; ring).
    apply log_unique_pos; [|lra| |exact V].
    + unfold unit3, dot, times3. cbn. rewrite <- U'. ring.
    + rewrite F, sin_neg, cos_neg. unfold mkqv, times3. cbn. f_equal; ring.
Qed.

Lemma qln_jac_true q t dq L : qderiv q t dq -> vecpart (q t) <> zero3 ->
  eps <= atan2 (len3 (vecpart (q t))) (qw (q t)) ->
  (forall s, quat_exp (L s) (q s) /\ len3 (vecpart (L s)) < PI) ->
  qderiv L t (m44_app (qln_jac (q t)) dq).
Proof.
  intros D N H HL. change (eps <= thof (q t)) in H. pose proof (vv_pos _ N) as V.
  destruct (dpl_gt (fun s => vvof (q s)) t _ 0 (d_vv q t dq D) V) as (del & Hd & K).
  apply (qderiv_ext_loc (fun s => lnfar (q s)) _ t _ del Hd).
  { intros s Hs. destruct (HL s). apply log_unique; [assumption|assumption|exact (K s Hs)]. }
  unfold qln_jac. rewrite ln_coef_far by exact H. exact (lnfar_deriv q t dq D V).
Qed.

(** ** Dual quaternions *)
Definition dlnfar (S : DQ) : DQ :=
  let q := dreal S in let d := ddual S in
  let k_d := vdot (qv q) (qv d) * zetaof q - qw d / qqof q in
  mkD (lnfar q) (mkqv (vadd (vscale k_d (qv q)) (vscale (etaof q) (qv d))) ((vdot (qv q) (qv d) + qw q * qw d) / qqof q)).
Lemma duqu_ln_far S : eps <= thof (dreal S) -> duqu_ln S = dlnfar S.
Proof.
  intro H. unfold duqu_ln. fold (vvof (dreal S)). fold (qqof (dreal S)). fold (thof (dreal S)).
  destruct (Rlt_dec (thof (dreal S)) eps); [lra|]. reflexivity.
Qed.

Lemma dlnfar_deriv q d t dq dd : qderiv q t dq -> qderiv d t dd -> eps <= thof (q t) -> 0 < vvof (q t) ->
  dderiv (fun s => dlnfar (mkD (q s) (d s))) t (m88_app (duqu_ln_jac (mkD (q t) (d t))) (mkD dq dd)).
Proof.
  intros Dr Dd H V.
  pose proof (lnfar_deriv _ t _ Dr V) as DL.
  pose proof (d_eta _ t _ Dr V) as De. pose proof (d_zeta _ t _ Dr V) as Dz. pose proof (d_qq _ t _ Dr) as Dq.
  pose proof (qq_pos _ t V) as P.
  assert (VN : vvof (q t) <> 0) by lra.
  assert (Dg : derivable_pt_lim (fun s => vdot (qv (q s)) (qv (d s))) t (vdot (qv dq) (qv (d t)) + vdot (qv (q t)) (qv dd))).
  { destruct Dr as (A1 & A2 & A3 & _). destruct Dd as (B1 & B2 & B3 & _).
    unfold vdot, qv. cbn [vx vy vz].
    refine (dpl_eq _ _ _ _ _ (dpl_plus _ _ _ _ _ (dpl_plus _ _ _ _ _ (dpl_mult _ _ _ _ _ A1 B1) (dpl_mult _ _ _ _ _ A2 B2)) (dpl_mult _ _ _ _ _ A3 B3))).
    cbn. ring. }
  destruct Dr as (A1 & A2 & A3 & A4). destruct Dd as (B1 & B2 & B3 & B4).
  assert (Dk : derivable_pt_lim (fun s => vdot (qv (q s)) (qv (d s)) * zetaof (q s) - qw (d s) / qqof (q s)) t
    ((vdot (qv dq) (qv (d t)) + vdot (qv (q t)) (qv dd)) * zetaof (q t)
     + vdot (qv (q t)) (qv (d t)) * (muof (q t) * vdv (q t) dq + 2 * qw dq / (qqof (q t) * qqof (q t)))
     - (qw dd / qqof (q t) - qw (d t) * (2 * vdv (q t) dq + 2 * (qw (q t) * qw dq)) / (qqof (q t) * qqof (q t))))).
  { apply (dpl_minus (fun s => vdot (qv (q s)) (qv (d s)) * zetaof (q s)) (fun s => qw (d s) / qqof (q s))).
    - exact (dpl_mult _ _ _ _ _ Dg Dz).
    - apply (dpl_div (fun s => qw (d s)) (fun s => qqof (q s))); [lra|exact B4|exact Dq]. }
  unfold duqu_ln_jac. cbn [dreal ddual]. rewrite ln_coef_far by exact H. fold (vvof (q t)). fold (qqof (q t)). fold (thof (q t)).
  destruct (Rlt_dec (thof (q t)) eps) as [C|_]; [lra|]. fold (muof (q t)).
  unfold m88_app. cbn [jrr jrd jdr jdd dreal ddual]. split; cbn [dreal ddual].
  - match goal with |- qderiv _ _ ?r => replace r with (m44_app (qln_jac_fill (q t) (qqof (q t)) (zetaof (q t)) (etaof (q t))) dq) end; [exact DL|].
    unfold qadd, m44_app, zero44, qscal, qadd. cbn. f_equal; ring.
  - unfold dlnfar. cbn [dreal ddual].
    unfold qderiv, mkqv, vadd, vscale. cbn [qx qy qz qw vx vy vz].
    repeat split.
    + refine (dpl_eq _ _ _ _ _ (dpl_plus _ _ _ _ _ (dpl_mult _ _ _ _ _ Dk A1) (dpl_mult _ _ _ _ _ De B1))).
      unfold vdv, vdot, qv, m44_app, qln_jac_fill, fill_uplo, qadd, qscal, s_ff, s_ff_diag. cbn. field. lra.
    + refine (dpl_eq _ _ _ _ _ (dpl_plus _ _ _ _ _ (dpl_mult _ _ _ _ _ Dk A2) (dpl_mult _ _ _ _ _ De B2))).
      unfold vdv, vdot, qv, m44_app, qln_jac_fill, fill_uplo, qadd, qscal, s_ff, s_ff_diag. cbn. field. lra.
    + refine (dpl_eq _ _ _ _ _ (dpl_plus _ _ _ _ _ (dpl_mult _ _ _ _ _ Dk A3) (dpl_mult _ _ _ _ _ De B3))).
      unfold vdv, vdot, qv, m44_app, qln_jac_fill, fill_uplo, qadd, qscal, s_ff, s_ff_diag. cbn. field. lra.
    + refine (dpl_eq _ _ _ _ _ (dpl_div (fun s => vdot (qv (q s)) (qv (d s)) + qw (q s) * qw (d s)) (fun s => qqof (q s)) t _ _ _
         (dpl_plus (fun s => vdot (qv (q s)) (qv (d s))) (fun s => qw (q s) * qw (d s)) t _ _ Dg (dpl_mult _ _ _ _ _ A4 B4)) Dq)); [|lra].
      unfold vdv, vdot, qv, m44_app, qln_jac_fill, fill_uplo, qadd, qscal, s_ff, s_ff_diag. cbn. field. lra.
Qed.

Lemma duqu_ln_jac_ok S t dS : dderiv S t dS -> vecpart (dreal (S t)) <> zero3 ->
  eps < atan2 (len3 (vecpart (dreal (S t)))) (qw (dreal (S t))) ->
  dderiv (fun s => duqu_ln (S s)) t (m88_app (duqu_ln_jac (S t)) dS).
Proof.
  intros D N H. change (eps < thof (dreal (S t))) in H. pose proof (vv_pos _ N) as V.
  destruct (th_gt (fun s => dreal (S s)) t _ _ (proj1 D) V H) as (del & Hd & K).
  destruct D as [Dr Dd].
  destruct (dlnfar_deriv _ _ t _ _ Dr Dd ltac:(cbv beta; lra) V) as [A B].
  assert (ES : forall s, mkD (dreal (S s)) (ddual (S s)) = S s) by (intro s; destruct (S s); reflexivity).
  assert (EdS : mkD (dreal dS) (ddual dS) = dS) by (destruct dS; reflexivity).
  cbv beta in A, B. rewrite ES, EdS in A, B.
  split.
  - eapply qderiv_ext_loc; [exact Hd| |exact A]. intros s Hs. cbv beta. rewrite ES, duqu_ln_far; [reflexivity|]. specialize (K s Hs). cbv beta in K. lra.
  - eapply qderiv_ext_loc; [exact Hd| |exact B]. intros s Hs. cbv beta. rewrite ES, duqu_ln_far; [reflexivity|]. specialize (K s Hs). cbv beta in K. lra.
Qed.
Lemma conj_jac_ok x : m88_app duqu_conj_jac x = dconj x.
Proof.
  destruct x as [[a b c d] [e f g h]]. unfold m88_app, duqu_conj_jac, m44_app, diag44, zero44, qadd, qscal, dconj, qconj. cbn.
  f_equal; f_equal; ring.
Qed.

