(** Algebraic slerp and its derivative. *)
From Coq Require Import Reals Lra Psatz.
From Verif Require Import TfModel TfSpec TfProofs TfExpModel TfExpSpec SeriesProofs TfExpProofs TfLogProofs TfInterpProofs JacModel JacSpec.
Open Scope R_scope.

Lemma ham_mk a b c d x y z w : hamilton (mkQ a b c d) (mkQ x y z w)
  = mkQ (b * z - c * y + (d * x + w * a)) (c * x - a * z + (d * y + w * b)) (a * y - b * x + (d * z + w * c)) (d * w - (a * x + b * y + c * z)).
Proof. reflexivity. Qed.

Definition arcq (k : V3) (a : R) : Q4 := mkQ (sin a * vx k) (sin a * vy k) (sin a * vz k) (cos a).
Lemma arcq_unit k a : unit3 k -> unitq (arcq k a).
Proof. intros U. apply (pure_exp_unit (times3 a k)). exists k, a. auto. Qed.
Lemma qexp_arc k a : unit3 k -> a = 0 \/ / 2 ^ 13 <= Rabs a ->
  qexp (mkqv (times3 a k) 0) = arcq k a.
Proof.
  intros U C. assert (X : forall k a, unit3 k -> a = 0 \/ / 2 ^ 13 <= a -> qexp (mkqv (times3 a k) 0) = arcq k a).
  { clear. intros k a U C. pose proof p13_pos. rewrite qexp_qpexp. cbn [qw mkqv]. rewrite exp_0.
    replace (qv (mkqv (times3 a k) 0)) with (times3 a k) by reflexivity.
    rewrite (qpexp_times k a U) by lra. destruct C as [->|C].
    - rewrite Rmult_0_l, sinccos2_0. unfold qscal, arcq, mkqv, vscale. rewrite sin_0, cos_0. cbn [qx qy qz qw vx vy vz]. f_equal; ring.
    - rewrite sinccos2_exact by lra. unfold qscal, arcq, mkqv, vscale. cbn [qx qy qz qw vx vy vz]. f_equal; field; lra. }
  destruct (Rle_dec 0 a) as [P|P].
  - apply X; [exact U|]. rewrite Rabs_right in C by lra. exact C.
  - assert (U' : unit3 (times3 (-1) k)) by (unfold unit3, dot, times3 in *; cbn [vx vy vz]; lra).
    replace (times3 a k) with (times3 (- a) (times3 (-1) k)) by (unfold times3; cbn [vx vy vz]; f_equal; ring).
    rewrite X; [|exact U'|rewrite Rabs_left in C by lra; destruct C; [left|right]; lra].
    unfold arcq, times3. rewrite sin_neg, cos_neg. cbn [vx vy vz]. f_equal; ring.
Qed.
Lemma qln_arc k a : unit3 k -> / 2 ^ 13 <= a < PI -> qln (arcq k a) = mkqv (times3 a k) 0.
Proof.
  intros U [A B]. pose proof p13_pos. rewrite <- (qexp_arc k a U) by (right; rewrite Rabs_right; lra).
  apply qln_qexp_exact. replace (vecpart (mkqv (times3 a k) 0)) with (times3 a k) by reflexivity.
  rewrite len3_times, (len3_unit k U), Rabs_right by lra. lra.
Qed.

Lemma nearer_short p q : nearer p q = short_end p q.
Proof. reflexivity. Qed.
Lemma min_cmul p q : qminimize (qcmul p q) = hamilton (conjugate p) (nearer p q).
Proof.
  unfold qminimize, nearer. assert (E : qw (qcmul p q) = dot4 p q) by (destruct p, q; unfold dot4; tfc; ring).
  rewrite E. destruct (Rlt_dec _ _); destruct p, q; unfold hamilton, conjugate, scale4, plus3, xprod, times3, vecpart, dot; tfc; f_equal; ring.
Qed.
Lemma min_mulc p q : qminimize (qmulc q p) = hamilton (nearer p q) (conjugate p).
Proof.
  unfold qminimize, nearer. assert (E : qw (qmulc q p) = dot4 p q) by (destruct p, q; unfold dot4; tfc; ring).
  rewrite E. destruct (Rlt_dec _ _); destruct p, q; unfold hamilton, conjugate, scale4, plus3, xprod, times3, vecpart, dot; tfc; f_equal; ring.
Qed.

(** The nearer end, seen from the start: a turn about an axis by the angle. *)
Lemma near_turn q1 q2 th : unitq q1 -> unitq q2 -> 0 <= th <= PI / 2 -> cos th = Rabs (dot4 q1 q2) ->
  exists k, unit3 k /\ hamilton (conjugate q1) (nearer q1 q2) = arcq k th.
Proof.
  intros U1 U2 T C. set (m := hamilton _ _).
  assert (W : qw m = cos th).
  { rewrite C. destruct (short_end_cases q1 q2) as (_ & _ & <-). rewrite <- nearer_short. unfold m. generalize (nearer q1 q2). intros e.
    destruct q1 as [l1 l2 l3 l4], e as [m1 m2 m3 m4]. unfold hamilton, conjugate, dot4, dot, vecpart. cbn [qx qy qz qw vx vy vz]. ring. }
  assert (N : norm2 m = 1).
  { assert (E : norm2 (nearer q1 q2) = 1) by (unfold nearer; destruct (Rlt_dec _ _); [apply scale_unit|]; assumption).
    unfold m. revert E. generalize (nearer q1 q2). intros e E. transitivity (norm2 q1 * norm2 e).
    - destruct q1 as [l1 l2 l3 l4], e as [m1 m2 m3 m4]. unfold norm2, hamilton, conjugate, plus3, xprod, times3, vecpart, dot. cbn [qx qy qz qw vx vy vz]. ring.
    - unfold unitq in U1. rewrite U1, E. ring. }
  clearbody m. destruct (direction (vecpart m)) as (k & K & E).
  assert (S : len3 (vecpart m) = sin th).
  { pose proof (len3_sq (vecpart m)) as Q. pose proof (len3_nonneg (vecpart m)) as P. pose proof (sin2_cos2 th) as R. unfold Rsqr in R.
    assert (0 <= sin th) by (apply sin_ge_0; pose proof PI_RGT_0; lra).
    assert (Q' : len3 (vecpart m) * len3 (vecpart m) = sin th * sin th).
    { rewrite Q. unfold norm2 in N. unfold dot, vecpart. cbn [vx vy vz]. rewrite W in N. lra. }
    apply Rsqr_inj; [exact P|assumption|exact Q']. }
  exists k. split; [exact K|]. rewrite S in E. destruct m as [x y z w]. cbn [qw] in W. subst w.
  unfold vecpart, times3 in E. cbn [qx qy qz] in E. injection E as -> -> ->. reflexivity.
Qed.
Lemma undo q e : unitq q -> hamilton q (hamilton (conjugate q) e) = e.
Proof.
  intros U. unfold unitq, norm2 in U. destruct q as [a b c d], e as [x y z w]. unfold hamilton, conjugate, plus3, xprod, times3, vecpart, dot. cbn [qx qy qz qw vx vy vz] in *.
  f_equal.
  - transitivity ((a*a+b*b+c*c+d*d) * x); [ring|rewrite U; ring].
  - transitivity ((a*a+b*b+c*c+d*d) * y); [ring|rewrite U; ring].
  - transitivity ((a*a+b*b+c*c+d*d) * z); [ring|rewrite U; ring].
  - transitivity ((a*a+b*b+c*c+d*d) * w); [ring|rewrite U; ring].
Qed.
Lemma ham_unit p q : unitq p -> unitq q -> unitq (hamilton p q).
Proof.
  unfold unitq. intros A B. transitivity (norm2 p * norm2 q); [|rewrite A, B; ring].
  destruct p as [l1 l2 l3 l4], q as [m1 m2 m3 m4]. unfold norm2, hamilton, plus3, xprod, times3, vecpart, dot. cbn [qx qy qz qw vx vy vz]. ring.
Qed.

Lemma normalize_unit q : unitq q -> qnormalize q = q.
Proof.
  intros U. unfold qnormalize. assert (E : qnorm q = 1).
  { rewrite qnorm_len4. unfold len4. unfold unitq in U. rewrite U. apply sqrt_1. }
  rewrite E. destruct q as [l1 l2 l3 l4]. unfold qdivs. cbn [qx qy qz qw]. f_equal; field.
Qed.

Lemma arc_0 k : arcq k 0 = mkQ 0 0 0 1.
Proof. unfold arcq. rewrite sin_0, cos_0. f_equal; ring. Qed.
Lemma pow_arc k th tau : unit3 k -> 0 <= th <= PI / 2 -> th = 0 \/ / 2 ^ 13 <= th ->
  tau * th = 0 \/ / 2 ^ 13 <= Rabs (tau * th) -> qpow (arcq k th) tau = arcq k (tau * th).
Proof.
  intros K T O O'. pose proof PI_RGT_0. unfold qpow. rewrite <- (qexp_arc k (tau * th) K O'). f_equal.
  destruct O as [->|O].
  - rewrite arc_0, qln_v0, ln_1 by lra. rewrite Rmult_0_r. unfold qscal, mkqv, times3. cbn [qx qy qz qw vx vy vz]. f_equal; ring.
  - rewrite qln_arc by (try assumption; lra). unfold qscal, mkqv, times3. cbn [qx qy qz qw vx vy vz]. f_equal; ring.
Qed.
Lemma alg_form q1 k th tau : forall q2, unitq q1 -> unit3 k -> hamilton (conjugate q1) (nearer q1 q2) = arcq k th ->
  0 <= th <= PI / 2 -> th = 0 \/ / 2 ^ 13 <= th -> tau * th = 0 \/ / 2 ^ 13 <= Rabs (tau * th) ->
  qslerpalg tau q1 q2 = hamilton q1 (arcq k (tau * th)).
Proof.
  intros q2 U K E T O O'. unfold qslerpalg. rewrite min_cmul, E, pow_arc, qmul_hamilton by assumption.
  apply normalize_unit, ham_unit; [exact U|now apply arcq_unit].
Qed.

Definition axisq (q1 : Q4) (k : V3) : Q4 := hamilton q1 (pure k).
Lemma ham_arc q1 k a : hamilton q1 (arcq k a) = plus4 (scale4 (cos a) q1) (scale4 (sin a) (axisq q1 k)).
Proof.
  destruct q1 as [l1 l2 l3 l4], k as [u1 u2 u3]. unfold axisq, pure, arcq, hamilton, plus4, scale4, plus3, xprod, times3, vecpart, dot. cbn [qx qy qz qw vx vy vz]. f_equal; ring.
Qed.
Lemma axisq_unit q1 k : unitq q1 -> unit3 k -> norm2 (axisq q1 k) = 1 /\ dot4 q1 (axisq q1 k) = 0.
Proof.
  intros U K. split.
  - apply ham_unit; [exact U|]. unfold unitq, norm2, pure. unfold unit3, dot in K. cbn [qx qy qz qw]. lra.
  - destruct q1 as [l1 l2 l3 l4], k as [u1 u2 u3]. unfold axisq, pure, hamilton, dot4, plus3, xprod, times3, vecpart, dot. cbn [qx qy qz qw vx vy vz]. ring.
Qed.

Lemma slerpalg_arc q1 q2 th tau : unitq q1 -> unitq q2 -> 0 <= th <= PI / 2 -> cos th = Rabs (dot4 q1 q2) ->
  th = 0 \/ / 2 ^ 13 <= th -> tau * th = 0 \/ / 2 ^ 13 <= Rabs (tau * th) ->
  unitq (qslerpalg tau q1 q2) /\ on_arc q1 (nearer q1 q2) th tau (qslerpalg tau q1 q2).
Proof.
  intros U1 U2 T C O O'. destruct (near_turn q1 q2 th U1 U2 T C) as (k & K & E).
  rewrite (alg_form q1 k th tau q2 U1 K E T O O'). split; [apply ham_unit; [exact U1|now apply arcq_unit]|].
  destruct (axisq_unit q1 k U1 K) as (A1 & A2). exists (axisq q1 k). split; [exact A1|]. split; [exact A2|].
  split; [|apply ham_arc]. rewrite <- ham_arc, <- E. now rewrite undo.
Qed.
Lemma slerpalg_same q1 q2 th tau : unitq q1 -> unitq q2 -> 0 <= th <= PI / 2 -> cos th = Rabs (dot4 q1 q2) ->
  th = 0 \/ / 2 ^ 13 <= th -> tau * th = 0 \/ / 2 ^ 13 <= Rabs (tau * th) ->
  qslerpalg tau q1 q2 = qslerp tau q1 q2.
Proof.
  intros U1 U2 T C O O'. destruct (slerpalg_arc q1 q2 th tau U1 U2 T C O O') as (_ & e & _ & _ & E & ->).
  pose proof (slerp_arc q1 q2 tau U1 U2) as (f & _ & _ & F & ->).
  rewrite <- (slerp_angle_of q1 q2 th U1 U2 T C) in *. rewrite nearer_short in E. rewrite F in E.
  destruct O as [->|O].
  - rewrite Rmult_0_r, sin_0. unfold scale4, plus4. f_equal; cbn [qx qy qz qw]; ring.
  - pose proof p13_pos. assert (S : 0 < sin th) by (apply sin_gt_0; pose proof PI_RGT_0; lra).
    assert (X : forall x y z, x + sin th * y = x + sin th * z -> y = z) by (intros x y z HX; apply (Rmult_eq_reg_l (sin th)); lra).
    assert (EF : e = f).
    { destruct e as [a b c d], f as [a' b' c' d']. unfold plus4, scale4 in E. cbn [qx qy qz qw] in E. injection E as E1 E2 E3 E4.
      f_equal; symmetry; eapply X; eassumption. }
    now rewrite EF.
Qed.

(** The derivative. *)
Lemma rot_arc q1 k a : hamilton (hamilton q1 (arcq k a)) (conjugate q1)
  = mkqv (times3 (sin a) (vecpart (hamilton (hamilton q1 (pure k)) (conjugate q1)))) (norm2 q1 * cos a).
Proof.
  destruct q1 as [l1 l2 l3 l4], k as [u1 u2 u3]. unfold pure, arcq, conjugate, norm2. cbn [qx qy qz qw vx vy vz]. rewrite !ham_mk.
  unfold mkqv, times3, vecpart. cbn [qx qy qz qw vx vy vz]. f_equal; ring.
Qed.
Lemma turned_pure q k : hamilton (hamilton q (pure k)) (conjugate q) = pure (vecpart (hamilton (hamilton q (pure k)) (conjugate q))).
Proof.
  destruct q as [l1 l2 l3 l4], k as [u1 u2 u3]. unfold pure at 1 3, conjugate. cbn [qx qy qz qw vx vy vz]. rewrite !ham_mk.
  unfold pure, vecpart. cbn [qx qy qz qw vx vy vz]. f_equal; ring.
Qed.
Lemma alg_diff q1 k th tau : forall q2, unitq q1 -> unit3 k -> hamilton (conjugate q1) (nearer q1 q2) = arcq k th ->
  0 <= th <= PI / 2 -> th = 0 \/ / 2 ^ 13 <= th -> tau * th = 0 \/ / 2 ^ 13 <= Rabs (tau * th) ->
  qslerpdiffalg tau q1 q2 = plus4 (scale4 (- (th * sin (tau * th))) q1) (scale4 (th * cos (tau * th)) (axisq q1 k)).
Proof.
  intros q2 U K E T O O'. unfold qslerpdiffalg. rewrite (alg_form q1 k th tau q2 U K E T O O'), min_mulc. cbv zeta.
  rewrite <- (undo q1 (nearer q1 q2) U), E, rot_arc, qmul_hamilton.
  set (p := hamilton (hamilton q1 (pure k)) (conjugate q1)). pose proof (turned_pure q1 k) as TP. fold p in TP.
  assert (N : norm2 p = 1).
  { unfold p. apply ham_unit; [apply ham_unit; [exact U|]|].
    - unfold unitq, norm2, pure. unfold unit3, dot in K. cbn [qx qy qz qw]. lra.
    - unfold unitq, norm2, conjugate in *. cbn [qx qy qz qw]. lra. }
  set (kk := vecpart p) in *. assert (KK : unit3 kk).
  { rewrite TP in N. unfold norm2, pure in N. unfold unit3, dot. cbn [qx qy qz qw] in N. lra. }
  replace (mkqv (times3 (sin th) kk) (norm2 q1 * cos th)) with (arcq kk th)
    by (unfold unitq in U; rewrite U; unfold arcq, mkqv, times3; cbn [vx vy vz]; f_equal; ring).
  assert (L : qln (arcq kk th) = scale4 th (pure kk)).
  { pose proof PI_RGT_0. destruct O as [->|O].
    - rewrite arc_0, qln_v0, ln_1 by lra. unfold scale4, pure. cbn [qx qy qz qw]. f_equal; ring.
    - rewrite qln_arc by (try assumption; lra). unfold mkqv, times3, scale4, pure. cbn [qx qy qz qw vx vy vz]. f_equal; ring. }
  rewrite L, <- TP.
  assert (M : hamilton p q1 = axisq q1 k).
  { unfold p, axisq. rewrite <- hamilton_assoc.
    replace (hamilton (conjugate q1) q1) with (mkQ 0 0 0 1).
    - destruct (hamilton q1 (pure k)) as [l1 l2 l3 l4]. unfold hamilton, plus3, xprod, times3, vecpart, dot. cbn [qx qy qz qw vx vy vz]. f_equal; ring.
    - unfold unitq, norm2 in U. destruct q1 as [l1 l2 l3 l4]. unfold hamilton, conjugate, plus3, xprod, times3, vecpart, dot. cbn [qx qy qz qw vx vy vz] in *. f_equal; lra. }
  transitivity (scale4 th (hamilton (hamilton p q1) (arcq k (tau * th)))).
  { rewrite <- hamilton_assoc. generalize (hamilton q1 (arcq k (tau * th))). intros y. destruct p as [l1 l2 l3 l4], y as [m1 m2 m3 m4]. unfold hamilton, scale4, plus3, xprod, times3, vecpart, dot. cbn [qx qy qz qw vx vy vz]. f_equal; ring. }
  rewrite M. unfold axisq. rewrite <- hamilton_assoc.
  replace (hamilton (pure k) (arcq k (tau * th))) with (mkQ (cos (tau * th) * vx k) (cos (tau * th) * vy k) (cos (tau * th) * vz k) (- sin (tau * th))).
  - clear. destruct q1 as [l1 l2 l3 l4], k as [u1 u2 u3]. unfold scale4, plus4, pure, hamilton, plus3, xprod, times3, vecpart, dot. cbn [qx qy qz qw vx vy vz]. f_equal; ring.
  - unfold unit3, dot in K. destruct k as [x y z]. cbn [vx vy vz] in K. unfold pure, arcq, hamilton, plus3, xprod, times3, vecpart, dot. cbn [qx qy qz qw vx vy vz].
    f_equal; try ring. transitivity (- (sin (tau * th) * (x * x + y * y + z * z))); [rewrite K; ring|ring].
Qed.

Lemma comb_deriv th x y t : derivable_pt_lim (fun s => cos (s * th) * x + sin (s * th) * y) t
  (- (th * sin (t * th)) * x + th * cos (t * th) * y).
Proof.
  assert (L : derivable_pt_lim (fun s => s * th) t th).
  { pose proof (derivable_pt_lim_mult id (fct_cte th) t 1 0 (derivable_pt_lim_id t) (derivable_pt_lim_const th t)) as M.
    unfold id, fct_cte, mult_fct in M. replace (1 * th + t * 0) with th in M by ring. exact M. }
  assert (Cc : derivable_pt_lim (fun s => cos (s * th)) t (- sin (t * th) * th)).
  { apply (derivable_pt_lim_comp (fun s => s * th) cos); [exact L|apply derivable_pt_lim_cos]. }
  assert (Ss : derivable_pt_lim (fun s => sin (s * th)) t (cos (t * th) * th)).
  { apply (derivable_pt_lim_comp (fun s => s * th) sin); [exact L|apply derivable_pt_lim_sin]. }
  replace (- (th * sin (t * th)) * x + th * cos (t * th) * y)
    with ((- sin (t * th) * th * x + cos (t * th) * 0) + (cos (t * th) * th * y + sin (t * th) * 0)) by ring.
  apply (derivable_pt_lim_plus (fun s => cos (s * th) * x) (fun s => sin (s * th) * y)).
  - exact (derivable_pt_lim_mult (fun s => cos (s * th)) (fct_cte x) t _ _ Cc (derivable_pt_lim_const x t)).
  - exact (derivable_pt_lim_mult (fun s => sin (s * th)) (fct_cte y) t _ _ Ss (derivable_pt_lim_const y t)).
Qed.
Lemma slerpdiffalg_ok q1 q2 th tau : unitq q1 -> unitq q2 -> 0 <= th <= PI / 2 -> cos th = Rabs (dot4 q1 q2) ->
  th = 0 \/ (/ 2 ^ 13 <= th /\ / 2 ^ 13 < Rabs (tau * th)) ->
  qderiv (fun s => qslerpalg s q1 q2) tau (qslerpdiffalg tau q1 q2).
Proof.
  intros U1 U2 T C O. destruct (near_turn q1 q2 th U1 U2 T C) as (k & K & E). pose proof p13_pos as P13.
  assert (I : exists a b, a < tau < b /\ forall s, a < s < b -> s * th = 0 \/ / 2 ^ 13 <= Rabs (s * th)).
  { destruct O as [->|[O1 O2]]; [exists (tau - 1), (tau + 1); split; [lra|]; intros; left; ring|].
    set (r := (Rabs (tau * th) - / 2 ^ 13) / th). assert (R0 : 0 < r) by (apply Rdiv_lt_0_compat; lra).
    exists (tau - r), (tau + r). split; [lra|]. intros s Hs. right.
    assert (D : Rabs (s * th - tau * th) <= r * th).
    { replace (s * th - tau * th) with ((s - tau) * th) by ring. rewrite Rabs_mult, (Rabs_right th) by lra.
      apply Rmult_le_compat_r; [lra|]. apply Rabs_le. lra. }
    replace (r * th) with (Rabs (tau * th) - / 2 ^ 13) in D by (unfold r; field; lra).
    pose proof (Rabs_triang_inv (tau * th) (tau * th - s * th)) as V. replace (tau * th - (tau * th - s * th)) with (s * th) in V by ring.
    rewrite Rabs_minus_sym in D. lra. }
  destruct I as (a & b & I & J).
  assert (O1 : th = 0 \/ / 2 ^ 13 <= th) by tauto.
  assert (O2 : tau * th = 0 \/ / 2 ^ 13 <= Rabs (tau * th)) by (apply J; exact I).
  rewrite (alg_diff q1 k th tau q2 U1 K E T O1 O2).
  assert (F : forall s, a < s < b -> plus4 (scale4 (cos (s * th)) q1) (scale4 (sin (s * th)) (axisq q1 k)) = qslerpalg s q1 q2).
  { intros s Hs. rewrite (alg_form q1 k th s q2 U1 K E T O1 (J s Hs)). symmetry. apply ham_arc. }
  unfold qderiv. generalize dependent (axisq q1 k). intros x F.
  split; [|split; [|split]].
  - apply (dpl_loc (fun s => cos (s * th) * qx q1 + sin (s * th) * qx x) _ tau _ a b I); [intros s Hs; rewrite <- (F s Hs); reflexivity|]. apply comb_deriv.
  - apply (dpl_loc (fun s => cos (s * th) * qy q1 + sin (s * th) * qy x) _ tau _ a b I); [intros s Hs; rewrite <- (F s Hs); reflexivity|]. apply comb_deriv.
  - apply (dpl_loc (fun s => cos (s * th) * qz q1 + sin (s * th) * qz x) _ tau _ a b I); [intros s Hs; rewrite <- (F s Hs); reflexivity|]. apply comb_deriv.
  - apply (dpl_loc (fun s => cos (s * th) * qw q1 + sin (s * th) * qw x) _ tau _ a b I); [intros s Hs; rewrite <- (F s Hs); reflexivity|]. apply comb_deriv.
Qed.

(** ** aa_tf_qssd *)
Lemma ssd_sq a b : qssd a b * qssd a b = sum_sq_diff a b.
Proof.
  unfold qssd. rewrite sqrt_sqrt; [reflexivity|].
  pose proof (Rle_0_sqr (qx a - qx b)). pose proof (Rle_0_sqr (qy a - qy b)). pose proof (Rle_0_sqr (qz a - qz b)). pose proof (Rle_0_sqr (qw a - qw b)).
  unfold Rsqr in *. lra.
Qed.
Lemma ssd_zero a b : qssd a b = 0 <-> a = b.
Proof.
  split.
  - intros Z. pose proof (ssd_sq a b) as S. rewrite Z, Rmult_0_l in S. unfold sum_sq_diff in S.
    pose proof (Rle_0_sqr (qx a - qx b)). pose proof (Rle_0_sqr (qy a - qy b)). pose proof (Rle_0_sqr (qz a - qz b)). pose proof (Rle_0_sqr (qw a - qw b)).
    assert (A1 : qx a - qx b = 0) by (apply Rsqr_0_uniq; lra). assert (A2 : qy a - qy b = 0) by (apply Rsqr_0_uniq; lra).
    assert (A3 : qz a - qz b = 0) by (apply Rsqr_0_uniq; lra). assert (A4 : qw a - qw b = 0) by (apply Rsqr_0_uniq; lra).
    destruct a as [a1 a2 a3 a4], b as [b1 b2 b3 b4]. cbn [qx qy qz qw] in *. f_equal; lra.
  - intros ->. unfold qssd. rewrite <- sqrt_0. f_equal. ring.
Qed.
Lemma ssd_bad : qssd (mkQ 2 0 0 0) (mkQ 0 0 0 0) = 2 /\ sum_sq_diff (mkQ 2 0 0 0) (mkQ 0 0 0 0) = 4.
Proof.
  split; [|unfold sum_sq_diff, Rsqr; cbn [qx qy qz qw]; ring].
  unfold qssd. cbn [qx qy qz qw]. replace (_ + _) with (2 * 2) by ring. apply sqrt_square. lra.
Qed.
Lemma ssd_refuted : exists a b, qssd a b <> sum_sq_diff a b.
Proof. exists (mkQ 2 0 0 0), (mkQ 0 0 0 0). destruct ssd_bad as [A B]. rewrite A, B. lra. Qed.
