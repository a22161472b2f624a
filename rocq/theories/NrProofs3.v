(** The rotation matrix test, cross product matrices, Runge-Kutta steps. *)
From Coq Require Import Reals Lra Psatz ZArith List Arith Lia Bool.
From Verif Require Import TfModel TfSpec TfProofs TfExpModel TfExpSpec SeriesProofs TfExpProofs NrModel NrSpec.
Import ListNotations.
Open Scope R_scope.

(** ** Rotation matrices *)
Lemma prod_mmul A B : prod33 A B = mmul A B.
Proof. destruct A, B. reflexivity. Qed.
Lemma feq_true a b t : feq a b t = true <-> Rabs (a - b) <= t.
Proof. unfold feq. destruct (Rle_dec _ _); split; intros; try tauto; discriminate. Qed.
Lemma veq_true A B t : veq (entries A) (entries B) t = true <-> mclose t A B.
Proof.
  unfold mclose, entries. cbn [veq].
  repeat match goal with |- context [feq ?a ?b t] => let E := fresh in
    destruct (feq a b t) eqn:E; [apply feq_true in E|
      split; [discriminate|intros; exfalso; assert (X : feq a b t = true) by (apply feq_true; tauto); congruence]] end.
  split; [intros _; repeat split; assumption|reflexivity].
Qed.
Lemma det_volume M : det3x3 M = volume M.
Proof. unfold det3x3, volume, dot, xprod, col0, col1, col2. cbn [vx vy vz m00 m10 m20 m01 m11 m21 m02 m12 m22]. ring. Qed.

Lemma isrotmat_accepts inv M : inverse_ok inv -> proper_rotation M -> isrotmat inv M = true.
Proof.
  intros OK P. assert (V : volume M = 1) by apply P.
  destruct (OK M ltac:(lra)) as (_ & I).
  assert (E : inv M = mtrans M).
  { rewrite prod_mmul in I. pose proof (mmul_assoc (inv M) M (mtrans M)) as A. rewrite I, (proper_rows M P), mmul_ident_r, mmul_ident_l in A. exact A. }
  unfold isrotmat. cbv zeta. rewrite E. apply andb_true_iff. split.
  - apply veq_true. unfold mclose, transpose3, mtrans. cbn [m00 m10 m20 m01 m11 m21 m02 m12 m22].
    rewrite !Rminus_diag_eq, Rabs_R0 by reflexivity. repeat split; lra.
  - apply feq_true. rewrite det_volume, V, Rminus_diag_eq, Rabs_R0 by reflexivity. lra.
Qed.

Lemma row_sum a b c d e f t : 0 <= t <= 1 / 10000 ->
  Rabs d <= t -> Rabs e <= t -> Rabs f <= t -> a * d + b * e + c * f = a * a + b * b + c * c - 1 ->
  Rabs a + Rabs b + Rabs c <= 174 / 100.
Proof.
  intros T D E F X. set (s := Rabs a + Rabs b + Rabs c).
  assert (S0 : 0 <= s) by (unfold s; pose proof (Rabs_pos a); pose proof (Rabs_pos b); pose proof (Rabs_pos c); lra).
  assert (B : Rabs (a * d + b * e + c * f) <= t * s).
  { unfold s. eapply Rle_trans; [apply Rabs_triang|]. pose proof (Rabs_triang (a * d) (b * e)).
    rewrite !Rabs_mult in *. pose proof (Rabs_pos a); pose proof (Rabs_pos b); pose proof (Rabs_pos c). nra. }
  rewrite X in B.
  assert (Q : s * s <= 3 * (a * a + b * b + c * c)).
  { unfold s. assert (A1 : forall z, z * z = Rabs z * Rabs z) by (intros z; unfold Rabs; destruct (Rcase_abs z); ring).
    rewrite (A1 a), (A1 b), (A1 c). generalize (Rabs a) (Rabs b) (Rabs c). intros x y z.
    pose proof (Rle_0_sqr (x - y)) as Q1. pose proof (Rle_0_sqr (y - z)) as Q2. pose proof (Rle_0_sqr (x - z)) as Q3. unfold Rsqr in *. lra. }
  assert (W : a * a + b * b + c * c - 1 <= t * s) by (eapply Rle_trans; [apply Rle_abs|exact B]).
  destruct (Rle_dec s (174 / 100)) as [|G]; [assumption|]. exfalso. nra.
Qed.
Lemma entry_bound a b c d e f t : Rabs d <= t -> Rabs e <= t -> Rabs f <= t -> 0 <= t ->
  Rabs (a * d + b * e + c * f) <= t * (Rabs a + Rabs b + Rabs c).
Proof.
  intros D E F T. eapply Rle_trans; [apply Rabs_triang|]. pose proof (Rabs_triang (a * d) (b * e)).
  rewrite !Rabs_mult in *. pose proof (Rabs_pos a); pose proof (Rabs_pos b); pose proof (Rabs_pos c). nra.
Qed.

Lemma isrotmat_sound inv M : inverse_ok inv -> isrotmat inv M = true ->
  mclose (2 / 10000) (prod33 M (flip33 M)) ident3 /\ Rabs (volume M - 1) <= 1 / 10000.
Proof.
  intros OK H. unfold isrotmat in H. apply andb_true_iff in H. destruct H as [H D].
  apply veq_true in H. apply feq_true in D. rewrite det_volume in D.
  assert (V : volume M <> 0). { intros Z. rewrite Z in D. revert D. unfold Rabs. destruct (Rcase_abs (0 - 1)); lra. }
  destruct (OK M V) as (I & _). split; [|exact D]. clear D V OK.
  destruct M as [a00 a10 a20 a01 a11 a21 a02 a12 a22]. destruct (inv _) as [b00 b10 b20 b01 b11 b21 b02 b12 b22].
  unfold mclose, transpose3 in H. unfold prod33, ident3 in I. unfold mclose, prod33, flip33, ident3.
  cbn [m00 m10 m20 m01 m11 m21 m02 m12 m22] in *.
  destruct H as (H1 & H2 & H3 & H4 & H5 & H6 & H7 & H8 & H9).
  inversion I as [[I1 I2 I3 I4 I5 I6 I7 I8 I9]]. clear I.
  assert (S0 : Rabs a00 + Rabs a01 + Rabs a02 <= 174 / 100)
    by (apply (row_sum a00 a01 a02 (a00 - b00) (a01 - b10) (a02 - b20) (1 / 10000)); try assumption; lra).
  assert (S1 : Rabs a10 + Rabs a11 + Rabs a12 <= 174 / 100)
    by (apply (row_sum a10 a11 a12 (a10 - b01) (a11 - b11) (a12 - b21) (1 / 10000)); try assumption; lra).
  assert (S2 : Rabs a20 + Rabs a21 + Rabs a22 <= 174 / 100)
    by (apply (row_sum a20 a21 a22 (a20 - b02) (a21 - b12) (a22 - b22) (1 / 10000)); try assumption; lra).
  assert (T : 0 <= 1 / 10000) by lra.
  assert (K : forall x y z d e f g, Rabs x + Rabs y + Rabs z <= 174 / 100 ->
    Rabs d <= 1 / 10000 -> Rabs e <= 1 / 10000 -> Rabs f <= 1 / 10000 -> g = x * d + y * e + z * f -> Rabs g <= 2 / 10000).
  { intros x y z d e f g S d1 e1 f1 ->. eapply Rle_trans; [apply (entry_bound x y z d e f (1 / 10000)); assumption|]. lra. }
  repeat split.
  - apply (K a00 a01 a02 _ _ _ _ S0 H1 H2 H3); lra.
  - apply (K a10 a11 a12 _ _ _ _ S1 H1 H2 H3); lra.
  - apply (K a20 a21 a22 _ _ _ _ S2 H1 H2 H3); lra.
  - apply (K a00 a01 a02 _ _ _ _ S0 H4 H5 H6); lra.
  - apply (K a10 a11 a12 _ _ _ _ S1 H4 H5 H6); lra.
  - apply (K a20 a21 a22 _ _ _ _ S2 H4 H5 H6); lra.
  - apply (K a00 a01 a02 _ _ _ _ S0 H7 H8 H9); lra.
  - apply (K a10 a11 a12 _ _ _ _ S1 H7 H8 H9); lra.
  - apply (K a20 a21 a22 _ _ _ _ S2 H7 H8 H9); lra.
Qed.

Lemma cross_mats v a : mrot (cross_mat_l v) a = xprod v a /\ mrot (cross_mat_r v) a = xprod a v.
Proof.
  destruct v as [x y z], a as [p q r]. unfold mrot, cross_mat_l, cross_mat_r, xprod.
  cbn [vx vy vz m00 m10 m20 m01 m11 m21 m02 m12 m22]. split; f_equal; ring.
Qed.

(** ** Runge-Kutta *)
Definition rkpoly (w : V3) (dt : R) : Q4 :=
  let h := dt / 2 in let s := h * h * dot w w in
  mkQ (h * (1 - s / 6) * vx w) (h * (1 - s / 6) * vy w) (h * (1 - s / 6) * vz w) (1 - s / 2 + s * s / 24).
(** The rate is linear and its square is a multiple of the identity. *)
Definition comb (q A : Q4) (a b : R) : Q4 :=
  mkQ (a * qx q + b * qx A) (a * qy q + b * qy A) (a * qz q + b * qz A) (a * qw q + b * qw A).
Lemma rate_comb q w a b (A := qvel2diff q w) :
  qvel2diff (comb q A a b) w = comb q A (- b * (dot w w / 4)) a.
Proof.
  unfold A. destruct q as [x y z u], w as [p q r].
  unfold comb, qvel2diff, qmul_vq, dot, vdivs, vdot, qv. cbn [vx vy vz qx qy qz qw]. f_equal; field.
Qed.
Lemma rk1_comb q A a b t : qrk1 q (comb q A a b) t = comb q A (1 + t * a) (t * b).
Proof. unfold qrk1, comb. cbn [qx qy qz qw]. f_equal; ring. Qed.
Lemma comb_01 q A : A = comb q A 0 1.
Proof. destruct A as [x y z u]. unfold comb. cbn [qx qy qz qw]. f_equal; ring. Qed.
Lemma rk4_poly q w dt : qvelrk4 q w dt = hamilton (rkpoly w dt) q.
Proof.
  set (A := qvel2diff q w). set (o := dot w w / 4). set (h := dt / 2).
  assert (D1 : qvelrk4_term q w A h = comb q A (- h * o) 1).
  { unfold qvelrk4_term. rewrite (comb_01 q A), rk1_comb. unfold A at 2. rewrite <- comb_01.
    unfold A. rewrite rate_comb. fold o. f_equal; ring. }
  assert (DS : forall a b t, qvelrk4_term q w (comb q A a b) t = comb q A (- (t * b) * o) (1 + t * a)).
  { intros a b t. unfold qvelrk4_term. rewrite rk1_comb. unfold A. rewrite rate_comb. reflexivity. }
  unfold qvelrk4. fold A. fold h. cbv zeta. rewrite D1, DS, DS.
  assert (H : hamilton (rkpoly w dt) q = comb q A (1 - h * h * (4 * o) / 2 + h * h * (4 * o) * (h * h * (4 * o)) / 24) (dt * (1 - h * h * (4 * o) / 6))).
  { unfold rkpoly. fold h. cbv zeta. replace (h * h * dot w w) with (h * h * (4 * o)) by (unfold o; field).
    generalize (h * h * (4 * o)). intros s. unfold A, h. destruct q as [x y z u], w as [a b c].
    unfold comb, qvel2diff, qmul_vq, hamilton, vecpart, plus3, times3, xprod, dot, vdivs, vdot, qv.
    cbn [vx vy vz qx qy qz qw]. f_equal; field. }
  rewrite H. replace dt with (2 * h) by (unfold h; field). clearbody A o h. clear.
  destruct q as [x y z u], A as [a b c d]. unfold qrk1, comb. cbn [qx qy qz qw]. f_equal; field.
Qed.
Lemma rk1_norm q w dt : norm2 (qvelrk1 q w dt) = norm2 q * (1 + dt * dt / 4 * dot w w).
Proof.
  destruct q as [x y z u], w as [a b c]. unfold qvelrk1, qvel2diff, qmul_vq, qrk1, norm2, dot, vdivs, vdot, qv.
  cbn [vx vy vz qx qy qz qw]. field.
Qed.
Lemma rkpoly_norm w dt : let s := dt * dt / 4 * dot w w in
  norm2 (rkpoly w dt) = 1 - s ^ 3 / 72 + s ^ 4 / 576.
Proof.
  cbv zeta. unfold rkpoly. cbv zeta. set (h := dt / 2).
  replace (dt * dt / 4) with (h * h) by (unfold h; field). set (s := h * h * dot w w).
  transitivity (h * h * dot w w * (1 - s / 6) ^ 2 + (1 - s / 2 + s * s / 24) ^ 2).
  - unfold norm2, dot. cbn [qx qy qz qw]. ring.
  - fold s. field.
Qed.
Lemma rk4_norm q w dt : let s := dt * dt / 4 * dot w w in
  norm2 (qvelrk4 q w dt) = norm2 q * (1 - s ^ 3 / 72 + s ^ 4 / 576).
Proof. cbv zeta. rewrite rk4_poly, norm2_hamilton. rewrite rkpoly_norm. ring. Qed.

Lemma len4_hamilton a b : len4 (hamilton a b) = len4 a * len4 b.
Proof. unfold len4. rewrite norm2_hamilton. apply sqrt_mult; apply norm2_nonneg. Qed.
Lemma len4_tri a b : len4 (plus4 a b) <= len4 a + len4 b.
Proof.
  pose proof (len4_nonneg a) as NA. pose proof (len4_nonneg b) as NB. pose proof (len4_nonneg (plus4 a b)) as NC.
  pose proof (len4_sq a) as A. pose proof (len4_sq b) as B. pose proof (len4_sq (plus4 a b)) as C.
  assert (CS : dot4 a b * dot4 a b <= norm2 a * norm2 b).
  { destruct a as [x y z u], b as [x' y' z' u']. unfold dot4, norm2. cbn [qx qy qz qw].
    pose proof (pow2_ge_0 (x*y'-y*x')). pose proof (pow2_ge_0 (x*z'-z*x')). pose proof (pow2_ge_0 (x*u'-u*x')).
    pose proof (pow2_ge_0 (y*z'-z*y')). pose proof (pow2_ge_0 (y*u'-u*y')). pose proof (pow2_ge_0 (z*u'-u*z')). lra. }
  assert (E : norm2 (plus4 a b) = norm2 a + norm2 b + 2 * dot4 a b).
  { unfold norm2, plus4, dot4. cbn [qx qy qz qw]. ring. }
  assert (D : dot4 a b <= len4 a * len4 b).
  { destruct (Rle_dec (dot4 a b) (len4 a * len4 b)) as [|G]; [assumption|]. exfalso.
    assert (0 <= len4 a * len4 b) by now apply Rmult_le_pos.
    rewrite <- A, <- B in CS. nra. }
  destruct (Rle_dec (len4 (plus4 a b)) (len4 a + len4 b)) as [|G]; [assumption|]. exfalso. nra.
Qed.

Lemma turn_norm k a : unit3 k -> norm2 (turn k a) = 1.
Proof.
  unfold unit3. intros U. transitivity (sin (a / 2) * sin (a / 2) * dot k k + cos (a / 2) * cos (a / 2)).
  - unfold norm2, turn, dot. cbn [qx qy qz qw]. ring.
  - rewrite U. pose proof (sin2_cos2 (a / 2)) as S. unfold Rsqr in S. lra.
Qed.
Lemma turn_add k a b : unit3 k -> hamilton (turn k a) (turn k b) = turn k (a + b).
Proof.
  unfold unit3. intros U. unfold turn. replace ((a + b) / 2) with (a / 2 + b / 2) by field. rewrite sin_plus, cos_plus.
  destruct k as [x y z]. unfold dot in U. cbn [vx vy vz] in U.
  unfold hamilton, vecpart, plus3, times3, xprod, dot. cbn [vx vy vz qx qy qz qw]. f_equal; try ring.
  transitivity (cos (a / 2) * cos (b / 2) - sin (a / 2) * sin (b / 2) * (x * x + y * y + z * z)); [ring|rewrite U; ring].
Qed.
Lemma turn_0 k : turn k 0 = mkQ 0 0 0 1.
Proof. unfold turn. replace (0 / 2) with 0 by field. rewrite sin_0, cos_0. f_equal; ring. Qed.

Lemma sin_err x : -1 <= x <= 1 -> Rabs (x - x ^ 3 / 6 - sin x) <= Rabs x ^ 5 / 120.
Proof.
  assert (P : forall x, 0 <= x <= 1 -> Rabs (x - x ^ 3 / 6 - sin x) <= x ^ 5 / 120).
  { intros y H. destruct (sin_poly y ltac:(lra)) as [A B].
    assert (X5 : 0 <= y ^ 5) by (apply pow_le; lra).
    assert (Y : y * y <= 1) by nra.
    assert (X7 : y ^ 7 <= y ^ 5).
    { replace (y ^ 7) with (y ^ 5 * (y * y)) by ring. rewrite <- (Rmult_1_r (y ^ 5)) at 2. now apply Rmult_le_compat_l. }
    apply Rabs_le. lra. }
  intros H. destruct (Rle_dec 0 x) as [G|G].
  - rewrite (Rabs_right x) by lra. apply P. lra.
  - rewrite (Rabs_left x) by lra. rewrite <- Rabs_Ropp.
    replace (- (x - x ^ 3 / 6 - sin x)) with (- x - (- x) ^ 3 / 6 - sin (- x)) by (rewrite sin_neg; field). apply P. lra.
Qed.
Lemma cos_err x : -1 <= x <= 1 -> Rabs (1 - x ^ 2 / 2 + x ^ 4 / 24 - cos x) <= Rabs x ^ 5 / 720.
Proof.
  intros H. destruct (cos_poly x ltac:(lra)) as [A B].
  assert (X6 : 0 <= x ^ 6) by (replace (x ^ 6) with ((x ^ 3) * (x ^ 3)) by ring; nra).
  assert (X5 : x ^ 6 <= Rabs x ^ 5).
  { assert (0 <= Rabs x <= 1) by (split; [apply Rabs_pos|apply Rabs_le; lra]).
    replace (x ^ 6) with (Rabs x ^ 6). 
    - assert (0 <= Rabs x ^ 5) by (apply pow_le; lra). replace (Rabs x ^ 6) with (Rabs x ^ 5 * Rabs x) by ring.
      rewrite <- (Rmult_1_r (Rabs x ^ 5)) at 2. apply Rmult_le_compat_l; lra.
    - replace (Rabs x ^ 6) with ((Rabs x * Rabs x) ^ 3) by ring. replace (x ^ 6) with ((x * x) ^ 3) by ring. f_equal.
      unfold Rabs. destruct (Rcase_abs x); ring. }
  apply Rabs_le. lra.
Qed.

Lemma rkpoly_err k r dt : unit3 k -> Rabs (r * dt) <= 2 ->
  len4 (diff4 (rkpoly (times3 r k) dt) (turn k (r * dt))) <= (Rabs (r * dt) / 2) ^ 5 / 100.
Proof.
  intros U B. set (x := r * dt / 2).
  assert (AX : Rabs (r * dt) / 2 = Rabs x). { unfold x, Rdiv. rewrite (Rabs_mult (r * dt) (/ 2)), (Rabs_right (/ 2)) by lra. reflexivity. }
  assert (X1 : -1 <= x <= 1). { assert (Rabs x <= 1) by lra. revert H. unfold Rabs. destruct (Rcase_abs x); lra. }
  rewrite AX. pose proof (sin_err x X1) as S. pose proof (cos_err x X1) as C. set (m := Rabs x ^ 5) in *.
  assert (M : 0 <= m) by (unfold m; apply pow_le, Rabs_pos).
  unfold len4.
  assert (E : norm2 (diff4 (rkpoly (times3 r k) dt) (turn k (r * dt))) =
    (x - x ^ 3 / 6 - sin x) ^ 2 + (1 - x ^ 2 / 2 + x ^ 4 / 24 - cos x) ^ 2).
  { unfold turn. fold x. unfold rkpoly. cbv zeta.
    replace (dt / 2 * (dt / 2) * dot (times3 r k) (times3 r k)) with (x * x).
    2:{ transitivity (x * x * dot k k); [unfold unit3 in U; rewrite U; ring|]. unfold x, dot, times3. cbn [vx vy vz]. field. }
    transitivity ((x - x ^ 3 / 6 - sin x) ^ 2 * dot k k + (1 - x ^ 2 / 2 + x ^ 4 / 24 - cos x) ^ 2).
    - unfold norm2, diff4, dot, times3. cbn [qx qy qz qw vx vy vz].
      replace (dt / 2 * (1 - x * x / 6) * (r * vx k)) with (x * (1 - x * x / 6) * vx k) by (unfold x; field).
      replace (dt / 2 * (1 - x * x / 6) * (r * vy k)) with (x * (1 - x * x / 6) * vy k) by (unfold x; field).
      replace (dt / 2 * (1 - x * x / 6) * (r * vz k)) with (x * (1 - x * x / 6) * vz k) by (unfold x; field).
      generalize (sin x) (cos x). intros. field.
    - unfold unit3 in U. rewrite U. ring. }
  rewrite E. apply Rle_trans with (sqrt ((m / 100) * (m / 100))); [|rewrite sqrt_square; lra].
  apply sqrt_le_1_alt.
  assert (Q : forall z b, Rabs z <= b -> z ^ 2 <= b * b).
  { intros z b Z. pose proof (Rabs_pos z). replace (z ^ 2) with (Rabs z * Rabs z); [nra|]. unfold Rabs. destruct (Rcase_abs z); ring. }
  pose proof (Q _ _ S). pose proof (Q _ _ C). nra.
Qed.

Fixpoint rk_steps (n : nat) (w : V3) (dt : R) (q : Q4) : Q4 :=
  match n with O => q | S n' => qvelrk4 (rk_steps n' w dt q) w dt end.

Lemma rk_error k r dt q : unit3 k -> Rabs (r * dt) <= 2 -> forall n,
  len4 (diff4 (rk_steps n (times3 r k) dt q) (hamilton (turn k (INR n * (r * dt))) q))
    <= INR n * ((Rabs (r * dt) / 2) ^ 5 / 100) * len4 q.
Proof.
  intros U B. set (d := (Rabs (r * dt) / 2) ^ 5 / 100).
  assert (PN : len4 (rkpoly (times3 r k) dt) <= 1).
  { unfold len4. rewrite rkpoly_norm. set (s := dt * dt / 4 * dot (times3 r k) (times3 r k)).
    assert (S : 0 <= s <= 1).
    { replace s with ((r * dt) * (r * dt) / 4).
      - assert (-2 <= r * dt <= 2) by (revert B; unfold Rabs; destruct (Rcase_abs (r * dt)); lra). nra.
      - unfold s. unfold unit3 in U. transitivity (dt * dt / 4 * (r * r * dot k k)); [rewrite U; field|].
        unfold dot, times3. cbn [vx vy vz]. ring. }
    rewrite <- sqrt_1 at 2. apply sqrt_le_1_alt. assert (0 <= s ^ 3) by (apply pow_le; lra).
    replace (s ^ 4) with (s * s ^ 3) by ring. nra. }
  induction n as [|n IH].
  - cbn [rk_steps INR]. rewrite Rmult_0_l, turn_0. replace (diff4 q (hamilton (mkQ 0 0 0 1) q)) with (mkQ 0 0 0 0).
    + unfold len4, norm2. cbn [qx qy qz qw]. replace (0*0+0*0+0*0+0*0) with 0 by ring. rewrite sqrt_0. lra.
    + destruct q as [a b c e]. unfold diff4, hamilton, vecpart, plus3, times3, xprod, dot. cbn [qx qy qz qw vx vy vz]. f_equal; ring.
  - cbn [rk_steps]. rewrite rk4_poly. set (P := rkpoly (times3 r k) dt) in *. set (qn := rk_steps n (times3 r k) dt q) in *.
    set (En := hamilton (turn k (INR n * (r * dt))) q) in *.
    assert (EE : hamilton (turn k (INR (S n) * (r * dt))) q = hamilton (turn k (r * dt)) En).
    { unfold En. rewrite hamilton_assoc, turn_add by exact U. f_equal. f_equal. rewrite S_INR. ring. }
    rewrite EE.
    assert (D : diff4 (hamilton P qn) (hamilton (turn k (r * dt)) En) =
      plus4 (hamilton P (diff4 qn En)) (hamilton (diff4 P (turn k (r * dt))) En)).
    { generalize (turn k (r * dt)). clearbody P qn En. intros [t1 t2 t3 t4]. destruct P as [p1 p2 p3 p4], qn as [a b c e], En as [x y z u].
      unfold diff4, plus4, hamilton, vecpart, plus3, times3, xprod, dot. cbn [qx qy qz qw vx vy vz]. f_equal; ring. }
    rewrite D. eapply Rle_trans; [apply len4_tri|]. rewrite !len4_hamilton.
    assert (LE : len4 En = len4 q).
    { unfold En. rewrite len4_hamilton. unfold len4 at 1. rewrite turn_norm, sqrt_1 by exact U. ring. }
    pose proof (rkpoly_err k r dt U B) as RE. fold P in RE. fold d in RE. rewrite LE, S_INR.
    pose proof (len4_nonneg (diff4 qn En)). pose proof (len4_nonneg P). pose proof (len4_nonneg q).
    assert (len4 P * len4 (diff4 qn En) <= 1 * len4 (diff4 qn En)) by (apply Rmult_le_compat_r; assumption).
    assert (len4 (diff4 P (turn k (r * dt))) * len4 q <= d * len4 q) by (apply Rmult_le_compat_r; assumption).
    lra.
Qed.
Lemma rk_steps_iter n w dt q : rk_steps n w dt q = Nat.iter n (fun x => qvelrk4 x w dt) q.
Proof. induction n as [|n IH]; [reflexivity|]. cbn [rk_steps Nat.iter nat_rect]. rewrite IH. reflexivity. Qed.
Lemma rk_error_iter k r dt q n : unit3 k -> Rabs (r * dt) <= 2 ->
  len4 (diff4 (Nat.iter n (fun x => qvelrk4 x (times3 r k) dt) q) (hamilton (turn k (INR n * (r * dt))) q))
    <= INR n * ((Rabs (r * dt) / 2) ^ 5 / 100) * len4 q.
Proof. intros U B. rewrite <- rk_steps_iter. now apply rk_error. Qed.
