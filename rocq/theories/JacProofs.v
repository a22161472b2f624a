(** The dual quaternion derivative Jacobian. *)
From Coq Require Import Reals Lra Psatz Arith Lia Bool.
From Verif Require Import TfModel TfSpec TfProofs TfRepProofs TfCalcProofs TfExpModel TfExpSpec NrModel JacModel JacSpec.
Open Scope R_scope.

Lemma dotn_weigh n f g : dotn n f g = weigh n f g.
Proof. induction n as [|n IH]; cbn [dotn weigh]; [reflexivity|now rewrite IH]. Qed.
Lemma weigh_plus n f g a : weigh n (fun c => f c + g c) a = weigh n f a + weigh n g a.
Proof. induction n as [|n IH]; cbn [weigh]; [ring|]. rewrite IH. ring. Qed.
Lemma weigh_scale n k f a : weigh n (fun c => k * f c) a = k * weigh n f a.
Proof. induction n as [|n IH]; cbn [weigh]; [ring|]. rewrite IH. ring. Qed.
Lemma weigh_zero n a : weigh n (fun _ => 0) a = 0.
Proof. induction n as [|n IH]; cbn [weigh]; [ring|]. rewrite IH. ring. Qed.
(** Sums over rows and over columns commute. *)
Lemma gemm_apply m n A J r i : weigh n (gemm m A J i) r = weigh m (A i) (fun k => weigh n (J k) r).
Proof.
  unfold gemm. induction m as [|m IH].
  - cbn [dotn weigh]. apply weigh_zero.
  - cbn [dotn weigh]. rewrite weigh_plus, weigh_scale, IH. reflexivity.
Qed.

Lemma jac_apply s J n r :
  jac_duqu n (duqu_jac_vel2diff s J) r = duqu_vel2diff s (mkDX (jac_lin n J r) (jac_ang n J r)).
Proof.
  unfold jac_duqu, jac_lin, jac_ang, apply_mat, duqu_jac_vel2diff. cbv zeta. rewrite !gemm_apply.
  set (j0 := weigh n (J 0%nat) r). set (j1 := weigh n (J 1%nat) r). set (j2 := weigh n (J 2%nat) r).
  set (j3 := weigh n (J 3%nat) r). set (j4 := weigh n (J 4%nat) r). set (j5 := weigh n (J 5%nat) r).
  cbn [weigh]. fold j0 j1 j2 j3 j4 j5. clearbody j0 j1 j2 j3 j4 j5.
  unfold gemm, duqu_matrix_r, vel_expand.
  cbn [dotn Nat.ltb Nat.leb Nat.eqb Nat.add Nat.sub andb orb].
  destruct s as [[a b c d] [e f g h]]. unfold m44_at, m33_at, q4_at, cross_mat_l, qmatrix_r.
  cbn [c0 c1 c2 c3]. set (v := dtrans _).
  assert (V : duqu_vel2twist (mkD (mkQ a b c d) (mkQ e f g h)) (mkDX (mkV j0 j1 j2) (mkV j3 j4 j5))
    = mkD (mkQ j3 j4 j5 0) (mkQ (j0 + (vy v * j5 - vz v * j4)) (j1 + (vz v * j3 - vx v * j5)) (j2 + (vx v * j4 - vy v * j3)) 0)).
  { unfold v. tfc. f_equal; f_equal; ring. }
  unfold duqu_vel2diff. rewrite V. clear V. destruct v as [p q u].
  unfold duqu_twist2diff. tfc. f_equal; f_equal; field.
Qed.

Lemma body_unique f t v w v' w' : rigid_motion (f t) ->
  body_velocity f t v w -> body_velocity f t v' w' -> v = v' /\ w = w'.
Proof.
  intros (g & o & G & F) B B'.
  assert (U : forall p, plus3 v (xprod w (g p)) = plus3 v' (xprod w' (g p))).
  { intros p. specialize (B p). specialize (B' p).
    assert (G0 : g zero3 = zero3).
    { pose proof (rm_scale _ G 0 zero3) as Z. replace (times3 0 zero3) with zero3 in Z by (unfold times3, zero3; cbn; f_equal; ring).
      rewrite Z at 1. unfold times3, zero3. f_equal; ring. }
    assert (E : plus3 (f t p) (times3 (-1) (f t zero3)) = g p).
    { rewrite !F, G0. destruct (g p) as [x y z], o as [x' y' z']. unfold plus3, times3, zero3; cbn [vx vy vz]. f_equal; ring. }
    rewrite E in B, B'. destruct B as (B1 & B2 & B3), B' as (B1' & B2' & B3').
    pose proof (uniqueness_limite _ _ _ _ B1 B1') as X. pose proof (uniqueness_limite _ _ _ _ B2 B2') as Y.
    pose proof (uniqueness_limite _ _ _ _ B3 B3') as Z.
    destruct (plus3 v _) as [x y z], (plus3 v' _) as [x' y' z']. cbn [vx vy vz] in *. congruence. }
  assert (U0 : v = v').
  { specialize (U zero3). pose proof (rm_scale _ G 0 zero3) as Z.
    replace (times3 0 zero3) with zero3 in Z by (unfold times3, zero3; cbn; f_equal; ring).
    rewrite Z in U. destruct v as [x y z], v' as [x' y' z'], w as [a b c], w' as [a' b' c'], (g zero3) as [l m n].
    unfold plus3, xprod, times3 in U. cbn [vx vy vz] in U. inversion U as [[A1 A2 A3]]. f_equal; lra. }
  split; [exact U0|]. subst v'.
  (* the images of the axes are orthonormal, so w is the sum of its components along them *)
  assert (K : forall p, xprod w (g p) = xprod w' (g p)).
  { intros p. specialize (U p). destruct v as [x y z], (xprod w (g p)) as [a b c], (xprod w' (g p)) as [a' b' c'].
    unfold plus3 in U. cbn [vx vy vz] in U. inversion U as [[A1 A2 A3]]. f_equal; lra. }
  pose proof (K (mkV 1 0 0)) as K1. pose proof (K (mkV 0 1 0)) as K2. clear K U.
  set (e1 := g (mkV 1 0 0)) in *. set (e2 := g (mkV 0 1 0)) in *.
  assert (D1 : dot e1 e1 = 1) by (unfold e1; rewrite (rm_dot _ G); unfold dot; cbn [vx vy vz]; ring).
  assert (D2 : dot e2 e2 = 1) by (unfold e2; rewrite (rm_dot _ G); unfold dot; cbn [vx vy vz]; ring).
  assert (D12 : dot e1 e2 = 0) by (unfold e1, e2; rewrite (rm_dot _ G); unfold dot; cbn [vx vy vz]; ring).
  clearbody e1 e2. set (dw := plus3 w (times3 (-1) w')).
  assert (N1 : xprod dw e1 = zero3).
  { unfold dw. destruct w as [a b c], w' as [a' b' c'], e1 as [x y z]. unfold xprod, plus3, times3, zero3 in *. cbn [vx vy vz] in *.
    inversion K1. f_equal; lra. }
  assert (N2 : xprod dw e2 = zero3).
  { unfold dw. destruct w as [a b c], w' as [a' b' c'], e2 as [x y z]. unfold xprod, plus3, times3, zero3 in *. cbn [vx vy vz] in *.
    inversion K2. f_equal; lra. }
  assert (Z : dw = zero3).
  { clearbody dw. destruct dw as [a b c], e1 as [x y z], e2 as [l m n]. unfold xprod, zero3, dot in *. cbn [vx vy vz] in *.
    injection N1 as P1 P2 P3. injection N2 as Q1 Q2 Q3. try rewrite Q1 in Q2. try rewrite P1 in P2. try rewrite Q2 in Q3. try rewrite P2 in P3.
    (* dw parallel to e1 and to e2 *)
    assert (A1 : a = (a * x + b * y + c * z) * x).
    { transitivity (a * (x * x + y * y + z * z)); [rewrite D1; ring|].
      transitivity ((a * x + b * y + c * z) * x + y * (a * y - b * x) - z * (c * x - a * z)); [ring|]. rewrite ?P3, ?P2, ?P1. ring. }
    assert (A2 : b = (a * x + b * y + c * z) * y).
    { transitivity (b * (x * x + y * y + z * z)); [rewrite D1; ring|].
      transitivity ((a * x + b * y + c * z) * y + z * (b * z - c * y) - x * (a * y - b * x)); [ring|]. rewrite ?P3, ?P2, ?P1. ring. }
    assert (A3 : c = (a * x + b * y + c * z) * z).
    { transitivity (c * (x * x + y * y + z * z)); [rewrite D1; ring|].
      transitivity ((a * x + b * y + c * z) * z + x * (c * x - a * z) - y * (b * z - c * y)); [ring|]. rewrite ?P2, ?P1. ring. }
    set (k := a * x + b * y + c * z) in *. clearbody k.
    assert (B1 : k * (y * n - z * m) = 0) by (rewrite A2, A3 in Q1; lra).
    assert (B2 : k * (z * l - x * n) = 0) by (rewrite A1, A3 in Q2; lra).
    assert (B3 : k * (x * m - y * l) = 0) by (rewrite A1, A2 in Q3; lra).
    assert (C : (y * n - z * m) * (y * n - z * m) + (z * l - x * n) * (z * l - x * n) + (x * m - y * l) * (x * m - y * l) = 1).
    { transitivity ((x * x + y * y + z * z) * (l * l + m * m + n * n) - (x * l + y * m + z * n) * (x * l + y * m + z * n)); [ring|]. rewrite D1, D2, D12. ring. }
    assert (KZ : k = 0).
    { transitivity (k * 1); [ring|]. rewrite <- C.
      transitivity ((k * (y * n - z * m)) * (y * n - z * m) + (k * (z * l - x * n)) * (z * l - x * n) + (k * (x * m - y * l)) * (x * m - y * l)); [ring|].
      rewrite B1, B2, B3. ring. }
    rewrite KZ in *. f_equal; lra. }
  unfold dw in Z. destruct w as [a b c], w' as [a' b' c']. unfold plus3, times3, zero3 in Z. cbn [vx vy vz] in Z. inversion Z. f_equal; lra.
Qed.

(** ** The contract *)
Lemma jac_ok d t dd n J r : (forall s, unit_duqu (d s)) -> dderiv d t dd ->
  body_velocity (fun s p => duqu_tf (d s) p) t (jac_lin n J r) (jac_ang n J r) ->
  dd = jac_duqu n (duqu_jac_vel2diff (d t) J) r.
Proof.
  intros U D B. rewrite jac_apply. rewrite <- (duqu_diff_ok d t dd U D) at 1. f_equal.
  rewrite <- (duqu_diff_ok d t dd U D) in D. pose proof (duqu_vel_ok d t _ U D) as B'.
  destruct (body_unique _ t _ _ _ _ (duqu_rigid (d t) (U t)) B' B) as [E1 E2].
  destruct (duqu_diff2vel (d t) dd) as [v w]. cbn [dxv dxw] in *. congruence.
Qed.
Lemma jac_true d t n J r : (forall s, unit_duqu (d s)) ->
  dderiv d t (jac_duqu n (duqu_jac_vel2diff (d t) J) r) ->
  body_velocity (fun s p => duqu_tf (d s) p) t (jac_lin n J r) (jac_ang n J r).
Proof. intros U D. rewrite jac_apply in D. exact (duqu_vel_ok d t _ U D). Qed.
(** The Jacobian stays on the tangent space: real.real' = 0, real.dual' + dual.real' = 0. *)
Lemma jac_tangent s n J r : let dd := jac_duqu n (duqu_jac_vel2diff s J) r in unit_duqu s ->
  dot4 (dreal s) (dreal dd) = 0 /\ dot4 (dreal s) (ddual dd) + dot4 (ddual s) (dreal dd) = 0.
Proof.
  cbv zeta. rewrite jac_apply. generalize (jac_lin n J r) (jac_ang n J r). intros v w (U1 & U2).
  unfold duqu_vel2diff. set (k := duqu_vel2twist s (mkDX v w)).
  assert (K : exists x y, k = mkD (mkqv x 0) (mkqv y 0)) by (unfold k, duqu_vel2twist; cbn; eauto).
  destruct K as (x & y & K). rewrite K. clear K k. destruct s as [[a b c d] [e f g h]], x as [x1 x2 x3], y as [y1 y2 y3].
  unfold duqu_twist2diff, dot4. tfc. split; field.
Qed.
