(** Proofs for PkModel. *)
From Coq Require Import List ZArith Reals Lra Lia Psatz Bool.
From Verif Require Import AtanModel AtanProofs AngModel AngSpec AngProofs PkModel.
Open Scope R_scope.

(** * Planar arm *)
Definition rr (x1 x2 : R) : R := x2 * x2 + x1 * x1.
Definition kk (x1 x2 l1 l2 : R) : R := rr x1 x2 + l1 * l1 - l2 * l2.
Lemma radicand_eq x1 x2 l1 l2 : radicand x1 x2 l1 l2 =
  x2 * x2 * (4 * (l1 * l1) * rr x1 x2 - kk x1 x2 l1 l2 * kk x1 x2 l1 l2).
Proof. unfold radicand, kk, rr. ring. Qed.
Lemma radicand_sym x1 x2 l1 l2 : radicand x1 x2 l1 l2 = radicand x1 x2 l2 l1.
Proof. unfold radicand. ring. Qed.
(** half the sum of the solutions and half their distance, for s the signed square root *)
Definition cang (x1 x2 l1 l2 s : R) : R := (x1 * kk x1 x2 l1 l2 - s) / (2 * rr x1 x2 * l1).
Definition sang (x1 x2 l1 l2 s : R) : R := (x2 * x2 * kk x1 x2 l1 l2 + x1 * s) / (2 * rr x1 x2 * x2 * l1).
Lemma rr_pos x1 x2 : x2 <> 0 -> 0 < rr x1 x2.
Proof.
  intros H. unfold rr. pose proof (Rsqr_pos_lt x2 H). pose proof (Rle_0_sqr x1). unfold Rsqr in *. lra.
Qed.
Lemma unit_ang x1 x2 l1 l2 s : x2 <> 0 -> 0 < l1 -> s * s = radicand x1 x2 l1 l2 ->
  cang x1 x2 l1 l2 s * cang x1 x2 l1 l2 s + sang x1 x2 l1 l2 s * sang x1 x2 l1 l2 s = 1.
Proof.
  intros H L E. pose proof (rr_pos x1 x2 H) as P. rewrite radicand_eq in E.
  assert (T : cang x1 x2 l1 l2 s * cang x1 x2 l1 l2 s + sang x1 x2 l1 l2 s * sang x1 x2 l1 l2 s =
    (x2 * x2 * (kk x1 x2 l1 l2 * kk x1 x2 l1 l2) + s * s) / (4 * rr x1 x2 * (x2 * x2) * (l1 * l1))).
  { unfold cang, sang. generalize (kk x1 x2 l1 l2). intros k. unfold rr in *. field. lra. }
  rewrite T, E. field. lra.
Qed.
Lemma atan2_of y x c s : 2 * c = x -> 2 * s = y -> c * c + s * s = 1 -> cos (atan2 y x) = c /\ sin (atan2 y x) = s.
Proof.
  intros <- <- U. destruct (atan2_polar (2 * c) (2 * s) 2) as [A B]; [lra|nra|]. lra.
Qed.
Lemma ang_a0 x1 x2 l1 l2 : x2 <> 0 -> 0 < l1 -> 0 <= radicand x1 x2 l1 l2 ->
  cos (theta_a0 x1 x2 l1 l2) = cang x1 x2 l1 l2 (sqrt (radicand x1 x2 l1 l2)) /\
  sin (theta_a0 x1 x2 l1 l2) = sang x1 x2 l1 l2 (sqrt (radicand x1 x2 l1 l2)).
Proof.
  intros H L P. pose proof (rr_pos x1 x2 H) as Q. unfold rr in Q. unfold theta_a0.
  apply atan2_of; [| |apply unit_ang; auto; apply sqrt_sqrt, P];
    unfold cang, sang, kk, rr; generalize (sqrt (radicand x1 x2 l1 l2)); intros s; field; lra.
Qed.
Lemma ang_b0 x1 x2 l1 l2 : x2 <> 0 -> 0 < l1 -> 0 <= radicand x1 x2 l1 l2 ->
  cos (theta_b0 x1 x2 l1 l2) = cang x1 x2 l1 l2 (- sqrt (radicand x1 x2 l1 l2)) /\
  sin (theta_b0 x1 x2 l1 l2) = sang x1 x2 l1 l2 (- sqrt (radicand x1 x2 l1 l2)).
Proof.
  intros H L P. pose proof (rr_pos x1 x2 H) as Q. unfold rr in Q. unfold theta_b0.
  apply atan2_of; [| |apply unit_ang; auto; rewrite Rmult_opp_opp; apply sqrt_sqrt, P];
    unfold cang, sang, kk, rr; generalize (sqrt (radicand x1 x2 l1 l2)); intros s; field; lra.
Qed.
Lemma ang_a1 x1 x2 l1 l2 : x2 <> 0 -> 0 < l2 -> 0 <= radicand x1 x2 l1 l2 ->
  cos (theta_a1 x1 x2 l1 l2) = cang x1 x2 l2 l1 (- sqrt (radicand x1 x2 l1 l2)) /\
  sin (theta_a1 x1 x2 l1 l2) = sang x1 x2 l2 l1 (- sqrt (radicand x1 x2 l1 l2)).
Proof.
  intros H L P. pose proof (rr_pos x1 x2 H) as Q. unfold rr in Q. unfold theta_a1.
  apply atan2_of; [| |apply unit_ang; auto; rewrite Rmult_opp_opp, radicand_sym; apply sqrt_sqrt; now rewrite radicand_sym];
    unfold cang, sang, kk, rr; generalize (sqrt (radicand x1 x2 l1 l2)); intros s; field; lra.
Qed.
Lemma ang_b1 x1 x2 l1 l2 : x2 <> 0 -> 0 < l2 -> 0 <= radicand x1 x2 l1 l2 ->
  cos (theta_b1 x1 x2 l1 l2) = cang x1 x2 l2 l1 (sqrt (radicand x1 x2 l1 l2)) /\
  sin (theta_b1 x1 x2 l1 l2) = sang x1 x2 l2 l1 (sqrt (radicand x1 x2 l1 l2)).
Proof.
  intros H L P. pose proof (rr_pos x1 x2 H) as Q. unfold rr in Q. unfold theta_b1.
  apply atan2_of; [| |apply unit_ang; auto; rewrite radicand_sym; apply sqrt_sqrt; now rewrite radicand_sym];
    unfold cang, sang, kk, rr; generalize (sqrt (radicand x1 x2 l1 l2)); intros s; field; lra.
Qed.
Lemma ang_sum x1 x2 l1 l2 s : x2 <> 0 -> 0 < l1 -> 0 < l2 ->
  l1 * cang x1 x2 l1 l2 s + l2 * cang x1 x2 l2 l1 (- s) = x1 /\
  l1 * sang x1 x2 l1 l2 s + l2 * sang x1 x2 l2 l1 (- s) = x2.
Proof.
  intros H L1 L2. pose proof (rr_pos x1 x2 H) as Q. unfold rr in Q.
  unfold cang, sang, kk, rr. split; field; lra.
Qed.
(** where the arm's end is *)
Definition reaches (l1 l2 t1 t2 x1 x2 : R) : Prop :=
  l1 * cos t1 + l2 * cos t2 = x1 /\ l1 * sin t1 + l2 * sin t2 = x2.
Lemma radicand_reach x1 x2 l1 l2 : x2 <> 0 -> 0 < l1 -> 0 < l2 ->
  (0 <= radicand x1 x2 l1 l2 <-> (l1 - l2) * (l1 - l2) <= x1 * x1 + x2 * x2 <= (l1 + l2) * (l1 + l2)).
Proof.
  intros H L1 L2.
  assert (E : radicand x1 x2 l1 l2 = x2 * x2 * ((x1 * x1 + x2 * x2 - (l1 - l2) * (l1 - l2)) *
    ((l1 + l2) * (l1 + l2) - (x1 * x1 + x2 * x2)))) by (unfold radicand; ring).
  assert (P : 0 < x2 * x2) by (pose proof (Rsqr_pos_lt x2 H); assumption).
  assert (G : (l1 - l2) * (l1 - l2) < (l1 + l2) * (l1 + l2)) by nra.
  rewrite E. set (u := x1 * x1 + x2 * x2) in *. split.
  - intros D. assert (D' : 0 <= (u - (l1 - l2) * (l1 - l2)) * ((l1 + l2) * (l1 + l2) - u)).
    { apply (Rmult_le_reg_l (x2 * x2)); [exact P|]. lra. }
    set (q := (l1 - l2) * (l1 - l2)) in *. set (p := (l1 + l2) * (l1 + l2)) in *. clearbody u p q. clear E D P.
    destruct (Rle_dec q u), (Rle_dec u p); try lra; exfalso; nra.
  - intros D. apply Rmult_le_pos; [lra|]. apply Rmult_le_pos; lra.
Qed.
Lemma planar2_ok l1 l2 x1 x2 : 0 < l1 -> 0 < l2 -> x2 <> 0 ->
  (l1 - l2) * (l1 - l2) <= x1 * x1 + x2 * x2 <= (l1 + l2) * (l1 + l2) ->
  exists a0 a1 b0 b1, planar2_ik_theta2 l1 l2 x1 x2 = (0%Z, Some ((a0, a1), (b0, b1))) /\
    reaches l1 l2 a0 a1 x1 x2 /\ reaches l1 l2 b0 b1 x1 x2 /\
    (- PI < a0 <= PI /\ - PI < a1 <= PI /\ - PI < b0 <= PI /\ - PI < b1 <= PI) /\
    (cos a0 = cang x1 x2 l1 l2 (sqrt (radicand x1 x2 l1 l2)) /\ sin a0 = sang x1 x2 l1 l2 (sqrt (radicand x1 x2 l1 l2))) /\
    (cos b0 = cang x1 x2 l1 l2 (- sqrt (radicand x1 x2 l1 l2)) /\ sin b0 = sang x1 x2 l1 l2 (- sqrt (radicand x1 x2 l1 l2))).
Proof.
  intros L1 L2 H B. apply radicand_reach in B; try assumption.
  exists (theta_a0 x1 x2 l1 l2), (theta_a1 x1 x2 l1 l2), (theta_b0 x1 x2 l1 l2), (theta_b1 x1 x2 l1 l2).
  pose proof (ang_a0 x1 x2 l1 l2 H L1 B) as [A1 A2]. pose proof (ang_a1 x1 x2 l1 l2 H L2 B) as [A3 A4].
  pose proof (ang_b0 x1 x2 l1 l2 H L1 B) as [B1 B2]. pose proof (ang_b1 x1 x2 l1 l2 H L2 B) as [B3 B4].
  set (s := sqrt (radicand x1 x2 l1 l2)) in *.
  assert (RA : reaches l1 l2 (theta_a0 x1 x2 l1 l2) (theta_a1 x1 x2 l1 l2) x1 x2).
  { unfold reaches. rewrite A1, A2, A3, A4. now apply ang_sum. }
  assert (RB : reaches l1 l2 (theta_b0 x1 x2 l1 l2) (theta_b1 x1 x2 l1 l2) x1 x2).
  { unfold reaches. rewrite B1, B2, B3, B4. pose proof (ang_sum x1 x2 l1 l2 (- s) H L1 L2) as Q.
    now rewrite Ropp_involutive in Q. }
  split; [|split; [exact RA|split; [exact RB|split; [repeat split; apply atan2_bound|split; split; assumption]]]].
  unfold planar2_ik_theta2. destruct (Req_EM_T x2 0); [contradiction|].
  destruct (Rlt_dec (radicand x1 x2 l1 l2) 0); [lra|].
  destruct RA as [-> ->]. destruct RB as [-> ->].
  assert (F : forall v, feq v v (1 / 1000) = true).
  { intros v. unfold feq. rewrite Rminus_eq_0, Rabs_R0. destruct (Rle_dec 0 (1 / 1000)); [reflexivity|lra]. }
  rewrite !F. reflexivity.
Qed.
Lemma first_angle l1 l2 t1 t2 x1 x2 : 0 < l1 -> 0 < l2 -> x2 <> 0 -> reaches l1 l2 t1 t2 x1 x2 ->
  exists s, s * s = radicand x1 x2 l1 l2 /\ cos t1 = cang x1 x2 l1 l2 s /\ sin t1 = sang x1 x2 l1 l2 s.
Proof.
  intros L1 L2 H [E1 E2]. pose proof (rr_pos x1 x2 H) as Q.
  pose proof (sin2_cos2 t1) as U1. pose proof (sin2_cos2 t2) as U2. unfold Rsqr in *.
  set (c := cos t1) in *. set (d := sin t1) in *.
  assert (V : (x1 - l1 * c) * (x1 - l1 * c) + (x2 - l1 * d) * (x2 - l1 * d) = l2 * l2).
  { rewrite <- E1, <- E2. transitivity (l2 * l2 * (sin t2 * sin t2 + cos t2 * cos t2)); [ring|]. rewrite U2. ring. }
  assert (K : 2 * l1 * (x1 * c + x2 * d) = kk x1 x2 l1 l2).
  { unfold kk, rr. transitivity (x2 * x2 + x1 * x1 + l1 * l1 * (d * d + c * c) -
      ((x1 - l1 * c) * (x1 - l1 * c) + (x2 - l1 * d) * (x2 - l1 * d))); [ring|]. rewrite U1, V. ring. }
  exists (2 * l1 * x2 * (x1 * d - x2 * c)). split; [|split].
  - rewrite radicand_eq, <- K. unfold rr.
    transitivity (x2 * x2 * (4 * (l1 * l1) * ((x2 * x2 + x1 * x1) * (d * d + c * c)) -
      2 * l1 * (x1 * c + x2 * d) * (2 * l1 * (x1 * c + x2 * d)))); [ring|]. rewrite U1. ring.
  - unfold cang. rewrite <- K. unfold rr in *. field. lra.
  - unfold sang. rewrite <- K. unfold rr in *. field. lra.
Qed.
Lemma planar2_complete l1 l2 x1 x2 t1 t2 : 0 < l1 -> 0 < l2 -> x2 <> 0 -> reaches l1 l2 t1 t2 x1 x2 ->
  exists a0 a1 b0 b1, planar2_ik_theta2 l1 l2 x1 x2 = (0%Z, Some ((a0, a1), (b0, b1))) /\
    ((SameAngle t1 a0 /\ SameAngle t2 a1) \/ (SameAngle t1 b0 /\ SameAngle t2 b1)).
Proof.
  intros L1 L2 H RT. destruct (first_angle l1 l2 t1 t2 x1 x2 L1 L2 H RT) as (s & S & C1 & D1).
  assert (B : 0 <= radicand x1 x2 l1 l2) by (rewrite <- S; apply Rle_0_sqr).
  pose proof (proj1 (radicand_reach x1 x2 l1 l2 H L1 L2) B) as B'.
  destruct (planar2_ok l1 l2 x1 x2 L1 L2 H B') as (a0 & a1 & b0 & b1 & E & RA & RB & _ & [CA DA] & [CB DB]).
  exists a0, a1, b0, b1. split; [exact E|].
  assert (Q : s = sqrt (radicand x1 x2 l1 l2) \/ s = - sqrt (radicand x1 x2 l1 l2)).
  { assert (W : (s - sqrt (radicand x1 x2 l1 l2)) * (s + sqrt (radicand x1 x2 l1 l2)) = 0).
    { transitivity (s * s - sqrt (radicand x1 x2 l1 l2) * sqrt (radicand x1 x2 l1 l2)); [ring|].
      rewrite sqrt_sqrt by exact B. lra. }
    apply Rmult_integral in W. destruct W; [left|right]; lra. }
  destruct RT as [T1 T2]. destruct RA as [A1 A2]. destruct RB as [B1 B2].
  destruct Q as [-> | ->]; [left|right].
  - assert (X1 : cos t1 = cos a0) by congruence. assert (X2 : sin t1 = sin a0) by congruence.
    rewrite X1 in T1. rewrite X2 in T2. repeat split; try assumption; apply (Rmult_eq_reg_l l2); lra.
  - assert (X1 : cos t1 = cos b0) by congruence. assert (X2 : sin t1 = sin b0) by congruence.
    rewrite X1 in T1. rewrite X2 in T2. repeat split; try assumption; apply (Rmult_eq_reg_l l2); lra.
Qed.
Lemma planar2_none l1 l2 x1 x2 : 0 < l1 -> 0 < l2 -> x2 <> 0 -> (forall t1 t2, ~ reaches l1 l2 t1 t2 x1 x2) ->
  planar2_ik_theta2 l1 l2 x1 x2 = (1%Z, None).
Proof.
  intros L1 L2 H N. destruct (Rlt_dec (radicand x1 x2 l1 l2) 0) as [D|D].
  - unfold planar2_ik_theta2. destruct (Req_EM_T x2 0); [reflexivity|]. destruct (Rlt_dec (radicand x1 x2 l1 l2) 0); [reflexivity|lra].
  - exfalso. assert (B : 0 <= radicand x1 x2 l1 l2) by lra. apply radicand_reach in B; try assumption.
    destruct (planar2_ok l1 l2 x1 x2 L1 L2 H B) as (a0 & a1 & b0 & b1 & _ & RA & _). exact (N _ _ RA).
Qed.

(** * Colours *)
Definition chroma (r g b : R) : R := sqrt (r * r + g * g + b * b - r * g - g * b - b * r).
Lemma sqrt3 : sqrt 3 * sqrt 3 = 3.
Proof. apply sqrt_sqrt. lra. Qed.
Lemma alpha_beta r g b : 1 / 2 * (2 * r - g - b) * (1 / 2 * (2 * r - g - b)) + sqrt 3 / 2 * (g - b) * (sqrt 3 / 2 * (g - b)) =
  r * r + g * g + b * b - r * g - g * b - b * r.
Proof.
  transitivity (1 / 4 * ((2 * r - g - b) * (2 * r - g - b)) + (sqrt 3 * sqrt 3) / 4 * ((g - b) * (g - b))); [field|].
  rewrite sqrt3. field.
Qed.
Lemma chroma_arg r g b : 0 <= r * r + g * g + b * b - r * g - g * b - b * r.
Proof.
  replace (r * r + g * g + b * b - r * g - g * b - b * r) with
    (((r - g) * (r - g) + (g - b) * (g - b) + (b - r) * (b - r)) / 2) by field.
  pose proof (Rle_0_sqr (r - g)). pose proof (Rle_0_sqr (g - b)). pose proof (Rle_0_sqr (b - r)). unfold Rsqr in *. lra.
Qed.
Lemma chroma_sq r g b : chroma r g b * chroma r g b = r * r + g * g + b * b - r * g - g * b - b * r.
Proof. apply sqrt_sqrt, chroma_arg. Qed.
Lemma chroma_pos r g b : 0 <= chroma r g b.
Proof. apply sqrt_pos. Qed.
Lemma chroma_0 r g b : chroma r g b = 0 <-> r = g /\ g = b.
Proof.
  split.
  - intros E. pose proof (chroma_sq r g b) as S. rewrite E in S.
    assert (T : (r - g) * (r - g) + (g - b) * (g - b) + (b - r) * (b - r) = 0) by lra.
    pose proof (Rle_0_sqr (r - g)) as A. pose proof (Rle_0_sqr (g - b)) as B. pose proof (Rle_0_sqr (b - r)) as C. unfold Rsqr in *.
    assert (X : (r - g) * (r - g) = 0) by lra. assert (Y : (g - b) * (g - b) = 0) by lra.
    apply Rmult_integral in X. apply Rmult_integral in Y. destruct X, Y; lra.
  - intros [-> ->]. unfold chroma. replace (b * b + b * b + b * b - b * b - b * b - b * b) with 0 by ring. apply sqrt_0.
Qed.
Lemma cmax_eq a b : cmax a b = Rmax a b.
Proof. unfold cmax, Rmax. destruct (Rlt_dec b a), (Rle_dec a b); lra. Qed.
Definition value (r g b : R) : R := Rmax (Rmax r g) b.
Definition hue (r g b : R) : R := atan2 (sqrt 3 / 2 * (g - b)) (1 / 2 * (2 * r - g - b)).
Lemma hue_polar r g b :
  chroma r g b * cos (hue r g b) = 1 / 2 * (2 * r - g - b) /\ chroma r g b * sin (hue r g b) = sqrt 3 / 2 * (g - b).
Proof.
  destruct (Rle_lt_or_eq_dec 0 _ (chroma_pos r g b)) as [P|P].
  - apply atan2_polar; [exact P|]. rewrite chroma_sq. apply alpha_beta.
  - pose proof P as Z. symmetry in Z. apply chroma_0 in Z. rewrite <- P. destruct Z as [-> ->]. split; ring.
Qed.
Lemma value_ub r g b : r <= value r g b /\ g <= value r g b /\ b <= value r g b.
Proof.
  unfold value. pose proof (Rmax_l (Rmax r g) b). pose proof (Rmax_r (Rmax r g) b). pose proof (Rmax_l r g). pose proof (Rmax_r r g). lra.
Qed.
Lemma value_in r g b : value r g b = r \/ value r g b = g \/ value r g b = b.
Proof. unfold value, Rmax. destruct (Rle_dec r g), (Rle_dec _ b); auto. Qed.
Lemma rgb2hsv_eq r g b : 0 <= r -> 0 <= g -> 0 <= b ->
  exists s, rgb2hsv r g b = Ret (hue r g b, s, value r g b) /\ s * value r g b = chroma r g b /\ 0 <= s <= 1 /\
    (value r g b = 0 -> s = 0).
Proof.
  intros Hr Hg Hb. unfold rgb2hsv. rewrite alpha_beta. fold (chroma r g b). fold (hue r g b). rewrite !cmax_eq. fold (value r g b).
  pose proof (value_ub r g b) as V. pose proof (chroma_pos r g b) as C.
  unfold feq. rewrite Rminus_0_r, Rabs_pos_eq by exact C.
  destruct (Rle_dec (chroma r g b) 0) as [Z|Z].
  - exists 0. assert (chroma r g b = 0) by lra. repeat split; try lra.
  - assert (P : 0 < value r g b).
    { destruct (Rle_lt_or_eq_dec 0 (value r g b)) as [|E]; [lra|assumption|]. exfalso. apply Z.
      assert (chroma r g b = 0); [|lra]. apply chroma_0. lra. }
    destruct (Req_EM_T (value r g b) 0); [lra|].
    exists (chroma r g b / value r g b). split; [reflexivity|]. split; [field; lra|]. split; [|lra].
    assert (B : chroma r g b <= value r g b).
    { apply Rsqr_incr_0_var; [|lra]. unfold Rsqr. rewrite chroma_sq. destruct (value_in r g b) as [E|[E|E]]; rewrite E in *; nra. }
    split.
    + apply Rmult_le_pos; [lra|]. apply Rlt_le, Rinv_0_lt_compat. lra.
    + apply (Rmult_le_reg_r (value r g b)); [exact P|]. unfold Rdiv. rewrite Rmult_assoc, Rinv_l by lra. lra.
Qed.
Lemma hue_add r g b w : hue (r + w) (g + w) (b + w) = hue r g b.
Proof. unfold hue. f_equal; ring. Qed.
Lemma hue_scale r g b k : 0 < k -> hue (k * r) (k * g) (k * b) = hue r g b.
Proof.
  intros K. unfold hue. rewrite <- (atan2_scale k (sqrt 3 / 2 * (g - b)) _ K). f_equal; ring.
Qed.
Lemma rgb_of_polar r g b r' g' b' : 1 / 2 * (2 * r - g - b) = 1 / 2 * (2 * r' - g' - b') ->
  sqrt 3 / 2 * (g - b) = sqrt 3 / 2 * (g' - b') -> value r g b = value r' g' b' -> r = r' /\ g = g' /\ b = b'.
Proof.
  intros A B V. assert (P : 0 < sqrt 3) by (apply sqrt_lt_R0; lra).
  assert (B' : g - b = g' - b') by (apply (Rmult_eq_reg_l (sqrt 3 / 2)); lra).
  assert (D : exists w, r' = r + w /\ g' = g + w /\ b' = b + w) by (exists (r' - r); repeat split; lra).
  destruct D as (w & -> & -> & ->).
  assert (value (r + w) (g + w) (b + w) = value r g b + w).
  { unfold value, Rmax. repeat destruct (Rle_dec _ _); lra. }
  repeat split; lra.
Qed.
Lemma rgb2hsv_inj r g b r' g' b' : 0 <= r -> 0 <= g -> 0 <= b -> 0 <= r' -> 0 <= g' -> 0 <= b' ->
  rgb2hsv r g b = rgb2hsv r' g' b' -> r = r' /\ g = g' /\ b = b'.
Proof.
  intros H1 H2 H3 H4 H5 H6 E.
  destruct (rgb2hsv_eq r g b H1 H2 H3) as (s & E1 & C1 & _). destruct (rgb2hsv_eq r' g' b' H4 H5 H6) as (s' & E2 & C2 & _).
  rewrite E1, E2 in E. injection E as Eh Es Ev.
  assert (EC : chroma r g b = chroma r' g' b') by (rewrite <- C1, <- C2, Es, Ev; reflexivity).
  destruct (hue_polar r g b) as [P1 P2]. destruct (hue_polar r' g' b') as [Q1 Q2].
  apply rgb_of_polar; [rewrite <- P1, <- Q1, EC, Eh; reflexivity|rewrite <- P2, <- Q2, EC, Eh; reflexivity|exact Ev].
Qed.
Lemma hue_turn r g b : chroma r g b <> 0 -> SameAngle (hue b r g) (hue r g b + 2 * (PI / 3)).
Proof.
  intros N. destruct (hue_polar r g b) as [P1 P2]. destruct (hue_polar b r g) as [Q1 Q2].
  assert (C : chroma b r g = chroma r g b) by (unfold chroma; f_equal; ring). rewrite C in *.
  pose proof sqrt3 as S3. split; apply (Rmult_eq_reg_l (chroma r g b)); try exact N.
  - rewrite Q1, cos_plus, cos_2PI3, sin_2PI3.
    transitivity (chroma r g b * cos (hue r g b) * (-1 / 2) - chroma r g b * sin (hue r g b) * (sqrt 3 / 2)); [|ring].
    rewrite P1, P2. transitivity (1 / 2 * (2 * r - g - b) * (-1 / 2) - (sqrt 3 * sqrt 3) / 4 * (g - b)); [rewrite S3; field|field].
  - rewrite Q2, sin_plus, cos_2PI3, sin_2PI3.
    transitivity (chroma r g b * sin (hue r g b) * (-1 / 2) + chroma r g b * cos (hue r g b) * (sqrt 3 / 2)); [|ring].
    rewrite P1, P2. field.
Qed.
