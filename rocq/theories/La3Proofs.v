(** Proofs about means, covariance, deviation, angles and planes. *)
From Coq Require Import Reals Arith List Bool Lra Lia.
From Verif Require Import MatModel MatSpec MatProofs LaModel LaSpec LaAlg LaProofs AtanModel AtanProofs.
Open Scope R_scope.

Lemma zero_ok n x M : (forall i, (i < n)%nat -> arr x (zero n x M) i = 0) /\ (forall a, outside x n a -> zero n x M a = M a).
Proof.
  destruct (loop_map n (fun i => x + i)%nat (fun _ _ => 0) M) with (k := n) as [Z1 Z2]; [intros; lia|reflexivity|lia|].
  split; [exact Z1|]. intros a Ha. apply Z2. intros i Hi. unfold outside in Ha. lia.
Qed.
Lemma axpy_ok n c y incy x M : (forall i j, (i < n)%nat -> (j < n)%nat -> x + i <> y + j * incy)%nat ->
  let M' := b_axpy n c y incy x 1 M in
  (forall i, (i < n)%nat -> arr x M' i = arr x M i + c * M (y + i * incy)%nat) /\ (forall a, outside x n a -> M' a = M a).
Proof.
  intros C. unfold b_axpy.
  destruct (vec_mem n x 1 (fun i m => m (x + i * 1)%nat + c * m (y + i * incy)%nat) M) as [L1 L2]; [lia| |].
  - intros i m Hi E1 E2. rewrite E1, E2; [reflexivity|]. intros k Hk. specialize (C k i Hk Hi). lia.
  - split; [|intros a Ha; apply L2; intros; unfold outside in Ha; lia].
    intros i Hi. specialize (L1 i Hi). rewrite !Nat.mul_1_r in L1. exact L1.
Qed.
Lemma scal_ok n c x M : let M' := b_scal n c x 1 M in
  (forall i, (i < n)%nat -> arr x M' i = c * arr x M i) /\ (forall a, outside x n a -> M' a = M a).
Proof.
  unfold b_scal. destruct (vec_mem n x 1 (fun i m => c * m (x + i * 1)%nat) M) as [L1 L2]; [lia|intros; now rewrite H0|].
  split; [|intros a Ha; apply L2; intros; unfold outside in Ha; lia].
  intros i Hi. specialize (L1 i Hi). rewrite !Nat.mul_1_r in L1. exact L1.
Qed.
(** a sum of vectors *)
Lemma sum_loop k n (y : nat -> nat) incy x M : (forall j i l, (j < k)%nat -> (i < n)%nat -> (l < n)%nat -> x + i <> y j + l * incy)%nat ->
  let M' := loop k (fun j => b_axpy n 1 (y j) incy x 1) M in
  (forall i, (i < n)%nat -> arr x M' i = arr x M i + bsum k (fun j => M (y j + i * incy)%nat)) /\ (forall a, outside x n a -> M' a = M a).
Proof.
  induction k as [|k IH]; intros C; cbn [loop bsum]; [split; [intros; lra|auto]|].
  destruct IH as [I1 I2]; [intros; apply C; lia|]. set (M1 := loop k _ M) in *.
  destruct (axpy_ok n 1 (y k) incy x M1) as [A1 A2]; [intros; apply C; lia|]. split.
  - intros i Hi. rewrite A1, I1 by auto. rewrite (I2 (y k + i * incy)%nat); [lra|].
    unfold outside. destruct (Nat.lt_ge_cases (y k + i * incy) x) as [H|H]; [now left|].
    destruct (Nat.le_gt_cases (x + n) (y k + i * incy)) as [H'|H']; [now right|]. exfalso.
    apply (C k (y k + i * incy - x)%nat i); lia.
  - intros a Ha. rewrite A2 by exact Ha. apply I2. exact Ha.
Qed.
Lemma colmean_ok m n A lda x M : (m <= lda)%nat -> clear_of x m A (lda * n) ->
  let M' := d_colmean m n A lda x M in
  (forall i, (i < m)%nat -> arr x M' i = bsum n (fun j => amat A lda M i j) / INR n) /\ (forall a, outside x m a -> M' a = M a).
Proof.
  intros Hl C. unfold d_colmean. destruct (zero_ok m x M) as [Z1 Z2]. set (M1 := zero m x M) in *.
  destruct (sum_loop n m (fun j => A + j * lda)%nat 1 x M1) as [S1 S2]. { intros. unfold clear_of in C. nia. }
  set (M2 := loop n _ M1) in *. destruct (scal_ok m (1 / INR n) x M2) as [C1 C2]. split.
  - intros i Hi. rewrite C1, S1, Z1 by auto. rewrite Rplus_0_l. unfold Rdiv. rewrite Rmult_1_l, Rmult_comm. f_equal.
    apply bsum_ext. intros j Hj. unfold amat. rewrite Z2; [f_equal; lia|]. unfold outside, clear_of in *. nia.
  - intros a Ha. rewrite C2, S2, Z2; auto.
Qed.
Lemma rowmean_ok m n A lda x M : (m <= lda)%nat -> clear_of x n A (lda * n) ->
  let M' := d_rowmean m n A lda x M in
  (forall j, (j < n)%nat -> arr x M' j = bsum m (fun i => amat A lda M i j) / INR m) /\ (forall a, outside x n a -> M' a = M a).
Proof.
  intros Hl C. unfold d_rowmean. destruct (zero_ok n x M) as [Z1 Z2]. set (M1 := zero n x M) in *.
  destruct (sum_loop m n (fun i => A + i)%nat lda x M1) as [S1 S2]. { intros. unfold clear_of in C. nia. }
  set (M2 := loop m _ M1) in *. destruct (scal_ok n (1 / INR m) x M2) as [C1 C2]. split.
  - intros j Hj. rewrite C1, S1, Z1 by auto. rewrite Rplus_0_l. unfold Rdiv. rewrite Rmult_1_l, Rmult_comm. f_equal.
    apply bsum_ext. intros i Hi. unfold amat. rewrite Z2; [f_equal; lia|]. unfold outside, clear_of in *. nia.
  - intros a Ha. rewrite C2, S2, Z2; auto.
Qed.

(** ** Covariance *)
Lemma syr_ok n t E lde M : (n <= lde)%nat -> let M' := b_syr n 1 t 1 E lde M in
  (forall i j, (i <= j)%nat -> (j < n)%nat -> M' (mad E lde i j) = M (mad E lde i j) + arr t M i * arr t M j) /\
  (forall a, (forall i j, (i <= j)%nat -> (j < n)%nat -> a <> mad E lde i j) -> M' a = M a).
Proof.
  intros H. unfold b_syr.
  destruct (tri_loop E lde n (fun i j m => m (mad E lde i j) + 1 * M (t + i * 1)%nat * M (t + j * 1)%nat) M H) as [L1 L2]; [intros i j m _ _ E1 _; now rewrite E1|].
  split; [|exact L2]. intros i j Hi Hj. rewrite L1 by auto. rewrite !Nat.mul_1_r. unfold arr. lra.
Qed.
Section Cov.
  Context (m n A lda x E lde t : nat) (M : mem).
  Hypothesis Hl : (m <= lda)%nat.
  Hypothesis He : (m <= lde)%nat.
  Hypothesis CEA : clear_of E (lde * m) A (lda * n).
  Hypothesis CEx : clear_of E (lde * m) x m.
  Hypothesis CtA : clear_of t m A (lda * n).
  Hypothesis Ctx : clear_of t m x m.
  Hypothesis CtE : clear_of t m E (lde * m).
  Let dev i j := amat A lda M i j - arr x M i.
  Let step j M := b_syr m 1 t 1 E lde (b_axpy m (-1) x 1 t 1 (b_copy m (A + j * lda) 1 t 1 M)).
  Definition same_in (M' : mem) : Prop := (forall i j, (i < m)%nat -> (j < n)%nat -> amat A lda M' i j = amat A lda M i j) /\ (forall i, (i < m)%nat -> arr x M' i = arr x M i).
  Lemma cov_step j M1 : (j < n)%nat -> same_in M1 -> let M' := step j M1 in same_in M' /\
    (forall p q, (p <= q)%nat -> (q < m)%nat -> M' (mad E lde p q) = M1 (mad E lde p q) + dev p j * dev q j) /\
    (forall a, (forall p q, (p <= q)%nat -> (q < m)%nat -> a <> mad E lde p q) -> outside t m a -> M' a = M1 a).
  Proof.
    intros Hj [SA Sx] M'. unfold M', step. clear M'.
    destruct (vec_mem m t 1 (fun i m => m (A + j * lda + i * 1)%nat) M1) as [K1 K2]; [lia| |].
    { intros i m' Hi _ E2. apply E2. intros k Hk. unfold clear_of in CtA. nia. }
    change (loop m (fun i m0 => upd m0 (t + i * 1) (m0 (A + j * lda + i * 1)%nat)) M1) with (b_copy m (A + j * lda) 1 t 1 M1) in K1, K2.
    set (M2 := b_copy m (A + j * lda) 1 t 1 M1) in *.
    destruct (axpy_ok m (-1) x 1 t M2) as [X1 X2]; [intros; unfold clear_of in Ctx; lia|]. set (M3 := b_axpy m (-1) x 1 t 1 M2) in *.
    destruct (syr_ok m t E lde M3 He) as [Y1 Y2]. set (M4 := b_syr m 1 t 1 E lde M3) in *.
    assert (F : forall a, (forall p q, (p <= q)%nat -> (q < m)%nat -> a <> mad E lde p q) -> outside t m a -> M4 a = M1 a).
    { intros a H1 H2. rewrite Y2, X2, K2; auto. intros i Hi. unfold outside in H2. lia. }
    assert (T : forall i, (i < m)%nat -> arr t M3 i = dev i j).
    { intros i Hi. rewrite X1 by exact Hi. unfold arr at 1. specialize (K1 i Hi). rewrite Nat.mul_1_r in K1. rewrite K1.
      rewrite K2 by (intros; unfold clear_of in Ctx; lia). rewrite !Nat.mul_1_r.
      unfold dev. rewrite <- SA, <- Sx by auto. unfold amat, arr. replace (A + j * lda + i)%nat with (A + lda * j + i)%nat by lia. lra. }
    split; [split|split; [|exact F]].
    - intros i k Hi Hk. rewrite <- SA by auto. unfold amat. apply F.
      + intros p q Hp Hq Eq. pose proof (mad_in E lde p q m ltac:(lia) Hq). unfold clear_of in CEA. nia.
      + unfold outside, clear_of in *. nia.
    - intros i Hi. rewrite <- Sx by auto. unfold arr. apply F.
      + intros p q Hp Hq Eq. pose proof (mad_in E lde p q m ltac:(lia) Hq). unfold clear_of in CEx. lia.
      + unfold outside, clear_of in *. lia.
    - intros p q Hp Hq. rewrite Y1, !T by lia. f_equal. pose proof (mad_in E lde p q m ltac:(lia) Hq). rewrite X2, K2; auto.
      + intros i Hi. unfold clear_of in CtE. lia.
      + unfold outside, clear_of in *. lia.
  Qed.
  Lemma cov_loop M1 : same_in M1 -> forall k, (k <= n)%nat -> let M' := loop k step M1 in same_in M' /\
    (forall p q, (p <= q)%nat -> (q < m)%nat -> M' (mad E lde p q) = M1 (mad E lde p q) + bsum k (fun j => dev p j * dev q j)) /\
    (forall a, (forall p q, (p <= q)%nat -> (q < m)%nat -> a <> mad E lde p q) -> outside t m a -> M' a = M1 a).
  Proof.
    intros HS k. induction k as [|k IH]; intros Hk; cbn [loop bsum]; [split; [exact HS|split; [intros; lra|auto]]|].
    destruct (IH ltac:(lia)) as (I0 & I1 & I2). destruct (cov_step k (loop k step M1) ltac:(lia) I0) as (S0 & S1 & S2).
    split; [exact S0|]. split.
    - intros p q Hp Hq. rewrite S1, I1 by auto. lra.
    - intros a H1 H2. rewrite S2, I2; auto.
  Qed.
  (** the matrix is zeroed first *)
  Lemma cov_zero : let M1 := loop m (fun j => zero m (E + j * lde)) M in same_in M1 /\
    (forall p q, (p < m)%nat -> (q < m)%nat -> M1 (mad E lde p q) = 0) /\ (forall a, (forall p q, (p < m)%nat -> (q < m)%nat -> a <> mad E lde p q) -> M1 a = M a).
  Proof.
    destruct (mad_loop E lde m m (fun _ _ _ => 0) M He) as [Z1 Z2]; [reflexivity|].
    assert (EQ : loop m (fun j => zero m (E + j * lde)) M = loop m (fun j => loop m (fun i m0 => upd m0 (mad E lde i j) 0)) M).
    { assert (G : forall c M, loop c (fun j => zero m (E + j * lde)) M = loop c (fun j => loop m (fun i m0 => upd m0 (mad E lde i j) 0)) M).
      { induction c as [|c IH]; intros M'; cbn [loop]; [reflexivity|]. rewrite IH. unfold zero, mad. rewrite (Nat.mul_comm c lde). reflexivity. }
      apply G. }
    cbv zeta. rewrite EQ. split; [split|split; assumption].
    - intros i j Hi Hj. unfold amat. apply Z2. intros p q Hp Hq Eq. pose proof (mad_in E lde p q m ltac:(lia) Hq). unfold clear_of in CEA. nia.
    - intros i Hi. unfold arr. apply Z2. intros p q Hp Hq Eq. pose proof (mad_in E lde p q m ltac:(lia) Hq). unfold clear_of in CEx. lia.
  Qed.
    Lemma cov_sums : let M2 := loop n step (loop m (fun j => zero m (E + j * lde)) M) in
    (forall p q, (p <= q)%nat -> (q < m)%nat -> M2 (mad E lde p q) = bsum n (fun j => dev p j * dev q j)) /\
    (forall a, outside E (lde * m) a -> outside t m a -> M2 a = M a).
  Proof.
    destruct cov_zero as (Z0 & Z1 & Z2). destruct (cov_loop _ Z0 n (le_n _)) as (L0 & L1 & L2). split.
    - intros p q Hp Hq. rewrite L1, Z1 by lia. lra.
    - intros a H1 H2. rewrite L2, Z2; auto.
      + intros p q Hp Hq Eq. pose proof (mad_in E lde p q m ltac:(lia) Hq). unfold outside in H1. lia.
      + intros p q Hp Hq Eq. pose proof (mad_in E lde p q m ltac:(lia) Hq). unfold outside in H1. lia.
  Qed.
End Cov.
  Lemma cov_final m E cov M3 : (forall i j, cov i j = cov j i) -> (forall p q, (p <= q)%nat -> (q < m)%nat -> M3 (mad E m p q) = cov p q) ->
    let M' := loop m (fun i => loop (m - (i + 1)) (fun k M => let j := (i + 1 + k)%nat in upd M (mad E m j i) (M (mad E m i j)))) M3 in
    (forall p q, (p < m)%nat -> (q < m)%nat -> M' (mad E m p q) = cov p q) /\ (forall a, outside E (m * m) a -> M' a = M3 a).
  Proof.
    intros HSym HU. cbv zeta.
    destruct (loop2_dep m (fun i => m - (i + 1))%nat (fun k i => mad E m (i + 1 + k) i) (fun k i M => M (mad E m i (i + 1 + k))) M3) with (k := m) as [L1 L2]; [| |lia|].
    - intros k i k' i' Hi Hk Hi' Hk' Eq. apply mad_inj in Eq; lia.
    - intros k i M' Hi Hk _ F. apply F. intros k' i' Hi' Hk' Eq. apply mad_inj in Eq; lia.
    - split.
      + intros p q Hp Hq. destruct (Nat.le_gt_cases p q) as [H|H].
        * rewrite L2; [apply HU; auto|]. intros k i Hi Hk Eq. apply mad_inj in Eq; lia.
        * specialize (L1 (p - q - 1)%nat q ltac:(lia) ltac:(lia)). cbv beta in L1. replace (q + 1 + (p - q - 1))%nat with p in L1 by lia. rewrite L1, HU by lia. apply HSym.
      + intros a Ha. apply L2. intros k i Hi Hk Eq. pose proof (mad_in E m (i + 1 + k) i m ltac:(lia) ltac:(lia)). unfold outside in Ha. lia.
  Qed.
Lemma colcov_ok m n A lda x E t M : (m <= lda)%nat ->
  clear_of E (m * m) A (lda * n) -> clear_of E (m * m) x m -> clear_of t m A (lda * n) -> clear_of t m x m -> clear_of t m E (m * m) ->
  let M' := d_colcov m n A lda x E m t M in
  (forall i j, (i < m)%nat -> (j < m)%nat -> amat E m M' i j = covariance n (amat A lda M) (arr x M) i j) /\
  (forall a, outside E (m * m) a -> outside t m a -> M' a = M a).
Proof.
  intros Hl C1 C2 C3 C4 C5 M'. unfold M', d_colcov. clear M'.
  destruct (cov_sums m n A lda x E m t M Hl (le_n _) C1 C2 C3 C4 C5) as [S1 S2]. set (M2 := loop n _ _) in *.
  destruct (scal_ok (m * m) (1 / INR (n - 1)) E M2) as [K1 K2]. set (M3 := b_scal (m * m) _ E 1 M2) in *.
  destruct (cov_final m E (covariance n (amat A lda M) (arr x M)) M3) as [F1 F2].
  { intros i j. unfold covariance. f_equal. apply bsum_ext. intros. ring. }
  { intros p q Hp Hq. pose proof (mad_in E m p q m ltac:(lia) Hq) as B. specialize (K1 (mad E m p q - E)%nat ltac:(lia)). unfold arr in K1.
    replace (E + (mad E m p q - E))%nat with (mad E m p q) in K1 by lia. rewrite K1, S1 by auto. unfold covariance, Rdiv. ring. }
  split; [exact F1|]. intros a H1 H2. rewrite F2, K2, S2; auto.
Qed.
(** with a larger leading dimension the last element is not divided *)
Lemma colcov_wrong m n A lda x E lde t M : (2 <= m)%nat -> (m < lde)%nat -> (m <= lda)%nat ->
  clear_of E (lde * m) A (lda * n) -> clear_of E (lde * m) x m -> clear_of t m A (lda * n) -> clear_of t m x m -> clear_of t m E (lde * m) ->
  amat E lde (d_colcov m n A lda x E lde t M) (m - 1) (m - 1) = bsum n (fun k => (amat A lda M (m - 1) k - arr x M (m - 1)) * (amat A lda M (m - 1) k - arr x M (m - 1))).
Proof.
  intros Hm He Hl C1 C2 C3 C4 C5. unfold d_colcov.
  destruct (cov_sums m n A lda x E lde t M Hl ltac:(lia) C1 C2 C3 C4 C5) as [S1 S2]. set (M2 := loop n _ _) in *.
  destruct (scal_ok (m * m) (1 / INR (n - 1)) E M2) as [K1 K2]. set (M3 := b_scal (m * m) _ E 1 M2) in *.
  assert (OUT : outside E (m * m) (mad E lde (m - 1) (m - 1))) by (unfold outside, mad; right; nia).
  unfold amat at 1. change (E + lde * (m - 1) + (m - 1))%nat with (mad E lde (m - 1) (m - 1)).
  destruct (loop2_dep m (fun i => m - (i + 1))%nat (fun k i => mad E m (i + 1 + k) i) (fun k i M => M (mad E m i (i + 1 + k))) M3) with (k := m) as [L1 L2]; [| |lia|].
  - intros k i k' i' Hi Hk Hi' Hk' Eq. apply mad_inj in Eq; lia.
  - intros k i M' Hi Hk _ F. apply F. intros k' i' Hi' Hk' Eq. apply mad_inj in Eq; lia.
  - etransitivity; [apply L2|].
    + intros k i Hi Hk Eq. pose proof (mad_in E m (i + 1 + k) i m ltac:(lia) ltac:(lia)). unfold outside in OUT. lia.
    + rewrite K2 by exact OUT. rewrite S1 by lia. reflexivity.
Qed.

(** ** Angle between vectors *)
Lemma cauchy n x y : dotp n x y * dotp n x y <= ssq n x * ssq n y.
Proof.
  pose proof (ssq_nonneg n x) as HX. pose proof (ssq_nonneg n y) as HY.
  destruct (Req_dec (ssq n y) 0) as [Z|Z].
  - assert (D : dotp n x y = 0). { unfold dotp. apply bsum_zero. intros i Hi. rewrite (ssq_zero n y Z i Hi). ring. } rewrite D, Z. lra.
  - assert (Q : 0 <= ssq n (fun i => ssq n y * x i - dotp n x y * y i)) by apply ssq_nonneg.
    assert (EQ : ssq n (fun i => ssq n y * x i - dotp n x y * y i) = ssq n y * (ssq n y * ssq n x - dotp n x y * dotp n x y)).
    { set (a := ssq n y). set (b := dotp n x y). unfold ssq at 1, dotp at 1.
      rewrite (bsum_ext n _ (fun i => (a * a * (x i * x i) - 2 * a * b * (x i * y i)) + b * b * (y i * y i))) by (intros; ring).
      rewrite bsum_plus, bsum_minus, !bsum_scal. fold (dotp n x x) (dotp n x y) (dotp n y y). fold (ssq n x) (ssq n y) b. fold a. unfold a, b. ring. }
    rewrite EQ in Q. nra.
Qed.
Lemma atan2_quadrant y x : 0 <= y -> 0 <= x -> 0 <= atan2 y x <= PI / 2.
Proof.
  intros Hy Hx. pose proof PI_RGT_0 as HPI. unfold atan2. destruct (Rlt_dec 0 x) as [HH|HH].
  - pose proof (atan_bound (y / x)). destruct (atan_sign (y / x)) as (S1 & S2 & S3 & S4).
    assert (0 <= y / x) by (apply Rmult_le_pos; [lra|]; left; now apply Rinv_0_lt_compat). split; [|lra].
    destruct (Req_dec (y / x) 0) as [->|]; [rewrite atan_0; lra|]. assert (0 < y / x) by lra. auto with real.
  - destruct (Rlt_dec x 0); [lra|]. destruct (Rlt_dec 0 y); [lra|]. destruct (Rlt_dec y 0); lra.
Qed.
Lemma angle_ok n x incx y incy M : let X i := M (x + i * incx)%nat in let Y i := M (y + i * incy)%nat in
  let th := d_angle n x incx y incy M in
  cos th * (sqrt (ssq n X) * sqrt (ssq n Y)) = dotp n X Y /\ 0 <= th <= PI.
Proof.
  intros X Y th. unfold th, d_angle, b_nrm2. clear th.
  change (bsum n (fun i => M (x + i * incx)%nat * M (x + i * incx)%nat)) with (ssq n X).
  change (bsum n (fun i => M (y + i * incy)%nat * M (y + i * incy)%nat)) with (ssq n Y).
  set (nx := sqrt (ssq n X)). set (ny := sqrt (ssq n Y)).
  assert (NX : nx * nx = ssq n X) by (apply sqrt_sqrt, ssq_nonneg). assert (NY : ny * ny = ssq n Y) by (apply sqrt_sqrt, ssq_nonneg).
  assert (PX : 0 <= nx) by apply sqrt_pos. assert (PY : 0 <= ny) by apply sqrt_pos.
  set (s := bsum n _). set (c := bsum n (fun i => (_ + _) * _)).
  assert (ES : s = 2 * (nx * nx) * (ny * ny) - 2 * (nx * ny) * dotp n X Y).
  { unfold s. rewrite (bsum_ext n _ (fun i => (ny * ny * (X i * X i) - 2 * (nx * ny) * (X i * Y i)) + nx * nx * (Y i * Y i))) by (intros; unfold X, Y; ring).
    rewrite bsum_plus, bsum_minus, !bsum_scal. fold (dotp n X X) (dotp n X Y) (dotp n Y Y). fold (ssq n X) (ssq n Y). rewrite <- NX, <- NY. ring. }
  assert (EC : c = 2 * (nx * nx) * (ny * ny) + 2 * (nx * ny) * dotp n X Y).
  { unfold c. rewrite (bsum_ext n _ (fun i => (ny * ny * (X i * X i) + 2 * (nx * ny) * (X i * Y i)) + nx * nx * (Y i * Y i))) by (intros; unfold X, Y; ring).
    rewrite !bsum_plus, !bsum_scal. fold (dotp n X X) (dotp n X Y) (dotp n Y Y). fold (ssq n X) (ssq n Y). rewrite <- NX, <- NY. ring. }
  assert (PS : 0 <= s) by (apply bsum_nonneg; intros; apply Rle_0_sqr). assert (PC : 0 <= c) by (apply bsum_nonneg; intros; apply Rle_0_sqr).
  clearbody s c. set (phi := atan2 (sqrt s) (sqrt c)).
  assert (D0 : nx * ny = 0 -> dotp n X Y = 0).
  { intros Z. pose proof (cauchy n X Y) as C. rewrite <- NX, <- NY in C. assert (nx * nx * (ny * ny) = 0) by (replace (nx * nx * (ny * ny)) with (nx * ny * (nx * ny)) by ring; rewrite Z; ring). nra. }
  assert (RB : 0 <= phi <= PI / 2) by (apply atan2_quadrant; apply sqrt_pos).
  split; [|lra]. destruct (Req_dec (nx * ny) 0) as [Z|Z]; [rewrite Z, D0 by exact Z; ring|].
  assert (P : 0 < nx * ny) by (assert (0 <= nx * ny) by (apply Rmult_le_pos; lra); lra).
  destruct (atan2_polar (sqrt c) (sqrt s) (2 * (nx * ny))) as [C1 C2]; [lra|rewrite !sqrt_sqrt by assumption; rewrite ES, EC; ring|].
  fold phi in C1, C2.
  assert (E2 : (2 * (nx * ny)) * (2 * (nx * ny)) * cos (2 * phi) = c - s).
  { rewrite cos_2a. rewrite <- (sqrt_sqrt c PC), <- (sqrt_sqrt s PS), <- C1, <- C2. ring. }
  rewrite ES, EC in E2. apply Rmult_eq_reg_l with (4 * (nx * ny)); [|lra]. lra.
Qed.

(** ** Deviation, planes *)
Lemma vecstd_ok n x incx mu M : (2 <= n)%nat -> let s := d_vecstd n x incx mu M in
  0 <= s /\ s * s * INR (n - 1) = bsum n (fun i => (M (x + i * incx)%nat - mu) * (M (x + i * incx)%nat - mu)).
Proof.
  intros Hn s. assert (P : 0 < INR (n - 1)) by (apply lt_0_INR; lia).
  set (q := bsum n (fun i => (M (x + i * incx)%nat - mu) * (M (x + i * incx)%nat - mu))).
  assert (Q : 0 <= q) by (apply bsum_nonneg; intros; apply Rle_0_sqr).
  unfold s, d_vecstd. fold q. split; [apply sqrt_pos|]. rewrite sqrt_sqrt by (apply Rmult_le_pos; [exact Q|]; left; now apply Rinv_0_lt_compat). field. lra.
Qed.
Lemma nrm_pos n x M : (exists i, (i < n)%nat /\ arr x M i <> 0) -> 0 < b_nrm2 n x 1 M /\ b_nrm2 n x 1 M * b_nrm2 n x 1 M = ssq n (arr x M).
Proof.
  intros H. pose proof (ssq_pos n (arr x M) H). unfold b_nrm2.
  assert (E : bsum n (fun i => M (x + i * 1)%nat * M (x + i * 1)%nat) = ssq n (arr x M)) by (apply bsum_ext; intros; unfold arr; now rewrite Nat.mul_1_r).
  rewrite E. split; [now apply sqrt_lt_R0|]. apply sqrt_sqrt. lra.
Qed.
(** the value is a signed distance: every point of the plane is at least that far away, and the foot of the perpendicular is exactly so *)
Lemma point_plane_ok n point plane M : (exists i, (i < n)%nat /\ arr plane M i <> 0) ->
  let d := la_point_plane n point plane M in let on z := dotp n z (arr plane M) + arr plane M n = 0 in
  (forall z, on z -> d * d <= ssq n (fun i => arr point M i - z i)) /\
  on (fun i => arr point M i - d * (arr plane M i / sqrt (ssq n (arr plane M)))) /\
  ssq n (fun i => d * (arr plane M i / sqrt (ssq n (arr plane M)))) = d * d.
Proof.
  intros H d on. destruct (nrm_pos n plane M H) as [NP NN].
  set (p := arr point M) in *. set (a := arr plane M) in *.
  assert (NE : sqrt (ssq n a) = b_nrm2 n plane 1 M). { rewrite <- NN. apply sqrt_square. lra. }
  rewrite NE. set (N := b_nrm2 n plane 1 M) in *.
  assert (DE : d * N = dotp n p a + a n).
  { unfold d, la_point_plane. fold N. replace (b_dot n point 1 plane 1 M) with (dotp n p a); [unfold a, arr; field; lra|].
    unfold b_dot, dotp. apply bsum_ext. intros. unfold p, a, arr. now rewrite !Nat.mul_1_r. }
  clearbody d N. split; [|split].
  - intros z Hz. unfold on in Hz.
    assert (E : dotp n (fun i => p i - z i) a = d * N). { rewrite DE. rewrite dotp_comm, dotp_minus, (dotp_comm n a p), (dotp_comm n a z). lra. }
    pose proof (cauchy n (fun i => p i - z i) a) as C. rewrite E, <- NN in C. apply Rmult_le_reg_r with (N * N); [nra|]. lra.
  - unfold on. rewrite dotp_comm, dotp_minus.
    assert (E : dotp n a (fun i => d * (a i / N)) = d * N).
    { unfold dotp. rewrite (bsum_ext n _ (fun i => d / N * (a i * a i))) by (intros; unfold Rdiv; ring). rewrite bsum_scal. fold (dotp n a a). fold (ssq n a). rewrite <- NN. field. lra. }
    rewrite E, DE, (dotp_comm n a p). lra.
  - unfold ssq at 1, dotp. rewrite (bsum_ext n _ (fun i => d * d / (N * N) * (a i * a i))) by (intros; field; lra).
    rewrite bsum_scal. fold (dotp n a a). fold (ssq n a). rewrite <- NN. field. lra.
Qed.
(** the normal becomes a unit vector and the plane stays the same *)
Lemma plane_hessian_ok n plane M : (1 <= n)%nat -> (exists i, (i < n - 1)%nat /\ arr plane M i <> 0) ->
  let M' := la_plane_hessian n plane M in
  ssq (n - 1) (arr plane M') = 1 /\
  (forall z, dotp (n - 1) z (arr plane M') + arr plane M' (n - 1) = 0 <-> dotp (n - 1) z (arr plane M) + arr plane M (n - 1) = 0) /\
  (forall a, outside plane n a -> M' a = M a).
Proof.
  intros Hn H. destruct (nrm_pos (n - 1) plane M H) as [NP NN]. unfold la_plane_hessian. set (N := b_nrm2 (n - 1) plane 1 M) in *.
  destruct (scal_ok n (1 / N) plane M) as [S1 S2]. split; [|split; [|exact S2]].
  - unfold ssq, dotp. rewrite (bsum_ext (n - 1) _ (fun i => 1 / (N * N) * (arr plane M i * arr plane M i))) by (intros; rewrite !S1 by lia; field; lra).
    rewrite bsum_scal. fold (dotp (n - 1) (arr plane M) (arr plane M)). fold (ssq (n - 1) (arr plane M)). rewrite <- NN. field. lra.
  - intros z. rewrite S1 by lia. unfold dotp. rewrite (bsum_ext (n - 1) _ (fun i => 1 / N * (z i * arr plane M i))) by (intros; rewrite S1 by lia; ring).
    rewrite bsum_scal, <- Rmult_plus_distr_l. split; intros Q.
    + apply Rmult_integral in Q. destruct Q as [Q|Q]; [|exact Q]. exfalso. unfold Rdiv in Q. assert (0 < / N) by now apply Rinv_0_lt_compat. lra.
    + rewrite Q. ring.
Qed.
(** ** Determinant: multilinear, alternating, 1 on the identity *)
Lemma det_ok r M : let a i j := amat r 3 M i j in
  la_det3x3 r M = a 0%nat 0%nat * a 1%nat 1%nat * a 2%nat 2%nat + a 0%nat 1%nat * a 1%nat 2%nat * a 2%nat 0%nat + a 0%nat 2%nat * a 1%nat 0%nat * a 2%nat 1%nat
    - a 0%nat 2%nat * a 1%nat 1%nat * a 2%nat 0%nat - a 0%nat 1%nat * a 1%nat 0%nat * a 2%nat 2%nat - a 0%nat 0%nat * a 1%nat 2%nat * a 2%nat 1%nat.
Proof. intros a. unfold la_det3x3. unfold a, amat, mad. ring. Qed.
