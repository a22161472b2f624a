(** Sums, small matrix algebra, and the solution of positive definite systems. *)
From Coq Require Import Reals Arith List Bool Lra Lia.
From Verif Require Import MatModel MatSpec MatProofs LaModel LaSpec.
Open Scope R_scope.

(** ** Sums *)
Lemma bsum_plus n f g : bsum n (fun i => f i + g i) = bsum n f + bsum n g.
Proof. induction n as [|n IH]; cbn; [lra|]. rewrite IH. lra. Qed.
Lemma bsum_minus n f g : bsum n (fun i => f i - g i) = bsum n f - bsum n g.
Proof. induction n as [|n IH]; cbn; [lra|]. rewrite IH. lra. Qed.
Lemma bsum_scal n c f : bsum n (fun i => c * f i) = c * bsum n f.
Proof. induction n as [|n IH]; cbn; [lra|]. rewrite IH. lra. Qed.
Lemma bsum_scal_r n c f : bsum n (fun i => f i * c) = bsum n f * c.
Proof. induction n as [|n IH]; cbn; [lra|]. rewrite IH. lra. Qed.
Lemma bsum_0 n : bsum n (fun _ => 0) = 0.
Proof. induction n as [|n IH]; cbn; [lra|]. rewrite IH. lra. Qed.
Lemma bsum_zero n f : (forall i, (i < n)%nat -> f i = 0) -> bsum n f = 0.
Proof. intros H. rewrite (bsum_ext n f (fun _ => 0)) by exact H. apply bsum_0. Qed.
Lemma bsum_swap n m f : bsum n (fun i => bsum m (fun j => f i j)) = bsum m (fun j => bsum n (fun i => f i j)).
Proof. induction n as [|n IH]; cbn; [now rewrite bsum_0|]. rewrite IH, <- bsum_plus. apply bsum_ext. reflexivity. Qed.
Lemma bsum_delta n k f : (k < n)%nat -> bsum n (fun i => f i * delta k i) = f k.
Proof.
  induction n as [|n IH]; intros H; [lia|]. cbn. unfold delta at 2. destruct (Nat.eqb_spec k n) as [->|Hne].
  - rewrite bsum_zero; [lra|]. intros i Hi. unfold delta. destruct (Nat.eqb_spec n i); [lia|lra].
  - rewrite IH by lia. lra.
Qed.
Lemma delta_sym i j : delta i j = delta j i.
Proof. unfold delta. now rewrite Nat.eqb_sym. Qed.
Lemma bsum_nonneg n f : (forall i, (i < n)%nat -> 0 <= f i) -> 0 <= bsum n f.
Proof. induction n as [|n IH]; intros H; cbn; [lra|]. assert (0 <= bsum n f) by (apply IH; intros; apply H; lia). specialize (H n ltac:(lia)). lra. Qed.
Lemma bsum_pos n f : (forall i, (i < n)%nat -> 0 <= f i) -> (exists i, (i < n)%nat /\ 0 < f i) -> 0 < bsum n f.
Proof.
  induction n as [|n IH]; intros H [i [Hi P]]; [lia|]. cbn.
  assert (0 <= bsum n f) by (apply bsum_nonneg; intros; apply H; lia). specialize (H n ltac:(lia)) as Hn.
  destruct (Nat.eq_dec i n) as [->|Hne]; [lra|]. assert (0 < bsum n f); [|lra]. apply IH; [intros; apply H; lia|]. exists i. split; [lia|auto].
Qed.
Lemma ssq_nonneg n x : 0 <= ssq n x.
Proof. apply bsum_nonneg. intros. nra. Qed.
Lemma ssq_pos n x : (exists i, (i < n)%nat /\ x i <> 0) -> 0 < ssq n x.
Proof. intros [i [Hi Hx]]. apply bsum_pos; [intros; nra|]. exists i. split; auto. nra. Qed.
Lemma ssq_zero n x : ssq n x = 0 -> forall i, (i < n)%nat -> x i = 0.
Proof.
  intros H i Hi. destruct (Req_dec (x i) 0) as [|Hne]; auto. exfalso. assert (0 < ssq n x) by (apply ssq_pos; eauto). lra.
Qed.
Lemma dotp_comm n x y : dotp n x y = dotp n y x.
Proof. apply bsum_ext. intros. lra. Qed.
Lemma dotp_ext n x x' y y' : (forall i, (i < n)%nat -> x i = x' i) -> (forall i, (i < n)%nat -> y i = y' i) -> dotp n x y = dotp n x' y'.
Proof. intros H1 H2. apply bsum_ext. intros. rewrite H1, H2; auto. Qed.
Lemma mulv_ext n A x x' i : (forall l, (l < n)%nat -> x l = x' l) -> mulv n A x i = mulv n A x' i.
Proof. intros H. apply bsum_ext. intros. rewrite H; auto. Qed.
(** <x, A y> = <A^T x, y> *)
Lemma dotp_mulv m n A x y : dotp m x (mulv n A y) = dotp n (mulv m (fun i j => A j i) x) y.
Proof.
  unfold dotp, mulv.
  rewrite (bsum_ext m _ (fun i => bsum n (fun l => x i * (A i l * y l)))) by (intros; now rewrite <- bsum_scal).
  rewrite bsum_swap. apply bsum_ext. intros l Hl. rewrite <- bsum_scal_r. apply bsum_ext. intros. lra.
Qed.
Lemma mmul_assoc p q A B C i j : mmul q (mmul p A B) C i j = mmul p A (mmul q B C) i j.
Proof.
  unfold mmul. rewrite (bsum_ext q _ (fun l => bsum p (fun k => A i k * B k l * C l j))) by (intros; now rewrite <- bsum_scal_r).
  rewrite bsum_swap. apply bsum_ext. intros k Hk. rewrite <- bsum_scal. apply bsum_ext. intros. lra.
Qed.
Lemma mmul_ext k A A' B B' i j : (forall l, (l < k)%nat -> A i l = A' i l) -> (forall l, (l < k)%nat -> B l j = B' l j) -> mmul k A B i j = mmul k A' B' i j.
Proof. intros H1 H2. apply bsum_ext. intros. rewrite H1, H2; auto. Qed.
Lemma mulv_mmul p q A B x i : mulv q (mmul p A B) x i = mulv p A (mulv q B x) i.
Proof. exact (mmul_assoc p q A B (fun l _ => x l) i 0%nat). Qed.

(** ** Positive definite systems *)
Definition quadform (n : nat) (B : nat -> nat -> R) (x : nat -> R) : R := dotp n x (mulv n B x).
Definition posdef (n : nat) (B : nat -> nat -> R) : Prop := forall x, (exists i, (i < n)%nat /\ x i <> 0) -> 0 < quadform n B x.
Definition symmetric (n : nat) (B : nat -> nat -> R) : Prop := forall i j, (i < n)%nat -> (j < n)%nat -> B i j = B j i.

Lemma solve_ext n : forall B B' b b', (forall i j, (i < n)%nat -> (j < n)%nat -> B i j = B' i j) -> (forall i, (i < n)%nat -> b i = b' i) ->
  forall i, (i < n)%nat -> solve n B b i = solve n B' b' i.
Proof.
  induction n as [|n IH]; intros B B' b b' HB Hb i Hi; [lia|]. cbn [solve].
  assert (Eu : forall j, (j < n)%nat -> solve n B (fun i => B i n) j = solve n B' (fun i => B' i n) j) by (intros; apply IH; auto).
  assert (Ev : forall j, (j < n)%nat -> solve n B b j = solve n B' b' j) by (intros; apply IH; auto).
  rewrite (bsum_ext n (fun i0 => B n i0 * solve n B (fun i1 => B i1 n) i0) (fun i0 => B' n i0 * solve n B' (fun i1 => B' i1 n) i0)) by (intros; rewrite Eu, HB; auto).
  rewrite (bsum_ext n (fun i0 => B n i0 * solve n B b i0) (fun i0 => B' n i0 * solve n B' b' i0)) by (intros; rewrite Ev, HB; auto).
  rewrite (HB n n), (Hb n) by lia. destruct (Nat.eqb_spec i n); [reflexivity|]. rewrite Eu, Ev by lia. reflexivity.
Qed.
Lemma pivots_ext n : forall B B', (forall i j, (i < n)%nat -> (j < n)%nat -> B i j = B' i j) -> pivots n B = pivots n B'.
Proof.
  induction n as [|n IH]; intros B B' HB; [reflexivity|]. cbn [pivots]. rewrite (IH B B') by auto. f_equal.
  rewrite (bsum_ext n (fun i => B n i * solve n B (fun i1 => B i1 n) i) (fun i => B' n i * solve n B' (fun i1 => B' i1 n) i)).
  - now rewrite (HB n n) by lia.
  - intros. rewrite (HB n i) by lia. f_equal. apply solve_ext; auto.
Qed.
Lemma quadform_S n B x : symmetric (S n) B ->
  quadform (S n) B x = quadform n B x + 2 * (x n * bsum n (fun i => B n i * x i)) + x n * x n * B n n.
Proof.
  intros HS. unfold quadform, dotp, mulv. cbn [bsum].
  rewrite (bsum_ext n _ (fun i => x i * bsum n (fun l => B i l * x l) + x n * (B n i * x i))).
  2:{ intros i Hi. rewrite (HS i n) by lia. lra. }
  rewrite bsum_plus, bsum_scal. lra.
Qed.
Lemma solve_ok n : forall B, symmetric n B -> posdef n B ->
  pivots n B = true /\ forall b i, (i < n)%nat -> mulv n B (solve n B b) i = b i.
Proof.
  induction n as [|n IH]; intros B HS HP; [split; [reflexivity|lia]|].
  assert (HS' : symmetric n B) by (intros i j ? ?; apply HS; lia).
  assert (HP' : posdef n B).
  { intros x [i [Hi Hx]]. specialize (HP (fun j => if Nat.eqb j n then 0 else x j)).
    rewrite quadform_S in HP by exact HS. rewrite Nat.eqb_refl in HP.
    replace (quadform n B x) with (quadform n B (fun j => if Nat.eqb j n then 0 else x j) + 2 * (0 * bsum n (fun i0 => B n i0 * (if Nat.eqb i0 n then 0 else x i0))) + 0 * 0 * B n n).
    - apply HP. exists i. split; [lia|]. destruct (Nat.eqb_spec i n); [lia|auto].
    - rewrite Rmult_0_l, Rmult_0_r, Rmult_0_l, Rmult_0_l, !Rplus_0_r. unfold quadform.
      assert (E : forall j, (j < n)%nat -> (if Nat.eqb j n then 0 else x j) = x j) by (intros j Hj; destruct (Nat.eqb_spec j n); [lia|auto]).
      apply dotp_ext; [exact E|]. intros j Hj. apply mulv_ext. exact E. }
  destruct (IH B HS' HP') as [PV SV]. set (u := solve n B (fun i => B i n)).
  set (s := B n n - bsum n (fun i => B n i * u i)).
  assert (Hs : 0 < s).
  { specialize (HP (fun j => if Nat.eqb j n then -1 else u j)). rewrite quadform_S in HP by exact HS. rewrite Nat.eqb_refl in HP.
    assert (E : forall j, (j < n)%nat -> (if Nat.eqb j n then -1 else u j) = u j) by (intros j Hj; destruct (Nat.eqb_spec j n); [lia|auto]).
    rewrite (bsum_ext n (fun i => B n i * (if Nat.eqb i n then -1 else u i)) (fun i => B n i * u i)) in HP by (intros; now rewrite E).
    replace (quadform n B (fun j => if Nat.eqb j n then -1 else u j)) with (bsum n (fun i => B n i * u i)) in HP.
    - unfold s. assert (0 < bsum n (fun i => B n i * u i) + 2 * (-1 * bsum n (fun i => B n i * u i)) + -1 * -1 * B n n); [|lra].
      apply HP. exists n. split; [lia|]. rewrite Nat.eqb_refl. lra.
    - unfold quadform. apply bsum_ext. intros i Hi. rewrite (E i Hi). rewrite (mulv_ext n B _ u i E). unfold u. rewrite SV by exact Hi.
      rewrite (HS n i) by lia. lra. }
  split.
  - cbn [pivots]. rewrite PV. fold u. fold s. destruct (Rlt_dec 0 s); [reflexivity|contradiction].
  - intros b i Hi. cbn [solve]. fold u. fold s. set (v := solve n B b). set (t := (b n - bsum n (fun i0 => B n i0 * v i0)) / s).
    unfold mulv. cbn [bsum]. rewrite Nat.eqb_refl.
    rewrite (bsum_ext n _ (fun l => B i l * v l - t * (B i l * u l))).
    2:{ intros l Hl. destruct (Nat.eqb_spec l n); [lia|lra]. }
    rewrite bsum_minus, bsum_scal. destruct (Nat.eq_dec i n) as [->|Hne].
    + assert (t * s = b n - bsum n (fun i0 => B n i0 * v i0)) by (unfold t; field; lra).
      assert (s = B n n - bsum n (fun l => B n l * u l)) by reflexivity. nra.
    + fold (mulv n B v i). fold (mulv n B u i). unfold v, u. rewrite !SV by lia. lra.
Qed.
Lemma posdef_cancel n B r : symmetric n B -> posdef n B -> (forall j, (j < n)%nat -> bsum n (fun l => r l * B l j) = 0) ->
  forall l, (l < n)%nat -> r l = 0.
Proof.
  intros HS HP H l Hl. destruct (Req_dec (r l) 0) as [|Hne]; auto. exfalso.
  assert (0 < quadform n B r) by (apply HP; eauto).
  assert (quadform n B r = 0); [|lra]. unfold quadform, dotp. apply bsum_zero. intros i Hi.
  assert (mulv n B r i = 0); [|nra]. rewrite <- (H i Hi). apply bsum_ext. intros k Hk. rewrite (HS i k) by auto. lra.
Qed.
(** A A^T + k I *)
Definition gram (n : nat) (k : R) (A : nat -> nat -> R) (i j : nat) : R := bsum n (fun l => A i l * A j l) + k * delta i j.
Lemma gram_sym m n k A : symmetric m (gram n k A).
Proof. intros i j _ _. unfold gram. rewrite delta_sym. f_equal. apply bsum_ext. intros. lra. Qed.
Lemma gram_mulv m n k A x i : (i < m)%nat -> mulv m (gram n k A) x i = mulv n A (mulv m (fun i j => A j i) x) i + k * x i.
Proof.
  intros Hi. unfold gram. unfold mulv at 1.
  rewrite (bsum_ext m _ (fun l => mmul n A (fun i j => A j i) i l * x l + k * (x l * delta i l))) by (intros; unfold mmul; lra).
  rewrite bsum_plus, bsum_scal, bsum_delta by exact Hi. f_equal. exact (mulv_mmul n m A (fun i j => A j i) x i).
Qed.
Lemma gram_posdef m n k A : 0 < k -> posdef m (gram n k A).
Proof.
  intros Hk x Hx. unfold quadform. rewrite (dotp_ext m x x _ (fun i => mulv n A (mulv m (fun i j => A j i) x) i + k * x i)).
  2: auto. 2: intros; now apply gram_mulv.
  unfold dotp. rewrite (bsum_ext m _ (fun i => x i * mulv n A (mulv m (fun i j => A j i) x) i + k * (x i * x i))) by (intros; lra).
  rewrite bsum_plus, bsum_scal. fold (dotp m x (mulv n A (mulv m (fun i j => A j i) x))). rewrite dotp_mulv.
  pose proof (ssq_pos m x Hx) as H1. pose proof (ssq_nonneg n (mulv m (fun i j => A j i) x)) as H2. unfold ssq in H1, H2. unfold dotp at 1 in H1.
  apply Rplus_le_lt_0_compat; [exact H2|]. apply Rmult_lt_0_compat; auto.
Qed.

(** P (A A^T + k I) = A^T gives the damped solution *)
Section Damped.
  Context (m n : nat) (k : R) (A P : nat -> nat -> R).
  Hypothesis Hk : 0 < k.
  Hypothesis HP : forall i j, (i < n)%nat -> (j < m)%nat -> mmul m P (gram n k A) i j = A j i.
  Let At i j := A j i.
  Lemma damped_normal i j : (i < n)%nat -> (j < m)%nat -> mmul n (gram m k At) P i j = A j i.
  Proof.
    intros Hi Hj. set (r := fun l => mmul n (gram m k At) P i l - A l i).
    enough (r j = 0) by (unfold r in *; lra). apply (posdef_cancel m (gram n k A)); auto; [apply gram_sym|now apply gram_posdef|].
    clear j Hj. intros j Hj. unfold r.
    rewrite (bsum_ext m _ (fun l => mmul n (gram m k At) P i l * gram n k A l j - A l i * gram n k A l j)) by (intros; lra).
    rewrite bsum_minus. fold (mmul m (mmul n (gram m k At) P) (gram n k A) i j). rewrite mmul_assoc.
    rewrite (mmul_ext n (gram m k At) (gram m k At) _ At i j) by (intros; first [reflexivity | unfold At; apply HP; auto]).
    fold (mmul m At (gram n k A) i j).
    assert (E1 : mmul n (gram m k At) At i j = mulv n (gram m k At) (fun l => A j l) i) by reflexivity.
    rewrite E1, gram_mulv by exact Hi. unfold mmul.
    rewrite (bsum_ext m _ (fun l => gram n k A j l * At i l)).
    2:{ intros l Hl. rewrite (gram_sym m n k A l j) by auto. unfold At. ring. }
    fold (mulv m (gram n k A) (fun l => At i l) j). rewrite gram_mulv by exact Hj.
    assert (mulv m At (mulv n (fun i j => At j i) (fun l => A j l)) i = mulv n A (mulv m (fun i j => A j i) (fun l => At i l)) j); [|unfold At in *; lra].
    unfold mulv, At.
    rewrite (bsum_ext m _ (fun l => bsum n (fun l0 => A l i * (A l l0 * A j l0)))) by (intros; now rewrite <- bsum_scal).
    rewrite bsum_swap. apply bsum_ext. intros l Hl. rewrite <- bsum_scal. apply bsum_ext. intros. lra.
  Qed.
  Lemma damped_gradient b i : (i < n)%nat -> let y := mulv m P b in
    mulv m At (fun l => mulv n A y l - b l) i + k * y i = 0.
  Proof.
    intros Hi y.
    assert (E : mulv n (gram m k At) y i = mulv m At b i).
    { unfold y. rewrite <- mulv_mmul. apply bsum_ext. intros l Hl. rewrite damped_normal by auto. reflexivity. }
    rewrite gram_mulv in E by exact Hi. change (fun i j => At j i) with A in E.
    unfold mulv at 1. rewrite (bsum_ext m _ (fun l => At i l * mulv n A y l - At i l * b l)) by (intros; lra).
    rewrite bsum_minus. fold (mulv m At (mulv n A y) i). fold (mulv m At b i). lra.
  Qed.
  Lemma damped_optimal b : damped_solution m n k A b (mulv m P b).
  Proof.
    intros z. set (y := mulv m P b). set (h := fun i => z i - y i). set (e := fun l => mulv n A y l - b l).
    assert (E : damped_cost m n k A b z = damped_cost m n k A b y + (ssq m (mulv n A h) + k * ssq n h)).
    { unfold damped_cost, ssq, dotp.
      assert (Az : forall l, mulv n A z l = mulv n A y l + mulv n A h l).
      { intros l. unfold mulv. rewrite <- bsum_plus. apply bsum_ext. intros. unfold h. lra. }
      rewrite (bsum_ext m (fun i => (mulv n A z i - b i) * (mulv n A z i - b i))
         (fun i => e i * e i + (2 * (e i * mulv n A h i) + mulv n A h i * mulv n A h i))) by (intros; rewrite Az; unfold e; lra).
      rewrite !bsum_plus, bsum_scal.
      rewrite (bsum_ext n (fun i => z i * z i) (fun i => y i * y i + (2 * (y i * h i) + h i * h i))) by (intros; unfold h; lra).
      rewrite !bsum_plus, bsum_scal.
      change (bsum m (fun i => e i * mulv n A h i)) with (dotp m e (mulv n A h)). rewrite dotp_mulv.
      assert (G : dotp n (mulv m (fun i j => A j i) e) h + k * bsum n (fun i => y i * h i) = 0).
      { unfold dotp. rewrite <- bsum_scal, <- bsum_plus. apply bsum_zero. intros i Hi.
        pose proof (damped_gradient b i Hi) as D. cbv zeta in D. fold y in D. fold e in D. unfold At in D. nra. }
      unfold e at 1 2. lra. }
    pose proof (ssq_nonneg m (mulv n A h)). pose proof (ssq_nonneg n h). split; [rewrite E; nra|].
    intros Q i Hi. assert (ssq n h = 0) by nra. assert (h i = 0) by (eapply ssq_zero; eauto). unfold h in *. lra.
  Qed.
End Damped.

(** ** Matrices built from orthonormal families *)
Definition outer (K : nat) (c : nat -> R) (F G : nat -> nat -> R) (i j : nat) : R := bsum K (fun l => F i l * c l * G l j).
Lemma outer_mul K p c d F G F' G' i j : (forall k l, (k < K)%nat -> (l < K)%nat -> bsum p (fun q => G k q * F' q l) = delta k l) ->
  mmul p (outer K c F G) (outer K d F' G') i j = outer K (fun l => c l * d l) F G' i j.
Proof.
  intros H. unfold mmul, outer.
  rewrite (bsum_ext p _ (fun q => bsum K (fun k => bsum K (fun l => F i k * c k * (G k q * F' q l) * d l * G' l j)))).
  2:{ intros q Hq. rewrite <- bsum_scal_r. apply bsum_ext. intros k Hk. rewrite <- bsum_scal. apply bsum_ext. intros. lra. }
  rewrite bsum_swap. apply bsum_ext. intros k Hk. rewrite bsum_swap.
  rewrite (bsum_ext K _ (fun l => (F i k * c k * d l * G' l j) * delta k l)).
  - rewrite bsum_delta by exact Hk. lra.
  - intros l Hl. rewrite <- (H k l Hk Hl). rewrite <- bsum_scal. apply bsum_ext. intros. lra.
Qed.
Lemma outer_ext K c d F G i j : (forall l, (l < K)%nat -> c l = d l) -> outer K c F G i j = outer K d F G i j.
Proof. intros H. apply bsum_ext. intros. rewrite H; auto. Qed.
Section Svd.
  Context (m n : nat) (A : nat -> nat -> R) (r : svdres) (HS : is_svd m n A r) (f : R -> R).
  Let K := Nat.min m n.
  Let V i l := sVt r l i.
  Let Ut l j := sU r j l.
  Let c l := f (sS r l).
  Lemma svd_A i j : (i < m)%nat -> (j < n)%nat -> A i j = outer K (sS r) (sU r) (sVt r) i j.
  Proof. intros. unfold outer, K. apply HS; auto. Qed.
  Lemma svd_P i j : regularised m n r f i j = outer K c V Ut i j.
  Proof. reflexivity. Qed.
  Lemma svd_VV k l : (k < K)%nat -> (l < K)%nat -> bsum n (fun q => sVt r k q * V q l) = delta k l.
  Proof. intros. unfold V. apply HS; unfold K in *; lia. Qed.
  Lemma svd_UU k l : (k < K)%nat -> (l < K)%nat -> bsum m (fun q => Ut k q * sU r q l) = delta k l.
  Proof. intros. unfold Ut. apply HS; unfold K in *; lia. Qed.
  Lemma svd_AP i j : (i < m)%nat -> mmul n A (regularised m n r f) i j = outer K (fun l => sS r l * c l) (sU r) Ut i j.
  Proof.
    intros Hi. rewrite (mmul_ext n A (outer K (sS r) (sU r) (sVt r)) _ (outer K c V Ut)) by (intros; auto using svd_A, svd_P).
    apply outer_mul. apply svd_VV.
  Qed.
  Lemma svd_PA i j : (j < n)%nat -> mmul m (regularised m n r f) A i j = outer K (fun l => c l * sS r l) V (sVt r) i j.
  Proof.
    intros Hj. rewrite (mmul_ext m _ (outer K c V Ut) A (outer K (sS r) (sU r) (sVt r))) by (intros; auto using svd_A, svd_P).
    apply outer_mul. apply svd_UU.
  Qed.
  Lemma svd_moore_penrose : (forall l, (l < K)%nat -> sS r l * f (sS r l) * sS r l = sS r l /\ f (sS r l) * sS r l * f (sS r l) = f (sS r l)) ->
    moore_penrose m n A (regularised m n r f).
  Proof.
    intros Hf. split; [|split; [|split]].
    - intros i j Hi Hj. rewrite (mmul_ext m _ (outer K (fun l => sS r l * c l) (sU r) Ut) A (outer K (sS r) (sU r) (sVt r))) by (intros; auto using svd_A, svd_AP).
      rewrite outer_mul by apply svd_UU. rewrite svd_A by auto. apply outer_ext. intros l Hl. apply Hf. exact Hl.
    - intros i j Hi Hj. rewrite (mmul_ext n _ (outer K (fun l => c l * sS r l) V (sVt r)) _ (outer K c V Ut)) by (intros; auto using svd_P, svd_PA).
      rewrite outer_mul by apply svd_VV. rewrite svd_P. apply outer_ext. intros l Hl. apply Hf. exact Hl.
    - intros i j Hi Hj. rewrite !svd_AP by auto. unfold outer, Ut. apply bsum_ext. intros. lra.
    - intros i j Hi Hj. rewrite !svd_PA by auto. unfold outer, V. apply bsum_ext. intros. lra.
  Qed.
  (** on the left singular vectors *)
  Lemma svd_left i l : (l < m)%nat -> mulv m (regularised m n r f) (fun j => sU r j l) i = if Nat.ltb l K then f (sS r l) * sVt r l i else 0.
  Proof.
    intros Hl. unfold mulv, regularised. fold K.
    rewrite (bsum_ext m _ (fun j => bsum K (fun k => sVt r k i * f (sS r k) * (sU r j k * sU r j l)))) by (intros; rewrite <- bsum_scal_r; apply bsum_ext; intros; lra).
    rewrite bsum_swap. rewrite (bsum_ext K _ (fun k => sVt r k i * f (sS r k) * delta l k)).
    2:{ intros k Hk. rewrite bsum_scal. rewrite (proj1 (proj2 HS)) by (unfold K in Hk; lia). now rewrite delta_sym. }
    destruct (Nat.ltb_spec l K) as [H|H].
    - rewrite bsum_delta by exact H. lra.
    - apply bsum_zero. intros k Hk. unfold delta. destruct (Nat.eqb_spec l k); [lia|lra].
  Qed.
End Svd.
