(** Proofs about the linear algebra functions: memory effects and results. *)
From Coq Require Import Reals Arith List Bool Lra Lia.
From Verif Require Import MatModel MatSpec MatProofs LaModel LaSpec LaAlg AtanModel AtanProofs.
Open Scope R_scope.

(** ** Loops with a varying inner bound *)
Lemma loop2_dep c r g F m0 :
  (forall i j i' j', (j < c)%nat -> (i < r j)%nat -> (j' < c)%nat -> (i' < r j')%nat -> g i j = g i' j' -> i = i' /\ j = j') ->
  (forall i j m, (j < c)%nat -> (i < r j)%nat -> m (g i j) = m0 (g i j) ->
     (forall a, (forall i j, (j < c)%nat -> (i < r j)%nat -> a <> g i j) -> m a = m0 a) -> F i j m = F i j m0) ->
  forall k, (k <= c)%nat ->
  let m' := loop k (fun j => loop (r j) (fun i m => upd m (g i j) (F i j m))) m0 in
  (forall i j, (j < k)%nat -> (i < r j)%nat -> m' (g i j) = F i j m0) /\
  (forall a, (forall i j, (j < k)%nat -> (i < r j)%nat -> a <> g i j) -> m' a = m0 a).
Proof.
  intros inj loc k. induction k as [|k IH]; intros Hk m'; [split; [lia|]; intros; reflexivity|].
  destruct (IH ltac:(lia)) as [I1 I2]. clear IH. unfold m'. cbn [loop].
  set (m1 := loop k _ m0) in *.
  destruct (loop_map (r k) (fun i => g i k) (fun i => F i k) m1) with (k := r k) as [L1 L2]; [| |lia|].
  - intros i j Hi Hj E. apply inj in E; lia.
  - intros i m Hi E1 E2. rewrite (loc i k m), (loc i k m1); auto; try lia.
    + apply I2. intros i' j' Hi' Hj' E. apply inj in E; lia.
    + intros a Ha. apply I2. intros i' j' ? ?. apply Ha; lia.
    + rewrite E1. apply I2. intros i' j' Hi' Hj' E. apply inj in E; lia.
    + intros a Ha. rewrite E2; [|intros; apply Ha; lia]. apply I2. intros i' j' ? ?. apply Ha; lia.
  - split.
    + intros i j Hj Hi. destruct (Nat.eq_dec j k) as [->|Hne].
      * rewrite (L1 i Hi). apply loc; auto; try lia.
        -- apply I2. intros i' j' Hi' Hj' E. apply inj in E; lia.
        -- intros a Ha. apply I2. intros i' j' ? ?. apply Ha; lia.
      * rewrite L2; [apply I1; lia|]. intros i' Hi' E. apply inj in E; lia.
    + intros a Ha. rewrite L2 by (intros; apply Ha; lia). apply I2. intros; apply Ha; lia.
Qed.
Lemma mad_in d ld i j c : (i < ld)%nat -> (j < c)%nat -> (d <= mad d ld i j < d + ld * c)%nat.
Proof. unfold mad. intros. nia. Qed.
Lemma mad_inj d ld i j i' j' : (i < ld)%nat -> (i' < ld)%nat -> mad d ld i j = mad d ld i' j' -> i = i' /\ j = j'.
Proof.
  unfold mad. intros H H' E. assert (j = j') by (destruct (Nat.lt_trichotomy j j') as [?|[?|?]]; auto; nia). subst. lia.
Qed.
(** a full loop over an r by c matrix *)
Lemma mad_loop d ld r c F m0 : (r <= ld)%nat ->
  (forall i j m, (i < r)%nat -> (j < c)%nat -> m (mad d ld i j) = m0 (mad d ld i j) ->
     (forall a, (forall i j, (i < r)%nat -> (j < c)%nat -> a <> mad d ld i j) -> m a = m0 a) -> F i j m = F i j m0) ->
  let m' := loop c (fun j => loop r (fun i m => upd m (mad d ld i j) (F i j m))) m0 in
  (forall i j, (i < r)%nat -> (j < c)%nat -> m' (mad d ld i j) = F i j m0) /\
  (forall a, (forall i j, (i < r)%nat -> (j < c)%nat -> a <> mad d ld i j) -> m' a = m0 a).
Proof.
  intros Hr loc. destruct (loop2_map r c (mad d ld) F m0) with (k := c) as [L1 L2]; auto.
  intros i j i' j' ? ? ? ? E. apply mad_inj in E; auto; lia.
Qed.
(** a loop over the upper triangle *)
Lemma tri_loop d ld n F m0 : (n <= ld)%nat ->
  (forall i j m, (i <= j)%nat -> (j < n)%nat -> m (mad d ld i j) = m0 (mad d ld i j) ->
     (forall a, (forall i j, (i <= j)%nat -> (j < n)%nat -> a <> mad d ld i j) -> m a = m0 a) -> F i j m = F i j m0) ->
  let m' := loop n (fun j => loop (S j) (fun i m => upd m (mad d ld i j) (F i j m))) m0 in
  (forall i j, (i <= j)%nat -> (j < n)%nat -> m' (mad d ld i j) = F i j m0) /\
  (forall a, (forall i j, (i <= j)%nat -> (j < n)%nat -> a <> mad d ld i j) -> m' a = m0 a).
Proof.
  intros Hr loc. destruct (loop2_dep n S (mad d ld) F m0) with (k := n) as [L1 L2]; auto.
  - intros i j i' j' ? ? ? ? E. apply mad_inj in E; auto; lia.
  - intros i j m Hj Hi E1 E2. apply loc; auto; try lia. intros a Ha. apply E2. intros. apply Ha; lia.
  - split; [intros; apply L1; lia|]. intros a Ha. apply L2. intros. apply Ha; lia.
Qed.
(** a pointer loop that stops at or after the end *)
Lemma ptr_loop_past inc f : forall n fuel x e m, (n <= fuel)%nat -> (forall t, (t < n)%nat -> (x + t * inc < e)%nat) -> (e <= x + n * inc)%nat ->
  ptr_loop fuel x e inc f m = loop n (fun i => f (x + i * inc)%nat) m.
Proof.
  assert (L : forall n x m, loop (S n) (fun i => f (x + i * inc)%nat) m = loop n (fun i => f (x + inc + i * inc)%nat) (f x m)).
  { induction n as [|n IH]; intros x m; [cbn; now rewrite Nat.add_0_r|].
    cbn [loop] in *. rewrite IH. f_equal. lia. }
  induction n as [|n IH]; intros fuel x e m Hf Hl He.
  - destruct fuel; [reflexivity|]. cbn [ptr_loop]. destruct (Nat.ltb_spec x e); [lia|reflexivity].
  - destruct fuel as [|fuel]; [lia|]. cbn [ptr_loop].
    rewrite (proj2 (Nat.ltb_lt x e)) by (specialize (Hl 0%nat ltac:(lia)); lia).
    rewrite L. apply IH; [lia| |lia]. intros t Ht. specialize (Hl (S t) ltac:(lia)). lia.
Qed.

(** ** Copies, sums of columns *)
Lemma vec_mem n x inc F m0 : (0 < inc)%nat ->
  (forall i m, (i < n)%nat -> m (x + i * inc)%nat = m0 (x + i * inc)%nat -> (forall a, (forall k, (k < n)%nat -> a <> x + k * inc)%nat -> m a = m0 a) -> F i m = F i m0) ->
  let m' := loop n (fun i m => upd m (x + i * inc) (F i m)) m0 in
  (forall i, (i < n)%nat -> m' (x + i * inc)%nat = F i m0) /\ (forall a, (forall i, (i < n)%nat -> a <> x + i * inc)%nat -> m' a = m0 a).
Proof.
  intros Hi loc. apply (loop_map n (fun i => x + i * inc)%nat F m0); auto. intros. nia.
Qed.

(** ** Damped pseudoinverse *)
Lemma syrk_ok n k a lda c ldc M : (n <= ldc)%nat ->
  let M' := b_syrk n k 1 a lda c ldc M in
  (forall i j, (i <= j)%nat -> (j < n)%nat -> M' (mad c ldc i j) = bsum k (fun l => M (mad a lda i l) * M (mad a lda j l))) /\
  (forall b, (forall i j, (i <= j)%nat -> (j < n)%nat -> b <> mad c ldc i j) -> M' b = M b).
Proof.
  intros H. unfold b_syrk.
  destruct (tri_loop c ldc n (fun i j _ => 1 * bsum k (fun l => M (mad a lda i l) * M (mad a lda j l))) M H) as [L1 L2]; [reflexivity|].
  split; [|exact L2]. intros i j Hi Hj. rewrite L1 by auto. lra.
Qed.
Lemma add_diag_ok k m B ldb M : (m <= ldb)%nat ->
  let M' := add_diag k m B ldb M in
  (forall i, (i < m)%nat -> M' (mad B ldb i i) = M (mad B ldb i i) + k) /\
  (forall b, (forall i, (i < m)%nat -> b <> mad B ldb i i) -> M' b = M b).
Proof.
  intros H M'. unfold M', add_diag. destruct (Nat.eq_dec m 0) as [->|Hm]; [cbn; split; [lia|auto]|].
  rewrite (ptr_loop_past (ldb + 1) _ m) by (intros; nia).
  destruct (vec_mem m B (ldb + 1) (fun i M => M (B + i * (ldb + 1))%nat + k) M) as [L1 L2]; [lia|intros; now rewrite H1|].
  assert (E : forall i, mad B ldb i i = (B + i * (ldb + 1))%nat) by (intros; unfold mad; lia).
  split; [intros i Hi; rewrite E, L1 by auto; reflexivity|]. intros b Hb. apply L2. intros i Hi. rewrite <- E. apply Hb. exact Hi.
Qed.
Lemma posv_ok junk n nrhs b ldb x ldx M : (n <= ldb)%nat -> (n <= ldx)%nat -> clear_of b (ldb * n) x (ldx * nrhs) ->
  posdef n (sym b ldb M) ->
  let (r, M') := b_posv junk n nrhs b ldb x ldx M in
  r = 0%nat /\
  (forall i j, (i < n)%nat -> (j < nrhs)%nat -> M' (mad x ldx i j) = solve n (sym b ldb M) (fun l => M (mad x ldx l j)) i) /\
  (forall a, (forall i j, (i <= j)%nat -> (j < n)%nat -> a <> mad b ldb i j) -> (forall i j, (i < n)%nat -> (j < nrhs)%nat -> a <> mad x ldx i j) -> M' a = M a).
Proof.
  intros Hb Hx HC HP. unfold b_posv.
  assert (HS : symmetric n (sym b ldb M)).
  { intros i j _ _. unfold sym. destruct (Nat.leb_spec i j), (Nat.leb_spec j i); auto; try lia. now replace i with j by lia. }
  destruct (solve_ok n _ HS HP) as [PV _]. rewrite PV.
  set (spoil := loop n (fun j => loop (S j) (fun i m => upd m (mad b ldb i j) (junk (mad b ldb i j)))) M).
  destruct (tri_loop b ldb n (fun i j _ => junk (mad b ldb i j)) M Hb) as [T1 T2]; [reflexivity|]. fold spoil in T1, T2.
  destruct (mad_loop x ldx n nrhs (fun i j _ => solve n (sym b ldb M) (fun l => M (mad x ldx l j)) i) spoil Hx) as [L1 L2]; [reflexivity|].
  split; [reflexivity|]. split; [exact L1|]. intros a H1 H2. rewrite L2 by exact H2. apply T2. exact H1.
Qed.
Lemma transpose_ok m n A lda B ldb M : (n <= ldb)%nat ->
  (forall i j i' j', (i < n)%nat -> (j < m)%nat -> (i' < n)%nat -> (j' < m)%nat -> (B + j * ldb + i <> A + i' * lda + j')%nat) ->
  let M' := d_transpose m n A lda B ldb M in
  (forall i j, (i < n)%nat -> (j < m)%nat -> M' (mad B ldb i j) = M (mad A lda j i)) /\
  (forall a, (forall i j, (i < n)%nat -> (j < m)%nat -> a <> mad B ldb i j) -> M' a = M a).
Proof.
  intros H HC. unfold d_transpose.
  destruct (loop2_map m n (fun j i => B + j * ldb + i)%nat (fun j i M => M (A + i * lda + j)%nat) M) with (k := n) as [L1 L2]; [| |lia|].
  - intros i j i' j' ? ? ? ? E. destruct (mad_inj B ldb j i j' i'); unfold mad; try lia.
  - intros j i M' Hj Hi E1 E2. apply E2. intros j' i' Hj' Hi' E. apply (HC i' j' i j); auto.
  - split.
    + intros i j Hi Hj. unfold mad. specialize (L1 j i Hj Hi). cbv beta in L1.
      replace (B + ldb * j + i)%nat with (B + j * ldb + i)%nat by lia. rewrite L1. f_equal. lia.
    + intros a Ha. apply L2. intros j i Hj Hi. specialize (Ha i j Hi Hj). unfold mad in Ha. lia.
Qed.

(** the common middle part: B := A A^T + k I (upper triangle) from the copy at a, then solve in place *)
Lemma middle junk m n k a lda B ldb M : 0 < k -> (m <= lda)%nat -> (m <= ldb)%nat -> clear_of B (ldb * m) a (lda * n) ->
  let A := amat a lda M in
  let (r, M') := b_posv junk m n B ldb a lda (add_diag k m B ldb (b_syrk m n 1 a lda B ldb M)) in
  r = 0%nat /\
  (forall i j, (i < m)%nat -> (j < n)%nat -> M' (mad a lda i j) = solve m (gram n k A) (fun l => A l j) i) /\
  (forall x, (forall i j, (i < m)%nat -> (j < m)%nat -> x <> mad B ldb i j) -> (forall i j, (i < m)%nat -> (j < n)%nat -> x <> mad a lda i j) -> M' x = M x).
Proof.
  intros Hk Ha Hb HC A. set (M2 := b_syrk m n 1 a lda B ldb M). set (M3 := add_diag k m B ldb M2).
  destruct (syrk_ok m n a lda B ldb M Hb) as [S1 S2]. fold M2 in S1, S2.
  destruct (add_diag_ok k m B ldb M2 Hb) as [D1 D2]. fold M3 in D1, D2.
  assert (Bne : forall i j, (i <= j)%nat -> (j < m)%nat -> i <> j -> forall i', (i' < m)%nat -> mad B ldb i j <> mad B ldb i' i').
  { intros i j Hi Hj Hne i' Hi' E. apply mad_inj in E; lia. }
  assert (G : forall i j, (i < m)%nat -> (j < m)%nat -> sym B ldb M3 i j = gram n k A i j).
  { assert (GU : forall i j, (i <= j)%nat -> (j < m)%nat -> M3 (mad B ldb i j) = gram n k A i j).
    { intros i j Hi Hj. unfold gram, delta. destruct (Nat.eqb_spec i j) as [->|Hne].
      - rewrite D1, S1 by lia. rewrite Rmult_1_r. reflexivity.
      - rewrite D2 by (intros; apply Bne; lia). rewrite S1 by lia. rewrite Rmult_0_r, Rplus_0_r. reflexivity. }
    intros i j Hi Hj. unfold sym. destruct (Nat.leb_spec i j); [now apply GU|]. rewrite GU by lia. apply (gram_sym m); auto. }
  assert (Anot : forall i j, (i < m)%nat -> (j < n)%nat -> forall i' j', (i' < m)%nat -> (j' < m)%nat -> mad a lda i j <> mad B ldb i' j').
  { intros i j Hi Hj i' j' Hi' Hj' E. pose proof (mad_in a lda i j n ltac:(lia) Hj). pose proof (mad_in B ldb i' j' m ltac:(lia) Hj'). unfold clear_of in HC. lia. }
  assert (AM : forall i j, (i < m)%nat -> (j < n)%nat -> M3 (mad a lda i j) = M (mad a lda i j)).
  { intros i j Hi Hj. rewrite D2 by (intros; apply Anot; lia). apply S2. intros. apply Anot; lia. }
  assert (P : posdef m (sym B ldb M3)).
  { intros x Hx. assert (E : quadform m (sym B ldb M3) x = quadform m (gram n k A) x).
    { unfold quadform. apply dotp_ext; auto. intros i Hi. apply bsum_ext. intros l Hl. now rewrite G. }
    rewrite E. now apply gram_posdef. }
  pose proof (posv_ok junk m n B ldb a lda M3 Hb Ha HC P) as Q. destruct (b_posv junk m n B ldb a lda M3) as [r M'].
  destruct Q as (Q1 & Q2 & Q3). split; [exact Q1|]. split.
  - intros i j Hi Hj. rewrite Q2 by auto. apply solve_ext; auto. intros l Hl. now apply AM.
  - intros x H1 H2. rewrite Q3; [|intros; apply H1; lia|exact H2]. rewrite D2 by (intros; apply H1; lia). apply S2. intros. apply H1; lia.
Qed.

Lemma la_dpinv_ok junk m n k A As Ap W M : 0 < k -> dpinv_apart m n A As Ap W ->
  let M' := la_dpinv junk m n k A As Ap W M in
  (forall i j, (i < n)%nat -> (j < m)%nat -> mmul m (amat As n M') (gram n k (amat A m M)) i j = amat A m M j i) /\
  (forall a, outside As (m * n) a -> outside Ap (m * n) a -> ((n < m)%nat -> outside W (m * m) a) -> M' a = M a).
Proof.
  intros Hk (C1 & C2 & C3) M'. unfold M', la_dpinv. clear M'.
  set (B := if Nat.leb m n then As else W). set (ldb := if Nat.leb m n then n else m).
  set (M1 := b_copy (m * n) A 1 Ap 1 M).
  destruct (vec_mem (m * n) Ap 1 (fun i M => M (A + i * 1)%nat) M) as [K1 K2]; [lia| |].
  { intros i M' Hi E1 E2. apply E2. intros k' Hk'. unfold clear_of in C1. lia. }
  change (loop (m * n) (fun i m0 => upd m0 (Ap + i * 1) (m0 (A + i * 1)%nat)) M) with M1 in K1, K2.
  assert (Hldb : (m <= ldb)%nat) by (unfold ldb; destruct (Nat.leb_spec m n); lia).
  assert (HB : clear_of B (ldb * m) Ap (m * n)).
  { unfold B, ldb. destruct (Nat.leb_spec m n) as [H|H]; [unfold clear_of in *; nia|]. destruct (C3 H) as [Q _]. exact Q. }
  pose proof (middle junk m n k Ap m B ldb M1 Hk (le_n _) Hldb HB) as Q. cbv zeta in Q.
  destruct (b_posv junk m n B ldb Ap m (add_diag k m B ldb (b_syrk m n 1 Ap m B ldb M1))) as [r M4] eqn:E4. cbn [snd].
  destruct Q as (_ & Q2 & Q3).
  destruct (transpose_ok m n Ap m As n M4 (le_n _)) as [T1 T2].
  { intros i j i' j' ? ? ? ?. unfold clear_of in C2. nia. }
  assert (AA : forall i j, (i < m)%nat -> (j < n)%nat -> amat Ap m M1 i j = amat A m M i j).
  { intros i j Hi Hj. unfold amat. specialize (K1 (m * j + i)%nat ltac:(nia)).
    replace (Ap + (m * j + i) * 1)%nat with (Ap + m * j + i)%nat in K1 by lia. rewrite K1. f_equal. lia. }
  assert (GG : forall i j, (i < m)%nat -> (j < m)%nat -> gram n k (amat Ap m M1) i j = gram n k (amat A m M) i j).
  { intros i j Hi Hj. unfold gram. f_equal. apply bsum_ext. intros l Hl. rewrite !AA by auto. reflexivity. }
  destruct (solve_ok m (gram n k (amat A m M)) (gram_sym m n k _) (gram_posdef m n k _ Hk)) as [_ SV].
  split.
  - intros i j Hi Hj. unfold mmul. rewrite <- (SV (fun l => amat A m M l i) j Hj). apply bsum_ext. intros l Hl.
    unfold amat at 1. specialize (T1 i l Hi Hl). unfold mad at 1 in T1. rewrite T1. rewrite Q2 by auto.
    rewrite (gram_sym m n k (amat A m M) l j) by auto. rewrite Rmult_comm. f_equal.
    apply solve_ext; auto.
  - intros a H1 H2 H3. rewrite T2. 2:{ intros i j Hi Hj E. pose proof (mad_in As n i j m Hi Hj). unfold outside in H1. nia. }
    rewrite Q3.
    + apply K2. intros i Hi. unfold outside in H2. lia.
    + intros i j Hi Hj E. pose proof (mad_in B ldb i j m ltac:(lia) Hj) as R. rewrite <- E in R. unfold B, ldb in R. destruct (Nat.leb_spec m n) as [H|H].
      * unfold outside in H1. rewrite (Nat.mul_comm m n) in H1. lia.
      * specialize (H3 H). unfold outside in H3. lia.
    + intros i j Hi Hj E. pose proof (mad_in Ap m i j n Hi Hj). unfold outside in H2. lia.
Qed.

(** matrix-vector products *)
Lemma mvmul_ok m n A x b M : let M' := la_mvmul m n A x b M in
  (forall i, (i < m)%nat -> arr b M' i = mulv n (amat A m M) (arr x M) i) /\ (forall a, outside b m a -> M' a = M a).
Proof.
  unfold la_mvmul, b_gemv.
  destruct (vec_mem m b 1 (fun i _ => 1 * bsum n (fun k => b_op false A m i k M * M (x + k * 1)%nat) + 0 * M (b + i * 1)%nat) M) as [L1 L2]; [lia|reflexivity|].
  split.
  - intros i Hi. unfold arr at 1. replace (b + i)%nat with (b + i * 1)%nat by lia. rewrite L1 by exact Hi.
    rewrite Rmult_0_l, Rmult_1_l, Rplus_0_r. apply bsum_ext. intros l Hl. unfold b_op, mad, amat, arr. now rewrite Nat.mul_1_r.
  - intros a Ha. apply L2. intros i Hi. unfold outside in Ha. lia.
Qed.
Lemma la_dls_ok junk m n k A x y As Ap W M : 0 < k -> dpinv_apart m n A As Ap W ->
  clear_of x m As (m * n) -> clear_of x m Ap (m * n) -> ((n < m)%nat -> clear_of x m W (m * m)) ->
  let M' := la_dls junk m n k A x y As Ap W M in
  damped_solution m n k (amat A m M) (arr x M) (arr y M') /\
  (forall a, outside y n a -> outside As (m * n) a -> outside Ap (m * n) a -> ((n < m)%nat -> outside W (m * m) a) -> M' a = M a).
Proof.
  intros Hk HA X1 X2 X3 M'. unfold M', la_dls. destruct (la_dpinv_ok junk m n k A As Ap W M Hk HA) as [D1 D2].
  set (M1 := la_dpinv junk m n k A As Ap W M) in *. destruct (mvmul_ok n m As x y M1) as [V1 V2]. split.
  - pose proof (damped_optimal m n k (amat A m M) (amat As n M1) Hk D1 (arr x M)) as O.
    assert (E : forall i, (i < n)%nat -> arr y (la_mvmul n m As x y M1) i = mulv m (amat As n M1) (arr x M) i).
    { intros i Hi. rewrite V1 by exact Hi. apply mulv_ext. intros l Hl. unfold arr. apply D2; unfold outside, clear_of in *; lia. }
    assert (C : damped_cost m n k (amat A m M) (arr x M) (arr y (la_mvmul n m As x y M1)) = damped_cost m n k (amat A m M) (arr x M) (mulv m (amat As n M1) (arr x M))).
    { unfold damped_cost. f_equal; [apply bsum_ext; intros i Hi; rewrite (mulv_ext n _ _ _ i E); reflexivity|].
      f_equal. apply dotp_ext; exact E. }
    intros z. destruct (O z) as [O1 O2]. rewrite C. split; [exact O1|]. intros Q i Hi. rewrite E by exact Hi. apply O2; auto.
  - intros a H1 H2 H3 H4. rewrite V2 by exact H1. apply D2; auto.
Qed.

(** ** The descriptor version *)
Lemma melem_mad A i j : melem A i j = mad (m_data A) (m_ld A) i j. Proof. reflexivity. Qed.
Lemma mapart_apart A B : good_mat A -> good_mat B -> mapart A B -> apart (in_mat A) (in_mat B).
Proof.
  intros GA GB H a (i & j & Hi & Hj & ->) (i' & j' & Hi' & Hj' & E). unfold good_mat in *.
  pose proof (mad_in (m_data A) (m_ld A) i j (m_cols A) ltac:(lia) Hj). pose proof (mad_in (m_data B) (m_ld B) i' j' (m_cols B) ltac:(lia) Hj').
  rewrite melem_mad in E. rewrite melem_mad in E. unfold mapart, clear_of in H. lia.
Qed.
Lemma mapart_sym A B : mapart A B -> mapart B A.
Proof. unfold mapart, clear_of. tauto. Qed.

Lemma dmat_dpinv_ok junk A k As w M : 0 < k -> good_mat A -> good_mat As -> m_rows A = m_cols As -> m_cols A = m_rows As ->
  dmat_dpinv_apart A As w ->
  exists M', dmat_dpinv junk A k As w M = Done (0%nat, M') /\
  (forall i j, (i < m_cols A)%nat -> (j < m_rows A)%nat ->
     mmul (m_rows A) (mget As M') (gram (m_cols A) k (mget A M)) i j = mget A M j i) /\
  (forall a, ~ mblock As a -> outside w (m_cols A * Nat.min (m_rows A) (m_cols A)) a -> M' a = M a).
Proof.
  intros Hk GA GS E1 E2 (C1 & C2 & C3). unfold dmat_dpinv, check. rewrite E1, E2, !Nat.eqb_refl. rewrite <- E1, <- E2.
  set (m := m_rows A) in *. set (n := m_cols A) in *.
  destruct (solve_ok m (gram n k (mget A M)) (gram_sym m n k _) (gram_posdef m n k _ Hk)) as [_ SV].
  destruct (Nat.leb_spec m n) as [H|H].
  - set (Ap := mkDM m n w m) in *.
    destruct (dmat_copy_ok A Ap M) as (M1 & K0 & K1 & K2); [unfold good_mat; cbn; lia|reflexivity|reflexivity| |].
    { right. apply mapart_apart; [unfold good_mat; cbn; lia|auto|apply mapart_sym; auto]. }
    rewrite K0. cbn [obind]. unfold good_mat in GS.
    pose proof (middle junk m n k w m (m_data As) (m_ld As) M1 Hk (le_n _) ltac:(lia)) as Q. cbv zeta in Q.
    destruct (b_posv junk m n (m_data As) (m_ld As) w m (add_diag k m (m_data As) (m_ld As) (b_syrk m n 1 w m (m_data As) (m_ld As) M1))) as [r M4].
    destruct Q as (-> & Q2 & Q3). { unfold mapart in C3. rewrite <- E1 in C3. cbn in C3. exact C3. }
    destruct (dmat_trans_ok Ap As M4) as (M5 & T0 & T1 & T2); [exact GS|cbn; auto|cbn; auto| |].
    { apply mapart_apart; [exact GS|unfold good_mat; cbn; lia|exact C3]. }
    rewrite T0. cbn [obind]. exists M5. split; [reflexivity|]. split.
    + intros i j Hi Hj. unfold mmul. rewrite <- (SV (fun l => mget A M l i) j Hj). apply bsum_ext. intros l Hl.
      unfold mget at 1. rewrite T1 by (rewrite <- ?E1, <- ?E2; auto). unfold mget at 1. change (melem Ap l i) with (mad w m l i). rewrite Q2 by auto.
      assert (AA : forall i j, (i < m)%nat -> (j < n)%nat -> amat w m M1 i j = mget A M i j) by (intros i' j' Hi' Hj'; exact (K1 i' j' Hi' Hj')).
      rewrite (gram_sym m n k (mget A M) l j) by auto. rewrite Rmult_comm. f_equal.
      apply solve_ext; auto. intros p q Hp Hq. unfold gram. f_equal. apply bsum_ext. intros o Ho. rewrite !AA by auto. reflexivity.
    + intros a HS HW. unfold mblock in HS. rewrite <- E1 in HS. fold m in HS. rewrite Nat.min_l in HW by lia. unfold outside in HW.
      rewrite T2. 2:{ intros (i & j & Hi & Hj & ->). rewrite melem_mad in HS. apply HS. apply mad_in; lia. }
      rewrite Q3.
      * apply K2. intros (i & j & Hi & Hj & ->). cbn in Hi, Hj. rewrite melem_mad in HW. cbn in HW. pose proof (mad_in w m i j n Hi Hj). nia.
      * intros i j Hi Hj ->. apply HS. apply mad_in; lia.
      * intros i j Hi Hj ->. pose proof (mad_in w m i j n Hi Hj). nia.
  - destruct (dmat_trans_ok A As M GS E1 E2) as (M1 & T0 & T1 & T2).
    { apply mapart_apart; auto. apply mapart_sym. exact C1. }
    rewrite T0. cbn [obind]. unfold good_mat in GS.
    pose proof (middle junk n m k (m_data As) (m_ld As) w n M1 Hk ltac:(lia) (le_n _)) as Q. cbv zeta in Q.
    destruct (b_posv junk n m w n (m_data As) (m_ld As) (add_diag k n w n (b_syrk n m 1 (m_data As) (m_ld As) w n M1))) as [r M4].
    destruct Q as (-> & Q2 & Q3). { apply mapart_sym in C3. unfold mapart in C3. rewrite <- E1 in C3. cbn in C3. exact C3. }
    exists M4. split; [reflexivity|].
    assert (AA : forall i j, (i < n)%nat -> (j < m)%nat -> amat (m_data As) (m_ld As) M1 i j = mget A M j i).
    { intros i j Hi Hj. apply (T1 i j); lia. }
    split.
    + (* (A^T A + k I) As = A^T, hence As (A A^T + k I) = A^T *)
      set (At := fun i j => mget A M j i).
      destruct (solve_ok n (gram m k At) (gram_sym n m k _) (gram_posdef n m k _ Hk)) as [_ SVn].
      assert (N : forall i j, (i < n)%nat -> (j < m)%nat -> mmul n (gram m k At) (mget As M4) i j = At i j).
      { intros i j Hi Hj. unfold mmul. rewrite <- (SVn (fun l => At l j) i Hi). apply bsum_ext. intros l Hl. f_equal.
        unfold mget. rewrite melem_mad. rewrite Q2 by auto. apply solve_ext; auto.
        - intros p q Hp Hq. unfold gram. f_equal. apply bsum_ext. intros o Ho. rewrite !AA by auto. reflexivity.
        - intros p Hp. rewrite AA by auto. reflexivity. }
      intros i j Hi Hj.
      (* transposed: P := As^T satisfies P (A^T A + k I) = A, so (A A^T + k I) P = A *)
      pose proof (damped_normal n m k At (fun a b => mget As M4 b a) Hk) as D.
      assert (HP : forall a b, (a < m)%nat -> (b < n)%nat -> mmul n (fun a b => mget As M4 b a) (gram m k At) a b = At b a).
      { intros a b Ha Hb. rewrite <- (N b a Hb Ha). unfold mmul. apply bsum_ext. intros l Hl. rewrite (gram_sym n m k At b l) by auto. lra. }
      specialize (D HP j i Hj Hi). unfold mmul in D |- *. change (mget A M j i) with (At i j). rewrite <- D. apply bsum_ext. intros l Hl.
      rewrite (gram_sym m n k (mget A M) l j) by auto. unfold At. rewrite Rmult_comm. reflexivity.
    + intros a HS HW. unfold mblock in HS. rewrite <- E1 in HS. fold m in HS. rewrite Nat.min_r in HW by lia. unfold outside in HW.
      rewrite Q3.
      * apply T2. intros (i & j & Hi & Hj & ->). rewrite melem_mad in HS. apply HS. apply mad_in; lia.
      * intros i j Hi Hj ->. pose proof (mad_in w n i j n Hi Hj). nia.
      * intros i j Hi Hj ->. apply HS. apply mad_in; lia.
Qed.

(** ** Null-space projection *)
Lemma gemv_sq_ok n alpha beta B yp y M : let M' := b_gemv false n n alpha B n yp 1 beta y 1 M in
  (forall i, (i < n)%nat -> arr y M' i = alpha * mulv n (amat B n M) (arr yp M) i + beta * arr y M i) /\ (forall a, outside y n a -> M' a = M a).
Proof.
  unfold b_gemv.
  destruct (vec_mem n y 1 (fun i _ => alpha * bsum n (fun k => b_op false B n i k M * M (yp + k * 1)%nat) + beta * M (y + i * 1)%nat) M) as [L1 L2]; [lia|reflexivity|].
  split.
  - intros i Hi. unfold arr at 1. replace (y + i)%nat with (y + i * 1)%nat by lia. rewrite L1 by exact Hi.
    f_equal; [f_equal|unfold arr; do 2 f_equal; lia]. apply bsum_ext. intros l Hl. unfold b_op, mad, amat, arr. now rewrite Nat.mul_1_r.
  - intros a Ha. apply L2. intros i Hi. unfold outside in Ha. lia.
Qed.
Lemma la_np_ok m n A As B M :
  let M' := la_np m n A As B M in
  (forall i j, (i < n)%nat -> (j < n)%nat -> amat B n M' i j = mmul m (amat As n M) (amat A m M) i j - delta i j) /\
  (forall a, outside B (n * n) a -> M' a = M a).
Proof.
  unfold la_np, b_gemm. rewrite !Nat.ltb_irrefl. cbn [orb].
  destruct (mad_loop B n n n (fun i j _ => 1 * bsum m (fun k => b_op false As n i k M * b_op false A m k j M) + 0 * M (mad B n i j)) M (le_n _)) as [G1 G2]; [reflexivity|].
  set (M1 := loop n _ M) in *.
  destruct (loop_map n (fun i => mad B n i i) (fun i M => M (mad B n i i) - 1) M1) with (k := n) as [D1 D2]; [| |lia|].
  - intros i j Hi Hj E. apply mad_inj in E; lia.
  - intros i M' Hi E _. now rewrite E.
  - split.
    + intros i j Hi Hj. change (amat B n (loop n (fun i M => upd M (mad B n i i) (M (mad B n i i) - 1)) M1) i j) with (loop n (fun i M => upd M (mad B n i i) (M (mad B n i i) - 1)) M1 (mad B n i j)).
      unfold delta. destruct (Nat.eqb_spec i j) as [->|Hne].
      * rewrite D1 by auto. rewrite G1 by auto. unfold mmul, b_op, mad, amat. lra.
      * rewrite D2. 2:{ intros l Hl E. apply mad_inj in E; lia. } rewrite G1 by auto. unfold mmul, b_op, mad, amat. lra.
    + intros a Ha. rewrite D2, G2; [reflexivity| |].
      * intros i j Hi Hj ->. pose proof (mad_in B n i j n Hi Hj). unfold outside in Ha. lia.
      * intros i Hi ->. pose proof (mad_in B n i i n Hi Hi). unfold outside in Ha. lia.
Qed.
Lemma la_xlsnp_ok m n A As x yp y B M :
  clear_of y n A (m * n) -> clear_of y n As (m * n) -> clear_of y n yp n -> clear_of y n B (n * n) -> clear_of B (n * n) yp n ->
  let M' := la_xlsnp m n A As x yp y B M in
  (forall i, (i < n)%nat -> arr y M' i = nullspace_solution m n (amat A m M) (amat As n M) (arr x M) (arr yp M) i) /\
  (forall a, outside y n a -> outside B (n * n) a -> M' a = M a).
Proof.
  intros C1 C2 C3 C4 C5 M'. unfold M', la_xlsnp. clear M'.
  destruct (mvmul_ok n m As x y M) as [V1 V2]. set (M1 := la_mvmul n m As x y M) in *.
  destruct (la_np_ok m n A As B M1) as [N1 N2]. set (M2 := la_np m n A As B M1) in *.
  destruct (gemv_sq_ok n (-1) 1 B yp y M2) as [G1 G2]. split.
  - intros i Hi. rewrite G1 by exact Hi.
    assert (Y : arr y M2 i = mulv m (amat As n M) (arr x M) i).
    { rewrite <- V1 by exact Hi. unfold arr. apply N2. unfold outside, clear_of in *. lia. }
    assert (YP : forall l, (l < n)%nat -> arr yp M2 l = arr yp M l).
    { intros l Hl. unfold arr. rewrite N2 by (unfold outside, clear_of in *; lia). apply V2. unfold outside, clear_of in *. lia. }
    assert (BB : mulv n (amat B n M2) (arr yp M2) i = mulv m (amat As n M) (mulv n (amat A m M) (arr yp M)) i - arr yp M i).
    { rewrite <- mulv_mmul. unfold mulv.
      rewrite (bsum_ext n _ (fun l => mmul m (amat As n M) (amat A m M) i l * arr yp M l - arr yp M l * delta i l)).
      - rewrite bsum_minus. rewrite bsum_delta by exact Hi. reflexivity.
      - intros l Hl. rewrite YP by exact Hl. rewrite N1 by auto.
        rewrite (mmul_ext m (amat As n M1) (amat As n M) (amat A m M1) (amat A m M)); [lra| |].
        + intros k Hk. unfold amat. apply V2. unfold outside, clear_of in *. nia.
        + intros k Hk. unfold amat. apply V2. unfold outside, clear_of in *. nia. }
    rewrite BB, Y. unfold nullspace_solution. lra.
  - intros a H1 H2. rewrite G2 by exact H1. rewrite N2 by exact H2. apply V2. exact H1.
Qed.
Lemma mulv_minus n A x y i : mulv n A (fun l => x l - y l) i = mulv n A x i - mulv n A y i.
Proof. unfold mulv. rewrite <- bsum_minus. apply bsum_ext. intros. lra. Qed.
Lemma mulv_plus n A x y i : mulv n A (fun l => x l + y l) i = mulv n A x i + mulv n A y i.
Proof. unfold mulv. rewrite <- bsum_plus. apply bsum_ext. intros. lra. Qed.
Section Nullspace.
  Context (m n : nat) (A As : nat -> nat -> R) (x yp : nat -> R).
  Hypothesis GI : forall i j, (i < m)%nat -> (j < n)%nat -> mmul m (mmul n A As) A i j = A i j.
  Let y := nullspace_solution m n A As x yp.
  Lemma np_image i : (i < m)%nat -> mulv n A y i = mulv n A (mulv m As x) i.
  Proof.
    intros Hi. unfold y, nullspace_solution.
    assert (E : mulv n A (fun l => mulv m As x l + yp l - mulv m As (mulv n A yp) l) i = mulv n A (mulv m As x) i + mulv n A yp i - mulv n A (mulv m As (mulv n A yp)) i).
    { rewrite (mulv_minus n A (fun l => mulv m As x l + yp l) (mulv m As (mulv n A yp))), (mulv_plus n A (mulv m As x) yp). reflexivity. }
    rewrite E. clear E.
    assert (E : mulv n A (mulv m As (mulv n A yp)) i = mulv n A yp i).
    { rewrite <- mulv_mmul. rewrite <- mulv_mmul. unfold mulv. apply bsum_ext. intros l Hl. now rewrite GI. }
    rewrite E. lra.
  Qed.
  Lemma np_solves : (exists z, forall i, (i < m)%nat -> mulv n A z i = x i) -> forall i, (i < m)%nat -> mulv n A y i = x i.
  Proof.
    intros [z Hz] i Hi. rewrite np_image by exact Hi.
    assert (E : mulv n A (mulv m As x) i = mulv n A (mulv m As (mulv n A z)) i).
    { apply mulv_ext. intros l Hl. apply mulv_ext. intros k Hk. now rewrite Hz. }
    rewrite E. rewrite <- Hz by exact Hi. rewrite <- mulv_mmul, <- mulv_mmul. unfold mulv. apply bsum_ext. intros l Hl. now rewrite GI.
  Qed.
End Nullspace.

(** ** Least squares, and the solution nearest to the secondary target *)
Lemma dotp_minus n x y z : dotp n x (fun i => y i - z i) = dotp n x y - dotp n x z.
Proof. unfold dotp. rewrite <- bsum_minus. apply bsum_ext. intros. lra. Qed.
Lemma ssq_split n u v : ssq n (fun i => u i + v i) = ssq n u + 2 * dotp n u v + ssq n v.
Proof. unfold ssq, dotp. rewrite <- bsum_scal, <- !bsum_plus. apply bsum_ext. intros. ring. Qed.
Section Pseudo.
  Context (m n : nat) (A P : nat -> nat -> R) (MP : moore_penrose m n A P) (b yp : nat -> R).
  Let y := nullspace_solution m n A P b yp.
  Let GI := proj1 MP.
  Let PAP := proj1 (proj2 MP).
  Let APs := proj1 (proj2 (proj2 MP)).
  Let PAs := proj2 (proj2 (proj2 MP)).
  (** the residual of P b is orthogonal to the range *)
  Lemma mp_normal z : dotp m (fun i => mulv n A (mulv m P b) i - b i) (mulv n A z) = 0.
  Proof.
    rewrite dotp_comm. rewrite dotp_minus. apply Rminus_diag_eq.
    (* <Az, APb> = <APAz, b> = <Az, b> *)
    rewrite (dotp_ext m (mulv n A z) (mulv n A z) (mulv n A (mulv m P b)) (mulv m (mmul n A P) b)); [|auto|intros; now rewrite mulv_mmul].
    rewrite dotp_mulv. apply dotp_ext; [|auto]. intros i Hi.
    transitivity (mulv m (mmul n A P) (mulv n A z) i). { unfold mulv at 1 3. apply bsum_ext. intros l Hl. now rewrite APs. }
    rewrite <- mulv_mmul. unfold mulv. apply bsum_ext. intros l Hl. now rewrite GI.
  Qed.
  Lemma mp_least_squares w : (forall i, (i < m)%nat -> mulv n A w i = mulv n A (mulv m P b) i) -> least_squares m n A b w.
  Proof.
    intros Hw z.
    assert (E : ssq m (fun i => mulv n A w i - b i) = ssq m (fun i => mulv n A (mulv m P b) i - b i)).
    { apply dotp_ext; intros i Hi; now rewrite Hw. }
    rewrite E. clear E.
    assert (E : ssq m (fun i => mulv n A z i - b i) = ssq m (fun i => (mulv n A (mulv m P b) i - b i) + mulv n A (fun l => z l - mulv m P b l) i)).
    { apply dotp_ext; intros i Hi; rewrite mulv_minus; lra. }
    rewrite E, ssq_split, mp_normal. pose proof (ssq_nonneg m (mulv n A (fun l => z l - mulv m P b l))). lra.
  Qed.
  Lemma np_least_squares : least_squares m n A b y.
  Proof. apply mp_least_squares. intros i Hi. apply np_image; [exact GI|exact Hi]. Qed.
  (** y - yp lies in the row space: y - yp = P (b - A yp) = P A P (b - A yp) *)
  Lemma np_nearest z : (forall i, (i < m)%nat -> mulv n A z i = mulv n A y i) ->
    ssq n (fun i => y i - yp i) <= ssq n (fun i => z i - yp i) /\
    (ssq n (fun i => z i - yp i) = ssq n (fun i => y i - yp i) -> forall i, (i < n)%nat -> z i = y i).
  Proof.
    intros Hz.
    assert (E : ssq n (fun i => z i - yp i) = ssq n (fun i => (y i - yp i) + (z i - y i))).
    { apply dotp_ext; intros; lra. }
    assert (O : dotp n (fun i => y i - yp i) (fun i => z i - y i) = 0).
    { set (c := fun i => b i - mulv n A yp i).
      assert (Y : forall i, (i < n)%nat -> y i - yp i = mulv n (mmul m P A) (mulv m P c) i).
      { intros i Hi. unfold y, nullspace_solution, c.
        transitivity (mulv m P (fun l => b l - mulv n A yp l) i).
        - rewrite (mulv_minus m P b (mulv n A yp) i). lra.
        - rewrite <- (mulv_mmul n m (mmul m P A) P). unfold mulv at 1 3. apply bsum_ext. intros l Hl. now rewrite PAP. }
      rewrite (dotp_ext n _ (mulv n (mmul m P A) (mulv m P c)) _ (fun i => z i - y i) Y) by auto.
      rewrite dotp_comm. rewrite dotp_mulv.
      unfold dotp. apply bsum_zero. intros i Hi.
      assert (Z : mulv n (fun i j => mmul m P A j i) (fun i => z i - y i) i = 0).
      { transitivity (mulv n (mmul m P A) (fun i => z i - y i) i).
        - unfold mulv. apply bsum_ext. intros l Hl. now rewrite PAs.
        - rewrite mulv_mmul. unfold mulv at 1. apply bsum_zero. intros l Hl. rewrite mulv_minus, Hz by exact Hl. lra. }
      rewrite Z. lra. }
    rewrite E, ssq_split, O. pose proof (ssq_nonneg n (fun i => z i - y i)). split; [lra|].
    intros Q i Hi. assert (Z : ssq n (fun i => z i - y i) = 0) by lra. pose proof (ssq_zero n _ Z i Hi). cbv beta in *. lra.
  Qed.
End Pseudo.
