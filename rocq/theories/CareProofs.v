(** Proofs for CareModel. *)
From Coq Require Import Reals Arith List Bool Lra Lia.
From Verif Require Import MatModel MatSpec MatProofs LaModel LaSpec LaAlg CareModel CareSpec.
Open Scope R_scope.

(** * The Hamiltonian *)
Lemma block_in H r c m f i j : (i < m)%nat -> (j < m)%nat -> block H r c m f (r + i)%nat (c + j)%nat = f i j.
Proof.
  intros Hi Hj. unfold block.
  replace (Nat.leb r (r + i)) with true by (symmetry; apply Nat.leb_le; lia).
  replace (Nat.ltb (r + i) (r + m)) with true by (symmetry; apply Nat.ltb_lt; lia).
  replace (Nat.leb c (c + j)) with true by (symmetry; apply Nat.leb_le; lia).
  replace (Nat.ltb (c + j) (c + m)) with true by (symmetry; apply Nat.ltb_lt; lia). simpl.
  f_equal; lia.
Qed.
Lemma block_out H r c m f i j : (i < r \/ r + m <= i \/ j < c \/ c + m <= j)%nat -> block H r c m f i j = H i j.
Proof.
  intros O. unfold block. destruct (Nat.leb_spec r i), (Nat.ltb_spec i (r + m)), (Nat.leb_spec c j), (Nat.ltb_spec j (c + m));
    simpl; try reflexivity. lia.
Qed.
Lemma scl_in H r c m i j : (i < m)%nat -> (j < m)%nat -> scl H r c m (r + i)%nat (c + j)%nat = - H (r + i)%nat (c + j)%nat.
Proof. intros Hi Hj. unfold scl. rewrite block_in by assumption. lra. Qed.
Lemma scl_out H r c m i j : (i < r \/ r + m <= i \/ j < c \/ c + m <= j)%nat -> scl H r c m i j = H i j.
Proof. apply block_out. Qed.
(** the matrices in the equation: B and C themselves when they are square, otherwise B B^T and C^T C *)
Definition gmat (m n : nat) (B : mat) : mat := if Nat.eqb n m then B else fun i j => bsum n (fun k => B i k * B j k).
Definition qmat (m p : nat) (C : mat) : mat := if Nat.eqb p m then C else fun i j => bsum p (fun k => C k i * C k j).
Lemma hamiltonian_ok m n p A B C H0 :
  Blocks m (care_hamiltonian m n p A B C H0) A (fun i j => - gmat m n B i j) (fun i j => - qmat m p C i j) (fun i j => - A j i).
Proof.
  intros i j Hi Hj. unfold care_hamiltonian.
  set (H1 := block H0 0 0 m A). set (H2 := scl (block H1 m m m (fun i j => A j i)) m m m).
  set (H3 := if Nat.eqb n m then scl (block H2 0 m m B) 0 m m else block H2 0 m m (fun i j => -1 * bsum n (fun k => B i k * B j k))).
  set (H4 := if Nat.eqb p m then _ else _).
  assert (P1 : H1 i j = A i j) by apply (block_in H0 0 0 m A i j Hi Hj).
  assert (P2 : H2 i j = A i j /\ H2 (m + i)%nat (m + j)%nat = - A j i).
  { unfold H2. split.
    - rewrite scl_out, block_out by lia. exact P1.
    - rewrite scl_in, block_in by assumption. reflexivity. }
  assert (P3 : H3 i j = A i j /\ H3 (m + i)%nat (m + j)%nat = - A j i /\ H3 i (m + j)%nat = - gmat m n B i j).
  { destruct P2 as [Pa Pb]. unfold H3, gmat. destruct (Nat.eqb n m); (split; [|split]).
    - rewrite scl_out, block_out by lia. exact Pa.
    - rewrite scl_out, block_out by lia. exact Pb.
    - change i with (0 + i)%nat at 1. rewrite scl_in, block_in by assumption. reflexivity.
    - rewrite block_out by lia. exact Pa.
    - rewrite block_out by lia. exact Pb.
    - change i with (0 + i)%nat at 1. rewrite block_in by assumption. lra. }
  destruct P3 as (Pa & Pb & Pc). unfold H4, qmat. destruct (Nat.eqb p m); (split; [|split; [|split]]).
  - rewrite scl_out, block_out by lia. exact Pa.
  - rewrite scl_out, block_out by lia. exact Pc.
  - change j with (0 + j)%nat at 1. rewrite scl_in, block_in by assumption. reflexivity.
  - rewrite scl_out, block_out by lia. exact Pb.
  - rewrite block_out by lia. exact Pa.
  - rewrite block_out by lia. exact Pc.
  - change j with (0 + j)%nat at 1. rewrite block_in by assumption. lra.
  - rewrite block_out by lia. exact Pb.
Qed.

(** * Algebra *)
Lemma mmul_add_l k A B C i j : mmul k (fun i j => A i j + B i j) C i j = mmul k A C i j + mmul k B C i j.
Proof. unfold mmul. rewrite <- bsum_plus. apply bsum_ext. intros; ring. Qed.
Lemma mmul_sub_l k A B C i j : mmul k (fun i j => A i j - B i j) C i j = mmul k A C i j - mmul k B C i j.
Proof. unfold mmul. rewrite <- bsum_minus. apply bsum_ext. intros; ring. Qed.
Lemma mmul_sub_r k A B C i j : mmul k C (fun i j => A i j - B i j) i j = mmul k C A i j - mmul k C B i j.
Proof. unfold mmul. rewrite <- bsum_minus. apply bsum_ext. intros; ring. Qed.
Lemma mmul_tr k A B i j : mmul k (transposed B) (transposed A) i j = mmul k A B j i.
Proof. unfold mmul, transposed. apply bsum_ext. intros; ring. Qed.
Lemma mmul_1_r k A i j : (j < k)%nat -> mmul k A delta i j = A i j.
Proof. intros H. unfold mmul. rewrite <- (bsum_delta k j (fun l => A i l)) by exact H. apply bsum_ext. intros l Hl. rewrite delta_sym. reflexivity. Qed.
Lemma mmul_0 k A B i j : (forall l, (l < k)%nat -> A i l = 0) -> mmul k A B i j = 0.
Proof. intros H. apply bsum_zero. intros l Hl. rewrite H by exact Hl. ring. Qed.
Lemma cancel_right m M U V : equal m (mmul m U V) delta -> equal m (mmul m M U) (fun _ _ => 0) -> equal m M (fun _ _ => 0).
Proof.
  intros I E i j Hi Hj. rewrite <- (mmul_1_r m M i j Hj).
  rewrite (mmul_ext m M M delta (mmul m U V)); [|reflexivity|intros l Hl; symmetry; now apply I].
  rewrite <- mmul_assoc. apply mmul_0. intros l Hl. now apply E.
Qed.
Lemma bsum_split a b f : bsum (a + b) f = bsum a f + bsum b (fun i => f (a + i)%nat).
Proof.
  induction b as [|b IH]; [rewrite Nat.add_0_r; simpl; lra|]. rewrite Nat.add_succ_r. simpl. rewrite IH. lra.
Qed.

Section Solve.
  Variables (m : nat) (A G Q H V T : mat).
  Hypothesis BL : Blocks m H A (fun i j => - G i j) (fun i j => - Q i j) (fun i j => - A j i).
  Hypothesis INV : Invariant (2 * m) m H V T.
  Let U1 : mat := V.
  Let U2 : mat := fun i j => V (m + i)%nat j.
  Lemma two_m : (2 * m = m + m)%nat. Proof. lia. Qed.
  Lemma inv1 i j : (i < m)%nat -> (j < m)%nat -> mmul m A U1 i j - mmul m G U2 i j = mmul m U1 T i j.
  Proof.
    intros Hi Hj. pose proof (INV i j ltac:(lia) Hj) as E. unfold mmul at 1 in E. rewrite two_m, bsum_split in E.
    rewrite (bsum_ext m _ (fun l => A i l * U1 l j)) in E by (intros l Hl; rewrite (proj1 (BL i l Hi Hl)); reflexivity).
    rewrite (bsum_ext m (fun l => H i (m + l)%nat * V (m + l)%nat j) (fun l => 0 - G i l * U2 l j)) in E
      by (intros l Hl; rewrite (proj1 (proj2 (BL i l Hi Hl))); unfold U2; ring).
    rewrite bsum_minus, bsum_0 in E. fold (mmul m A U1 i j) in E. fold (mmul m G U2 i j) in E. unfold U1 at 2. lra.
  Qed.
  Lemma inv2 i j : (i < m)%nat -> (j < m)%nat -> - mmul m Q U1 i j - mmul m (transposed A) U2 i j = mmul m U2 T i j.
  Proof.
    intros Hi Hj. pose proof (INV (m + i)%nat j ltac:(lia) Hj) as E. unfold mmul at 1 in E. rewrite two_m, bsum_split in E.
    rewrite (bsum_ext m _ (fun l => 0 - Q i l * U1 l j)) in E
      by (intros l Hl; rewrite (proj1 (proj2 (proj2 (BL i l Hi Hl)))); unfold U1; ring).
    rewrite (bsum_ext m (fun l => H (m + i)%nat (m + l)%nat * V (m + l)%nat j) (fun l => 0 - transposed A i l * U2 l j)) in E
      by (intros l Hl; rewrite (proj2 (proj2 (proj2 (BL i l Hi Hl)))); unfold U2, transposed; ring).
    rewrite !bsum_minus, bsum_0 in E. fold (mmul m Q U1 i j) in E. fold (mmul m (transposed A) U2 i j) in E.
    change (mmul m V T (m + i)%nat j) with (mmul m U2 T i j) in E. lra.
  Qed.
  Variables (Ui X : mat).
  Hypothesis UI : Inverse m U1 Ui.
  Hypothesis SX : equal m (mmul m (transposed U1) X) (transposed U2).
  Let Y : mat := transposed X.
  Lemma y_u i j : (i < m)%nat -> (j < m)%nat -> mmul m Y U1 i j = U2 i j.
  Proof.
    intros Hi Hj. pose proof (SX j i Hj Hi) as E. unfold Y.
    rewrite <- mmul_tr in E. unfold transposed in *. exact E.
  Qed.
  Lemma riccati_y : equal m (riccati m A G Q Y) (fun _ _ => 0).
  Proof.
    apply (cancel_right m _ U1 Ui); [apply UI|]. intros i j Hi Hj.
    unfold riccati. rewrite mmul_add_l, mmul_sub_l, mmul_add_l, !mmul_assoc.
    rewrite (mmul_ext m (transposed A) (transposed A) (mmul m Y U1) U2 i j) by (intros; try reflexivity; now apply y_u).
    rewrite (mmul_ext m Y Y (mmul m (mmul m G Y) U1) (mmul m G U2) i j);
      [|reflexivity|intros l Hl; rewrite mmul_assoc; apply mmul_ext; [reflexivity|intros; now apply y_u]].
    assert (E : mmul m Y (mmul m A U1) i j - mmul m Y (mmul m G U2) i j = mmul m U2 T i j).
    { rewrite <- mmul_sub_r. rewrite (mmul_ext m Y Y _ (mmul m U1 T) i j) by (intros; try reflexivity; now apply inv1).
      rewrite <- mmul_assoc. apply mmul_ext; [intros; now apply y_u|reflexivity]. }
    pose proof (inv2 i j Hi Hj). lra.
  Qed.
  Lemma riccati_tr : Symmetric m G -> Symmetric m Q -> forall Z i j, (i < m)%nat -> (j < m)%nat ->
    riccati m A G Q (transposed Z) j i = riccati m A G Q Z i j.
  Proof.
    intros SG SQ Z i j Hi Hj. unfold riccati.
    assert (A1 : mmul m (transposed A) (transposed Z) j i = mmul m Z A i j) by apply mmul_tr.
    assert (A2 : mmul m (transposed Z) A j i = mmul m (transposed A) Z i j) by exact (mmul_tr m (transposed A) Z j i).
    assert (A4 : Q j i = Q i j) by exact (SQ i j Hi Hj).
    assert (A3 : mmul m (transposed Z) (mmul m G (transposed Z)) j i = mmul m Z (mmul m G Z) i j).
    { rewrite <- (mmul_assoc m m Z G Z). rewrite <- (mmul_tr m (mmul m Z G) Z j i). apply mmul_ext; [reflexivity|].
      intros l Hl. change (transposed (mmul m Z G) l i) with (mmul m Z G i l). rewrite <- (mmul_tr m Z G l i).
      apply mmul_ext; [|reflexivity]. intros q Hq. symmetry. apply SG; assumption. }
    rewrite A1, A2, A3, A4. lra.
  Qed.
  Lemma riccati_x : Symmetric m G -> Symmetric m Q -> Solution m A G Q X.
  Proof.
    intros SG SQ i j Hi Hj. rewrite <- (riccati_tr SG SQ X i j Hi Hj). now apply riccati_y.
  Qed.
  (** with T one-sided the solution is symmetric *)
  Let W : mat := fun i j => mmul m (transposed U1) U2 i j - mmul m (transposed U2) U1 i j.
  Lemma w_zero : Symmetric m G -> Symmetric m Q -> OneSided m T -> equal m W (fun _ _ => 0).
  Proof.
    intros SG SQ OS. apply OS. intros i j Hi Hj.
    (* U1^T U2 T = -U1^T Q U1 - U1^T A^T U2;  U2^T U1 T = U2^T A U1 - U2^T G U2 *)
    assert (E1 : mmul m (mmul m (transposed U1) U2) T i j =
      - mmul m (transposed U1) (mmul m Q U1) i j - mmul m (transposed U1) (mmul m (transposed A) U2) i j).
    { rewrite mmul_assoc. unfold mmul at 1.
      rewrite (bsum_ext m _ (fun l => 0 - transposed U1 i l * mmul m Q U1 l j - transposed U1 i l * mmul m (transposed A) U2 l j))
        by (intros l Hl; rewrite <- inv2 by assumption; ring).
      rewrite !bsum_minus, bsum_0. unfold mmul at 3 5. lra. }
    assert (E2 : mmul m (mmul m (transposed U2) U1) T i j =
      mmul m (transposed U2) (mmul m A U1) i j - mmul m (transposed U2) (mmul m G U2) i j).
    { rewrite mmul_assoc, <- mmul_sub_r. apply mmul_ext; [reflexivity|]. intros l Hl. symmetry. now apply inv1. }
    assert (E3 : mmul m (transposed T) (mmul m (transposed U1) U2) i j =
      mmul m (transposed U1) (mmul m (transposed A) U2) i j - mmul m (transposed U2) (mmul m G U2) i j).
    { rewrite <- mmul_assoc.
      rewrite (mmul_ext m (mmul m (transposed T) (transposed U1)) (fun i l => mmul m (transposed U1) (transposed A) i l - mmul m (transposed U2) G i l) U2 U2);
        [|intros l Hl|reflexivity].
      - rewrite mmul_sub_l, !mmul_assoc. reflexivity.
      - rewrite mmul_tr, <- inv1 by assumption. rewrite <- (mmul_tr m A U1), <- (mmul_tr m G U2).
        apply (f_equal (fun z => _ - z)). apply mmul_ext; [reflexivity|]. intros q Hq. apply SG; assumption. }
    assert (E4 : mmul m (transposed T) (mmul m (transposed U2) U1) i j =
      - mmul m (transposed U1) (mmul m Q U1) i j - mmul m (transposed U2) (mmul m A U1) i j).
    { rewrite <- mmul_assoc.
      rewrite (mmul_ext m (mmul m (transposed T) (transposed U2)) (fun i l => (0 - mmul m (transposed U1) Q i l) - mmul m (transposed U2) A i l) U1 U1);
        [|intros l Hl|reflexivity].
      - rewrite (mmul_sub_l m (fun i l => 0 - mmul m (transposed U1) Q i l)), (mmul_sub_l m (fun _ _ => 0)), !mmul_assoc.
        rewrite (mmul_0 m (fun _ _ => 0)) by reflexivity. lra.
      - rewrite mmul_tr, <- inv2 by assumption. rewrite <- (mmul_tr m Q U1), <- (mmul_tr m (transposed A) U2).
        replace (mmul m (transposed U1) (transposed Q) i l) with (mmul m (transposed U1) Q i l);
          [change (transposed (transposed A)) with A; lra|].
        apply mmul_ext; [reflexivity|]. intros q Hq. symmetry. apply SQ; assumption. }
    unfold W at 1 2. rewrite mmul_sub_r, mmul_sub_l, E1, E2, E3, E4. lra.
  Qed.
  Lemma x_sym : Symmetric m G -> Symmetric m Q -> OneSided m T -> Symmetric m X.
  Proof.
    intros SG SQ OS. pose proof (w_zero SG SQ OS) as W0.
    (* X - X^T cancels against U1 on both sides *)
    assert (D : equal m (fun i j => Y i j - X i j) (fun _ _ => 0)).
    { assert (E : equal m (mmul m (transposed U1) (mmul m (fun i j => Y i j - X i j) U1)) (fun _ _ => 0)).
      { intros i j Hi Hj.
        assert (F : forall l, (l < m)%nat -> mmul m (fun i j => Y i j - X i j) U1 l j = U2 l j - mmul m X U1 l j).
        { intros l Hl. rewrite mmul_sub_l, y_u by assumption. reflexivity. }
        rewrite (mmul_ext m _ (transposed U1) _ (fun i j => U2 i j - mmul m X U1 i j)) by (intros; auto).
        rewrite mmul_sub_r, <- mmul_assoc.
        rewrite (mmul_ext m (mmul m (transposed U1) X) (transposed U2) U1 U1) by (intros; auto; now apply SX).
        exact (W0 i j Hi Hj). }
      apply (cancel_right m _ U1 Ui); [apply UI|].
      assert (K : equal m (transposed (mmul m (fun i j => Y i j - X i j) U1)) (fun _ _ => 0)).
      { apply (cancel_right m _ U1 Ui); [apply UI|]. intros i j Hi Hj.
        rewrite <- (E j i Hj Hi). rewrite <- (mmul_tr m (transposed U1)). reflexivity. }
      intros i j Hi Hj. exact (K j i Hj Hi). }
    intros i j Hi Hj. pose proof (D i j Hi Hj) as E. cbv beta in E. unfold Y in E. lra.
  Qed.
  (** the closed loop acts on the first block as T *)
  Lemma closed_loop : Symmetric m X -> equal m (mmul m (fun i j => A i j - mmul m G X i j) U1) (mmul m U1 T).
  Proof.
    intros S i j Hi Hj. rewrite mmul_sub_l, mmul_assoc, <- inv1 by assumption. f_equal.
    apply mmul_ext; [reflexivity|]. intros l Hl. rewrite <- y_u by assumption.
    apply mmul_ext; [|reflexivity]. intros q Hq. symmetry. now apply S.
  Qed.
End Solve.

Lemma gmat_sym m n B : n <> m -> Symmetric m (gmat m n B).
Proof. intros N i j Hi Hj. unfold gmat, transposed. destruct (Nat.eqb_spec n m); [contradiction|]. apply bsum_ext. intros; ring. Qed.
Lemma qmat_sym m p C : p <> m -> Symmetric m (qmat m p C).
Proof. intros N i j Hi Hj. unfold qmat, transposed. destruct (Nat.eqb_spec p m); [contradiction|]. apply bsum_ext. intros; ring. Qed.
Lemma bsum_single n k f : (k < n)%nat -> (forall i, (i < n)%nat -> i <> k -> f i = 0) -> bsum n f = f k.
Proof.
  intros K Z. rewrite <- (bsum_delta n k f K). apply bsum_ext. intros i Hi. unfold delta.
  destruct (Nat.eqb_spec k i) as [->|N]; [ring|]. rewrite (Z i Hi) by congruence. ring.
Qed.
(** a triangular T with negative diagonal *)
Lemma triangular_one_sided m T : (forall i j, (j < i < m)%nat -> T i j = 0) -> (forall i, (i < m)%nat -> T i i < 0) -> OneSided m T.
Proof.
  intros UP NEG W E. assert (G : forall s i j, (i + j < s)%nat -> (i < m)%nat -> (j < m)%nat -> W i j = 0).
  { induction s as [|s IH]; intros i j Hs Hi Hj; [lia|].
    specialize (E i j Hi Hj). cbv beta in E. unfold mmul, transposed in E.
    rewrite (bsum_single m i), (bsum_single m j) in E; try assumption.
    - pose proof (NEG i Hi). pose proof (NEG j Hj).
      assert (Q : (T i i + T j j) * W i j = 0) by lra. apply Rmult_integral in Q. destruct Q; [lra|assumption].
    - intros k Hk N. destruct (Nat.lt_ge_cases k j); [rewrite IH by lia; ring|rewrite UP by lia; ring].
    - intros k Hk N. destruct (Nat.lt_ge_cases k i); [rewrite IH by lia; ring|rewrite UP by lia; ring]. }
  intros i j Hi Hj. apply (G (S (i + j))); lia.
Qed.
