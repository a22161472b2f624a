(** C117: the solver of the continuous time Riccati equation. *)
From Coq Require Import Reals Arith List Bool ZArith Lra Lia.
From Verif Require Import MatModel MatSpec MatProofs LaModel LaSpec LaAlg CareModel CareSpec CareProofs.
Open Scope R_scope.

Lemma weight_g m n B G : ControlWeight m n B G -> equal m (gmat m n B) G.
Proof.
  intros [W1 W2] i j Hi Hj. unfold gmat. destruct (Nat.eqb_spec n m) as [E|E]; symmetry; [now apply W1|].
  rewrite (W2 E i j Hi Hj). reflexivity.
Qed.
Lemma weight_q m p C Q : StateWeight m p C Q -> equal m (qmat m p C) Q.
Proof.
  intros [W1 W2] i j Hi Hj. unfold qmat. destruct (Nat.eqb_spec p m) as [E|E]; symmetry; [now apply W1|].
  rewrite (W2 E i j Hi Hj). reflexivity.
Qed.

(** Given LAPACK's part -- dgees, selecting the eigenvalues left of the imaginary axis of the Hamiltonian, finds an
    invariant subspace of dimension m whose upper half is invertible, and dgels solves systems with an invertible
    matrix -- the matrix stored solves the equation.  If no two of the selected eigenvalues add up to zero, it is
    symmetric, and the closed loop A - G X is similar to the selected part T of the Schur form. *)
Theorem C117_solution : forall gees gels m n p A B C G Q H0,
  ControlWeight m n B G -> StateWeight m p C Q -> Symmetric m G -> Symmetric m Q ->
  (forall sel H, (forall re im, sel re im = true <-> re < 0) ->
     Blocks m H A (fun i j => - G i j) (fun i j => - Q i j) (fun i j => - A j i) ->
     let r := gees sel (2 * m)%nat H in
     Invariant (2 * m) m H (g_vs r) (g_t r) /\ exists Ui, Inverse m (g_vs r) Ui) ->
  (forall U rhs, (exists Ui, Inverse m U Ui) -> equal m (mmul m (transposed U) (snd (gels m U rhs))) rhs) ->
  exists X, care_laub gees gels m n p A B C H0 = (0%Z, X) /\ Solution m A G Q X /\
    exists H U T Ui, Invariant (2 * m) m H U T /\
      Blocks m H A (fun i j => - G i j) (fun i j => - Q i j) (fun i j => - A j i) /\ Inverse m U Ui /\
      (OneSided m T -> Symmetric m X /\ equal m (mmul m (fun i j => A i j - mmul m G X i j) U) (mmul m U T)).
Proof.
  intros gees gels m n p A B C G Q H0 WG WQ SG SQ GE LS.
  set (H := care_hamiltonian m n p A B C H0).
  assert (BL : Blocks m H A (fun i j => - G i j) (fun i j => - Q i j) (fun i j => - A j i)).
  { intros i j Hi Hj. destruct (hamiltonian_ok m n p A B C H0 i j Hi Hj) as (B1 & B2 & B3 & B4).
    rewrite (weight_g m n B G WG i j Hi Hj) in B2. rewrite (weight_q m p C Q WQ i j Hi Hj) in B3. auto. }
  assert (SEL : forall re im, care_select re im = true <-> re < 0).
  { intros re im. unfold care_select. destruct (Rlt_dec re 0); split; intros; auto; try discriminate; contradiction. }
  destruct (GE care_select H SEL BL) as [INV [Ui UI]].
  set (r := gees care_select (2 * m)%nat H) in *.
  set (rhs := fun i j => g_vs r (m + j)%nat i).
  pose proof (LS (g_vs r) rhs (ex_intro _ Ui UI)) as SX.
  exists (snd (gels m (g_vs r) rhs)). split; [reflexivity|]. split.
  - exact (riccati_x m A G Q H (g_vs r) (g_t r) BL INV Ui _ UI SX SG SQ).
  - exists H, (g_vs r), (g_t r), Ui. split; [exact INV|]. split; [exact BL|]. split; [exact UI|]. intros OS.
    pose proof (x_sym m A G Q H (g_vs r) (g_t r) BL INV Ui _ UI SX SG SQ OS) as S. split; [exact S|].
    exact (closed_loop m A G Q H (g_vs r) (g_t r) BL INV _ SX S).
Qed.
Print Assumptions C117_solution.

(** products B B^T and C^T C are symmetric: nothing is asked of B and C that are not square *)
Theorem C117_weights : forall m n p B C G Q, n <> m -> p <> m -> ControlWeight m n B G -> StateWeight m p C Q ->
  Symmetric m G /\ Symmetric m Q.
Proof.
  intros m n p B C G Q N P WG WQ. split; intros i j Hi Hj; unfold transposed.
  - rewrite <- (weight_g m n B G WG i j Hi Hj), <- (weight_g m n B G WG j i Hj Hi). exact (gmat_sym m n B N i j Hi Hj).
  - rewrite <- (weight_q m p C Q WQ i j Hi Hj), <- (weight_q m p C Q WQ j i Hj Hi). exact (qmat_sym m p C P i j Hi Hj).
Qed.
Print Assumptions C117_weights.

(** a triangular Schur form with negative diagonal, the case of real eigenvalues, meets the condition for symmetry *)
Theorem C117_real_eigenvalues : forall m T,
  (forall i j, (j < i < m)%nat -> T i j = 0) -> (forall i, (i < m)%nat -> T i i < 0) -> OneSided m T.
Proof. exact triangular_one_sided. Qed.
Print Assumptions C117_real_eigenvalues.

(** 0 is returned whatever LAPACK reports, also for equations that have no solution *)
Theorem C117_reports_success_refuted :
  (forall gees gels m n p A B C H0, fst (care_laub gees gels m n p A B C H0) = 0%Z) /\
  (exists A G Q, forall X, ~ Solution 1 A G Q X).
Proof.
  split; [reflexivity|].
  exists (fun _ _ => 0), (fun _ _ => 0), (fun _ _ => 1). intros X S. specialize (S 0%nat 0%nat ltac:(lia) ltac:(lia)).
  unfold riccati, mmul, transposed in S. simpl in S. lra.
Qed.
Print Assumptions C117_reports_success_refuted.

(** a square B is not squared: the equation solved with B = 2 is the one with 2, where B = (2 0) gives 4 *)
Theorem C117_square_refuted : exists B B' G G',
  ControlWeight 1 1 B G /\ ControlWeight 1 2 B' G' /\ equal 1 (mmul 1 B (transposed B)) (mmul 2 B' (transposed B')) /\
  ~ equal 1 G G'.
Proof.
  exists (fun _ _ => 2), (fun _ k => match k with O => 2 | _ => 0 end), (fun _ _ => 2), (fun _ _ => 4).
  split; [|split; [|split]].
  - split; [intros _ i j _ _; reflexivity|lia].
  - split; [lia|]. intros _ i j Hi Hj. unfold mmul, transposed. simpl. lra.
  - intros i j Hi Hj. unfold mmul, transposed. simpl. lra.
  - intros E. specialize (E 0%nat 0%nat ltac:(lia) ltac:(lia)). cbv beta in E. lra.
Qed.
Print Assumptions C117_square_refuted.

(** A = 0, B = C = 1: the subspace spanned by (1,1), and X = 1 *)
Definition ex_gees (_ : R -> R -> bool) (_ : nat) (_ : mat) : gees_res := mkGees 0%Z 1 (fun _ _ => -1) (fun _ _ => 1).
Definition ex_gels (_ : nat) (U rhs : mat) : Z * mat := (0%Z, fun i j => rhs i j / U 0%nat 0%nat).
Example C117_nonvacuous : exists X,
  care_laub ex_gees ex_gels 1 1 1 (fun _ _ => 0) (fun _ _ => 1) (fun _ _ => 1) (fun _ _ => 0) = (0%Z, X) /\
  Solution 1 (fun _ _ => 0) (fun _ _ => 1) (fun _ _ => 1) X /\ X 0%nat 0%nat = 1.
Proof.
  destruct (C117_solution ex_gees ex_gels 1 1 1 (fun _ _ => 0) (fun _ _ => 1) (fun _ _ => 1) (fun _ _ => 1) (fun _ _ => 1) (fun _ _ => 0))
    as (X & E & S & _).
  - split; [intros _ i j _ _; reflexivity|lia].
  - split; [intros _ i j _ _; reflexivity|lia].
  - intros i j _ _. reflexivity.
  - intros i j _ _. reflexivity.
  - intros sel H _ BL. destruct (BL 0%nat 0%nat ltac:(lia) ltac:(lia)) as (B1 & B2 & B3 & B4). simpl in B2, B3, B4.
    split.
    + intros i j Hi Hj. unfold mmul, ex_gees. simpl. assert (D : i = 0%nat \/ i = 1%nat) by lia.
      destruct D as [-> | ->]; [rewrite B1, B2|rewrite B3, B4]; lra.
    + exists (fun _ _ => 1). split; intros i j Hi Hj; assert (i = 0%nat) by lia; assert (j = 0%nat) by lia; subst;
        unfold mmul, ex_gees, delta; simpl; lra.
  - intros U rhs [Ui [I _]] i j Hi Hj. specialize (I 0%nat 0%nat ltac:(lia) ltac:(lia)).
    assert (i = 0%nat) by lia. assert (j = 0%nat) by lia. subst. unfold mmul, transposed, ex_gels, delta in *. simpl in *.
    assert (U 0%nat 0%nat <> 0) by (intros Z; rewrite Z in I; lra). field. assumption.
  - exists X. split; [exact E|]. split; [exact S|]. unfold care_laub in E. injection E as <-. simpl. field.
Qed.
