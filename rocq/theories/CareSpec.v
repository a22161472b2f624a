(** What users of the Riccati solver rely on, and what is assumed of LAPACK.  No model helpers. *)
From Coq Require Import Reals Arith List Bool.
From Verif Require Import MatModel LaSpec.
Open Scope R_scope.

Definition equal (m : nat) (A B : nat -> nat -> R) : Prop :=
  forall i j, (i < m)%nat -> (j < m)%nat -> A i j = B i j.
Definition transposed (A : nat -> nat -> R) : nat -> nat -> R := fun i j => A j i.
(** the left side of the Riccati equation, A^T X + X A - X G X + Q *)
Definition riccati (m : nat) (A G Q X : nat -> nat -> R) : nat -> nat -> R := fun i j =>
  mmul m (transposed A) X i j + mmul m X A i j - mmul m X (mmul m G X) i j + Q i j.
Definition Solution (m : nat) (A G Q X : nat -> nat -> R) : Prop := equal m (riccati m A G Q X) (fun _ _ => 0).
Definition Symmetric (m : nat) (A : nat -> nat -> R) : Prop := equal m (transposed A) A.
Definition Inverse (m : nat) (U V : nat -> nat -> R) : Prop := equal m (mmul m U V) delta /\ equal m (mmul m V U) delta.

(** the matrix made of four blocks *)
Definition Blocks (m : nat) (H A11 A12 A21 A22 : nat -> nat -> R) : Prop :=
  forall i j, (i < m)%nat -> (j < m)%nat ->
    H i j = A11 i j /\ H i (m + j)%nat = A12 i j /\ H (m + i)%nat j = A21 i j /\ H (m + i)%nat (m + j)%nat = A22 i j.
(** The columns of V span an invariant subspace of H on which H acts as T: the first k columns of an ordered Schur
    decomposition of which k eigenvalues were selected *)
Definition Invariant (N k : nat) (H V T : nat -> nat -> R) : Prop :=
  forall i j, (i < N)%nat -> (j < k)%nat -> mmul N H V i j = mmul k V T i j.
(** No two eigenvalues of T add up to zero, as when all have negative real part: only zero solves T^T W + W T = 0 *)
Definition OneSided (m : nat) (T : nat -> nat -> R) : Prop :=
  forall W, equal m (fun i j => mmul m (transposed T) W i j + mmul m W T i j) (fun _ _ => 0) -> equal m W (fun _ _ => 0).
(** the matrix G of the equation: B itself if it is square, otherwise B B^T; and Q: C itself, or C^T C *)
Definition ControlWeight (m n : nat) (B G : nat -> nat -> R) : Prop :=
  (n = m -> equal m G B) /\ (n <> m -> equal m G (mmul n B (transposed B))).
Definition StateWeight (m p : nat) (C Q : nat -> nat -> R) : Prop :=
  (p = m -> equal m Q C) /\ (p <> m -> equal m Q (mmul p (transposed C) C)).
