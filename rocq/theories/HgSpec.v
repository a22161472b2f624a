(** The assignment problem, independently of how it is solved. *)
From Coq Require Import List Arith ZArith Reals.
Import ListNotations.

(** L pairs rows 0..m-1 with columns 0..n-1 one-to-one, and pairs as many as possible *)
Definition matching (m n : nat) (L : list (nat * nat)) : Prop :=
  (forall i j, In (i, j) L -> i < m /\ j < n) /\ NoDup (map fst L) /\ NoDup (map snd L) /\ length L = Nat.min m n.
(** the sum of the costs of the pairs of L *)
Fixpoint total (A : nat -> nat -> R) (L : list (nat * nat)) : R :=
  match L with [] => 0%R | (i, j) :: L' => (A i j + total A L')%R end.
Definition min_assignment (m n : nat) (A : nat -> nat -> R) (L : list (nat * nat)) : Prop :=
  matching m n L /\ forall L', matching m n L' -> (total A L <= total A L')%R.
Definition max_assignment (m n : nat) (A : nat -> nat -> R) (L : list (nat * nat)) : Prop :=
  matching m n L /\ forall L', matching m n L' -> (total A L' <= total A L)%R.
(** row maps every row to its column in L, or to -1 *)
Definition row_vector (m : nat) (L : list (nat * nat)) (row : nat -> Z) : Prop :=
  forall i, i < m -> (exists j, In (i, j) L /\ row i = Z.of_nat j) \/ ((forall j, ~ In (i, j) L) /\ row i = (-1)%Z).
(** col maps every column to its row in L, or to -1 *)
Definition col_vector (n : nat) (L : list (nat * nat)) (col : nat -> Z) : Prop :=
  forall j, j < n -> (exists i, In (i, j) L /\ col j = Z.of_nat i) \/ ((forall i, ~ In (i, j) L) /\ col j = (-1)%Z).
