From Coq Require Import ZArith List Sorted.
From Verif Require Import HeapModel.
Import ListNotations.

(** [x] is not smaller than [y] under the comparison function. *)
Definition ge_by {A} (cmp : A -> A -> Z) (x y : A) : Prop := ~ (cmp x y < 0)%Z.

(** The comparison function orders its arguments: of two elements at most one is
    smaller, and "not smaller" is transitive.  (Equality of keys may identify
    distinct elements.) *)
Definition total_preorder {A} (cmp : A -> A -> Z) : Prop :=
  (forall x y, (cmp x y < 0)%Z -> ge_by cmp y x) /\
  (forall x y z, ge_by cmp x y -> ge_by cmp y z -> ge_by cmp x z).

(** Every later element is not smaller than every earlier one. *)
Definition non_decreasing {A} (cmp : A -> A -> Z) (l : list A) : Prop :=
  forall i j x y, (i < j)%nat -> nth_error l i = Some x -> nth_error l j = Some y -> ge_by cmp y x.

(** The parent at index [i] dominates its child at [j]. *)
Definition dominates {A} (cmp : A -> A -> Z) (l : list A) (i j : nat) : Prop :=
  forall x y, nth_error l i = Some x -> nth_error l j = Some y -> ge_by cmp x y.
Definition is_child (i j : nat) : Prop := (j = 2 * i + 1 \/ j = 2 * i + 2)%nat.

(** Max-heap order of the first [n] elements. *)
Definition is_heap {A} (cmp : A -> A -> Z) (l : list A) (n : nat) : Prop :=
  forall i j, is_child i j -> (j < n)%nat -> dominates cmp l i j.
