(** Array heaps: C15 and C16. *)
From Coq Require Import ZArith List Permutation.
From Verif Require Import HeapModel HeapSpec HeapProofs.
Import ListNotations.

(** C15.  aa_aheap_sort terminates without leaving the array and leaves a sorted
    permutation of its input. *)
Theorem C15_heap_sort_sorts : forall (A : Type) (cmp : A -> A -> Z), total_preorder cmp ->
  forall l, exists l', heap_sort cmp l (length l) = Some l' /\
    Permutation l l' /\ non_decreasing cmp l'.
Proof. exact @heap_sort_ok. Qed.
Print Assumptions C15_heap_sort_sorts.

(** C15: aa_aheap_build makes a heap of the first [n] elements and leaves the rest. *)
Theorem C15_heap_build_makes_heap : forall (A : Type) (cmp : A -> A -> Z), total_preorder cmp ->
  forall l n, (n <= length l)%nat ->
  exists l', heap_build cmp l n = Some l' /\ length l' = length l /\ Permutation l l' /\
    (forall k, (n <= k)%nat -> nth_error l' k = nth_error l k) /\ is_heap cmp l' n.
Proof. exact @heap_build_ok. Qed.
Print Assumptions C15_heap_build_makes_heap.

Example C15_nonvacuous : total_preorder (fun x y : Z * Z => (fst x - fst y)%Z) /\
  heap_sort (fun x y : Z * Z => (fst x - fst y)%Z) [(3,0); (1,1); (3,2); (2,3); (1,4)]%Z 5
  = Some [(1,1); (1,4); (2,3); (3,2); (3,0)]%Z.
Proof.
  split; [|vm_compute; reflexivity]. unfold total_preorder, ge_by.
  split; intros; intro; Lia.lia.
Qed.

(** C16, violated: the check returns 0 (no violation) on a non-heap. *)
Theorem C16_heap_check_misses_root_refuted : exists l : list Z,
  heap_check Z.sub 10 l (length l) 0 = Some 0%nat /\ ~ is_heap Z.sub l (length l).
Proof. exact check_root_refuted. Qed.
Print Assumptions C16_heap_check_misses_root_refuted.

(** C16: what does hold.  A non-zero result is the index of a real violation ... *)
Theorem C16_heap_check_nonzero_is_violation : forall (A : Type) (cmp : A -> A -> Z) fuel l n i r,
  heap_check cmp fuel l n i = Some r -> r <> 0%nat ->
  exists j, is_child r j /\ (j < n)%nat /\ ~ dominates cmp l r j.
Proof. exact @check_nonzero. Qed.
Print Assumptions C16_heap_check_nonzero_is_violation.

(** ... a heap yields 0, and 0 means a heap provided the root dominates its children. *)
Theorem C16_heap_check_zero_guarded : forall (A : Type) (cmp : A -> A -> Z) l n,
  (n <= length l)%nat -> (0 < length l)%nat ->
  (is_heap cmp l n -> heap_check cmp (S n) l n 0 = Some 0%nat) /\
  (heap_check cmp (S n) l n 0 = Some 0%nat ->
   (forall j, is_child 0 j -> (j < n)%nat -> dominates cmp l 0 j) -> is_heap cmp l n).
Proof.
  exact (fun A cmp l n Hn H0 => conj (fun H => check_heap_zero cmp l n H Hn H0)
           (fun H => check_zero_root cmp (S n) l n H Hn)).
Qed.
Print Assumptions C16_heap_check_zero_guarded.

Example C16_nonvacuous : heap_check Z.sub 10 [9; 5; 8; 1; 7]%Z 5 0 = Some 1%nat /\
  heap_check Z.sub 10 [9; 7; 8; 1; 5]%Z 5 0 = Some 0%nat.
Proof. vm_compute. split; reflexivity. Qed.
