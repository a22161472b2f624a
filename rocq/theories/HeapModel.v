(** src/heap.c: array heaps and heap sort.  An array of [nmemb] elements of [size]
    bytes is a list; exchanging two elements is aa_memswap (C12). [None] is an
    access outside the array or an exhausted step budget. *)
From Coq Require Import ZArith List Bool.
From Verif Require Import BitsModel.
Import ListNotations.
Open Scope nat_scope.

Section Heap.
  Context {A : Type} (compar : A -> A -> Z).

  (** heap.c 46-47 *)
  Definition heap_left (i : nat) : nat := 2 * i + 1.
  Definition heap_right (i : nat) : nat := heap_left i + 1.

  (** [0 > compar(&base[i*size], &base[j*size])] *)
  Definition below (l : list A) (i j : nat) : option bool :=
    match nth_error l i, nth_error l j with
    | Some x, Some y => Some (compar x y <? 0)%Z
    | _, _ => None
    end.

  (** aa_memswap(&base[i*size], &base[j*size], size) *)
  Definition swap (l : list A) (i j : nat) : option (list A) :=
    match nth_error l i, nth_error l j with
    | Some x, Some y => Some (set_nth (set_nth l i y) j x)
    | _, _ => None
    end.

  (** [c < nmemb && 0 > compar(base[i], base[c])], short-circuit *)
  Definition child_above (l : list A) (nmemb i c : nat) : option bool :=
    if c <? nmemb then below l i c else Some false.

  (** heap.c 67-98: aa_aheap_heapify *)
  Fixpoint heapify (fuel : nat) (l : list A) (nmemb i : nat) : option (list A) :=
    match fuel with
    | O => None
    | S f =>
        let i_l := heap_left i in
        let i_r := heap_right i in
        match child_above l nmemb i i_l with
        | None => None
        | Some bl =>
            let i_top := if bl then i_l else i in
            match child_above l nmemb i_top i_r with
            | None => None
            | Some br =>
                let i_top := if br then i_r else i_top in
                if negb (i_top =? i)
                then match swap l i i_top with
                     | Some l' => heapify f l' nmemb i_top
                     | None => None
                     end
                else Some l
            end
        end
    end.

  (** heap.c 101-108: aa_aheap_build; [k] counts from nmemb/2 down to 0 *)
  Fixpoint build_loop (l : list A) (nmemb k : nat) : option (list A) :=
    match heapify (S nmemb) l nmemb k with
    | None => None
    | Some l' => match k with O => Some l' | S k' => build_loop l' nmemb k' end
    end.
  Definition heap_build (l : list A) (nmemb : nat) : option (list A) :=
    build_loop l nmemb (nmemb / 2).

  (** heap.c 115-121: the loop of aa_aheap_sort *)
  Fixpoint sort_loop (l : list A) (i : nat) : option (list A) :=
    match i with
    | O => Some l
    | S i' =>
        match swap l 0 i with
        | None => None
        | Some l1 =>
            match heapify (S i) l1 i 0 with
            | None => None
            | Some l2 => sort_loop l2 i'
            end
        end
    end.

  (** heap.c 110-123: aa_aheap_sort *)
  Definition heap_sort (l : list A) (nmemb : nat) : option (list A) :=
    if nmemb <=? 1 then Some l
    else match heap_build l nmemb with
         | None => None
         | Some l' => sort_loop l' (nmemb - 1)
         end.

  (** heap.c 52-64: aa_aheap_check; the loop over j is unrolled *)
  Fixpoint heap_check (fuel : nat) (l : list A) (nmemb i : nat) : option nat :=
    match fuel with
    | O => None
    | S f =>
        let child (j : nat) (k : option nat) : option nat :=
          if j <? nmemb then
            match below l i j with
            | None => None
            | Some true => Some i
            | Some false =>
                match heap_check f l nmemb j with
                | None => None
                | Some O => k
                | Some r => Some r
                end
            end
          else k in
        child (heap_left i) (child (heap_right i) (Some 0))
    end.
End Heap.
