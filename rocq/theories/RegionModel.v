(** Model of the region allocator, /repo/src/mem.c lines 65-256 and
    /repo/include/amino/mem.h lines 99-304.

    Simplifications, valid for the whole file:
    - addresses are elements of [Z]; memory is a total map from addresses to
      byte values, the set of chunks says which addresses are owned;
    - [malloc] is an oracle which is shown the chunks that are live at the time
      of the call and answers with an address for the data part of the chunk
      and the (arbitrary) initial contents, or refuses;
    - the 16-byte chunk header (mem.h 170-175: fields [end] and [next]) is not
      stored in the byte memory; its address range is part of what malloc must
      keep disjoint. *)
From Coq Require Import ZArith List Bool.
Import ListNotations.
Open Scope Z_scope.

(** mem.h 164: #define AA_MEMREG_ALIGN 16 *)
Definition MEMREG_ALIGN : Z := 16.

(** mem.h 103: AA_ALIGN2(val, align) = ((val) + (align) - 1) & ~(align-1);
    mem.c 84-88: aa_mem_region_alignptr. *)
Definition alignptr (p : Z) : Z :=
  Z.land (p + MEMREG_ALIGN - 1) (Z.lnot (MEMREG_ALIGN - 1)).

(** mem.h 170-175: struct aa_mem_region_node; [cbase] is the address of [d],
    [cend] the field [end].  The header occupies [cbase-16, cbase). *)
Record chunk := mkChunk { cbase : Z; cend : Z }.

(** mem.h 199-217: struct aa_mem_region ([head], list of nodes, top first) and
    the byte memory. *)
Record rstate := mkR { rhead : Z; rchunks : list chunk; rmem : Z -> Z }.

(** Outcomes: normal return, refused malloc (the code dereferences the result
    without a check, mem.c 68-70), failed assert, undefined behaviour. *)
Inductive fault := NoMem | AssertFail | NullNode | PtrOverflow | UseAfterFree | HugeCopy.
Inductive outcome (A : Type) := Ok (a : A) | Fault (f : fault).
Arguments Ok {A} a.
Arguments Fault {A} f.

Definition bind {A B} (o : outcome A) (f : A -> outcome B) : outcome B :=
  match o with Ok a => f a | Fault e => Fault e end.

Definition assert_then {A} (b : bool) (o : outcome A) : outcome A :=
  if b then o else Fault AssertFail.

(** The malloc oracle: live chunks -> data bytes wanted -> data address and
    initial contents. *)
Definition mallocF := list chunk -> Z -> option (Z * (Z -> Z)).

(** size_t arithmetic *)
Definition W64 : Z := 2 ^ 64.
Definition wrap64 (x : Z) : Z := x mod W64.

(** Overwrite [n] bytes at [a]. *)
Definition fill (mem : Z -> Z) (a n : Z) (f : Z -> Z) : Z -> Z :=
  fun x => if (a <=? x) && (x <? a + n) then f x else mem x.

(** memcpy of a list of bytes to address [a]. *)
Fixpoint write_bytes (mem : Z -> Z) (a : Z) (l : list Z) : Z -> Z :=
  match l with
  | [] => mem
  | v :: r => write_bytes (fun x => if x =? a then v else mem x) (a + 1) r
  end.

(** mem.c 65-74: aa_mem_region_node_alloc(n, next), followed by making the new
    node the top node with an aligned head (as all callers do). *)
Definition node_alloc (m : mallocF) (n : Z) (next : list chunk) (mem : Z -> Z)
  : outcome rstate :=
  match m next (n + MEMREG_ALIGN) with
  | None => Fault NoMem
  | Some (a, junk) =>
      Ok (mkR (alignptr a)
              (mkChunk a (a + n + MEMREG_ALIGN) :: next)
              (fill mem a (n + MEMREG_ALIGN) junk))
  end.

(** mem.c 95-100: aa_mem_region_init *)
Definition region_init (m : mallocF) (size : Z) (mem : Z -> Z) : outcome rstate :=
  node_alloc m size [] mem.

(** mem.c 111-120: aa_mem_region_destroy *)
Definition region_destroy (s : rstate) : rstate := mkR (rhead s) [] (rmem s).

(** mem.c 122-124: aa_mem_region_ptr *)
Definition region_ptr (s : rstate) : Z := rhead s.

Definition top (s : rstate) : option chunk := hd_error (rchunks s).

(** mem.c 126-129: aa_mem_region_freesize *)
Definition region_freesize (s : rstate) : Z :=
  match rchunks s with
  | [] => 0
  | c :: _ => if cend c <=? rhead s then 0 else cend c - rhead s
  end.

(** mem.c 243-245: aa_mem_region_topsize *)
Definition region_topsize (s : rstate) : Z :=
  match rchunks s with [] => 0 | c :: _ => cend c - cbase c end.

(** mem.c 235-240: aa_mem_region_chunk_count *)
Definition region_chunk_count (s : rstate) : nat := length (rchunks s).

(** mem.c 131-133: aa_mem_region_pop_in_node *)
Definition pop_in_node (p : Z) (c : chunk) : bool :=
  (cbase c <=? p) && (p <? cend c).

(** mem.c 145-149: the loop freeing chunks above the one containing [p];
    returns the accumulated size [n] and the remaining chunks. *)
Fixpoint pop_walk (p n : Z) (cs : list chunk) : Z * list chunk :=
  match cs with
  | [] => (n, [])
  | c :: r => if pop_in_node p c then (n, cs)
              else pop_walk p (n + (cend c - cbase c)) r
  end.

(** mem.c 136-166: aa_mem_region_pop *)
Definition region_pop (m : mallocF) (s : rstate) (p : Z) : outcome rstate :=
  match rchunks s with
  | [] => Fault NullNode
  | c :: rest =>
      if pop_in_node p c then
        Ok (mkR (alignptr p) (rchunks s) (rmem s))
      else
        let '(n, cs) := pop_walk p (cend c - cbase c) rest in
        match cs with
        | [] => (* p == NULL: popsize 0, next NULL *)
            node_alloc m n [] (rmem s)
        | q :: cs' =>
            let popsize := cend q - p in
            assert_then ((cbase q <=? p) && (p <=? cend q))
            (assert_then (if cbase q <? p
                          then popsize <? cend q - cbase q
                          else (p =? cbase q) && (popsize =? cend q - cbase q))
            (node_alloc m (n + popsize)
                        (if alignptr (cbase q) =? p then cs' else cs)
                        (rmem s)))
        end
  end.

(** mem.c 168-180: aa_mem_region_grow *)
Definition region_grow (m : mallocF) (s : rstate) (size : Z) : outcome rstate :=
  match rchunks s with
  | [] => Fault NullNode
  | c :: rest =>
      let nsize := Z.max (wrap64 (2 * (cend c - cbase c)))
                         (wrap64 (size + MEMREG_ALIGN)) in
      bind (node_alloc m nsize
                       (if alignptr (cbase c) =? rhead s then rest else c :: rest)
                       (rmem s))
           (fun s' =>
              assert_then (size <=? region_freesize s')
              (assert_then (rhead s' mod 16 =? 0) (Ok s')))
  end.

(** mem.c 182-189: aa_mem_region_tmpalloc.  [region->head + size] must not
    leave the address space; C makes that undefined. *)
Definition region_tmpalloc (m : mallocF) (s : rstate) (size : Z)
  : outcome (Z * rstate) :=
  match rchunks s with
  | [] => Fault NullNode
  | c :: _ =>
      if W64 <=? rhead s + size then Fault PtrOverflow
      else if cend c <? rhead s + size
      then bind (region_grow m s size) (fun s' => Ok (rhead s', s'))
      else Ok (rhead s, s)
  end.

(** mem.c 191-202: aa_mem_region_tmprealloc.  [old_size] is computed in size_t.
    The copy reads the old scratch bytes after [tmpalloc]; if the chunk they
    live in is no longer owned this is a use after free; if [old_size] wrapped
    the copy is far larger than either buffer. *)
Definition owned (cs : list chunk) (a : Z) : bool :=
  existsb (fun c => (cbase c <=? a) && (a <? cend c)) cs.

Definition region_tmprealloc (m : mallocF) (s : rstate) (size : Z)
  : outcome (Z * rstate) :=
  match rchunks s with
  | [] => Fault NullNode
  | c :: rest =>
      let old_ptr := rhead s in
      let old_size := wrap64 (cend c - rhead s) in
      bind (region_tmpalloc m s size)
        (fun '(new_ptr, s') =>
           if old_ptr =? new_ptr then Ok (new_ptr, s')
           else if old_size =? 0 then Ok (new_ptr, s')
           else if cend c <? rhead s then Fault HugeCopy
           else if negb (existsb (fun d => (cbase d =? cbase c) && (cend d =? cend c))
                                 (tl (rchunks s')))
           then Fault UseAfterFree
           else Ok (new_ptr,
                    mkR (rhead s') (rchunks s')
                        (fill (rmem s') new_ptr old_size
                              (fun x => rmem s' (x - new_ptr + old_ptr)))))
  end.

(** mem.c 204-215: aa_mem_region_alloc *)
Definition region_alloc (m : mallocF) (s : rstate) (size : Z)
  : outcome (Z * rstate) :=
  match rchunks s with
  | [] => Fault NullNode
  | c :: _ =>
      if W64 <=? rhead s + size then Fault PtrOverflow
      else
        bind (if cend c <? rhead s + size then region_grow m s size else Ok s)
             (fun s' =>
                let p := rhead s' in
                Ok (p, mkR (alignptr (rhead s' + size)) (rchunks s') (rmem s')))
  end.

(** mem.c 217-222: aa_mem_region_zalloc *)
Definition region_zalloc (m : mallocF) (s : rstate) (size : Z)
  : outcome (Z * rstate) :=
  bind (region_alloc m s size)
       (fun '(p, s') => Ok (p, mkR (rhead s') (rchunks s')
                                   (fill (rmem s') p size (fun _ => 0)))).

(** mem.c 224-228: aa_mem_region_dup, the source bytes given as a list *)
Definition region_dup (m : mallocF) (s : rstate) (src : list Z)
  : outcome (Z * rstate) :=
  bind (region_alloc m s (Z.of_nat (length src)))
       (fun '(p, s') => Ok (p, mkR (rhead s') (rchunks s')
                                   (write_bytes (rmem s') p src))).

(** mem.c 247-256: aa_mem_region_release *)
Definition region_release (m : mallocF) (s : rstate) : outcome rstate :=
  match rchunks s with
  | [] => Fault NullNode
  | [c] => Ok (mkR (cbase c) [c] (rmem s))
  | cs =>
      let n := fold_left (fun acc c => acc + (cend c - cbase c)) cs 0 in
      bind (node_alloc m n [] (rmem s))
           (fun s' => match rchunks s' with
                      | [] => Fault NullNode
                      | c :: _ => Ok (mkR (cbase c) (rchunks s') (rmem s'))
                      end)
  end.

(** Operations of the library together with the stores a client makes through
    the pointers it holds. *)
Inductive rop :=
| OAlloc (n : Z)                       (* aa_mem_region_alloc *)
| OZalloc (n : Z)                      (* aa_mem_region_zalloc *)
| ODup (src : list Z)                  (* aa_mem_region_dup *)
| OTmp (n : Z) (src : list Z)          (* aa_mem_region_tmpalloc, then store src there *)
| OMark                                (* aa_mem_region_ptr *)
| OPop (p : Z)                         (* aa_mem_region_pop *)
| ORelease                             (* aa_mem_region_release *)
| OWrite (p off : Z) (v : Z).          (* client: p[off] = v *)

(** One call; the pointer result is 0 for calls without result. *)
Definition region_op (m : mallocF) (s : rstate) (o : rop) : outcome (Z * rstate) :=
  match o with
  | OAlloc n => region_alloc m s n
  | OZalloc n => region_zalloc m s n
  | ODup src => region_dup m s src
  | OTmp n src =>
      bind (region_tmpalloc m s n)
           (fun '(p, s') => Ok (p, mkR (rhead s') (rchunks s')
                                       (write_bytes (rmem s') p src)))
  | OMark => Ok (region_ptr s, s)
  | OPop p => bind (region_pop m s p) (fun s' => Ok (0, s'))
  | ORelease => bind (region_release m s) (fun s' => Ok (0, s'))
  | OWrite p off v =>
      Ok (0, mkR (rhead s) (rchunks s)
                 (fun x => if x =? p + off then v else rmem s x))
  end.

(** mem.c 204-215 once more, as executed on a flat 64-bit machine where
    [region->head + size] wraps around instead of being undefined. *)
Definition region_alloc_flat (m : mallocF) (s : rstate) (size : Z)
  : outcome (Z * rstate) :=
  match rchunks s with
  | [] => Fault NullNode
  | c :: _ =>
      bind (if cend c <? wrap64 (rhead s + size) then region_grow m s size else Ok s)
           (fun s' =>
              let p := rhead s' in
              Ok (p, mkR (alignptr (wrap64 (rhead s' + size))) (rchunks s') (rmem s')))
  end.
