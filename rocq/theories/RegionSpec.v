(** Specification of the region allocator as seen by a client: a stack of
    blocks.  Nothing here mentions chunks or the bump pointer. *)
From Coq Require Import ZArith List Bool.
From Verif Require Import RegionModel.
Import ListNotations.
Open Scope Z_scope.

(** A block the client holds: its pointer and what the client knows about each
    byte ([None]: not yet written). *)
Record sblock := mkB { bptr : Z; bdata : list (option Z) }.
Definition blen (b : sblock) : Z := Z.of_nat (length (bdata b)).

(** Newest block first. *)
Definition stack := list sblock.

Fixpoint upd {A} (l : list A) (i : nat) (v : A) : list A :=
  match l, i with
  | [], _ => []
  | _ :: r, O => v :: r
  | x :: r, S j => x :: upd r j v
  end.

Definition store (k : stack) (p off v : Z) : stack :=
  map (fun b => if (bptr b =? p) && (0 <=? off) && (off <? blen b)
                then mkB (bptr b) (upd (bdata b) (Z.to_nat off) (Some v))
                else b) k.

(** Remove the block with pointer [p] and everything allocated after it. *)
Fixpoint holds_ptr (p : Z) (k : stack) : bool :=
  match k with [] => false | b :: r => (bptr b =? p) || holds_ptr p r end.
Fixpoint pop_to (p : Z) (k : stack) : stack :=
  match k with
  | [] => []
  | b :: r => if holds_ptr p r then pop_to p r
              else if bptr b =? p then r else k
  end.

(** Effect of a call which returned [ret]. *)
Definition spec_step (k : stack) (o : rop) (ret : Z) : stack :=
  match o with
  | OAlloc n => mkB ret (repeat None (Z.to_nat n)) :: k
  | OZalloc n => mkB ret (repeat (Some 0) (Z.to_nat n)) :: k
  | ODup src => mkB ret (map Some src) :: k
  | OTmp _ _ => k
  | OMark => mkB ret [] :: k
  | OPop p => pop_to p k
  | ORelease => []
  | OWrite p off v => store k p off v
  end.

(** Largest request considered: 2^62 bytes. *)
Definition MAXREQ : Z := 2 ^ 62.

(** What the client must respect.  Marks ([OMark]) are allowed only when the
    top chunk is partly used and not full, which the client can see from
    [aa_mem_region_freesize] and [aa_mem_region_topsize]. *)
Definition legal (s : rstate) (k : stack) (o : rop) : Prop :=
  match o with
  | OAlloc n | OZalloc n => 0 < n <= MAXREQ
  | ODup src => 0 < Z.of_nat (length src) <= MAXREQ
  | OTmp n src => 0 <= n <= MAXREQ /\ Z.of_nat (length src) <= n
  | OMark => 0 < region_freesize s < region_topsize s
  | OPop p => exists b, In b k /\ bptr b = p
  | ORelease => True
  | OWrite p off v => exists b, In b k /\ bptr b = p /\ 0 <= off < blen b
  end.

(** malloc's contract: 16-byte aligned, in the lower half of the address space,
    and (with its 16-byte header) disjoint from everything live. *)
Definition malloc_contract (m : mallocF) : Prop :=
  forall live n a junk, m live n = Some (a, junk) ->
    a mod 16 = 0 /\ 16 < a /\ a + n <= 2 ^ 63 /\
    forall c, In c live -> cend c <= a - 16 \/ a + n <= cbase c - 16.

(** States reachable by a well-behaved client, with the client's view. *)
Inductive reach : rstate -> stack -> Prop :=
| reach_init m size mem s :
    malloc_contract m -> 0 <= size ->
    region_init m size mem = Ok s -> reach s []
| reach_step m s k o ret s' :
    reach s k -> malloc_contract m -> legal s k o ->
    region_op m s o = Ok (ret, s') -> reach s' (spec_step k o ret).

(** The bytes of a block are in memory as the client left them. *)
Definition readable (mem : Z -> Z) (b : sblock) : Prop :=
  forall i v, nth_error (bdata b) i = Some (Some v) ->
              mem (bptr b + Z.of_nat i) = v.

Definition disjoint_blocks (b1 b2 : sblock) : Prop :=
  bptr b1 + blen b1 <= bptr b2 \/ bptr b2 + blen b2 <= bptr b1.

Definition inside (b : sblock) (c : chunk) : Prop :=
  cbase c <= bptr b /\ bptr b + blen b <= cend c.

(** Total number of data bytes in the chunks of a region. *)
Definition capacity (cs : list chunk) : Z :=
  fold_right (fun c acc => (cend c - cbase c) + acc) 0 cs.

(** Space one request takes: rounded up to the next multiple of 16. *)
Definition rounded (n : Z) : Z := 16 * ((n + 15) / 16).

(** Perform a sequence of allocations. *)
Fixpoint allocs (ms : list mallocF) (s : rstate) (sizes : list Z) : outcome rstate :=
  match sizes, ms with
  | n :: r, m :: mr => bind (region_alloc m s n) (fun '(_, s') => allocs mr s' r)
  | _, _ => Ok s
  end.

(** An address belongs to the region. *)
Definition owns (s : rstate) (a : Z) : Prop :=
  exists c, In c (rchunks s) /\ cbase c <= a < cend c.

(** A malloc that answers [a] with contents [junk] whenever its contract allows
    it and refuses otherwise; used to exhibit concrete executions. *)
Definition malloc_at (a : Z) (junk : Z -> Z) : mallocF := fun live n =>
  if (a mod 16 =? 0) && (16 <? a) && (a + n <=? 2 ^ 63) &&
     forallb (fun c => (cend c <=? a - 16) || (a + n <=? cbase c - 16)) live
  then Some (a, junk) else None.

(** Run a list of calls, tracking the client's view. *)
Fixpoint run (s : rstate) (k : stack) (h : list (mallocF * rop)) : outcome (rstate * stack) :=
  match h with
  | [] => Ok (s, k)
  | (m, o) :: r =>
      bind (region_op m s o) (fun '(ret, s') => run s' (spec_step k o ret) r)
  end.

(** The client's own stores, as opposed to library calls. *)
Definition is_write (o : rop) : bool := match o with OWrite _ _ _ => true | _ => false end.
