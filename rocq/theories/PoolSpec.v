(** Client's view of pools and region lists. *)
From Coq Require Import ZArith List Bool.
From Verif Require Import RegionModel RegionSpec PoolModel.
Import ListNotations.
Open Scope Z_scope.

(** Objects in use (with what the client knows of their bytes) and freed
    objects, most recently freed first. *)
Definition pview : Type := stack * list Z.

Definition drop_ptr (a : Z) (l : stack) : stack :=
  filter (fun b => negb (bptr b =? a)) l.

Definition pool_spec (size : Z) (v : pview) (o : pop_op) (ret : Z) : pview :=
  let '(use, freed) := v in
  match o with
  | PAlloc => (mkB ret (repeat None (Z.to_nat size)) :: use, tl freed)
  | PFree a => (drop_ptr a use, a :: freed)
  | PRelease => ([], [])
  | PWrite a off x => (store use a off x, freed)
  end.

Definition pool_legal (v : pview) (o : pop_op) : Prop :=
  match o with
  | PAlloc => True
  | PFree a => exists b, In b (fst v) /\ bptr b = a
  | PRelease => True
  | PWrite a off x => exists b, In b (fst v) /\ bptr b = a /\ 0 <= off < blen b
  end.

(** Pools of objects of [size] bytes, after any history. *)
Inductive pool_reach (size : Z) : pool -> pview -> Prop :=
| pr_init m count mem p :
    malloc_contract m -> 0 <= count -> 0 <= size <= MAXREQ ->
    pool_init m size count mem = Ok p -> pool_reach size p ([], [])
| pr_step m p v o ret p' :
    pool_reach size p v -> malloc_contract m -> pool_legal v o ->
    pool_op m p o = Ok (ret, p') -> pool_reach size p' (pool_spec (psize p) v o ret).

(** Lists: the abstract value is the sequence of elements. *)
Inductive elt := EPtr (p : Z) | ECpy (bytes : list Z).

Definition list_spec (l : list elt) (o : lop) : list elt :=
  match o with
  | LPushPtr p => EPtr p :: l
  | LPushCpy b => ECpy b :: l
  | LEnqPtr p => l ++ [EPtr p]
  | LEnqCpy b => l ++ [ECpy b]
  | LPop => tl l
  | LOther _ => l
  end.

Definition lop_ok (o : lop) : Prop :=
  match o with
  | LPushPtr p | LEnqPtr p => 0 <= p < 2 ^ 64
  | LPushCpy b | LEnqCpy b => Z.of_nat (length b) <= 2 ^ 61
  | LPop => True
  | LOther n => 0 < n <= MAXREQ
  end.

(** The pointer [d] refers to element [e]. *)
Definition denotes (mem : Z -> Z) (d : Z) (e : elt) : Prop :=
  match e with
  | EPtr p => d = p
  | ECpy b => forall i x, nth_error b i = Some x -> mem (d + Z.of_nat i) = x
  end.

(** A list created in a region with any prior (legal) contents, after any
    history of list operations and other allocations. *)
Inductive list_reach : rstate -> Z -> list elt -> Prop :=
| lr_new m s0 k regaddr L s :
    reach s0 k -> malloc_contract m -> rlist_alloc m s0 regaddr = Ok (L, s) ->
    list_reach s L []
| lr_step m s L l o ret s' :
    list_reach s L l -> malloc_contract m -> lop_ok o ->
    rlist_op m s L o = Ok (ret, s') -> list_reach s' L (list_spec l o).
