(** Memory pools and region lists (src/mem.c), on top of the region model. *)
From Coq Require Import ZArith List Bool.
From Verif Require Import RegionModel.
Import ListNotations.
Open Scope Z_scope.

(** Little-endian words in byte memory (the library's targets). *)
Fixpoint le_bytes (n : nat) (v : Z) : list Z :=
  match n with O => [] | S m => v mod 256 :: le_bytes m (v / 256) end.
Fixpoint le_val (l : list Z) : Z :=
  match l with [] => 0 | b :: r => b + 256 * le_val r end.
Definition read_bytes (mem : Z -> Z) (p : Z) (n : nat) : list Z :=
  map (fun i => mem (p + Z.of_nat i)) (seq 0 n).

(** [*(void** )p] and [*(void** )p = v] *)
Definition load64 (mem : Z -> Z) (p : Z) : Z := le_val (read_bytes mem p 8).
Definition store64 (mem : Z -> Z) (p v : Z) : Z -> Z := write_bytes mem p (le_bytes 8 v).

Definition with_mem (s : rstate) (mem : Z -> Z) : rstate := mkR (rhead s) (rchunks s) mem.

(** * Pools *)

(** include/amino/mem.h: aa_mem_pool_t *)
Record pool := mkP { preg : rstate; ptop : Z; psize : Z }.

(** mem.c 360-364: aa_mem_pool_init.  [pool->size * count] is assumed not to
    overflow size_t. *)
Definition pool_init (m : mallocF) (size count : Z) (mem : Z -> Z) : outcome pool :=
  let sz := Z.max size 16 in
  bind (region_init m (sz * count) mem) (fun r => Ok (mkP r 0 sz)).

(** mem.c 370-380: aa_mem_pool_alloc *)
Definition pool_alloc (m : mallocF) (p : pool) : outcome (Z * pool) :=
  if negb (ptop p =? 0)
  then Ok (ptop p, mkP (preg p) (load64 (rmem (preg p)) (ptop p)) (psize p))
  else bind (region_alloc m (preg p) (psize p))
            (fun '(a, r) => Ok (a, mkP r (ptop p) (psize p))).

(** mem.c 382-385: aa_mem_pool_free *)
Definition pool_free (p : pool) (a : Z) : pool :=
  mkP (with_mem (preg p) (store64 (rmem (preg p)) a (ptop p))) a (psize p).

(** mem.c 387-390: aa_mem_pool_release *)
Definition pool_release (m : mallocF) (p : pool) : outcome pool :=
  bind (region_release m (preg p)) (fun r => Ok (mkP r 0 (psize p))).

Inductive pop_op :=
| PAlloc                          (* aa_mem_pool_alloc *)
| PFree (a : Z)                   (* aa_mem_pool_free *)
| PRelease                        (* aa_mem_pool_release *)
| PWrite (a off v : Z).           (* client: ((char* )a)[off] = v *)

Definition pool_op (m : mallocF) (p : pool) (o : pop_op) : outcome (Z * pool) :=
  match o with
  | PAlloc => pool_alloc m p
  | PFree a => Ok (0, pool_free p a)
  | PRelease => bind (pool_release m p) (fun p' => Ok (0, p'))
  | PWrite a off v =>
      Ok (0, mkP (with_mem (preg p) (fun x => if x =? a + off then v else rmem (preg p) x))
                 (ptop p) (psize p))
  end.

(** * Region lists.  struct aa_mem_rlist at address L: reg at L, head at L+8,
    tailp at L+16 (mem.h 462-466); struct aa_mem_cons at a: data at a, next at
    a+8 (mem.h 451-454). *)
Definition f_head (L : Z) := L + 8.
Definition f_tailp (L : Z) := L + 16.
Definition f_data (a : Z) := a.
Definition f_next (a : Z) := a + 8.

Definition st (s : rstate) (p v : Z) : rstate := with_mem s (store64 (rmem s) p v).
Definition ld (s : rstate) (p : Z) : Z := load64 (rmem s) p.

(** mem.c 397-403: aa_mem_rlist_alloc; the reg field is written with [regaddr] *)
Definition rlist_alloc (m : mallocF) (s : rstate) (regaddr : Z) : outcome (Z * rstate) :=
  bind (region_alloc m s 24)
       (fun '(L, s) => Ok (L, st (st (st s L regaddr) (f_head L) 0) (f_tailp L) (f_head L))).

(** mem.c 406-412: aa_mem_cons_cpy; the n bytes at p are given as a list *)
Definition cons_cpy (m : mallocF) (s : rstate) (src : list Z) (next : Z) : outcome (Z * rstate) :=
  bind (region_alloc m s (16 + Z.of_nat (length src)))
       (fun '(a, s) =>
          let s := st (st s (f_data a) (a + 16)) (f_next a) next in
          Ok (a, with_mem s (write_bytes (rmem s) (ld s (f_data a)) src))).

(** mem.c 414-419: aa_mem_cons_ptr *)
Definition cons_ptr (m : mallocF) (s : rstate) (p next : Z) : outcome (Z * rstate) :=
  bind (region_alloc m s 16)
       (fun '(a, s) => Ok (a, st (st s (f_data a) p) (f_next a) next)).

(** mem.c 422-426: aa_mem_rlist_push_cons *)
Definition push_cons (s : rstate) (L node : Z) : rstate :=
  let s := st s (f_head L) node in
  if f_head L =? ld s (f_tailp L) then st s (f_tailp L) (f_next node) else s.

(** mem.c 428-436 *)
Definition push_cpy (m : mallocF) (s : rstate) (L : Z) (src : list Z) : outcome rstate :=
  bind (cons_cpy m s src (ld s (f_head L))) (fun '(a, s) => Ok (push_cons s L a)).
Definition push_ptr (m : mallocF) (s : rstate) (L p : Z) : outcome rstate :=
  bind (cons_ptr m s p (ld s (f_head L))) (fun '(a, s) => Ok (push_cons s L a)).

(** mem.c 439-442: aa_mem_rlist_enqueue_cons *)
Definition enqueue_cons (s : rstate) (L node : Z) : rstate :=
  let s := st s (ld s (f_tailp L)) node in
  st s (f_tailp L) (f_next node).

(** mem.c 444-452 *)
Definition enqueue_cpy (m : mallocF) (s : rstate) (L : Z) (src : list Z) : outcome rstate :=
  bind (cons_cpy m s src 0) (fun '(a, s) => Ok (enqueue_cons s L a)).
Definition enqueue_ptr (m : mallocF) (s : rstate) (L p : Z) : outcome rstate :=
  bind (cons_ptr m s p 0) (fun '(a, s) => Ok (enqueue_cons s L a)).

(** mem.c 455-464: aa_mem_rlist_pop *)
Definition rlist_pop (s : rstate) (L : Z) : Z * rstate :=
  if ld s (f_head L) =? 0 then (0, s)
  else
    let node := ld s (f_head L) in
    let s := st s (f_head L) (ld s (f_next node)) in
    let s := if ld s (f_head L) =? 0 then st s (f_tailp L) (f_head L) else s in
    (ld s (f_data node), s).

(** mem.c 466-474: aa_mem_rlist_map; the function is called with these data
    pointers in this order.  [None]: the fuel ran out. *)
Fixpoint map_walk (fuel : nat) (s : rstate) (c : Z) : option (list Z) :=
  if c =? 0 then Some []
  else match fuel with
       | O => None
       | S f => match map_walk f s (ld s (f_next c)) with
                | Some l => Some (ld s (f_data c) :: l)
                | None => None
                end
       end.
Definition rlist_map (fuel : nat) (s : rstate) (L : Z) : option (list Z) :=
  map_walk fuel s (ld s (f_head L)).

Inductive lop :=
| LPushPtr (p : Z) | LPushCpy (src : list Z)
| LEnqPtr (p : Z) | LEnqCpy (src : list Z)
| LPop
| LOther (n : Z).      (* any other allocation from the same region *)

Definition rlist_op (m : mallocF) (s : rstate) (L : Z) (o : lop) : outcome (Z * rstate) :=
  match o with
  | LPushPtr p => bind (push_ptr m s L p) (fun s => Ok (0, s))
  | LPushCpy src => bind (push_cpy m s L src) (fun s => Ok (0, s))
  | LEnqPtr p => bind (enqueue_ptr m s L p) (fun s => Ok (0, s))
  | LEnqCpy src => bind (enqueue_cpy m s L src) (fun s => Ok (0, s))
  | LPop => Ok (rlist_pop s L)
  | LOther n => region_alloc m s n
  end.
