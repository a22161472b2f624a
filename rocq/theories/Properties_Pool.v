(** Pools and region lists: properties C08 and C09. *)
From Coq Require Import ZArith List.
From Verif Require Import RegionModel RegionSpec PoolModel PoolSpec PoolProofs.
Import ListNotations.
Open Scope Z_scope.

(** C08.  After any history the objects in use are pairwise disjoint, at least as
    large as asked for, aligned, inside memory the pool owns, and hold what the
    client stored. *)
Theorem C08_pool_objects_disjoint_intact : forall size p use freed,
  pool_reach size p (use, freed) ->
  ForallOrdPairs disjoint_blocks use /\
  forall b, In b use ->
    size <= blen b /\ readable (rmem (preg p)) b /\ bptr b mod 16 = 0 /\
    exists c, In c (rchunks (preg p)) /\ inside b c.
Proof. exact pool_objects. Qed.
Print Assumptions C08_pool_objects_disjoint_intact.

(** C08: the last freed object is the next one handed out; no new memory is taken. *)
Theorem C08_pool_reuses_last_freed : forall size m p use a freed,
  pool_reach size p (use, a :: freed) -> malloc_contract m ->
  exists p', pool_alloc m p = Ok (a, p') /\ preg p' = preg p.
Proof. exact pool_lifo. Qed.
Print Assumptions C08_pool_reuses_last_freed.

(** C08: calls of a well-behaved client fail only when malloc does. *)
Theorem C08_pool_legal_calls_succeed : forall size m p v o,
  pool_reach size p v -> malloc_contract m -> pool_legal v o ->
  pool_op m p o = Fault NoMem \/ exists ret p', pool_op m p o = Ok (ret, p').
Proof. exact pool_progress. Qed.
Print Assumptions C08_pool_legal_calls_succeed.

(** C08: an object on the free list overlaps no object in use. *)
Theorem C08_pool_freed_apart : forall size p use freed a b,
  pool_reach size p (use, freed) -> In a freed -> In b use ->
  bptr b + blen b <= a \/ a + size <= bptr b.
Proof. exact pool_freed_apart. Qed.
Print Assumptions C08_pool_freed_apart.

Example C08_nonvacuous : exists p use, pool_reach 20 p (use, [32]) /\ length use = 2%nat.
Proof. exact pool_demo. Qed.

(** C09.  The abstract value of a list follows [list_spec] (push at the front,
    enqueue at the back, pop from the front).  Popping returns a pointer to the
    front element, or NULL. *)
Theorem C09_rlist_pop_returns_front : forall s L l, list_reach s L l ->
  match l with
  | [] => fst (rlist_pop s L) = 0
  | e :: _ => denotes (rmem (snd (rlist_pop s L))) (fst (rlist_pop s L)) e
  end.
Proof. exact list_pop_front. Qed.
Print Assumptions C09_rlist_pop_returns_front.

(** C09: map visits exactly the elements, front to back, and terminates. *)
Theorem C09_rlist_map_visits_in_order : forall s L l fuel,
  list_reach s L l -> (length l <= fuel)%nat ->
  exists ds, rlist_map fuel s L = Some ds /\ Forall2 (denotes (rmem s)) ds l.
Proof. exact list_map_ok. Qed.
Print Assumptions C09_rlist_map_visits_in_order.

(** C09: operations fail only when malloc does. *)
Theorem C09_rlist_operations_succeed : forall m s L l o,
  list_reach s L l -> malloc_contract m -> lop_ok o ->
  rlist_op m s L o = Fault NoMem \/ exists ret s', rlist_op m s L o = Ok (ret, s').
Proof. exact list_progress. Qed.
Print Assumptions C09_rlist_operations_succeed.

Example C09_nonvacuous : exists s, list_reach s 32 [ECpy [9]; EPtr 77; ECpy [1; 2; 3]].
Proof. exact list_demo. Qed.
