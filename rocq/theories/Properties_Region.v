(** Region allocator: properties C01-C07.  Definitions used in the statements
    are those of RegionModel (the code) and RegionSpec (the client's view). *)
From Coq Require Import ZArith List.
From Verif Require Import RegionModel RegionSpec RegionProofs.
Import ListNotations.
Open Scope Z_scope.

(** C01.  After any history of legal calls and any malloc behaviour, every live
    block still holds what its owner stored, and live blocks do not overlap. *)
Theorem C01_region_blocks_intact : forall s k, reach s k ->
  (forall b, In b k -> readable (rmem s) b) /\ ForallOrdPairs disjoint_blocks k.
Proof. exact (fun s k H => conj (reach_readable s k H) (reach_disjoint s k H)). Qed.
Print Assumptions C01_region_blocks_intact.

(** C01, progress: a legal call never trips an assertion, never dereferences a
    missing chunk and never computes an out-of-range pointer; the only failure
    is malloc returning NULL. *)
Theorem C01_region_legal_calls_succeed : forall s k m o,
  reach s k -> malloc_contract m -> legal s k o ->
  region_op m s o = Fault NoMem \/ exists ret s', region_op m s o = Ok (ret, s').
Proof. exact reach_progress. Qed.
Print Assumptions C01_region_legal_calls_succeed.

(** C01, frame: a library call leaves every byte of every block that stays live
    unchanged, including bytes the client never wrote. *)
Theorem C01_region_calls_preserve_bytes : forall m s k o ret s',
  reach s k -> malloc_contract m -> legal s k o -> is_write o = false ->
  region_op m s o = Ok (ret, s') ->
  forall b, In b k -> In b (spec_step k o ret) ->
  forall x, bptr b <= x < bptr b + blen b -> rmem s' x = rmem s x.
Proof. exact op_preserves_bytes. Qed.
Print Assumptions C01_region_calls_preserve_bytes.

Example C01_nonvacuous : exists s,
  reach s [mkB 1024 (repeat (Some 0) 200); mkB 64 []; mkB 48 [Some 1; Some 2; Some 3];
           mkB 32 [None; None; None; Some 42; None]] /\
  map (fun c => (cbase c, cend c)) (rchunks s) = [(1024, 1256); (32, 112)] /\ rhead s = 1232.
Proof. exact demo_reach. Qed.

(** C02.  Every live block is 16-byte aligned and lies inside one chunk. *)
Theorem C02_region_aligned_in_chunk : forall s k, reach s k -> forall b, In b k ->
  bptr b mod 16 = 0 /\ exists c, In c (rchunks s) /\ inside b c.
Proof. exact reach_placed. Qed.
Print Assumptions C02_region_aligned_in_chunk.

(** C02, scratch: so is a scratch buffer, and it overlaps no live block. *)
Theorem C02_region_scratch_aligned_in_chunk : forall m s k n p s',
  reach s k -> malloc_contract m -> 0 <= n <= MAXREQ ->
  region_tmpalloc m s n = Ok (p, s') ->
  p mod 16 = 0 /\ p = region_ptr s' /\
  exists c, In c (rchunks s') /\ cbase c <= p /\ p + n <= cend c /\
  forall b, In b k -> bptr b + blen b <= p \/ p + n <= bptr b.
Proof. exact reach_tmp. Qed.
Print Assumptions C02_region_scratch_aligned_in_chunk.

(** C03.  Popping a block frees exactly it and the newer ones: the client is
    left with the older blocks, whose bytes have not changed. *)
Theorem C03_region_pop_exact : forall m s k1 b k2,
  reach s (k1 ++ b :: k2) -> malloc_contract m ->
  (forall b', In b' (b :: k2) -> 0 < blen b') ->
  region_op m s (OPop (bptr b)) = Fault NoMem \/
  exists s', region_op m s (OPop (bptr b)) = Ok (0, s') /\ reach s' k2 /\
    (forall b', In b' k2 -> forall x, bptr b' <= x < bptr b' + blen b' -> rmem s' x = rmem s x).
Proof. exact reach_pop. Qed.
Print Assumptions C03_region_pop_exact.

(** C03, reuse: when the popped block is in the newest chunk its address is
    handed out by the next allocation that fits. *)
Theorem C03_region_pop_reuses_address : forall m m' s k p n s',
  reach s k -> malloc_contract m -> (exists b, In b k /\ bptr b = p) ->
  (exists c, hd_error (rchunks s) = Some c /\ cbase c <= p < cend c) ->
  region_op m s (OPop p) = Ok (0, s') ->
  0 < n <= region_freesize s' ->
  exists s'', region_op m' s' (OAlloc n) = Ok (p, s'').
Proof. exact pop_reuse. Qed.
Print Assumptions C03_region_pop_reuses_address.

Example C03_nonvacuous : exists s k1 b k2, reach s (k1 ++ b :: k2) /\ k1 <> [] /\ k2 <> [] /\
  forall b', In b' (b :: k2) -> 0 < blen b'.
Proof. exact pop_demo. Qed.

(** C04, refuted: remembering the current position of a region, allocating, and
    popping to the remembered position can free older blocks.  First when the
    position is the end of a full chunk, second when it is scratch space at the
    start of a fresh chunk. *)
Theorem C04_region_scratch_mark_full_refuted :
  exists s k b m1 m2 n p s1 s2,
    reach s k /\ In b k /\ 0 < blen b /\ malloc_contract m1 /\ malloc_contract m2 /\
    0 < n <= MAXREQ /\
    region_alloc m1 s n = Ok (p, s1) /\
    region_op m2 s1 (OPop (region_ptr s)) = Ok (0, s2) /\
    ~ owns s2 (bptr b).
Proof. exact mark_refuted_full. Qed.
Print Assumptions C04_region_scratch_mark_full_refuted.

Theorem C04_region_scratch_mark_fresh_refuted :
  exists s k b m0 m1 m2 t n mark q sA sB sC,
    reach s k /\ In b k /\ 0 < blen b /\
    malloc_contract m0 /\ malloc_contract m1 /\ malloc_contract m2 /\
    0 < t <= MAXREQ /\ 0 < n <= MAXREQ /\
    region_tmpalloc m0 s t = Ok (mark, sA) /\
    region_alloc m1 sA n = Ok (q, sB) /\
    region_op m2 sB (OPop mark) = Ok (0, sC) /\
    ~ owns sC (bptr b).
Proof. exact mark_refuted_fresh. Qed.
Print Assumptions C04_region_scratch_mark_fresh_refuted.

(** C04, positive: if the newest chunk is partly used and not full when the mark
    is taken (the guard in [legal] for [OMark]), then popping to the mark after
    any further history in which the mark was not itself popped keeps every older
    block allocated and unchanged. *)
Theorem C04_region_mark_pop_guarded : forall m s k1 p k0,
  reach s (k1 ++ mkB p [] :: k0) -> malloc_contract m ->
  region_op m s (OPop p) = Fault NoMem \/
  exists s', region_op m s (OPop p) = Ok (0, s') /\
    forall b, In b k0 -> 0 < blen b ->
      forall x, bptr b <= x < bptr b + blen b -> owns s' x /\ rmem s' x = rmem s x.
Proof. exact mark_pop. Qed.
Print Assumptions C04_region_mark_pop_guarded.

Example C04_nonvacuous : exists s k1 p k0, reach s (k1 ++ mkB p [] :: k0) /\ k1 <> [] /\
  exists b, In b k0 /\ 0 < blen b.
Proof. exact mark_demo. Qed.

(** C05, refuted: growing scratch space reads freed memory, or asks memcpy for
    almost 2^64 bytes. *)
Theorem C05_region_tmprealloc_use_after_free_refuted :
  exists s k m n, reach s k /\ malloc_contract m /\ 0 < n <= MAXREQ /\
    region_tmprealloc m s n = Fault UseAfterFree.
Proof. exact tmprealloc_refuted_uaf. Qed.
Print Assumptions C05_region_tmprealloc_use_after_free_refuted.

Theorem C05_region_tmprealloc_huge_copy_refuted :
  exists s k b m n, reach s k /\ In b k /\ malloc_contract m /\ 0 < n <= MAXREQ /\
    region_tmprealloc m s n = Fault HugeCopy.
Proof. exact tmprealloc_refuted_huge. Qed.
Print Assumptions C05_region_tmprealloc_huge_copy_refuted.

(** C05, positive: with the newest chunk partly used and not full it preserves
    the scratch contents and every block. *)
Theorem C05_region_tmprealloc_guarded : forall m s k n,
  reach s k -> malloc_contract m -> 0 <= n <= MAXREQ ->
  0 < region_freesize s < region_topsize s ->
  region_tmprealloc m s n = Fault NoMem \/
  exists p s', region_tmprealloc m s n = Ok (p, s') /\
    p mod 16 = 0 /\ p = region_ptr s' /\ n <= region_freesize s' /\
    (forall i, 0 <= i < n -> i < region_freesize s ->
       rmem s' (p + i) = rmem s (region_ptr s + i)) /\
    (forall b, In b k -> forall x, bptr b <= x < bptr b + blen b ->
       owns s' x /\ rmem s' x = rmem s x).
Proof. exact tmprealloc_ok. Qed.
Print Assumptions C05_region_tmprealloc_guarded.

Example C05_nonvacuous : exists s k b, reach s k /\ In b k /\ 0 < blen b /\
  0 < region_freesize s < region_topsize s.
Proof. exact tmprealloc_demo. Qed.

(** C06.  Release leaves one chunk with at least the previous total capacity, so
    allocations that fit in it need no further malloc. *)
Theorem C06_region_release_consolidates : forall m s k,
  reach s k -> malloc_contract m ->
  region_op m s ORelease = Fault NoMem \/
  exists s', region_op m s ORelease = Ok (0, s') /\ reach s' [] /\
    region_chunk_count s' = 1%nat /\ capacity (rchunks s) <= region_freesize s' /\
    forall sizes ms, (forall n, In n sizes -> 0 < n) -> length ms = length sizes ->
      fold_right (fun n a => rounded n + a) 0 sizes <= region_freesize s' ->
      exists s'', allocs ms s' sizes = Ok s'' /\ rchunks s'' = rchunks s'.
Proof. exact reach_release. Qed.
Print Assumptions C06_region_release_consolidates.

(** C07, refuted: a request close to 2^64 makes [head + size] wrap; on a flat
    address space the call succeeds and the next block overlaps a live one. *)
Theorem C07_region_huge_request_refuted :
  exists s k b m n p s', reach s k /\ In b k /\ 0 < blen b /\ malloc_contract m /\
    0 < n < 2 ^ 64 /\
    region_alloc m s n = Fault PtrOverflow /\
    region_alloc_flat m s n = Ok (p, s') /\
    region_ptr s' = bptr b.
Proof. exact huge_refuted. Qed.
Print Assumptions C07_region_huge_request_refuted.
