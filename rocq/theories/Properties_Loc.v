(** C130 formatted strings in regions, C131 regions of threads. *)
From Coq Require Import ZArith List Bool Lia.
From Verif Require Import RegionModel RegionSpec RegionProofs LocModel LocSpec LocProofs.
Import ListNotations.
Open Scope Z_scope.

(** C130: while the newest chunk is smaller than 1 GiB and the text than 2 GiB,
    aa_mem_region_vprintf ends after at most two rounds with a new block of
    exactly the text and its terminating zero; all other blocks stay. *)
Theorem C130_text : forall fuel m s k l, (2 <= fuel)%nat -> reach s k -> malloc_contract m -> region_topsize s < 2 ^ 30 - 8 ->
  Z.of_nat (length l) < 2 ^ 31 - 40 ->
  vprintf fuel m s (Some l) = Some (Fault NoMem) \/
  exists p s', vprintf fuel m s (Some l) = Some (Ok (p, s')) /\ reach s' (mkB p (map Some (l ++ [0])) :: k).
Proof. exact vprintf_text. Qed.
Print Assumptions C130_text.
(** C130 refuted for large regions: free space is converted to int; when that
    is negative or not above the length of a text that fits, the loop never ends. *)
Theorem C130_endless : forall s k m l, reach s k -> Z.of_nat (length l) <= 2 ^ 31 - 1 -> Z.of_nat (length l) < region_freesize s ->
  int32 (region_freesize s) <= Z.of_nat (length l) -> forall fuel, vprintf fuel m s (Some l) = None.
Proof. exact vprintf_hang. Qed.
Print Assumptions C130_endless.
Theorem C130_endless_refuted : exists s k m l, reach s k /\ malloc_contract m /\ Z.of_nat (length l) = 1 /\
  forall fuel, vprintf fuel m s (Some l) = None.
Proof. exact hang_witness. Qed.
Print Assumptions C130_endless_refuted.
(** C130 refuted when formatting fails: a pointer is returned all the same, to
    no octets, and the next allocation returns the same pointer. *)
Theorem C130_failure_refuted : forall fuel m s k n, reach s k -> 0 < n <= region_freesize s -> region_freesize s < 2 ^ 31 ->
  exists p s1 s2, vprintf (S fuel) m s None = Some (Ok (p, s1)) /\ region_alloc m s1 n = Ok (p, s2).
Proof. exact vprintf_bad. Qed.
Print Assumptions C130_failure_refuted.
(** "AB" in a fresh region of 64 octets, in one round; "A" many times does not
    fit and takes a second one *)
Example C130_nonvacuous : exists s m, reach s [] /\ malloc_contract m /\ region_topsize s < 2 ^ 30 - 8 /\
  (exists p s', vprintf 1 m s (Some [65; 66]) = Some (Ok (p, s')) /\ rmem s' p = 65 /\ rmem s' (p + 1) = 66 /\ rmem s' (p + 2) = 0) /\
  vprintf 1 m s (Some (repeat 65 100)) = None /\
  exists p s', vprintf 2 m s (Some (repeat 65 100)) = Some (Ok (p, s')) /\ rmem s' (p + 99) = 65 /\ rmem s' (p + 100) = 0.
Proof.
  set (m := malloc_at 32 (fun _ => 7)). set (m2 := malloc_at 1024 (fun _ => 7)).
  assert (exists s, region_init m 64 (fun _ => 9) = Ok s) as (s & I) by (eexists; reflexivity).
  exists s, m2. split; [eapply reach_init; [apply malloc_at_contract| |exact I]; lia|]. split; [apply malloc_at_contract|].
  injection I as <-. split; [reflexivity|]. split; [eexists _, _; split; [reflexivity|]; repeat split; reflexivity|].
  split; [reflexivity|]. eexists _, _. split; [reflexivity|]. split; reflexivity.
Qed.

(** C131: threads using their own regions in any interleaving: every block holds
    what its thread stored, lies in a chunk not yet freed, and overlaps no other
    block of any thread. *)
Theorem C131_blocks : forall n y ks, treach n y ks ->
  (forall t b, In b (stack_of ks t) -> readable (smem y) b /\ exists c, In c (all_chunks y) /\ inside b c) /\
  (forall t, ForallOrdPairs disjoint_blocks (stack_of ks t)) /\
  (forall t u a b, t <> u -> In a (stack_of ks t) -> In b (stack_of ks u) -> disjoint_blocks a b).
Proof. exact thread_blocks. Qed.
Print Assumptions C131_blocks.
(** C131: a legal call succeeds unless malloc refuses, whether or not the thread
    has a region yet. *)
Theorem C131_progress : forall n y ks M t c, treach n y ks -> malloc_contract M -> (t < n)%nat ->
  thread_legal y (stack_of ks t) t c ->
  tstep M y t c = Fault NoMem \/ exists ret y', tstep M y t c = Ok (ret, y').
Proof. exact thread_progress. Qed.
Print Assumptions C131_progress.
(** C131: no call of one thread changes the region or the blocks of another. *)
Theorem C131_isolation : forall n y ks M t c ret y' u b, treach n y ks -> malloc_contract M -> (t < n)%nat ->
  thread_legal y (stack_of ks t) t c -> tstep M y t c = Ok (ret, y') -> u <> t -> In b (stack_of ks u) ->
  slot_of y' u = slot_of y u /\ forall x, bptr b <= x < bptr b + blen b -> smem y' x = smem y x.
Proof. exact thread_frame. Qed.
Print Assumptions C131_isolation.
(** C131: a thread that ends, or destroys its region, leaves exactly the chunks
    of the others. *)
Theorem C131_exit : forall n y ks M t c ret y', treach n y ks -> (t < n)%nat -> (c = TExit \/ c = TDestroy) ->
  tstep M y t c = Ok (ret, y') -> forall d, In d (all_chunks y') <-> exists u, u <> t /\ In d (chunks_of (slot_of y u)).
Proof. exact thread_exit. Qed.
Print Assumptions C131_exit.
(** Two threads with a block each *)
Example C131_nonvacuous : exists y a b, treach 2 y [[mkB a [Some 1; Some 2]]; [mkB b [Some 3]]] /\ a <> b.
Proof.
  set (M1 := malloc_at 32 (fun _ => 7)). set (M2 := malloc_at 1048576 (fun _ => 7)).
  set (y0 := mkS (fun _ => 9) (repeat None 2)).
  assert (exists y1, tstep M1 y0 0 (TOp (ODup [1; 2])) = Ok (32, y1) /\
    exists y2, tstep M2 y1 1 (TOp (ODup [3])) = Ok (1048576, y2)) as (y1 & E1 & y2 & E2).
  { eexists. split; [reflexivity|]. eexists. reflexivity. }
  exists y2, 32, 1048576. split; [|lia].
  refine (treach_step 2 y1 [[mkB 32 [Some 1; Some 2]]; []] M2 1 (TOp (ODup [3])) 1048576 y2 _ _ _ _ E2).
  - refine (treach_step 2 y0 [[]; []] M1 0 (TOp (ODup [1; 2])) 32 y1 _ _ _ _ E1).
    + apply (treach_start 2).
    + apply malloc_at_contract.
    + lia.
    + cbn [thread_legal]. unfold y0, slot_of. cbn [slots repeat nth]. intros s. cbn [legal length]. unfold MAXREQ. lia.
  - apply malloc_at_contract.
  - lia.
  - injection E1 as <-. cbn [thread_legal]. unfold slot_of. cbn [slots put nth keep repeat y0]. intros s. cbn [legal length]. unfold MAXREQ. lia.
Qed.
