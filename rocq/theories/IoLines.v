(** Lines that need a new chunk, and numbers read into the region. *)
From Coq Require Import ZArith Reals List Bool Arith Lia.
From Verif Require Import RegionModel RegionSpec RegionProofs IoModel IoSpec IoProofs IoNum.
Import ListNotations.
Open Scope Z_scope.

Lemma reach_good s k : reach s k -> exists c cs, good s c cs /\ Forall (apart c) cs /\
  cbase c <= rhead s <= cend c + 15 /\ rhead s mod 16 = 0 /\ region_topsize s = cend c - cbase c /\
  (0 < region_freesize s -> region_freesize s = cend c - rhead s) /\ (region_freesize s = 0 -> cend c <= rhead s).
Proof.
  intros H. destruct (top_facts s k H) as (c & cs & A1 & A2 & A3 & A4 & A5 & A6 & A7 & A8 & A9 & A10 & A11 & A12).
  exists c, cs. unfold good. repeat split; assumption.
Qed.
(** where the blocks of the client are: in chunks, below the head *)
Lemma block_place s k c cs b x : reach s k -> rchunks s = c :: cs -> In b k -> bptr b <= x < bptr b + blen b ->
  (exists e, In e (c :: cs) /\ cbase e <= x < cend e) /\ (x < rhead s \/ cend c <= x).
Proof.
  intros Hr Hc Hb Hx. destruct (reach_Inv _ _ Hr) as (c' & cs' & k1 & k2 & Hc' & Hk & Hok & Hap & Hmod & Hh & Hs & Hl & Hrd).
  rewrite Hc in Hc'. injection Hc' as <- <-. rewrite Hk in Hb. apply in_app_or in Hb. destruct Hb as [Hb|Hb].
  - destruct (seg_in _ _ _ _ _ Hs Hb) as (A & B & C & D & E). split; [exists c; split; [now left|lia]|lia].
  - destruct (lay_in _ _ Hl _ Hb) as (e & He & A & B & C & D). split; [exists e; split; [now right|lia]|].
    inversion Hap as [|? ? Ha _]; subst. rewrite Forall_forall in Ha. specialize (Ha e He). unfold apart in Ha. lia.
Qed.
Lemma reach_readable s k b : reach s k -> In b k -> readable (rmem s) b.
Proof.
  intros Hr Hb. destruct (reach_Inv _ _ Hr) as (c' & cs' & k1 & k2 & Hc' & Hk & Hok & Hap & Hmod & Hh & Hs & Hl & Hrd).
  rewrite Forall_forall in Hrd. now apply Hrd.
Qed.
(** a client's blocks stay when only scratch space and a new chunk change *)
Lemma blocks_kept s k c cs d mem b :
  reach s k -> rchunks s = c :: cs -> (forall x, In x (c :: cs) -> apart d x) ->
  (forall x, x < rhead s \/ cend c <= x -> x < cbase d \/ cend d <= x -> mem x = rmem s x) ->
  In b k -> readable mem b /\ (forall x, bptr b <= x < bptr b + blen b \/ x = bptr b -> x < cbase d \/ cend d <= x).
Proof.
  intros Hr Hc Ha Hm Hb.
  assert (K : forall x, bptr b <= x < bptr b + blen b -> (x < rhead s \/ cend c <= x) /\ (x < cbase d \/ cend d <= x)).
  { intros x Hx. destruct (block_place s k c cs b x Hr Hc Hb Hx) as [(e & He & Hin) H2]. split; [exact H2|].
    specialize (Ha e He). unfold apart in Ha. lia. }
  split; [|intros x [Hx| ->]; [now apply K|]].
  2:{ destruct (reach_Inv _ _ Hr) as (c' & cs' & k1 & k2 & Hc' & Hk & Hok & Hap & Hmod & Hh & Hs & Hl & Hrd).
      rewrite Hc in Hc'. injection Hc' as <- <-. rewrite Hk in Hb. apply in_app_or in Hb. destruct Hb as [Hb|Hb].
      - destruct (seg_in _ _ _ _ _ Hs Hb) as (A & B & C & D & E). specialize (Ha c (or_introl eq_refl)). unfold apart in Ha. lia.
      - destruct (lay_in _ _ Hl _ Hb) as (e & He & A & B & C & D). specialize (Ha e (or_intror He)). unfold apart in Ha. lia. }
  apply (readable_ext (rmem s)); [|now apply (reach_readable s k)].
  intros x Hx. destruct (K x Hx). now apply Hm.
Qed.
Lemma apart_blocks p n d b :
  cbase d <= p -> p + n <= cend d -> 0 < n ->
  (forall x, bptr b <= x < bptr b + blen b \/ x = bptr b -> x < cbase d \/ cend d <= x) ->
  p + n <= bptr b \/ bptr b + blen b <= p.
Proof.
  intros H1 H2 H3 Hx. pose proof (blen_nonneg b).
  destruct (Hx (bptr b)) as [A|A]; [now right| |left; lia].
  destruct (Z_lt_le_dec (cbase d) (bptr b + blen b)) as [L|L]; [|right; lia].
  destruct (Hx (cbase d)); lia.
Qed.

Section Lines.
  Variable ms : nat -> mallocF.
  Hypothesis Hms : forall n, malloc_contract (ms n).

  Lemma ones (l : list Z) : Forall (fun it : list Z => Z.of_nat (length it) = 1) (map (fun c => [c]) l).
  Proof. apply Forall_forall. intros it H. apply in_map_iff in H. destruct H as (x & <- & _). reflexivity. Qed.

  Lemma line_grown l eof r s k :
    reach s k -> ~ In 10 l -> (eof = true -> r = []) ->
    0 < region_freesize s < region_topsize s -> region_freesize s < size l ->
    size l + 1 <= 2 * region_topsize s -> size l + 1 <= MAXREQ ->
    getline ms (l ++ tail_of eof r) s = Region NoMem \/
    exists p s', getline ms (l ++ tail_of eof r) s = Got (p, r, eof, s') /\
      readable (rmem s') (string_at p l) /\
      (forall b, In b k -> readable (rmem s') b /\ disjoint_blocks (string_at p l) b) /\
      (forall i, 0 <= i <= size l -> owns s' (p + i)).
  Proof.
    intros Hr Hn He Hfs Hl Hl2 HM. destruct (reach_good s k Hr) as (c & cs & Hg & Hap & Hh & Hmod & Ht & Hf & _).
    assert (Hf0 : 0 < region_freesize s) by lia. rewrite (Hf Hf0) in Hfs, Hl. rewrite Ht in Hfs, Hl2. unfold size in *.
    unfold getline. rewrite getline_cells by exact Hn.
    destruct (cells_grow ms 1 (map (fun c => [c]) l) s c cs Hms Hg) as [E|(s1 & d & E & Hg1 & Hd & Sd & Ad & Hin & Hout)];
      [lia|lia|apply ones|rewrite map_length; lia|rewrite map_length; lia| |].
    { left. rewrite E. reflexivity. }
    right. rewrite E. cbn [region andthen snd Nat.add]. rewrite getline_end by exact He.
    unfold region_alloc. pose proof Hg1 as (C1 & G1 & G2 & G3 & G4). rewrite C1.
    assert (W : W64 = 2 ^ 64) by reflexivity. pose proof Hg as (C0 & _).
    destruct (Z.leb_spec W64 (rhead s1 + (Z.of_nat (length l) + 1))); [unfold MAXREQ in *; lia|].
    destruct (Z.ltb_spec (cend d) (rhead s1 + (Z.of_nat (length l) + 1))); [lia|].
    cbn [bind region andthen fst snd]. exists (rhead s1). eexists. split; [reflexivity|].
    unfold poke. cbn [rmem rchunks rhead].
    set (mem := fun x => if x =? rhead s1 + Z.of_nat (length l) then 0 else rmem s1 x).
    assert (Hmem : forall x, x < rhead s \/ cend c <= x -> x < cbase d \/ cend d <= x -> mem x = rmem s x).
    { intros x X1 X2. unfold mem. destruct (Z.eqb_spec x (rhead s1 + Z.of_nat (length l))); [lia|]. now apply Hout. }
    split; [|split].
    - intros i v Hi. cbn [string_at bdata bptr] in *. rewrite nth_error_map in Hi.
      destruct (nth_error (l ++ [0]) i) as [y|] eqn:Ey; [|discriminate]. injection Hi as <-. unfold mem.
      destruct (lt_dec i (length l)) as [L|L].
      + destruct (Z.eqb_spec (rhead s1 + Z.of_nat i) (rhead s1 + Z.of_nat (length l))); [lia|].
        apply Hin. rewrite concat_single. now rewrite nth_error_app1 in Ey.
      + assert (i < length (l ++ [0%Z]))%nat by (apply nth_error_Some; congruence). rewrite app_length in H1. cbn [length] in H1.
        assert (i = length l) by lia. subst i. rewrite Z.eqb_refl. rewrite nth_error_app2 in Ey by lia.
        rewrite Nat.sub_diag in Ey. cbn in Ey. congruence.
    - intros b Hb. destruct (blocks_kept s k c cs d mem b Hr C0 Ad Hmem Hb) as [K1 K2]. split; [exact K1|].
      unfold disjoint_blocks. apply (apart_blocks _ _ d b); [| | |exact K2];
        unfold string_at, blen; cbn [bptr bdata]; rewrite ?map_length, ?app_length; cbn [length]; lia.
    - intros i Hi. exists d. cbn [rchunks]. split; [rewrite C1; now left|lia].
  Qed.

  (** the line is as long as the free space *)
  Lemma line_lost l eof r s k :
    reach s k -> ~ In 10 l -> (eof = true -> r = []) -> l <> [] -> size l = region_freesize s -> size l + 1 <= MAXREQ ->
    getline ms (l ++ tail_of eof r) s = Region NoMem \/
    exists live z a junk s', ms (length l) live z = Some (a, junk) /\
      getline ms (l ++ tail_of eof r) s = Got (a, r, eof, s') /\
      forall i, 0 <= i < size l -> rmem s' (a + i) = junk (a + i).
  Proof.
    intros Hr Hn He Hne Hl HM. destruct (reach_good s k Hr) as (c & cs & Hg & Hap & Hh & Hmod & Ht & Hf & _).
    pose proof Hg as (C1 & G1 & G2 & G3 & G4). unfold size in *.
    assert (0 < Z.of_nat (length l)) by (destruct l; [congruence|cbn; lia]). rewrite Hf in Hl by lia.
    unfold getline. rewrite getline_cells by exact Hn.
    rewrite (cells_fit ms 1 _ 0 None s c cs C1 G1 ltac:(lia) (ones l)) by (rewrite map_length; lia).
    cbn [region andthen snd Nat.add]. rewrite getline_end by exact He.
    unfold region_alloc, region_grow, node_alloc. cbn [rchunks rhead rmem]. rewrite C1.
    assert (W : W64 = 2 ^ 64) by reflexivity. unfold MAXREQ in HM.
    destruct (Z.leb_spec W64 (rhead s + (Z.of_nat (length l) + 1))); [lia|].
    destruct (Z.ltb_spec (cend c) (rhead s + (Z.of_nat (length l) + 1))); [|lia].
    set (ns := Z.max (wrap64 (2 * (cend c - cbase c))) (wrap64 (Z.of_nat (length l) + 1 + MEMREG_ALIGN))).
    assert (Hns : Z.of_nat (length l) + 1 + 16 <= ns).
    { unfold ns, MEMREG_ALIGN.
      assert (wrap64 (Z.of_nat (length l) + 1 + 16) = Z.of_nat (length l) + 1 + 16) by (unfold wrap64; apply Z.mod_small; lia). lia. }
    match goal with |- context [ms (length l) ?x ?y] => set (live := x) in *; set (z := y) in * end.
    destruct (ms (length l) live z) as [[a junk]|] eqn:Em; [|now left].
    destruct (Hms _ _ _ _ _ Em) as (A1 & A2 & _ & _). right. exists live, z, a, junk.
    unfold z, MEMREG_ALIGN. rewrite (alignptr_id a) by exact A1.
    unfold region_freesize, assert_then. cbn [bind rchunks rhead cend cbase rmem].
    destruct (Z.leb_spec (a + ns + 16) a); [lia|].
    destruct (Z.leb_spec (Z.of_nat (length l) + 1) (a + ns + 16 - a)); [|lia].
    rewrite A1. cbn [Z.eqb bind region andthen fst snd rhead rchunks rmem].
    eexists. split; [exact Em|]. split; [reflexivity|]. intros i Hi. unfold poke. cbn [rmem rhead].
    destruct (Z.eqb_spec (a + i) (a + Z.of_nat (length l))); [lia|]. apply fill_in. lia.
  Qed.

  (** longer than a chunk that holds nothing else *)
  Lemma line_freed l eof r s k :
    reach s k -> ~ In 10 l -> (eof = true -> r = []) ->
    region_freesize s = region_topsize s -> region_topsize s < size l -> size l + 1 <= MAXREQ ->
    (forall n live z a junk, ms n live z = Some (a, junk) -> a <> region_ptr s) ->
    getline ms (l ++ tail_of eof r) s = Region NoMem \/ getline ms (l ++ tail_of eof r) s = Region UseAfterFree.
  Proof.
    intros Hr Hn He Hfs Hl HM Hne. destruct (reach_good s k Hr) as (c & cs & Hg & Hap & Hh & Hmod & Ht & Hf & Hz).
    pose proof Hg as (C1 & G1 & G2 & G3 & G4). unfold size, region_ptr in *.
    assert (Hfp : 0 < region_freesize s) by lia. rewrite Hf in Hfs by lia.
    unfold getline. rewrite getline_cells by exact Hn.
    destruct (cells_freed ms 1 (map (fun c => [c]) l) s c cs Hms Hg Hap) as [E|E];
      [lia|lia|apply ones|rewrite map_length; lia|rewrite map_length; lia| | |].
    { intros n live z a junk K. replace (cbase c) with (rhead s) by lia. exact (Hne _ _ _ _ _ K). }
    - left. rewrite E. reflexivity.
    - right. rewrite E. reflexivity.
  Qed.

  (** the head is past the end of the chunk *)
  Lemma line_huge l x s c k :
    reach s k -> hd_error (rchunks s) = Some c -> cend c < rhead s -> x <> 10 ->
    getline ms (x :: l) s = Region NoMem \/ getline ms (x :: l) s = Region HugeCopy.
  Proof.
    intros Hr Htop Hlt Hx. destruct (reach_good s k Hr) as (c' & cs & Hg & Hap & Hh & Hmod & Ht & Hf & Hz).
    pose proof Hg as (C1 & G1 & G2 & G3 & G4). rewrite C1 in Htop. cbn in Htop. injection Htop as ->.
    unfold getline. cbn [getline_from]. destruct (Z.eqb_spec x NL); [contradiction|].
    assert (W : W64 = 2 ^ 64) by reflexivity.
    change (Z.of_nat 0 + 1) with 1.
    unfold region_tmprealloc, region_tmpalloc, region_grow, node_alloc. rewrite C1.
    destruct (Z.leb_spec W64 (rhead s + 1)); [lia|]. destruct (Z.ltb_spec (cend c) (rhead s + 1)); [|lia].
    rewrite (alignptr_id (cbase c)) by exact G2. destruct (Z.eqb_spec (cbase c) (rhead s)); [lia|].
    set (ns := Z.max (wrap64 (2 * (cend c - cbase c))) (wrap64 (1 + MEMREG_ALIGN))).
    assert (Hns : 17 <= ns).
    { unfold ns, MEMREG_ALIGN. assert (wrap64 (1 + 16) = 17) by reflexivity. lia. }
    destruct (ms 0%nat (c :: cs) (ns + MEMREG_ALIGN)) as [[a junk]|] eqn:E; [|now left].
    destruct (Hms _ _ _ _ _ E) as (A1 & A2 & A3 & A4). unfold MEMREG_ALIGN in *. rewrite (alignptr_id a) by exact A1.
    unfold region_freesize, assert_then. cbn [bind rchunks rhead cend cbase rmem].
    destruct (Z.leb_spec (a + ns + 16) a); [lia|]. destruct (Z.leb_spec 1 (a + ns + 16 - a)); [|lia].
    rewrite A1. cbn [Z.eqb bind region andthen fst snd rhead rchunks rmem].
    assert (Hc : cend c <= a - 16 \/ a + (ns + 16) <= cbase c - 16) by (apply A4; now left).
    destruct (Z.eqb_spec (rhead s) a); [lia|].
    assert (wrap64 (cend c - rhead s) = cend c - rhead s + W64).
    { unfold wrap64. rewrite <- (Z.mod_small (cend c - rhead s + W64) W64) by lia.
      rewrite <- Z.add_mod_idemp_r, Z.mod_same by lia. now rewrite Z.add_0_r. }
    rewrite H3. destruct (Z.eqb_spec (cend c - rhead s + W64) 0); [lia|].
    destruct (Z.ltb_spec (cend c) (rhead s)); [|lia]. right. reflexivity.
  Qed.
End Lines.
