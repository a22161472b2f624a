(** aa_io_d_parse: numbers read into a region. *)
From Coq Require Import ZArith Reals List Bool Arith Lia.
From Verif Require Import RegionModel RegionSpec RegionProofs IoModel IoSpec IoProofs IoNum IoLines.
Import ListNotations.
Open Scope Z_scope.

Section Parse.
  Variable strtod : list Z -> R * nat.
  Variable enc : R -> list Z.
  Hypothesis Henc : forall x, length (enc x) = 8%nat.
  Variable ms : nat -> mallocF.

  Lemma eights xs : Forall (fun it : list Z => Z.of_nat (length it) = 8) (map enc xs).
  Proof. apply Forall_forall. intros it H. apply in_map_iff in H. destruct H as (x & <- & _). now rewrite Henc. Qed.
  Lemma d_parse_line l xs tail X s : number_line strtod l xs tail ->
    d_parse strtod enc ms l X s = andthen (region (cells ms 8 (map enc xs) 0 X s)) (parsed ms (length xs) tail).
  Proof.
    intros (b & str & -> & Hb & Hn & Hx). unfold d_parse.
    apply (d_parse_cells strtod enc ms tail str xs Hn); [|exact Hb|exact Hx]. rewrite app_length. lia.
  Qed.
  Definition stored (xs : list R) : list Z := concat (map enc xs).
  Lemma stored_len xs : Z.of_nat (length (stored xs)) = 8 * Z.of_nat (length xs).
  Proof. unfold stored. rewrite (concat_len 8 _ (eights xs)), map_length. reflexivity. Qed.

  Lemma parse_fits l xs tail X s k :
    reach s k -> number_line strtod l xs tail -> xs <> [] ->
    8 * Z.of_nat (length xs) <= region_freesize s -> 8 * Z.of_nat (length xs) <= MAXREQ ->
    exists s', d_parse strtod enc ms l X s = Got (length xs, Some (region_ptr s), tail, s') /\
      rchunks s' = rchunks s /\ reach s' (mkB (region_ptr s) (map Some (stored xs)) :: k).
  Proof.
    intros Hr Hn Hne Hl HM. destruct (reach_good s k Hr) as (c & cs & Hg & Hap & Hh & Hmod & Ht & Hf & _).
    pose proof Hg as (C1 & G1 & G2 & G3 & G4).
    assert (0 < Z.of_nat (length xs)) by (destruct xs; [congruence|cbn; lia]). rewrite Hf in Hl by lia.
    rewrite (d_parse_line _ _ _ _ _ Hn).
    rewrite (cells_fit ms 8 _ 0 X s c cs C1 G1 ltac:(lia) (eights xs)) by (rewrite map_length; lia).
    cbn [region andthen]. unfold parsed. cbn [fst snd].
    assert (W : W64 = 2 ^ 64) by reflexivity.
    unfold region_alloc. cbn [rchunks rhead rmem]. rewrite C1.
    destruct (Z.leb_spec W64 (rhead s + 8 * Z.of_nat (length xs))); [lia|].
    destruct (Z.ltb_spec (cend c) (rhead s + 8 * Z.of_nat (length xs))); [lia|].
    cbn [bind region andthen fst snd rhead rchunks rmem].
    destruct (map enc xs) as [|y ys] eqn:Em; [destruct xs; [congruence|discriminate]|]. rewrite <- Em.
    rewrite Z.eqb_refl, orb_true_r. eexists. split; [reflexivity|]. split; [reflexivity|].
    apply (reach_step refuse s k (ODup (stored xs)) (region_ptr s)); [exact Hr|exact refuse_ok| |].
    - unfold legal. rewrite stored_len. lia.
    - cbn [region_op]. rewrite (dup_fits _ _ c cs); try assumption; rewrite stored_len; [|lia].
      unfold region_ptr. replace (rhead s + 8 * Z.of_nat 0) with (rhead s) by lia. now rewrite C1.
  Qed.
  Hypothesis Hms : forall n, malloc_contract (ms n).
  Lemma parse_grown l xs tail X s k :
    reach s k -> number_line strtod l xs tail ->
    0 < region_freesize s < region_topsize s -> region_freesize s < 8 * Z.of_nat (length xs) ->
    8 * Z.of_nat (length xs) <= 2 * region_topsize s -> 8 * Z.of_nat (length xs) <= MAXREQ ->
    d_parse strtod enc ms l X s = Region NoMem \/
    exists p s', d_parse strtod enc ms l X s = Got (length xs, Some p, tail, s') /\
      readable (rmem s') (mkB p (map Some (stored xs))) /\
      (forall b, In b k -> readable (rmem s') b /\ disjoint_blocks (mkB p (map Some (stored xs))) b) /\
      (forall i, 0 <= i < 8 * Z.of_nat (length xs) -> owns s' (p + i)).
  Proof.
    intros Hr Hn Hfs Hl Hl2 HM. destruct (reach_good s k Hr) as (c & cs & Hg & Hap & Hh & Hmod & Ht & Hf & _).
    assert (Hf0 : 0 < region_freesize s) by lia. rewrite (Hf Hf0) in Hfs, Hl. rewrite Ht in Hfs, Hl2.
    rewrite (d_parse_line _ _ _ _ _ Hn).
    assert (EX : cells ms 8 (map enc xs) 0 X s = cells ms 8 (map enc xs) 0 None s).
    { destruct xs as [|x xs]; [cbn in Hl; lia|reflexivity]. }
    rewrite EX.
    destruct (cells_grow ms 8 (map enc xs) s c cs Hms Hg) as [E|(s1 & d & E & Hg1 & Hd & Sd & Ad & Hin & Hout)];
      [lia|lia|apply eights|rewrite map_length; lia|rewrite map_length; lia| |].
    { left. rewrite E. reflexivity. }
    right. rewrite E. cbn [region andthen]. unfold parsed. cbn [fst snd].
    unfold region_alloc. pose proof Hg1 as (C1 & G1 & G2 & G3 & G4). rewrite C1.
    assert (W : W64 = 2 ^ 64) by reflexivity. pose proof Hg as (C0 & _). unfold MAXREQ in HM.
    destruct (Z.leb_spec W64 (rhead s1 + 8 * Z.of_nat (length xs))); [lia|].
    destruct (Z.ltb_spec (cend d) (rhead s1 + 8 * Z.of_nat (length xs))); [lia|].
    cbn [bind region andthen fst snd]. rewrite Z.eqb_refl, orb_true_r.
    exists (rhead s1). eexists. split; [reflexivity|]. cbn [rmem rchunks].
    split; [|split].
    - intros i v Hi. cbn [bdata bptr] in *. rewrite nth_error_map in Hi.
      destruct (nth_error (stored xs) i) as [y|] eqn:Ey; [|discriminate]. injection Hi as <-. now apply Hin.
    - intros b Hb. destruct (blocks_kept s k c cs d (rmem s1) b Hr C0 Ad Hout Hb) as [K1 K2]. split; [exact K1|].
      unfold disjoint_blocks. pose proof (stored_len xs).
      apply (apart_blocks _ _ d b); [| | |exact K2]; unfold blen; cbn [bptr bdata]; rewrite ?map_length; lia.
    - intros i Hi. exists d. cbn [rchunks]. split; [rewrite C1; now left|lia].
  Qed.
  Lemma parse_freed l xs tail X s k :
    reach s k -> number_line strtod l xs tail ->
    region_freesize s = region_topsize s -> region_topsize s < 8 * Z.of_nat (length xs) -> 8 * Z.of_nat (length xs) <= MAXREQ ->
    (forall n live z a junk, ms n live z = Some (a, junk) -> a <> region_ptr s) ->
    d_parse strtod enc ms l X s = Region NoMem \/ d_parse strtod enc ms l X s = Region UseAfterFree.
  Proof.
    intros Hr Hn Hfs Hl HM Hne. destruct (reach_good s k Hr) as (c & cs & Hg & Hap & Hh & Hmod & Ht & Hf & Hz).
    pose proof Hg as (C1 & G1 & G2 & G3 & G4). unfold region_ptr in *.
    assert (Hfp : 0 < region_freesize s) by lia. rewrite Hf in Hfs by lia.
    rewrite (d_parse_line _ _ _ _ _ Hn).
    assert (EX : cells ms 8 (map enc xs) 0 X s = cells ms 8 (map enc xs) 0 None s).
    { destruct xs as [|x xs]; [cbn in Hl; lia|reflexivity]. }
    rewrite EX.
    destruct (cells_freed ms 8 (map enc xs) s c cs Hms Hg Hap) as [E|E];
      [lia|lia|apply eights|rewrite map_length; lia|rewrite map_length; lia| | |].
    { intros n live z a junk K. replace (cbase c) with (rhead s) by lia. exact (Hne _ _ _ _ _ K). }
    - left. rewrite E. reflexivity.
    - right. rewrite E. reflexivity.
  Qed.
End Parse.

(** aa_read_realloc: there is always room at the offset, and something is asked for *)
Lemma read_room off max : 0 <= off <= max -> max < 2 ^ 63 ->
  let '(max', o, n) := read_realloc off max in
  o = off /\ o + n = max' /\ max <= max' <= Z.max 16 (2 * max) /\ 8 <= n.
Proof.
  intros H M. unfold read_realloc. assert (W : W64 = 2 ^ 64) by reflexivity.
  assert (E1 : wrap64 (max - off) = max - off) by (unfold wrap64; apply Z.mod_small; lia).
  assert (E2 : wrap64 (2 * max) = 2 * max) by (unfold wrap64; apply Z.mod_small; lia).
  rewrite E1, E2. destruct (Z.ltb_spec (max - off) 16).
  - assert (E3 : wrap64 (Z.max (2 * max) 16 - off) = Z.max (2 * max) 16 - off) by (unfold wrap64; apply Z.mod_small; lia).
    rewrite E3. lia.
  - lia.
Qed.
