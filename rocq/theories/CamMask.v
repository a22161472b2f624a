(** The frame mask: right until it has to grow, outside its memory after. *)
From Coq Require Import ZArith List Bool Lia.
From Verif Require Import BitsModel BitsProofs TfModel CamModel CamSpec.
Import ListNotations.
Open Scope Z_scope.

(** A mask whose ints are all written, one per four octets *)
Definition holds (m : fmask) (b : list Z) : Prop :=
  fwords m = map Some b /\ fsize m = 4 * Z.of_nat (length b).

Lemma all_some_map b : all_some (map Some b) = b.
Proof. unfold all_some. rewrite map_map. apply map_id. Qed.

Lemma readable_map b i : readable (map Some b) i = (Z.to_nat (bit_j i) <? length b)%nat.
Proof.
  unfold readable. rewrite nth_error_map. destruct (nth_error b _) eqn:E; cbn; symmetry.
  - apply Nat.ltb_lt. apply nth_error_Some. congruence.
  - apply Nat.ltb_ge. now apply nth_error_None.
Qed.

Lemma fits n i : 0 <= i -> 0 <= n -> (4 * n <? bits_size (i + 1)) = (32 * n <=? i).
Proof.
  intros Hi Hn. unfold bits_size. pose proof (words_enough (i + 1) ltac:(lia)) as W.
  destruct (_ <=? _) eqn:E; lia.
Qed.

Lemma set_nth_map (b : list Z) k w : (k < length b)%nat ->
  set_nth (map Some b) k (Some w) = map Some (set_nth b k w).
Proof. revert k. induction b as [|x b IH]; intros [|k] H; cbn in *; try lia; [reflexivity|]. f_equal. apply IH. lia. Qed.

Definition shown (b : list Z) (i : Z) : bool := match bits_get b i with Some 1 => true | _ => false end.

Lemma is_masked_holds m b i : holds m b -> 0 <= i -> is_masked m i = Some (Z.b2z (shown b i)).
Proof.
  intros (E & S) Hi. unfold is_masked, shown. rewrite S, fits, E, readable_map, all_some_map by lia.
  rewrite bits_get_spec by lia. unfold bit_of.
  destruct (_ <=? _) eqn:L.
  - destruct (nth_error b _) eqn:N; cbn; [|reflexivity].
    assert (Z.to_nat (i / 32) < length b)%nat by (apply nth_error_Some; congruence). lia.
  - replace (_ <? _)%nat with true by (symmetry; apply Nat.ltb_lt; unfold bit_j; lia).
    destruct (nth_error b (Z.to_nat (i / 32))) eqn:N; cbn.
    + destruct (Z.testbit _ _); reflexivity.
    + apply nth_error_None in N. lia.
Qed.

Lemma fm_set_holds m b i v : holds m b -> 0 <= i < 32 * Z.of_nat (length b) ->
  exists m' b', fm_set m i v = Some m' /\ holds m' b' /\ length b' = length b /\
    shown b' i = v /\ (forall j, 0 <= j -> j <> i -> shown b' j = shown b j).
Proof.
  intros (E & S) Hi. unfold fm_set. rewrite E, readable_map, all_some_map.
  assert (K : (Z.to_nat (bit_j i) < length b)%nat) by (unfold bit_j; lia).
  replace (_ <? _)%nat with true by (symmetry; now apply Nat.ltb_lt).
  destruct (bits_set_ok b (32 * Z.of_nat (length b)) i v Hi) as (b' & B1 & B2 & B3 & B4).
  { pose proof (words_enough (32 * Z.of_nat (length b)) ltac:(lia)). lia. }
  rewrite B1. eexists _, b'. split; [reflexivity|]. split; [|split; [exact B2|split]].
  - split; [|cbn; rewrite B2; exact S]. cbn [fwords].
    unfold bits_set in B1. destruct (nth_error b (Z.to_nat (bit_j i))) as [w|] eqn:N; [|discriminate].
    inversion B1 as [B1']. rewrite set_nth_eq by exact K. rewrite set_nth_map by exact K. reflexivity.
  - unfold shown. rewrite B3. now destruct v.
  - intros j Hj Nj. unfold shown. now rewrite B4.
Qed.

Lemma zero_words_fresh : forall n at_ k l, (length l = at_)%nat -> (n <= k)%nat ->
  zero_words n at_ (l ++ repeat None k) = Some (l ++ repeat (Some 0) n ++ repeat None (k - n)).
Proof.
  induction n as [|n IH]; intros at_ k l L K; cbn [zero_words]; [cbn [repeat app]; now rewrite Nat.sub_0_r|].
  destruct k as [|k]; [lia|].
  replace (at_ <? length (l ++ repeat None (S k)))%nat with true
    by (symmetry; apply Nat.ltb_lt; rewrite app_length, repeat_length; lia).
  replace (set_nth (l ++ repeat None (S k)) at_ (Some 0)) with ((l ++ [Some 0]) ++ repeat None k).
  - rewrite IH by (rewrite ?app_length; cbn; lia). rewrite <- app_assoc. reflexivity.
  - subst at_. clear. induction l as [|x l IHl]; cbn; [reflexivity|]. now rewrite IHl.
Qed.


Lemma zero_words_past : forall n at_ l, (0 < n)%nat -> (length l < at_ + n)%nat -> zero_words n at_ l = None.
Proof.
  induction n as [|n IH]; intros at_ l N H; cbn [zero_words]; [lia|].
  destruct (at_ <? length l)%nat eqn:E; [|reflexivity]. apply Nat.ltb_lt in E.
  apply IH; rewrite ?set_nth_length; lia.
Qed.

Lemma shown_zeros n j : 0 <= j -> shown (repeat 0 n) j = false.
Proof.
  intros Hj. unfold shown. rewrite bits_get_spec by lia. unfold bit_of.
  destruct (nth_error (repeat 0 n) _) eqn:N; cbn; [|reflexivity].
  apply nth_error_In, repeat_spec in N. subst. now rewrite Z.testbit_0_l by (apply Z.mod_pos_bound; lia).
Qed.

Lemma new_words i : 0 <= i -> 32 * bits_words (2 * (i + 1)) = capacity i.
Proof.
  intros Hi. unfold capacity, bits_words. destruct (_ <? _) eqn:E; lia.
Qed.

(** The first call on an empty mask *)
Lemma mask_first i v : 0 <= i ->
  exists m' b', fm_mask fm_none i v = Some m' /\ holds m' b' /\ 32 * Z.of_nat (length b') = capacity i /\
    shown b' i = v /\ (forall j, 0 <= j -> j <> i -> shown b' j = false).
Proof.
  intros Hi. unfold fm_mask, fm_none. cbn [fsize fwords].
  pose proof (words_enough (i + 1) ltac:(lia)) as W. unfold bits_size at 1.
  replace (0 <? _) with true by lia.
  pose proof (new_words i Hi) as C. pose proof (words_enough (2 * (i + 1)) ltac:(lia)) as W2.
  set (n := bits_words (2 * (i + 1))) in *.
  assert (Sz : bits_size (2 * (i + 1)) = n * 4) by reflexivity. rewrite Sz.
  unfold memset0, realloc_words. rewrite Z.sub_0_r, Z.div_mul by lia. cbn [length app]. rewrite Nat.sub_0_r.
  pose proof (zero_words_fresh (Z.to_nat n) 0 (Z.to_nat n) [] eq_refl (le_n _)) as Q.
  cbn [app] in Q. change (Z.to_nat 0) with 0%nat. rewrite Q, Nat.sub_diag. cbn [repeat]. rewrite app_nil_r.
  assert (Hold : holds (mkF (repeat (Some 0) (Z.to_nat n)) (n * 4)) (repeat 0 (Z.to_nat n))).
  { split; cbn [fwords fsize]; [generalize (Z.to_nat n); intros k; induction k; cbn; congruence|]. rewrite repeat_length. lia. }
  destruct (fm_set_holds _ _ i v Hold) as (m' & b' & F & Hh & L & V & O).
  { rewrite repeat_length. lia. }
  exists m', b'. split; [exact F|]. split; [exact Hh|]. rewrite repeat_length in L.
  split; [rewrite L; lia|]. split; [exact V|]. intros j Hj Nj. rewrite O by assumption. now apply shown_zeros.
Qed.

(** Growing a mask that is not empty writes past its end *)
Lemma mask_grow m b i v : holds m b -> b <> [] -> 32 * Z.of_nat (length b) <= i -> fm_mask m i v = None.
Proof.
  intros (E & S) B L. unfold fm_mask. rewrite S, fits by lia. replace (_ <=? _) with true by lia.
  pose proof (words_enough (2 * (i + 1)) ltac:(lia)) as W2. unfold bits_size at 1 2.
  set (n := bits_words (2 * (i + 1))) in *.
  assert (P : (0 < length b)%nat) by (destruct b; [congruence|cbn; lia]).
  unfold memset0. rewrite zero_words_past; [reflexivity| |].
  - replace (n * 4 - 4 * Z.of_nat (length b)) with ((n - Z.of_nat (length b)) * 4) by ring.
    rewrite Z.div_mul by lia. lia.
  - replace (n * 4 - 4 * Z.of_nat (length b)) with ((n - Z.of_nat (length b)) * 4) by ring.
    unfold realloc_words. rewrite !Z.div_mul by lia. rewrite app_length, repeat_length, E, map_length. lia.
Qed.

Definition meant (b : list Z) (cap : option Z) (h0 : Z -> bool) : Prop :=
  (forall j, 0 <= j -> shown b j = h0 j) /\
  match cap with None => b = [] | Some c => b <> [] /\ c = 32 * Z.of_nat (length b) end.

Definition nonneg (h : list fcall) : Prop := forall i v, In (Mask i v) h -> 0 <= i.


Lemma hidden_last h c i b : hidden_by (h ++ [c]) i b =
  match c with UnmaskAll => false | Mask j v => if i =? j then v else hidden_by h i b end.
Proof.
  revert b. induction h as [|x h IH]; intros b; cbn.
  - destruct c; reflexivity.
  - destruct x; rewrite IH; reflexivity.
Qed.

Lemma run_step m b cap h0 h : holds m b -> meant b cap h0 -> nonneg h ->
  (within cap h -> exists m' b', fm_run m h = Some m' /\ holds m' b' /\
     forall j, 0 <= j -> shown b' j = hidden_by h j (h0 j)) /\
  (fm_run m h <> None -> within cap h).
Proof.
  revert m b cap h0. induction h as [|c h IH]; intros m b cap h0 Hm (M1 & M2) NN; cbn.
  { split; [|trivial]. intros _. exists m, b. split; [reflexivity|]. split; assumption. }
  assert (NN' : nonneg h) by (intros i v Hin; apply (NN i v); now right).
  destruct c as [i v|]; cbn.
  - assert (Hi : 0 <= i) by (apply (NN i v); now left).
    destruct cap as [c|].
    + destruct M2 as (B & Ec). destruct (Z_lt_le_dec i c) as [L|L].
      * assert (F : fm_mask m i v = fm_set m i v).
        { unfold fm_mask. destruct Hm as (E & S). rewrite S, fits by lia. now replace (_ <=? _) with false by lia. }
        destruct (fm_set_holds m b i v Hm ltac:(lia)) as (m' & b' & F1 & H1 & L1 & V & O).
        rewrite F, F1. destruct (IH m' b' (Some c) (fun j => if j =? i then v else h0 j) H1) as (I1 & I2).
        { split.
          - intros j Hj. destruct (j =? i) eqn:J; [apply Z.eqb_eq in J; now subst|].
            apply Z.eqb_neq in J. rewrite O by assumption. now apply M1.
          - split; [destruct b'; [destruct b; [congruence|cbn in L1; lia]|congruence]|]. now rewrite L1. }
        { exact NN'. }
        split.
        -- intros (_ & _ & W). destruct (I1 W) as (m2 & b2 & R1 & R2 & R3). exists m2, b2. auto.
        -- intros R. split; [exact Hi|]. split; [exact L|]. auto.
      * rewrite (mask_grow m b i v Hm B) by lia. split; [intros (_ & K & _); lia|congruence].
    + subst b. destruct Hm as (E & S). cbn in E, S.
      replace m with fm_none by (destruct m; cbn in *; subst; reflexivity).
      destruct (mask_first i v Hi) as (m' & b' & F1 & H1 & L1 & V & O). rewrite F1.
      destruct (IH m' b' (Some (capacity i)) (fun j => if j =? i then v else h0 j) H1) as (I1 & I2).
      { split.
        - intros j Hj. destruct (j =? i) eqn:J; [apply Z.eqb_eq in J; now subst|].
          apply Z.eqb_neq in J. rewrite O by assumption. rewrite <- M1 by assumption.
          symmetry. apply (shown_zeros 0). assumption.
        - split; [|now rewrite L1]. intros ->. cbn [length] in L1. unfold capacity in L1. lia. }
      { exact NN'. }
      split.
      * intros (_ & W). destruct (I1 W) as (m2 & b2 & R1 & R2 & R3). exists m2, b2. auto.
      * intros R. split; [exact Hi|]. auto.
  - destruct (IH fm_none [] None (fun _ => false)) as (I1 & I2); [split; reflexivity| |exact NN'|].
    { split; [|reflexivity]. intros j Hj. apply (shown_zeros 0 j Hj). }
    split; [|exact I2]. intros W. destruct (I1 W) as (m2 & b2 & R1 & R2 & R3). exists m2, b2. auto.
Qed.

Lemma mask_meaning h m i : nonneg h -> fm_run fm_none h = Some m -> 0 <= i ->
  is_masked m i = Some (Z.b2z (hidden_by h i false)).
Proof.
  intros N R Hi. destruct (run_step fm_none [] None (fun _ => false) h) as (I1 & I2).
  - split; reflexivity.
  - split; [|reflexivity]. intros j Hj. apply (shown_zeros 0 j Hj).
  - exact N.
  - destruct (I1 (I2 ltac:(congruence))) as (m' & b' & R1 & R2 & R3).
    assert (m' = m) by congruence. subst. rewrite (is_masked_holds m b' i R2 Hi), R3 by assumption. reflexivity.
Qed.

Lemma mask_defined h : nonneg h -> (fm_run fm_none h <> None <-> within None h).
Proof.
  intros N. destruct (run_step fm_none [] None (fun _ => false) h) as (I1 & I2).
  - split; reflexivity.
  - split; [|reflexivity]. intros j Hj. apply (shown_zeros 0 j Hj).
  - exact N.
  - split; [exact I2|]. intros W. destruct (I1 W) as (m' & b' & R1 & _). congruence.
Qed.
