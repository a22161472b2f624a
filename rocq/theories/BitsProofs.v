From Coq Require Import ZArith List Bool Lia ZifyBool.
From Verif Require Import RegionModel RegionProofs PoolModel PoolProofs BitsModel.
Import ListNotations.
Open Scope Z_scope.
Ltac Zify.zify_post_hook ::= Z.div_mod_to_equations.

Lemma set_nth_length {A} (l : list A) i v : length (set_nth l i v) = length l.
Proof. revert i; induction l; intros [|i]; cbn; auto. Qed.
Lemma set_nth_eq {A} (l : list A) : forall i v, (i < length l)%nat -> nth_error (set_nth l i v) i = Some v.
Proof. induction l; intros [|i] v H; cbn in *; try lia; [reflexivity|apply IHl; lia]. Qed.
Lemma set_nth_ne {A} (l : list A) : forall i j v, i <> j -> nth_error (set_nth l i v) j = nth_error l j.
Proof. induction l; intros [|i] [|j] v H; cbn in *; try congruence; auto. Qed.

(** words *)
Lemma words_enough n : 0 <= n -> n <= 32 * bits_words n < n + 32.
Proof. intros H. unfold bits_words. destruct (_ <? _) eqn:E; lia. Qed.

Lemma bits_size_octets n : 0 <= n -> n <= 8 * bits_size n < n + 32.
Proof. intros H. unfold bits_size. pose proof (words_enough n H). lia. Qed.

Lemma bit_jk i : 0 <= i -> 0 <= bit_j i /\ 0 <= bit_k i < 32 /\ i = 32 * bit_j i + bit_k i.
Proof. intros H. unfold bit_j, bit_k, bit_j. lia. Qed.

Lemma testbit_signed w x k : 0 < w -> 0 <= k < w -> Z.testbit (signed w x) k = Z.testbit x k.
Proof.
  intros Hw Hk. unfold signed.
  rewrite <- (Z.mod_pow2_bits_low (_ - _) w k) by lia.
  rewrite <- (Z.mod_pow2_bits_low x w k) by lia. f_equal.
  rewrite Zminus_mod_idemp_l. f_equal. lia.
Qed.

Lemma get_val w k : 0 <= k -> Z.land (Z.shiftr w k) 1 = Z.b2z (Z.testbit w k).
Proof.
  intros H. change 1 with (Z.ones 1). rewrite Z.land_ones by lia.
  rewrite Z.pow_1_r. rewrite <- Z.bit0_mod. f_equal. rewrite Z.shiftr_spec by lia. f_equal.
Qed.

Lemma bit_word_testbit k j : 0 <= k < 32 -> 0 <= j < 32 ->
  Z.testbit (s32 (Z.shiftl 1 k)) j = (k =? j).
Proof.
  intros Hk Hj. unfold s32. rewrite testbit_signed by lia.
  rewrite Z.shiftl_1_l. rewrite Z.pow2_bits_eqb by lia. reflexivity.
Qed.

(** the value of bit i of vector b *)
Definition bit_of (b : list Z) (i : Z) : option bool :=
  match nth_error b (Z.to_nat (i / 32)) with
  | Some w => Some (Z.testbit w (i mod 32))
  | None => None
  end.

Lemma bits_get_spec b i : 0 <= i -> bits_get b i = option_map Z.b2z (bit_of b i).
Proof.
  intros H. unfold bits_get, bit_of. destruct (bit_jk i H) as (H1 & H2 & H3).
  unfold bit_j at 1. destruct (nth_error b (Z.to_nat (i / 32))) as [w|]; [|reflexivity].
  cbn. f_equal. replace (bit_k i) with (i mod 32) by (unfold bit_k, bit_j; lia).
  apply get_val. lia.
Qed.

Lemma bits_inbounds (b : list Z) i n : 0 <= i < n -> bits_words n <= Z.of_nat (length b) ->
  (Z.to_nat (i / 32) < length b)%nat.
Proof. intros H Hb. pose proof (words_enough n ltac:(lia)). lia. Qed.

Lemma bits_set_ok b n i v : 0 <= i < n -> bits_words n <= Z.of_nat (length b) ->
  exists b', bits_set b i v = Some b' /\ length b' = length b /\
    bits_get b' i = Some (Z.b2z v) /\
    (forall j, 0 <= j -> j <> i -> bits_get b' j = bits_get b j).
Proof.
  intros Hi Hb. pose proof (bits_inbounds b i n Hi Hb) as Hin.
  destruct (bit_jk i ltac:(lia)) as (J1 & J2 & J3).
  unfold bits_set. fold (bit_j i) in Hin.
  destruct (nth_error b (Z.to_nat (bit_j i))) as [w|] eqn:E.
  2: { apply nth_error_None in E. lia. }
  set (w' := if v then _ else _).
  assert (Hw' : forall k, 0 <= k < 32 -> Z.testbit w' k = if k =? bit_k i then v else Z.testbit w k).
  { intros k Hk. unfold w'. destruct v.
    - rewrite Z.lor_spec, bit_word_testbit by lia. rewrite (Z.eqb_sym (bit_k i) k).
      destruct (k =? bit_k i); [apply orb_true_r|apply orb_false_r].
    - rewrite Z.land_spec, Z.lnot_spec, bit_word_testbit by lia. rewrite (Z.eqb_sym (bit_k i) k).
      destruct (k =? bit_k i); [apply andb_false_r|apply andb_true_r]. }
  eexists. split; [reflexivity|]. split; [apply set_nth_length|]. split.
  - unfold bits_get. rewrite set_nth_eq by exact Hin. f_equal.
    rewrite get_val by lia. rewrite Hw' by lia. rewrite Z.eqb_refl. reflexivity.
  - intros j Hj Hne. unfold bits_get. destruct (bit_jk j Hj) as (K1 & K2 & K3).
    destruct (Z.eq_dec (bit_j j) (bit_j i)) as [Ej|Ej].
    + rewrite Ej. rewrite set_nth_eq by exact Hin. rewrite E. f_equal.
      rewrite !get_val by lia. rewrite Hw' by lia.
      replace (bit_k j =? bit_k i) with false by lia. reflexivity.
    + rewrite set_nth_ne by lia. reflexivity.
Qed.

Lemma bits_getn_ok b n i : 0 <= i -> n = 4 * Z.of_nat (length b) ->
  bits_getn b n i = Some 0 /\ 32 * Z.of_nat (length b) <= i \/
  bits_getn b n i = bits_get b i /\ i < 32 * Z.of_nat (length b) /\ bits_get b i <> None.
Proof.
  intros Hi ->. unfold bits_getn, bits_size. pose proof (words_enough (i + 1) ltac:(lia)) as Hw.
  destruct (_ <? _) eqn:E.
  - left. split; [reflexivity|]. lia.
  - right. split; [reflexivity|]. split; [lia|]. unfold bits_get.
    destruct (nth_error b (Z.to_nat (bit_j i))) eqn:E2; [discriminate|].
    apply nth_error_None in E2. unfold bit_j in E2. lia.
Qed.

(** and/or/xor never finish *)
Lemma bits_loop_stuck op fuel : forall a b n, n <> 0 -> forall r, bits_loop op fuel a b n <> Done r.
Proof.
  induction fuel as [|f IH]; intros a b n Hn r; cbn; [discriminate|].
  replace (n =? 0) with false by lia.
  destruct (nth_error a (Z.to_nat n)), (nth_error b (Z.to_nat n)); try discriminate. apply IH. exact Hn.
Qed.

Lemma bits_op_stuck op fuel a b n : 0 < n -> forall r, bits_op op fuel a b n <> Done r.
Proof. intros H. apply bits_loop_stuck. pose proof (words_enough n). lia. Qed.

Lemma bits_op_oob op fuel a b n : 0 < n -> (0 < fuel)%nat ->
  Z.of_nat (length a) = bits_words n -> bits_op op fuel a b n = OutOfBounds.
Proof.
  intros H Hf Ha. unfold bits_op. destruct fuel as [|f]; [lia|]. cbn.
  pose proof (words_enough n ltac:(lia)).
  replace (bits_words n =? 0) with false by lia.
  destruct (nth_error a (Z.to_nat (bits_words n))) eqn:E; [|reflexivity].
  assert (Z.to_nat (bits_words n) < length a)%nat by (apply nth_error_Some; congruence). lia.
Qed.

(** * memswap *)
Lemma read_bytes_length mem p n : length (read_bytes mem p n) = n.
Proof. unfold read_bytes. rewrite map_length, seq_length. reflexivity. Qed.

Lemma read_bytes_nth mem p n i : (i < n)%nat -> nth_error (read_bytes mem p n) i = Some (mem (p + Z.of_nat i)).
Proof.
  intros H. unfold read_bytes. rewrite nth_error_map.
  rewrite (nth_error_nth' (seq 0 n) O) by (rewrite seq_length; lia). rewrite seq_nth by lia. reflexivity.
Qed.

Lemma write_read mem0 mem p q n x : p <= x < p + Z.of_nat n ->
  write_bytes mem0 p (read_bytes mem q n) x = mem (q + (x - p)).
Proof.
  intros H. replace x with (p + Z.of_nat (Z.to_nat (x - p))) at 1 by lia.
  erewrite write_bytes_in; [|apply read_bytes_nth; lia]. f_equal. lia.
Qed.

(** contents after exchanging n bytes *)
Definition swapped (mem : Z -> Z) (a b n : Z) (x : Z) : Z :=
  if (a <=? x) && (x <? a + n) then mem (b + (x - a))
  else if (b <=? x) && (x <? b + n) then mem (a + (x - b)) else mem x.

Lemma swap_word_spec mem pa pb x : pa + 8 <= pb \/ pb + 8 <= pa ->
  swap_word mem pa pb x = swapped mem pa pb 8 x.
Proof.
  intros H. unfold swap_word, swapped.
  destruct ((pb <=? x) && (x <? pb + 8)) eqn:Eb.
  - rewrite write_read by lia. replace ((pa <=? x) && (x <? pa + 8)) with false by lia. reflexivity.
  - rewrite write_bytes_out by (rewrite read_bytes_length; lia).
    destruct ((pa <=? x) && (x <? pa + 8)) eqn:Ea.
    + rewrite write_read by lia. reflexivity.
    + apply write_bytes_out. rewrite read_bytes_length. lia.
Qed.

Lemma swap_byte_spec mem pa pb x : pa <> pb ->
  swap_byte mem pa pb x = swapped mem pa pb 1 x.
Proof.
  intros H. unfold swap_byte, swapped.
  destruct (x =? pb) eqn:Eb.
  - replace ((pa <=? x) && (x <? pa + 1)) with false by lia.
    replace ((pb <=? x) && (x <? pb + 1)) with true by lia. f_equal. lia.
  - destruct (x =? pa) eqn:Ea.
    + replace ((pa <=? x) && (x <? pa + 1)) with true by lia. f_equal. lia.
    + replace ((pa <=? x) && (x <? pa + 1)) with false by lia.
      replace ((pb <=? x) && (x <? pb + 1)) with false by lia. reflexivity.
Qed.

Lemma swapped_ext mem mem' a b n : (forall x, mem x = mem' x) -> forall x, swapped mem a b n x = swapped mem' a b n x.
Proof. intros H x. unfold swapped. rewrite !H. reflexivity. Qed.

Lemma swapped_app mem a b n m x : 0 <= n -> 0 <= m -> (a + (n + m) <= b \/ b + (n + m) <= a) ->
  swapped (swapped mem a b n) (a + n) (b + n) m x = swapped mem a b (n + m) x.
Proof.
  intros Hn Hm Hd. unfold swapped.
  repeat match goal with |- context [if ?c then _ else _] => destruct c eqn:? end;
    try lia; try reflexivity; f_equal; lia.
Qed.

Lemma words_loop_spec k : forall i mem a b n, 0 <= i -> a + n <= b \/ b + n <= a -> 8 * (i + Z.of_nat k) <= n ->
  forall x, words_loop k i mem a b x = swapped mem (a + 8 * i) (b + 8 * i) (8 * Z.of_nat k) x.
Proof.
  induction k as [|k IH]; intros i mem a b n Hi Hd Hk x.
  - cbn. unfold swapped.
    repeat match goal with |- context [if ?c then _ else _] => destruct c eqn:? end; try lia; reflexivity.
  - cbn [words_loop]. rewrite (IH (i + 1) _ a b n) by lia.
    rewrite (swapped_ext _ (swapped mem (a + 8 * i) (b + 8 * i) 8))
      by (intros y; apply swap_word_spec; lia).
    replace (a + 8 * (i + 1)) with (a + 8 * i + 8) by lia.
    replace (b + 8 * (i + 1)) with (b + 8 * i + 8) by lia.
    rewrite swapped_app by lia. f_equal. lia.
Qed.

Lemma bytes_loop_spec k : forall i mem a b n, 0 <= i -> a + n <= b \/ b + n <= a -> i + Z.of_nat k <= n ->
  forall x, bytes_loop k i mem a b x = swapped mem (a + i) (b + i) (Z.of_nat k) x.
Proof.
  induction k as [|k IH]; intros i mem a b n Hi Hd Hk x.
  - cbn. unfold swapped.
    repeat match goal with |- context [if ?c then _ else _] => destruct c eqn:? end; try lia; reflexivity.
  - cbn [bytes_loop]. rewrite (IH (i + 1) _ a b n) by lia.
    rewrite (swapped_ext _ (swapped mem (a + i) (b + i) 1))
      by (intros y; apply swap_byte_spec; lia).
    replace (a + (i + 1)) with (a + i + 1) by lia.
    replace (b + (i + 1)) with (b + i + 1) by lia.
    rewrite swapped_app by lia. f_equal. lia.
Qed.

Lemma memswap_swapped mem a b n x : 0 <= n -> a + n <= b \/ b + n <= a ->
  memswap mem a b n x = swapped mem a b n x.
Proof.
  intros Hn Hd. unfold memswap. rewrite (bytes_loop_spec _ _ _ a b n) by lia.
  rewrite (swapped_ext _ (swapped mem a b (n - n mod 8))).
  2: { intros y. rewrite (words_loop_spec _ _ _ a b n) by lia.
       replace (a + 8 * 0) with a by lia. replace (b + 8 * 0) with b by lia. f_equal. lia. }
  rewrite swapped_app by lia. f_equal. lia.
Qed.

Lemma memswap_ok mem a b n : 0 <= n -> a + n <= b \/ b + n <= a ->
  (forall i, 0 <= i < n -> memswap mem a b n (a + i) = mem (b + i)) /\
  (forall i, 0 <= i < n -> memswap mem a b n (b + i) = mem (a + i)) /\
  (forall x, ~ (a <= x < a + n) -> ~ (b <= x < b + n) -> memswap mem a b n x = mem x).
Proof.
  intros Hn Hd. repeat split; intros; rewrite memswap_swapped by assumption; unfold swapped;
  repeat match goal with |- context [if ?c then _ else _] => destruct c eqn:? end; try lia; try reflexivity;
  f_equal; lia.
Qed.

(** * vectors *)
Definition vec_holds {A} (v : vec A) (l : list A) : Prop :=
  length (vdata v) = vmax v /\ vsize v = length l /\ (vsize v <= vmax v)%nat /\
  firstn (vsize v) (vdata v) = map Some l.

Lemma set_nth_app {A} (l r : list A) x y : set_nth (l ++ x :: r) (length l) y = l ++ y :: r.
Proof. induction l; cbn; [reflexivity|]. f_equal. exact IHl. Qed.

Lemma vec_push_ok {A} (v : vec A) l x : vec_holds v l ->
  exists v', vec_push v x = Some v' /\ vec_holds v' (l ++ [x]).
Proof.
  intros (Hlen & Hs & Hle & Hf). unfold vec_push.
  set (p := if (vmax v <=? vsize v)%nat then _ else _).
  assert (Hp : length (snd p) = fst p /\ (vsize v < fst p)%nat /\
               exists c r, snd p = map Some l ++ c :: r).
  { unfold p. destruct (vmax v <=? vsize v)%nat eqn:E.
    - assert (vmax v = vsize v) by lia. cbn [fst snd].
      set (m := (2 * (vsize v + 1))%nat).
      assert (Hd : realloc_cells (vdata v) m = map Some l ++ repeat None (m - length (vdata v))).
      { unfold realloc_cells. f_equal. rewrite <- Hf.
        rewrite !firstn_all2 by (unfold m; lia). reflexivity. }
      split; [rewrite Hd, app_length, map_length, repeat_length; unfold m; lia|].
      split; [unfold m; lia|]. rewrite Hd.
      destruct (m - length (vdata v))%nat as [|k] eqn:Em; [unfold m in Em; lia|].
      exists None, (repeat None k). reflexivity.
    - cbn [fst snd]. split; [exact Hlen|]. split; [lia|].
      rewrite <- (firstn_skipn (vsize v) (vdata v)), Hf.
      destruct (skipn (vsize v) (vdata v)) as [|c r] eqn:Es.
      + assert (length (skipn (vsize v) (vdata v)) = 0)%nat by (rewrite Es; reflexivity).
        rewrite skipn_length in *. lia.
      + eauto. }
  destruct p as [max data]. cbn [fst snd] in Hp. destruct Hp as (Hl & Hlt & c & r & ->).
  assert (Hm : vsize v = length (map Some l)) by (rewrite map_length; exact Hs).
  replace (nth_error (map Some l ++ c :: r) (vsize v)) with (Some c)
    by (rewrite Hm, nth_error_app2, Nat.sub_diag by lia; reflexivity).
  replace (set_nth (map Some l ++ c :: r) (vsize v) (Some x)) with (map Some l ++ Some x :: r)
    by (rewrite Hm; symmetry; apply set_nth_app).
  eexists. split; [reflexivity|]. unfold vec_holds. cbn [vmax vsize vdata].
  split; [rewrite <- Hl, !app_length; reflexivity|].
  split; [rewrite app_length; cbn; lia|]. split; [lia|].
  rewrite Hm.
  replace (map Some l ++ Some x :: r) with ((map Some l ++ [Some x]) ++ r) by (rewrite <- app_assoc; reflexivity).
  rewrite map_app. cbn [map].
  replace (S (length (map Some l))) with (length (map Some l ++ [Some x])) by (rewrite app_length; cbn; lia).
  rewrite firstn_app, Nat.sub_diag, firstn_all. cbn. rewrite app_nil_r. reflexivity.
Qed.

Lemma vec_pushes_ok {A} : forall l (v : vec A) l0, vec_holds v l0 ->
  exists v', vec_pushes v l = Some v' /\ vec_holds v' (l0 ++ l).
Proof.
  induction l as [|x r IH]; intros v l0 H; cbn.
  - exists v. rewrite app_nil_r. auto.
  - destruct (vec_push_ok v l0 x H) as (v1 & -> & H1).
    destruct (IH v1 _ H1) as (v' & -> & H'). exists v'. split; [reflexivity|].
    rewrite <- app_assoc in H'. exact H'.
Qed.

Lemma vec_init_holds {A} n : vec_holds (@vec_init A n) [].
Proof. unfold vec_holds, vec_init. cbn. rewrite repeat_length. repeat split; lia. Qed.

Lemma vec_all {A} max (l : list A) :
  exists v, vec_pushes (vec_init max) l = Some v /\
    vsize v = length l /\ (vsize v <= vmax v)%nat /\ length (vdata v) = vmax v /\
    forall i x, nth_error l i = Some x -> nth_error (vdata v) i = Some (Some x).
Proof.
  destruct (vec_pushes_ok l (vec_init max) [] (vec_init_holds max)) as (v & H & Hl & Hs & Hle & Hf).
  exists v. cbn in Hf, Hs. split; [exact H|]. split; [exact Hs|]. split; [exact Hle|]. split; [exact Hl|].
  intros i x Hi. assert (i < length l)%nat by (apply nth_error_Some; congruence).
  rewrite <- (firstn_skipn (vsize v) (vdata v)), Hf, nth_error_app1 by (rewrite map_length; lia).
  rewrite nth_error_map, Hi. reflexivity.
Qed.

(** * endianness *)
Lemma endconv_reverse_rev l : endconv_reverse l = rev l.
Proof.
  apply nth_error_ext. intros i. unfold endconv_reverse. rewrite nth_error_map.
  destruct (lt_dec i (length l)) as [H|H].
  - rewrite (nth_error_nth' (seq 0 (length l)) O) by (rewrite seq_length; lia).
    rewrite seq_nth by lia. cbn.
    rewrite (nth_error_nth' (rev l) 0) by (rewrite rev_length; lia).
    f_equal. rewrite rev_nth by lia. f_equal. lia.
  - assert (E1 : nth_error (seq 0 (length l)) i = None) by (apply nth_error_None; rewrite seq_length; lia).
    assert (E2 : nth_error (rev l) i = None) by (apply nth_error_None; rewrite rev_length; lia).
    rewrite E1, E2. reflexivity.
Qed.

Lemma ld_st_le n v : 0 <= v < 256 ^ Z.of_nat n -> ld_le_t (st_le_t n v) = v.
Proof. intros H. apply le_val_bytes. exact H. Qed.
Lemma ld_st_be n v : 0 <= v < 256 ^ Z.of_nat n -> ld_be_t (st_be_t n v) = v.
Proof.
  intros H. unfold ld_be_t, st_be_t, st_be. rewrite !endconv_reverse_rev, rev_involutive.
  apply le_val_bytes. exact H.
Qed.

Definition byte_ok (b : Z) : Prop := 0 <= b < 256.

Lemma le_bytes_val l : Forall byte_ok l -> le_bytes (length l) (le_val l) = l.
Proof.
  induction 1 as [|b r Hb Hr IH]; cbn [le_bytes le_val length]; [reflexivity|]. unfold byte_ok in Hb.
  replace ((b + 256 * le_val r) mod 256) with b by (rewrite Z.mul_comm, Z_mod_plus_full, Z.mod_small; lia).
  replace ((b + 256 * le_val r) / 256) with (le_val r)
    by (rewrite Z.mul_comm, Z.div_add, Z.div_small; lia).
  f_equal. exact IH.
Qed.

Lemma st_ld_le l : Forall byte_ok l -> st_le_t (length l) (ld_le_t l) = l.
Proof. apply le_bytes_val. Qed.
Lemma st_ld_be l : Forall byte_ok l -> st_be_t (length l) (ld_be_t l) = l.
Proof.
  intros H. unfold st_be_t, ld_be_t, st_be. rewrite !endconv_reverse_rev.
  rewrite <- (rev_length l). rewrite le_bytes_val; [apply rev_involutive|].
  apply Forall_rev. exact H.
Qed.

(** value-level reversal *)
Lemma testbit_byte x i k : 0 <= k < 8 -> 0 <= i ->
  Z.testbit (Z.land (Z.shiftr x (8 * i)) 255) k = Z.testbit x (8 * i + k).
Proof.
  intros Hk Hi. change 255 with (Z.ones 8).
  rewrite Z.land_ones, Z.mod_pow2_bits_low, Z.shiftr_spec by lia. f_equal. lia.
Qed.

Lemma byte_high x i k : 8 <= k -> Z.testbit (Z.land (Z.shiftr x i) 255) k = false.
Proof. intros Hk. change 255 with (Z.ones 8). rewrite Z.land_ones, Z.mod_pow2_bits_high by lia. reflexivity. Qed.

Lemma reverse_loop_bits n : forall k i x y p, (i + k = n)%nat -> 0 <= p ->
  Z.testbit (reverse_loop n k i x y) p =
  Z.testbit y p ||
  ((p <? 8 * Z.of_nat k) && Z.testbit x (8 * (Z.of_nat n - 1 - p / 8) + p mod 8)).
Proof.
  induction k as [|k IH]; intros i x y p Hk Hp; cbn [reverse_loop].
  - replace (p <? 8 * Z.of_nat 0) with false by lia. rewrite orb_false_r. reflexivity.
  - rewrite IH by lia. rewrite Z.lor_spec, <- orb_assoc. f_equal.
    set (j := 8 * Z.of_nat n - 8 * Z.of_nat i - 8).
    assert (Hj : j = 8 * Z.of_nat k) by (unfold j; lia).
    destruct (p <? 8 * Z.of_nat n) eqn:Epn.
    + rewrite Z.mod_pow2_bits_low by lia.
      rewrite Z.shiftl_spec by lia.
      destruct (p <? j) eqn:Epj.
      * rewrite (Z.testbit_neg_r _ (p - j)) by lia. cbn [orb].
        replace (p <? 8 * Z.of_nat k) with true by lia.
        replace (p <? 8 * Z.of_nat (S k)) with true by lia. reflexivity.
      * replace (p <? 8 * Z.of_nat k) with false by lia. cbn [andb]. rewrite orb_false_r.
        destruct (p <? 8 * Z.of_nat (S k)) eqn:E2.
        -- rewrite testbit_byte by lia. cbn [andb]. f_equal. lia.
        -- rewrite byte_high by lia. reflexivity.
    + rewrite Z.mod_pow2_bits_high by lia.
      replace (p <? 8 * Z.of_nat k) with false by lia.
      replace (p <? 8 * Z.of_nat (S k)) with false by lia. reflexivity.
Qed.

Lemma reverse_u_bits n x p : 0 <= p ->
  Z.testbit (reverse_u n x) p =
  (p <? 8 * Z.of_nat n) && Z.testbit x (8 * (Z.of_nat n - 1 - p / 8) + p mod 8).
Proof.
  intros Hp. unfold reverse_u. rewrite reverse_loop_bits by (auto; lia). rewrite Z.bits_0. reflexivity.
Qed.

Lemma reverse_u_involutive n x : 0 <= x < 2 ^ (8 * Z.of_nat n) -> reverse_u n (reverse_u n x) = x.
Proof.
  intros H. apply Z.bits_inj'. intros p Hp. rewrite reverse_u_bits by lia.
  destruct (p <? 8 * Z.of_nat n) eqn:E; cbn [andb].
  - rewrite reverse_u_bits by lia.
    set (q := 8 * (Z.of_nat n - 1 - p / 8) + p mod 8).
    replace (q <? 8 * Z.of_nat n) with true by (unfold q; lia). cbn [andb].
    f_equal. unfold q. lia.
  - symmetry. destruct (Z.eq_dec x 0) as [->|Hx]; [apply Z.bits_0|].
    apply Z.bits_above_log2; [lia|]. assert (Z.log2 x < 8 * Z.of_nat n) by (apply Z.log2_lt_pow2; lia). lia.
Qed.

Lemma le_val_range l : Forall byte_ok l -> 0 <= le_val l < 256 ^ Z.of_nat (length l).
Proof.
  induction 1 as [|b r Hb Hr IH]; cbn [le_val length]; [cbn; lia|]. unfold byte_ok in Hb.
  rewrite Nat2Z.inj_succ, Z.pow_succ_r by lia. lia.
Qed.

Lemma le_bytes_nth n : forall v i, (i < n)%nat ->
  nth_error (le_bytes n v) i = Some ((v / 256 ^ Z.of_nat i) mod 256).
Proof.
  induction n as [|n IH]; intros v i H; [lia|]. destruct i as [|i]; cbn [le_bytes nth_error].
  - rewrite Z.pow_0_r, Z.div_1_r. reflexivity.
  - rewrite IH by lia. do 2 f_equal.
    rewrite Nat2Z.inj_succ, Z.pow_succ_r, <- Z.div_div by lia. reflexivity.
Qed.

Lemma pow256 i : 256 ^ Z.of_nat i = 2 ^ (8 * Z.of_nat i).
Proof. rewrite Z.pow_mul_r by lia. reflexivity. Qed.

(** the bytes of the reversed value are the reversed bytes *)
Lemma reverse_u_bytes n x : 0 <= x -> le_bytes n (reverse_u n x) = rev (le_bytes n x).
Proof.
  intros Hx. apply nth_error_ext. intros i. destruct (lt_dec i n) as [H|H].
  - rewrite le_bytes_nth by exact H.
    rewrite (nth_error_nth' _ 0) by (rewrite rev_length, le_bytes_length; lia).
    rewrite rev_nth, le_bytes_length by (rewrite le_bytes_length; lia).
    rewrite (nth_error_nth _ _ _ (le_bytes_nth n x (n - S i) ltac:(lia))).
    f_equal. apply Z.bits_inj'. intros p Hp. rewrite !pow256. change 256 with (2 ^ 8).
    rewrite <- !Z.shiftr_div_pow2 by lia.
    destruct (Z.lt_ge_cases p 8).
    + rewrite !Z.mod_pow2_bits_low, !Z.shiftr_spec by lia.
      rewrite reverse_u_bits by lia. replace (p + 8 * Z.of_nat i <? 8 * Z.of_nat n) with true by lia.
      cbn [andb]. f_equal. lia.
    + rewrite !Z.mod_pow2_bits_high by lia. reflexivity.
  - assert (E1 : nth_error (le_bytes n (reverse_u n x)) i = None) by (apply nth_error_None; rewrite le_bytes_length; lia).
    assert (E2 : nth_error (rev (le_bytes n x)) i = None) by (apply nth_error_None; rewrite rev_length, le_bytes_length; lia).
    rewrite E1, E2. reflexivity.
Qed.

Lemma le_bytes_ok n : forall v, Forall byte_ok (le_bytes n v).
Proof. induction n; intros v; cbn; constructor; auto. unfold byte_ok. lia. Qed.

Lemma le_bytes_mod n : forall v, le_val (le_bytes n v) = v mod 256 ^ Z.of_nat n.
Proof.
  induction n as [|n IH]; intros v.
  - cbn [le_bytes le_val Z.of_nat]. rewrite Z.pow_0_r, Z.mod_1_r. reflexivity.
  - cbn [le_bytes le_val]. rewrite IH. rewrite Nat2Z.inj_succ, Z.pow_succ_r by lia.
    rewrite Z.rem_mul_r; [lia|lia|]. apply Z.pow_pos_nonneg; lia.
Qed.

Lemma reverse_u_range n x : 0 <= reverse_u n x < 256 ^ Z.of_nat n.
Proof.
  assert (E : reverse_u n x = reverse_u n x mod 256 ^ Z.of_nat n).
  { rewrite pow256. apply Z.bits_inj'. intros p Hp. destruct (Z.lt_ge_cases p (8 * Z.of_nat n)).
    - rewrite Z.mod_pow2_bits_low by lia. reflexivity.
    - rewrite Z.mod_pow2_bits_high by lia. rewrite reverse_u_bits by lia.
      replace (p <? 8 * Z.of_nat n) with false by lia. reflexivity. }
  rewrite E. apply Z.mod_pos_bound. apply Z.pow_pos_nonneg; lia.
Qed.

Lemma st_be_ld_le n v : 0 <= v < 256 ^ Z.of_nat n -> ld_le_t (st_be_t n v) = reverse_u n v.
Proof.
  intros H. unfold ld_le_t, st_be_t, st_be, st_le. rewrite endconv_reverse_rev.
  rewrite <- reverse_u_bytes by lia. apply le_val_bytes. apply reverse_u_range.
Qed.

(** signed types *)
Lemma signed_mod w x : 0 < w -> signed w x mod 2 ^ w = x mod 2 ^ w.
Proof. intros H. unfold signed. rewrite Zminus_mod_idemp_l. f_equal. lia. Qed.

Lemma signed_id w x : 0 < w -> - 2 ^ (w - 1) <= x < 2 ^ (w - 1) -> signed w x = x.
Proof.
  intros Hw H. unfold signed. rewrite Z.mod_small; [lia|].
  assert (2 ^ w = 2 * 2 ^ (w - 1)) by (rewrite <- Z.pow_succ_r by lia; f_equal; lia). lia.
Qed.

Lemma reverse_u_mod n x : reverse_u n (x mod 2 ^ (8 * Z.of_nat n)) = reverse_u n x.
Proof.
  apply Z.bits_inj'. intros p Hp. rewrite !reverse_u_bits by lia.
  destruct (p <? 8 * Z.of_nat n) eqn:E; [|reflexivity]. cbn [andb].
  rewrite Z.mod_pow2_bits_low by lia. reflexivity.
Qed.

Lemma reverse_s_involutive n x : (0 < n)%nat ->
  - 2 ^ (8 * Z.of_nat n - 1) <= x < 2 ^ (8 * Z.of_nat n - 1) -> reverse_s n (reverse_s n x) = x.
Proof.
  intros Hn H. unfold reverse_s at 1. rewrite <- reverse_u_mod. unfold reverse_s at 1.
  rewrite signed_mod by lia. rewrite reverse_u_mod.
  rewrite <- (reverse_u_mod n x), reverse_u_involutive.
  2: { apply Z.mod_pos_bound. apply Z.pow_pos_nonneg; lia. }
  rewrite <- (signed_id (8 * Z.of_nat n) x) at 2 by lia.
  unfold signed. rewrite Zplus_mod_idemp_l. reflexivity.
Qed.

Lemma reverse_s_bytes n x : (0 < n)%nat ->
  le_bytes n (reverse_s n x mod 2 ^ (8 * Z.of_nat n)) = rev (le_bytes n (x mod 2 ^ (8 * Z.of_nat n))).
Proof.
  intros Hn. unfold reverse_s. rewrite signed_mod by lia.
  rewrite <- (reverse_u_mod n x).
  rewrite Z.mod_small by (rewrite <- pow256; apply reverse_u_range).
  apply reverse_u_bytes. apply Z.mod_pos_bound. apply Z.pow_pos_nonneg; lia.
Qed.
