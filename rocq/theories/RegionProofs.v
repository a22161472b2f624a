(** Proofs about the region allocator. *)
From Coq Require Import ZArith List Bool Lia ZifyBool.
From Verif Require Import RegionModel RegionSpec.
Import ListNotations.
Open Scope Z_scope.
Ltac Zify.zify_post_hook ::= Z.div_mod_to_equations.

(** * Alignment *)
Lemma alignptr_eq p : alignptr p = 16 * ((p + 15) / 16).
Proof.
  unfold alignptr, MEMREG_ALIGN.
  replace (p + 16 - 1) with (p + 15) by lia.
  replace (16 - 1) with (Z.ones 4) by reflexivity.
  rewrite <- Z.ldiff_land, Z.ldiff_ones_r by lia.
  rewrite Z.shiftl_mul_pow2, Z.shiftr_div_pow2 by lia.
  change (2 ^ 4) with 16. lia.
Qed.

Lemma alignptr_bounds p : p <= alignptr p <= p + 15.
Proof. rewrite alignptr_eq. lia. Qed.

Lemma alignptr_mod p : alignptr p mod 16 = 0.
Proof. rewrite alignptr_eq. lia. Qed.

Lemma alignptr_id p : p mod 16 = 0 -> alignptr p = p.
Proof. rewrite alignptr_eq. lia. Qed.

Lemma alignptr_ge p q : q mod 16 = 0 -> p <= q -> alignptr p <= q.
Proof. rewrite alignptr_eq. lia. Qed.

(** * Memory writes *)
Lemma fill_out mem a n f x : x < a \/ a + n <= x -> fill mem a n f x = mem x.
Proof. unfold fill. intros H. destruct ((a <=? x) && (x <? a + n)) eqn:E; lia. Qed.

Lemma fill_in mem a n f x : a <= x < a + n -> fill mem a n f x = f x.
Proof. unfold fill. intros H. destruct ((a <=? x) && (x <? a + n)) eqn:E; lia. Qed.

Lemma write_bytes_out l : forall mem a x,
  x < a \/ a + Z.of_nat (length l) <= x -> write_bytes mem a l x = mem x.
Proof.
  induction l as [|v r IH]; intros mem a x H; cbn [write_bytes].
  - reflexivity.
  - cbn [length] in H. rewrite IH by lia. destruct (x =? a) eqn:E; lia.
Qed.

Lemma write_bytes_in l : forall mem a i v,
  nth_error l i = Some v -> write_bytes mem a l (a + Z.of_nat i) = v.
Proof.
  induction l as [|w r IH]; intros mem a i v H.
  - destruct i; discriminate.
  - cbn [write_bytes]. destruct i as [|j]; cbn in H.
    + injection H as ->. rewrite write_bytes_out by lia.
      replace (a + Z.of_nat 0 =? a) with true by lia. reflexivity.
    + replace (a + Z.of_nat (S j)) with (a + 1 + Z.of_nat j) by lia.
      apply IH. exact H.
Qed.

(** * Layout invariant *)
Fixpoint seg (lo hi ce : Z) (ks : stack) : Prop :=
  match ks with
  | [] => True
  | b :: r => lo <= bptr b /\ bptr b mod 16 = 0 /\ bptr b + blen b <= hi /\
              bptr b < ce /\ (lo < bptr b \/ 0 < blen b) /\ seg lo (bptr b) ce r
  end.

Inductive lay : list chunk -> stack -> Prop :=
| lay_nil : lay [] []
| lay_cons c cs k1 k2 :
    seg (cbase c) (cend c) (cend c) k1 -> lay cs k2 -> lay (c :: cs) (k1 ++ k2).

Definition chunk_ok (c : chunk) : Prop :=
  cbase c mod 16 = 0 /\ 16 < cbase c /\ cbase c + 16 <= cend c /\ cend c <= 2 ^ 63.

Definition apart (c d : chunk) : Prop :=
  cend c <= cbase d - 16 \/ cend d <= cbase c - 16.

Definition Inv (s : rstate) (k : stack) : Prop :=
  exists c cs k1 k2,
    rchunks s = c :: cs /\ k = k1 ++ k2 /\
    Forall chunk_ok (c :: cs) /\ ForallOrdPairs apart (c :: cs) /\
    rhead s mod 16 = 0 /\ cbase c <= rhead s <= cend c + 15 /\
    seg (cbase c) (Z.min (rhead s) (cend c)) (cend c) k1 /\
    lay cs k2 /\ Forall (readable (rmem s)) k.

Lemma seg_weaken lo hi hi' ce ks : hi <= hi' -> seg lo hi ce ks -> seg lo hi' ce ks.
Proof. destruct ks; cbn; intuition lia. Qed.

Lemma blen_nonneg b : 0 <= blen b.
Proof. unfold blen. lia. Qed.

Lemma seg_in lo ce ks : forall hi b, seg lo hi ce ks -> In b ks ->
  lo <= bptr b /\ bptr b mod 16 = 0 /\ bptr b + blen b <= hi /\ bptr b < ce /\
  (lo < bptr b \/ 0 < blen b).
Proof.
  induction ks as [|x r IH]; intros hi b H Hin; [destruct Hin|].
  cbn in H. destruct H as (H1 & H2 & H3 & H4 & H5 & H6).
  destruct Hin as [->|Hin].
  - intuition lia.
  - destruct (IH _ _ H6 Hin) as (A & B & C & D & E).
    pose proof (blen_nonneg x). intuition lia.
Qed.

Lemma lay_in cs k : lay cs k -> forall b, In b k ->
  exists c, In c cs /\ cbase c <= bptr b /\ bptr b mod 16 = 0 /\
            bptr b + blen b <= cend c /\ bptr b < cend c.
Proof.
  induction 1 as [|c cs k1 k2 Hs Hl IH]; intros b Hin; [destruct Hin|].
  apply in_app_or in Hin. destruct Hin as [Hin|Hin].
  - exists c. destruct (seg_in _ _ _ _ _ Hs Hin) as (A & B & C & D & E).
    cbn. intuition.
  - destruct (IH b Hin) as (d & Hd & R). exists d. cbn. intuition.
Qed.

(** pop_to facts *)
Lemma holds_ptr_in p k : holds_ptr p k = true <-> exists b, In b k /\ bptr b = p.
Proof.
  induction k as [|b r IH]; cbn.
  - split; [discriminate|]. intros (b & [] & _).
  - rewrite orb_true_iff, IH, Z.eqb_eq. split.
    + intros [H|(b' & H & E)]; [exists b|exists b']; intuition.
    + intros (b' & [<-|H] & E); [left|right; exists b']; intuition.
Qed.

Lemma holds_ptr_false p k : holds_ptr p k = false <-> forall b, In b k -> bptr b <> p.
Proof.
  split.
  - intros H b Hin E. assert (holds_ptr p k = true) by (apply holds_ptr_in; eauto).
    congruence.
  - intros H. destruct (holds_ptr p k) eqn:E; [|reflexivity].
    apply holds_ptr_in in E. destruct E as (b & Hin & E). exfalso. exact (H b Hin E).
Qed.

Lemma holds_ptr_app p a b : holds_ptr p (a ++ b) = holds_ptr p a || holds_ptr p b.
Proof. induction a as [|x r IH]; cbn; [reflexivity|]. rewrite IH. apply orb_assoc. Qed.

Lemma pop_to_none p k : holds_ptr p k = false -> pop_to p k = k.
Proof.
  destruct k as [|b r]; cbn; [reflexivity|].
  intros H. apply orb_false_iff in H. destruct H as [-> ->]. reflexivity.
Qed.

Lemma pop_to_app_right p a b : holds_ptr p b = true -> pop_to p (a ++ b) = pop_to p b.
Proof.
  intros H. induction a as [|x r IH]; cbn; [reflexivity|].
  rewrite holds_ptr_app, H, orb_true_r. exact IH.
Qed.

Lemma pop_to_app_left p a b :
  holds_ptr p b = false -> holds_ptr p a = true -> pop_to p (a ++ b) = pop_to p a ++ b.
Proof.
  intros Hb. induction a as [|x r IH]; cbn; intros Ha; [discriminate|].
  rewrite holds_ptr_app, Hb, orb_false_r.
  destruct (holds_ptr p r) eqn:E.
  - apply IH. reflexivity.
  - rewrite orb_false_r in Ha. rewrite Ha. reflexivity.
Qed.

Lemma pop_to_incl p k : incl (pop_to p k) k.
Proof.
  induction k as [|b r IH]; cbn; [apply incl_refl|].
  destruct (holds_ptr p r); [apply incl_tl; exact IH|].
  destruct (bptr b =? p); [apply incl_tl, incl_refl|apply incl_refl].
Qed.

Lemma pop_to_seg lo ce p ks : forall hi, seg lo hi ce ks -> holds_ptr p ks = true ->
  seg lo p ce (pop_to p ks).
Proof.
  induction ks as [|b r IH]; intros hi Hs H; [discriminate|].
  cbn in Hs. destruct Hs as (H1 & H2 & H3 & H4 & H5 & H6).
  cbn in *. destruct (holds_ptr p r) eqn:E.
  - eapply IH; eauto.
  - rewrite orb_false_r in H. rewrite H. apply Z.eqb_eq in H. subst p. exact H6.
Qed.

Lemma seg_lo_nil lo ce ks : seg lo lo ce ks -> ks = [].
Proof.
  destruct ks as [|b r]; [reflexivity|]. cbn. intros (A & B & C & D & E & F).
  pose proof (blen_nonneg b). lia.
Qed.

Lemma seg_ptr_lt lo hi ce ks : seg lo hi ce ks -> forall b, In b ks -> bptr b <= hi.
Proof.
  intros H b Hin. destruct (seg_in _ _ _ _ _ H Hin) as (A & B & C & D).
  pose proof (blen_nonneg b). lia.
Qed.

(** readable is preserved by writes outside the block *)
Lemma readable_ext mem mem' b :
  (forall x, bptr b <= x < bptr b + blen b -> mem' x = mem x) ->
  readable mem b -> readable mem' b.
Proof.
  intros H R i v Hi. unfold readable in R. rewrite H; [apply R; exact Hi|].
  assert (Hlt : (i < length (bdata b))%nat)
    by (apply nth_error_Some; congruence).
  unfold blen. lia.
Qed.

(** all blocks of an invariant state lie in some chunk *)
Lemma Inv_in s k : Inv s k -> forall b, In b k ->
  exists c, In c (rchunks s) /\ cbase c <= bptr b /\ bptr b mod 16 = 0 /\
            bptr b + blen b <= cend c /\ bptr b < cend c.
Proof.
  intros (c & cs & k1 & k2 & Hc & -> & Hok & Hap & Hm & Hh & Hs & Hl & Hr) b Hin.
  rewrite Hc. apply in_app_or in Hin. destruct Hin as [Hin|Hin].
  - exists c. destruct (seg_in _ _ _ _ _ Hs Hin) as (A & B & C & D & E).
    cbn. repeat split; auto; lia.
  - destruct (lay_in _ _ Hl b Hin) as (d & Hd & R). exists d. cbn. intuition.
Qed.

Lemma seg_disj lo ce ks : forall hi, seg lo hi ce ks ->
  ForallOrdPairs disjoint_blocks ks.
Proof.
  induction ks as [|b r IH]; intros hi H; [constructor|].
  cbn in H. destruct H as (H1 & H2 & H3 & H4 & H5 & H6).
  constructor.
  - apply Forall_forall. intros x Hx. right.
    destruct (seg_in _ _ _ _ _ H6 Hx) as (A & B & C & D). lia.
  - eapply IH; eauto.
Qed.

Lemma FOP_app {A} (R : A -> A -> Prop) l1 l2 :
  ForallOrdPairs R l1 -> ForallOrdPairs R l2 ->
  (forall x y, In x l1 -> In y l2 -> R x y) -> ForallOrdPairs R (l1 ++ l2).
Proof.
  induction 1 as [|x l Hx Hl IH]; cbn; intros H2 Hxy; [exact H2|].
  constructor.
  - apply Forall_app. split; [exact Hx|].
    apply Forall_forall. intros y Hy. apply Hxy; cbn; auto.
  - apply IH; [exact H2|]. intros; apply Hxy; cbn; auto.
Qed.

Lemma lay_disj cs k : lay cs k -> ForallOrdPairs apart cs ->
  ForallOrdPairs disjoint_blocks k.
Proof.
  induction 1 as [|c cs k1 k2 Hs Hl IH]; intros Hap; [constructor|].
  inversion Hap as [|? ? Hc Hap']; subst.
  apply FOP_app.
  { eapply seg_disj; eauto. }
  { apply IH; exact Hap'. }
  intros x y Hx Hy.
  destruct (seg_in _ _ _ _ _ Hs Hx) as (A & B & C & D & E).
  destruct (lay_in _ _ Hl y Hy) as (d & Hd & R1 & R2 & R3 & R4).
  rewrite Forall_forall in Hc. specialize (Hc d Hd).
  unfold apart in Hc. unfold disjoint_blocks. lia.
Qed.

Lemma Inv_disj s k : Inv s k -> ForallOrdPairs disjoint_blocks k.
Proof.
  intros (c & cs & k1 & k2 & Hc & -> & Hok & Hap & Hm & Hh & Hs & Hl & Hr).
  apply (lay_disj (c :: cs)); [|exact Hap].
  constructor; [|exact Hl]. eapply seg_weaken; [|exact Hs]. lia.
Qed.

(** * node_alloc *)
Lemma node_alloc_inv m n next mem s k :
  malloc_contract m -> 0 <= n ->
  Forall chunk_ok next -> ForallOrdPairs apart next ->
  lay next k -> Forall (readable mem) k ->
  node_alloc m n next mem = Ok s ->
  exists a junk,
    a mod 16 = 0 /\ rhead s = a /\
    rchunks s = mkChunk a (a + n + 16) :: next /\
    rmem s = fill mem a (n + 16) junk /\
    Inv s k.
Proof.
  intros Hm Hn Hok Hap Hl Hr. unfold node_alloc, MEMREG_ALIGN.
  destruct (m next (n + 16)) as [[a junk]|] eqn:E; [|discriminate].
  intros H. injection H as <-. cbn.
  destruct (Hm _ _ _ _ E) as (Ha & Hpos & Hhi & Hd).
  rewrite (alignptr_id a Ha).
  exists a, junk. do 4 (split; [solve [auto]|]).
  exists (mkChunk a (a + n + 16)), next, [], k. cbn.
  do 2 (split; [reflexivity|]).
  split. { constructor; [|exact Hok]. unfold chunk_ok. cbn. lia. }
  split. { constructor; [|exact Hap]. apply Forall_forall. intros d Hin.
           specialize (Hd d Hin). unfold apart. cbn. lia. }
  split; [exact Ha|]. split; [lia|]. split; [exact I|]. split; [exact Hl|].
  apply Forall_forall. intros b Hin. rewrite Forall_forall in Hr.
  apply readable_ext with (mem := mem); [|auto].
  intros x Hx. apply fill_out.
  destruct (lay_in _ _ Hl b Hin) as (c & Hc & R1 & R2 & R3 & R4).
  specialize (Hd c Hc). lia.
Qed.

Lemma node_alloc_total m n next mem :
  (exists s, node_alloc m n next mem = Ok s) \/ node_alloc m n next mem = Fault NoMem.
Proof.
  unfold node_alloc. destruct (m next (n + MEMREG_ALIGN)) as [[a j]|]; eauto.
Qed.

(** * grow *)
Lemma grow_ok m s k size :
  malloc_contract m -> Inv s k -> 0 <= size <= MAXREQ ->
  region_grow m s size = Fault NoMem \/
  exists s', region_grow m s size = Ok s' /\ Inv s' k /\
             size + 16 <= region_freesize s' /\
             (exists c, hd_error (rchunks s') = Some c /\ rhead s' = cbase c).
Proof.
  intros Hm (c & cs & k1 & k2 & Hc & Hk & Hok & Hap & Hmod & Hh & Hs & Hl & Hr) Hsz.
  unfold region_grow. rewrite Hc.
  set (nsize := Z.max _ _).
  assert (Hokc : chunk_ok c) by (inversion Hok; auto).
  destruct Hokc as (Hc1 & Hc2 & Hc3 & Hc4).
  assert (Hn : size + 16 <= nsize).
  { unfold nsize, wrap64, W64, MEMREG_ALIGN, MAXREQ in *.
    rewrite (Z.mod_small (size + 16)) by lia. lia. }
  set (next := if alignptr (cbase c) =? rhead s then cs else c :: cs).
  assert (Hnext : Forall chunk_ok next /\ ForallOrdPairs apart next /\ lay next k).
  { unfold next. rewrite (alignptr_id _ Hc1).
    destruct (cbase c =? rhead s) eqn:E.
    - apply Z.eqb_eq in E. rewrite <- E in Hs.
      rewrite Z.min_l in Hs by lia. apply seg_lo_nil in Hs. subst k1. subst k.
      inversion Hok; inversion Hap; subst. auto.
    - split; [exact Hok|]. split; [exact Hap|]. subst k. constructor; [|exact Hl].
      eapply seg_weaken; [|exact Hs]. lia. }
  destruct Hnext as (Hn1 & Hn2 & Hn3).
  destruct (node_alloc_total m nsize next (rmem s)) as [[s' Hs']|Hs'];
    rewrite Hs'; cbn [bind]; [|left; reflexivity].
  right. exists s'.
  destruct (node_alloc_inv m nsize next (rmem s) s' k Hm ltac:(lia) Hn1 Hn2 Hn3 Hr Hs')
    as (a & junk & Ha & Hhd & Hch & Hme & Hinv).
  assert (Hfree : region_freesize s' = nsize + 16).
  { unfold region_freesize. rewrite Hch, Hhd. cbn.
    destruct (a + nsize + 16 <=? a) eqn:E; lia. }
  split.
  { unfold assert_then. rewrite Hfree, Hhd.
    replace (size <=? nsize + 16) with true by lia.
    rewrite Ha. reflexivity. }
  split; [exact Hinv|]. split; [lia|].
  rewrite Hch. cbn. eexists. split; [reflexivity|]. exact Hhd.
Qed.

(** * tmpalloc *)
Lemma tmpalloc_ok m s k size :
  malloc_contract m -> Inv s k -> 0 <= size <= MAXREQ ->
  region_tmpalloc m s size = Fault NoMem \/
  exists s', region_tmpalloc m s size = Ok (rhead s', s') /\ Inv s' k /\
             (exists c, hd_error (rchunks s') = Some c /\ rhead s' + size <= cend c).
Proof.
  intros Hm HI Hsz. pose proof HI as HI0.
  destruct HI as (c & cs & k1 & k2 & Hc & Hk & Hok & Hap & Hmod & Hh & Hs & Hl & Hr).
  unfold region_tmpalloc. rewrite Hc.
  assert (Hokc : chunk_ok c) by (inversion Hok; auto).
  destruct Hokc as (Hc1 & Hc2 & Hc3 & Hc4).
  replace (W64 <=? rhead s + size) with false by (unfold W64, MAXREQ in *; lia).
  destruct (cend c <? rhead s + size) eqn:E.
  - destruct (grow_ok m s k size Hm HI0 Hsz) as [H|(s' & H & Hi & Hf & (d & Hd & Hhd))];
      rewrite H; cbn [bind]; [left; reflexivity|right].
    exists s'. split; [reflexivity|]. split; [exact Hi|].
    exists d. split; [exact Hd|].
    unfold region_freesize in Hf. destruct (rchunks s') as [|e es]; cbn in *; [discriminate|].
    injection Hd as ->. destruct (cend d <=? rhead s') eqn:E2; lia.
  - right. exists s. split; [reflexivity|]. split; [exact HI0|].
    rewrite Hc. cbn. eexists. split; [reflexivity|]. lia.
Qed.

(** * alloc: factor through tmpalloc *)
Lemma alloc_tmpalloc m s size :
  region_alloc m s size =
  bind (region_tmpalloc m s size)
       (fun '(p, s') => Ok (p, mkR (alignptr (rhead s' + size)) (rchunks s') (rmem s'))).
Proof.
  unfold region_alloc, region_tmpalloc. destruct (rchunks s) as [|c cs] eqn:Hc; [reflexivity|].
  destruct (W64 <=? rhead s + size); [reflexivity|].
  destruct (cend c <? rhead s + size).
  - destruct (region_grow m s size); reflexivity.
  - cbn. rewrite Hc. reflexivity.
Qed.

(** pushing a block of known contents at the old head *)
Lemma push_inv s k data mem' :
  Inv s k -> (exists c, hd_error (rchunks s) = Some c /\
              rhead s + Z.of_nat (length data) <= cend c) ->
  0 < Z.of_nat (length data) ->
  (forall x, x < rhead s \/ rhead s + Z.of_nat (length data) <= x -> mem' x = rmem s x) ->
  readable mem' (mkB (rhead s) data) ->
  Inv (mkR (alignptr (rhead s + Z.of_nat (length data))) (rchunks s) mem')
      (mkB (rhead s) data :: k).
Proof.
  intros HI (c' & Hc' & Hfit) Hlen Hmem Hrd.
  destruct HI as (c & cs & k1 & k2 & Hc & Hk & Hok & Hap & Hmod & Hh & Hs & Hl & Hr).
  rewrite Hc in Hc'. cbn in Hc'. injection Hc' as <-.
  pose proof (alignptr_bounds (rhead s + Z.of_nat (length data))) as Hb.
  exists c, cs, (mkB (rhead s) data :: k1), k2. cbn [rchunks rhead rmem app].
  split; [exact Hc|]. split; [subst k; reflexivity|].
  split; [exact Hok|]. split; [exact Hap|]. split; [apply alignptr_mod|].
  split; [lia|]. split.
  { cbn. unfold blen; cbn. repeat (split; [lia|]).
    eapply seg_weaken; [|exact Hs]. lia. }
  split; [exact Hl|].
  constructor; [exact Hrd|].
  apply Forall_forall. intros b Hin. rewrite Forall_forall in Hr.
  apply readable_ext with (mem := rmem s); [|auto].
  intros x Hx. apply Hmem.
  subst k. apply in_app_or in Hin. destruct Hin as [Hin|Hin].
  - destruct (seg_in _ _ _ _ _ Hs Hin) as (A & B & C & D). lia.
  - destruct (lay_in _ _ Hl b Hin) as (d & Hd & R1 & R2 & R3 & R4).
    inversion Hap as [|? ? Hf ?]; subst. rewrite Forall_forall in Hf.
    specialize (Hf d Hd). unfold apart in Hf. lia.
Qed.

Lemma nth_error_repeat_eq {A} (x : A) n i y :
  nth_error (repeat x n) i = Some y -> y = x.
Proof.
  intros H. apply nth_error_In in H. apply repeat_spec in H. exact H.
Qed.

(** scratch writes above the head keep the invariant *)
Lemma scratch_inv s k mem' hi :
  Inv s k ->
  (exists c, hd_error (rchunks s) = Some c /\ hi <= cend c) ->
  (forall x, x < rhead s \/ hi <= x -> mem' x = rmem s x) ->
  Inv (mkR (rhead s) (rchunks s) mem') k.
Proof.
  intros HI (c' & Hc' & Hfit) Hmem.
  destruct HI as (c & cs & k1 & k2 & Hc & Hk & Hok & Hap & Hmod & Hh & Hs & Hl & Hr).
  rewrite Hc in Hc'. cbn in Hc'. injection Hc' as <-.
  exists c, cs, k1, k2. cbn [rchunks rhead rmem].
  repeat (split; [assumption|]). 
  apply Forall_forall. intros b Hin. rewrite Forall_forall in Hr.
  apply readable_ext with (mem := rmem s); [|auto].
  intros x Hx. apply Hmem.
  subst k. apply in_app_or in Hin. destruct Hin as [Hin|Hin].
  - destruct (seg_in _ _ _ _ _ Hs Hin) as (A & B & C & D). lia.
  - destruct (lay_in _ _ Hl b Hin) as (d & Hd & R1 & R2 & R3 & R4).
    inversion Hap as [|? ? Hf ?]; subst. rewrite Forall_forall in Hf.
    specialize (Hf d Hd). unfold apart in Hf. lia.
Qed.

(** * pop *)
Lemma in_node_iff p c : pop_in_node p c = true <-> cbase c <= p < cend c.
Proof. unfold pop_in_node. lia. Qed.

Lemma apart_not_in c d p : apart c d -> cbase c <= p < cend c -> cbase d <= p < cend d -> False.
Proof. unfold apart. lia. Qed.

(** walking down: the remaining chunks start with the one containing p *)
Lemma pop_walk_spec p : forall cs n k, lay cs k ->
  Forall chunk_ok cs -> ForallOrdPairs apart cs -> holds_ptr p k = true -> 0 <= n ->
  exists n' q cs' k1 k2,
    pop_walk p n cs = (n', q :: cs') /\ 0 <= n' /\
    Forall chunk_ok (q :: cs') /\ ForallOrdPairs apart (q :: cs') /\
    cbase q <= p < cend q /\ p mod 16 = 0 /\
    seg (cbase q) p (cend q) k1 /\ lay cs' k2 /\
    pop_to p k = k1 ++ k2 /\ (p = cbase q -> k1 = []).
Proof.
  intros cs n k Hl. revert n.
  induction Hl as [|c cs k1 k2 Hs Hl IH]; intros n Hok Hap Hh Hn; [discriminate|].
  cbn [pop_walk].
  assert (Hokc : chunk_ok c) by (inversion Hok; auto).
  inversion Hap as [|? ? Hf Hap']; subst.
  inversion Hok as [|? ? _ Hok']; subst.
  destruct (holds_ptr p k2) eqn:E2.
  - (* p below *)
    destruct (pop_in_node p c) eqn:Ei.
    { exfalso. apply in_node_iff in Ei. apply holds_ptr_in in E2.
      destruct E2 as (b & Hb & <-).
      destruct (lay_in _ _ Hl b Hb) as (d & Hd & R1 & R2 & R3 & R4).
      rewrite Forall_forall in Hf. specialize (Hf d Hd). unfold apart in Hf. lia. }
    rewrite pop_to_app_right by exact E2.
    apply IH; auto. destruct Hokc as (? & ? & ? & ?). lia.
  - rewrite holds_ptr_app, E2, orb_false_r in Hh.
    pose proof Hh as Hh'. apply holds_ptr_in in Hh'. destruct Hh' as (b & Hb & Hbp).
    destruct (seg_in _ _ _ _ _ Hs Hb) as (A & B & C & D & E).
    replace (pop_in_node p c) with true by (unfold pop_in_node; lia).
    exists n, c, cs, (pop_to p k1), k2.
    split; [reflexivity|]. split; [exact Hn|]. split; [exact Hok|]. split; [exact Hap|].
    split; [lia|]. split; [congruence|].
    pose proof (pop_to_seg _ _ _ _ _ Hs Hh) as Hs'.
    split; [exact Hs'|]. split; [exact Hl|].
    split; [apply pop_to_app_left; auto|].
    intros ->. apply seg_lo_nil in Hs'. exact Hs'.
Qed.

Lemma Forall_incl {A} (P : A -> Prop) l l' : incl l' l -> Forall P l -> Forall P l'.
Proof. rewrite !Forall_forall. auto. Qed.

Lemma pop_ok m s k p :
  malloc_contract m -> Inv s k -> (exists b, In b k /\ bptr b = p) ->
  region_pop m s p = Fault NoMem \/
  exists s', region_pop m s p = Ok s' /\ Inv s' (pop_to p k) /\
    (* the pop in the top chunk keeps everything in place *)
    ((exists c, hd_error (rchunks s) = Some c /\ cbase c <= p < cend c) ->
       rhead s' = p /\ rchunks s' = rchunks s).
Proof.
  intros Hm HI Hex.
  destruct HI as (c & cs & k1 & k2 & Hc & Hk & Hok & Hap & Hmod & Hh & Hs & Hl & Hr).
  apply holds_ptr_in in Hex.
  unfold region_pop. rewrite Hc.
  inversion Hap as [|? ? Hf Hap']; subst.
  inversion Hok as [|? ? Hokc Hok']; subst.
  assert (Hr' : Forall (readable (rmem s)) (pop_to p (k1 ++ k2)))
    by (eapply Forall_incl; [apply pop_to_incl|exact Hr]).
  destruct (holds_ptr p k2) eqn:E2.
  - destruct (pop_in_node p c) eqn:Ei.
    { exfalso. apply in_node_iff in Ei. apply holds_ptr_in in E2.
      destruct E2 as (b & Hb & <-).
      destruct (lay_in _ _ Hl b Hb) as (d & Hd & R1 & R2 & R3 & R4).
      rewrite Forall_forall in Hf. specialize (Hf d Hd). unfold apart in Hf. lia. }
    destruct Hokc as (Hb1 & Hb2 & Hb3 & Hb4).
    destruct (pop_walk_spec p cs (cend c - cbase c) k2 Hl Hok' Hap' E2 ltac:(lia))
      as (n' & q & cs' & j1 & j2 & Hw & Hn' & Hoq & Haq & Hpq & Hpm & Hsq & Hlq & Hpop & Hnil).
    rewrite Hw. cbv zeta.
    assert (Hokq : chunk_ok q) by (inversion Hoq; auto).
    destruct Hokq as (Hq1 & Hq2 & Hq3 & Hq4).
    unfold assert_then.
    replace ((cbase q <=? p) && (p <=? cend q)) with true by lia.
    replace (if cbase q <? p
             then cend q - p <? cend q - cbase q
             else (p =? cbase q) && (cend q - p =? cend q - cbase q)) with true
      by (destruct (cbase q <? p) eqn:?; lia).
    rewrite (alignptr_id _ Hq1).
    set (next := if cbase q =? p then cs' else q :: cs').
    assert (Hnext : Forall chunk_ok next /\ ForallOrdPairs apart next /\
                    lay next (pop_to p (k1 ++ k2))).
    { rewrite pop_to_app_right by exact E2. rewrite Hpop. unfold next.
      destruct (cbase q =? p) eqn:E.
      - rewrite Hnil by lia. cbn. inversion Hoq; inversion Haq; subst. auto.
      - split; [exact Hoq|]. split; [exact Haq|]. constructor; [|exact Hlq].
        eapply seg_weaken; [|exact Hsq]. lia. }
    destruct Hnext as (N1 & N2 & N3).
    destruct (node_alloc_total m (n' + (cend q - p)) next (rmem s)) as [[s' Hs']|Hs'];
      rewrite Hs'; [right|left; reflexivity].
    exists s'. split; [reflexivity|].
    assert (Hge : 0 <= n' + (cend q - p)) by lia.
    destruct (node_alloc_inv m _ next (rmem s) s' _ Hm Hge N1 N2 N3 Hr' Hs')
      as (a & junk & Ha & Hhd & Hch & Hme & Hinv).
    split; [exact Hinv|].
    intros (c' & Hc' & Hin). cbn in Hc'. injection Hc' as <-.
    exfalso. unfold pop_in_node in Ei. lia.
  - rewrite holds_ptr_app, E2, orb_false_r in Hex.
    pose proof Hex as Hh'. apply holds_ptr_in in Hh'. destruct Hh' as (b & Hb & Hbp).
    destruct (seg_in _ _ _ _ _ Hs Hb) as (A & B & C & D & E).
    replace (pop_in_node p c) with true by (unfold pop_in_node; lia).
    right. eexists. split; [reflexivity|].
    assert (Hpm : p mod 16 = 0) by congruence.
    rewrite (alignptr_id p Hpm).
    pose proof (blen_nonneg b) as Hbn.
    split; [|cbn; auto].
    exists c, cs, (pop_to p k1), k2. cbn [rchunks rhead rmem].
    split; [reflexivity|]. split; [apply pop_to_app_left; auto|].
    split; [exact Hok|]. split; [exact Hap|]. split; [exact Hpm|].
    split; [lia|]. split.
    { eapply seg_weaken; [|eapply pop_to_seg; eauto]. lia. }
    split; [exact Hl|exact Hr'].
Qed.

(** * release *)
Definition total (cs : list chunk) : Z :=
  fold_left (fun acc c => acc + (cend c - cbase c)) cs 0.

Lemma total_acc cs : forall a,
  fold_left (fun acc c => acc + (cend c - cbase c)) cs a = a + total cs.
Proof.
  unfold total. induction cs as [|c r IH]; intros a; cbn; [lia|].
  rewrite IH, (IH (cend c - cbase c)). lia.
Qed.

Lemma total_nonneg cs : Forall chunk_ok cs -> 0 <= total cs.
Proof.
  unfold total. induction 1 as [|c r Hc Hr IH]; cbn; [lia|].
  rewrite total_acc. destruct Hc as (?&?&?&?). unfold total. lia.
Qed.

Lemma release_ok m s k :
  malloc_contract m -> Inv s k ->
  region_release m s = Fault NoMem \/
  exists s' c, region_release m s = Ok s' /\ Inv s' [] /\
    rchunks s' = [c] /\ rhead s' = cbase c /\ total (rchunks s) <= cend c - cbase c.
Proof.
  intros Hm (c & cs & k1 & k2 & Hc & Hk & Hok & Hap & Hmod & Hh & Hs & Hl & Hr).
  unfold region_release. rewrite Hc. destruct cs as [|d ds].

  - right. eexists _, c. split; [reflexivity|]. cbn.
    inversion Hok as [|? ? Hokc _]; subst. destruct Hokc as (H1 & H2 & H3 & H4).
    split; [|split; [reflexivity|split; [reflexivity|unfold total; cbn; lia]]].
    exists c, [], [], []. cbn. do 2 (split; [reflexivity|]).
    split; [exact Hok|]. split; [exact Hap|]. split; [exact H1|].
    split; [lia|]. repeat split; constructor.
  - change (fold_left _ (c :: d :: ds) 0) with (total (c :: d :: ds)).
    pose proof (total_nonneg _ Hok) as Htn.
    destruct (node_alloc_total m (total (c :: d :: ds)) [] (rmem s)) as [[s' Hs']|Hs'];
      rewrite Hs'; cbn [bind]; [right|left; reflexivity].
    destruct (node_alloc_inv m _ [] (rmem s) s' [] Hm Htn (Forall_nil _) (FOP_nil _) lay_nil
                (Forall_nil _) Hs') as (a & junk & Ha & Hhd & Hch & Hme & Hinv).
    rewrite Hch. eexists _, _. split; [reflexivity|]. cbn [rchunks rhead rmem cbase cend].
    split; [|split; [reflexivity|split; [reflexivity|]]].
    2:{ cbn [cbase cend]. lia. }
    replace (mkR a [mkChunk a (a + total (c :: d :: ds) + 16)] (rmem s')) with s'; [exact Hinv|].
    destruct s'; cbn in *; subst; reflexivity.
Qed.

(** * client writes *)
Lemma upd_length {A} (l : list A) i v : length (upd l i v) = length l.
Proof. revert i; induction l as [|x r IH]; intros [|i]; cbn; auto. Qed.

Lemma nth_upd_eq {A} (l : list A) i v : (i < length l)%nat -> nth_error (upd l i v) i = Some v.
Proof.
  revert i; induction l as [|x r IH]; intros [|i] H; cbn in *; try lia; auto.
  apply IH. lia.
Qed.

Lemma nth_upd_ne {A} (l : list A) i j v : i <> j -> nth_error (upd l i v) j = nth_error l j.
Proof.
  revert i j; induction l as [|x r IH]; intros [|i] [|j] H; cbn; auto; try lia.
Qed.

Definition store1 (p off v : Z) (b : sblock) : sblock :=
  if (bptr b =? p) && (0 <=? off) && (off <? blen b)
  then mkB (bptr b) (upd (bdata b) (Z.to_nat off) (Some v)) else b.

Lemma store_map k p off v : store k p off v = map (store1 p off v) k.
Proof. reflexivity. Qed.

Lemma store1_ptr p off v b : bptr (store1 p off v b) = bptr b.
Proof. unfold store1. destruct (_ && _); reflexivity. Qed.

Lemma store1_len p off v b : blen (store1 p off v b) = blen b.
Proof.
  unfold store1. destruct (_ && _); [|reflexivity].
  unfold blen. cbn. rewrite upd_length. reflexivity.
Qed.

Lemma seg_map lo ce f ks :
  (forall b, bptr (f b) = bptr b) -> (forall b, blen (f b) = blen b) ->
  forall hi, seg lo hi ce ks -> seg lo hi ce (map f ks).
Proof.
  intros Hp Hn. induction ks as [|b r IH]; intros hi H; [exact I|].
  cbn in *. rewrite Hp, Hn. intuition.
Qed.

Lemma lay_map f cs k :
  (forall b, bptr (f b) = bptr b) -> (forall b, blen (f b) = blen b) ->
  lay cs k -> lay cs (map f k).
Proof.
  intros Hp Hn. induction 1 as [|c cs k1 k2 Hs Hl IH]; [constructor|].
  rewrite map_app. constructor; [|exact IH]. apply seg_map; auto.
Qed.

Lemma FOP_In2 {A} (R : A -> A -> Prop) l x y :
  ForallOrdPairs R l -> In x l -> In y l -> x = y \/ R x y \/ R y x.
Proof. intros H. apply (ForallOrdPairs_In H). Qed.

Lemma write_ok s k p off v :
  Inv s k -> (exists b, In b k /\ bptr b = p /\ 0 <= off < blen b) ->
  Inv (mkR (rhead s) (rchunks s) (fun x => if x =? p + off then v else rmem s x))
      (store k p off v).
Proof.
  intros HI (b0 & Hb0 & Hp0 & Hoff). pose proof (Inv_disj _ _ HI) as Hdis.
  destruct HI as (c & cs & k1 & k2 & Hc & Hk & Hok & Hap & Hmod & Hh & Hs & Hl & Hr).
  exists c, cs, (map (store1 p off v) k1), (map (store1 p off v) k2).
  cbn [rchunks rhead rmem].
  split; [exact Hc|]. split; [rewrite store_map, Hk; apply map_app|].
  split; [exact Hok|]. split; [exact Hap|]. split; [exact Hmod|]. split; [exact Hh|].
  split; [apply seg_map; auto using store1_ptr, store1_len|].
  split; [apply lay_map; auto using store1_ptr, store1_len|].
  apply Forall_forall. rewrite store_map. intros b' Hin. apply in_map_iff in Hin.
  destruct Hin as (b & <- & Hin). rewrite Forall_forall in Hr. specialize (Hr b Hin).
  intros i w Hi. rewrite store1_ptr. unfold store1 in Hi.
  destruct ((bptr b =? p) && (0 <=? off) && (off <? blen b)) eqn:E.
  - cbn in Hi. destruct (Nat.eq_dec (Z.to_nat off) i) as [Ei|Ei].
    + subst i. rewrite nth_upd_eq in Hi by (unfold blen in E; lia).
      injection Hi as <-. replace (bptr b + Z.of_nat (Z.to_nat off) =? p + off) with true by lia. reflexivity.
    + rewrite nth_upd_ne in Hi by exact Ei.
      replace (bptr b + Z.of_nat i =? p + off) with false by lia. apply Hr. exact Hi.
  - assert (Hlt : (i < length (bdata b))%nat) by (apply nth_error_Some; congruence).
    assert (Hbl : Z.of_nat i < blen b) by (unfold blen; lia).
    destruct (FOP_In2 _ _ b b0 Hdis Hin Hb0) as [->|[D|D]].
    + exfalso. lia.
    + unfold disjoint_blocks in D. replace (bptr b + Z.of_nat i =? p + off) with false by lia. apply Hr. exact Hi.
    + unfold disjoint_blocks in D. replace (bptr b + Z.of_nat i =? p + off) with false by lia. apply Hr. exact Hi.
Qed.

(** * One step *)
Lemma length_repeat_Z {A} (x : A) n : 0 <= n -> Z.of_nat (length (repeat x (Z.to_nat n))) = n.
Proof. rewrite repeat_length. lia. Qed.

Lemma step_ok m s k o :
  malloc_contract m -> Inv s k -> legal s k o ->
  region_op m s o = Fault NoMem \/
  exists ret s', region_op m s o = Ok (ret, s') /\ Inv s' (spec_step k o ret).
Proof.
  intros Hm HI Hleg. destruct o as [n|n|src|n src| |p| |p off v]; cbn [region_op spec_step legal] in *.
  - rewrite alloc_tmpalloc.
    destruct (tmpalloc_ok m s k n Hm HI ltac:(lia)) as [H|(s' & H & Hi & Hf)];
      rewrite H; cbn [bind]; [left; reflexivity|right].
    eexists _, _. split; [reflexivity|].
    rewrite <- (length_repeat_Z (@None Z) n) at 1 by lia.
    apply push_inv; auto.
    + rewrite length_repeat_Z by lia. exact Hf.
    + rewrite length_repeat_Z by lia. lia.
    + intros i w Hw. cbn in Hw. apply nth_error_repeat_eq in Hw. discriminate.
  - unfold region_zalloc. rewrite alloc_tmpalloc.
    destruct (tmpalloc_ok m s k n Hm HI ltac:(lia)) as [H|(s' & H & Hi & Hf)];
      rewrite H; cbn [bind]; [left; reflexivity|right].
    eexists _, _. split; [reflexivity|]. cbn [rhead rchunks rmem].
    rewrite <- (length_repeat_Z (Some 0) n) at 1 by lia.
    apply push_inv; auto.
    + rewrite length_repeat_Z by lia. exact Hf.
    + rewrite length_repeat_Z by lia. lia.
    + rewrite length_repeat_Z by lia. intros x Hx. apply fill_out. lia.
    + intros i w Hw. cbn [bdata bptr] in *. rewrite fill_in.
      * apply nth_error_repeat_eq in Hw. congruence.
      * assert (i < length (repeat (Some 0%Z) (Z.to_nat n)))%nat
          by (apply nth_error_Some; rewrite Hw; discriminate).
        rewrite repeat_length in *. lia.
  - unfold region_dup. rewrite alloc_tmpalloc.
    destruct (tmpalloc_ok m s k (Z.of_nat (length src)) Hm HI ltac:(lia)) as [H|(s' & H & Hi & Hf)];
      rewrite H; cbn [bind]; [left; reflexivity|right].
    eexists _, _. split; [reflexivity|]. cbn [rhead rchunks rmem].
    rewrite <- (map_length Some src) at 1.
    apply push_inv; auto; rewrite ?map_length; auto; try lia.
    + intros x Hx. apply write_bytes_out. exact Hx.
    + intros i w Hw. cbn [bdata bptr] in *. apply write_bytes_in.
      rewrite nth_error_map in Hw. destruct (nth_error src i); cbn in Hw; congruence.
  - destruct (tmpalloc_ok m s k n Hm HI ltac:(lia)) as [H|(s' & H & Hi & (c & Hc & Hf))];
      rewrite H; cbn [bind]; [left; reflexivity|right].
    eexists _, _. split; [reflexivity|].
    apply scratch_inv with (hi := rhead s' + n); [exact Hi|eauto|].
    intros x Hx. apply write_bytes_out. lia.
  - right. eexists _, _. split; [reflexivity|]. unfold region_ptr.
    unfold region_freesize, region_topsize in Hleg.
    destruct HI as (c & cs & k1 & k2 & Hc & Hk & Hok & Hap & Hmod & Hh & Hs & Hl & Hr).
    rewrite Hc in Hleg.
    exists c, cs, (mkB (rhead s) [] :: k1), k2.
    split; [exact Hc|]. split; [subst k; reflexivity|].
    repeat (split; [assumption|]).
    split.
    { cbn. unfold blen; cbn. destruct (cend c <=? rhead s) eqn:E; [lia|].
      repeat (split; [lia|]). eapply seg_weaken; [|exact Hs]. lia. }
    split; [exact Hl|]. constructor; [|exact Hr]. intros [|i] w Hw; discriminate.
  - destruct (pop_ok m s k p Hm HI Hleg) as [H|(s' & H & Hi & _)]; rewrite H; cbn [bind];
      [left; reflexivity|right].
    eexists _, _. split; [reflexivity|exact Hi].
  - destruct (release_ok m s k Hm HI) as [H|(s' & c & H & Hi & _)]; rewrite H; cbn [bind];
      [left; reflexivity|right].
    eexists _, _. split; [reflexivity|exact Hi].
  - right. eexists _, _. split; [reflexivity|]. apply write_ok; auto.
Qed.

Lemma reach_Inv s k : reach s k -> Inv s k.
Proof.
  induction 1 as [m size mem s Hm Hsz Hi | m s k o ret s' Hr IH Hm Hl Ho].
  - unfold region_init in Hi.
    destruct (node_alloc_inv m size [] mem s [] Hm Hsz (Forall_nil _) (FOP_nil _) lay_nil
                (Forall_nil _) Hi) as (a & j & _ & _ & _ & _ & H). exact H.
  - destruct (step_ok m s k o Hm IH Hl) as [H|(ret' & s'' & H & Hi)]; rewrite H in Ho.
    + discriminate.
    + injection Ho as <- <-. exact Hi.
Qed.

(** * Consequences *)
Lemma malloc_at_contract a junk : malloc_contract (malloc_at a junk).
Proof.
  intros live n a' junk' H. unfold malloc_at in H.
  destruct (_ && _) eqn:E; [|discriminate]. injection H as <- <-.
  rewrite !andb_true_iff in E. destruct E as (((E1 & E2) & E3) & E4).
  repeat split; try lia. intros c Hc. rewrite forallb_forall in E4.
  specialize (E4 c Hc). lia.
Qed.

Lemma reach_progress s k m o :
  reach s k -> malloc_contract m -> legal s k o ->
  region_op m s o = Fault NoMem \/
  exists ret s', region_op m s o = Ok (ret, s').
Proof.
  intros Hr Hm Hl. apply reach_Inv in Hr.
  destruct (step_ok m s k o Hm Hr Hl) as [H|(ret & s' & H & _)]; eauto.
Qed.

Lemma reach_readable s k : reach s k -> forall b, In b k -> readable (rmem s) b.
Proof.
  intros H. apply reach_Inv in H.
  destruct H as (c & cs & k1 & k2 & Hc & Hk & Hok & Hap & Hmod & Hh & Hs & Hl & Hr).
  rewrite Forall_forall in Hr. exact Hr.
Qed.

Lemma reach_disjoint s k : reach s k -> ForallOrdPairs disjoint_blocks k.
Proof. intros H. eapply Inv_disj, reach_Inv; eauto. Qed.

Lemma reach_placed s k : reach s k -> forall b, In b k ->
  bptr b mod 16 = 0 /\ exists c, In c (rchunks s) /\ inside b c.
Proof.
  intros H b Hb. apply reach_Inv in H.
  destruct (Inv_in _ _ H b Hb) as (c & Hc & R1 & R2 & R3 & R4).
  split; [exact R2|]. exists c. split; [exact Hc|]. split; auto.
Qed.

(** snapshots *)
Definition snap (mem : Z -> Z) (b : sblock) : sblock :=
  mkB (bptr b) (map (fun i => Some (mem (bptr b + Z.of_nat i))) (seq 0 (length (bdata b)))).

Lemma snap_ptr mem b : bptr (snap mem b) = bptr b.
Proof. reflexivity. Qed.
Lemma snap_len mem b : blen (snap mem b) = blen b.
Proof. unfold blen, snap. cbn. rewrite map_length, seq_length. reflexivity. Qed.

Lemma snap_readable mem b : readable mem (snap mem b).
Proof.
  intros i v H. cbn in *. rewrite nth_error_map in H.
  destruct (nth_error (seq 0 (length (bdata b))) i) as [j|] eqn:E; [|discriminate].
  cbn in H. injection H as <-.
  assert (i < length (seq 0 (length (bdata b))))%nat as Hi
    by (apply nth_error_Some; congruence).
  rewrite seq_length in Hi.
  apply nth_error_nth with (d := O) in E. rewrite seq_nth in E by exact Hi.
  subst j. reflexivity.
Qed.

Lemma snap_nth mem b i : (i < length (bdata b))%nat ->
  nth_error (bdata (snap mem b)) i = Some (Some (mem (bptr b + Z.of_nat i))).
Proof.
  intros Hi. cbn. rewrite nth_error_map.
  rewrite (nth_error_nth' (seq 0 (length (bdata b))) O) by (rewrite seq_length; lia).
  rewrite seq_nth by exact Hi. reflexivity.
Qed.

Lemma Inv_snap s k : Inv s k -> Inv s (map (snap (rmem s)) k).
Proof.
  intros (c & cs & k1 & k2 & Hc & Hk & Hok & Hap & Hmod & Hh & Hs & Hl & Hr).
  exists c, cs, (map (snap (rmem s)) k1), (map (snap (rmem s)) k2).
  split; [exact Hc|]. split; [subst k; apply map_app|].
  do 4 (split; [assumption|]).
  split; [apply seg_map; auto using snap_ptr, snap_len|].
  split; [apply lay_map; auto using snap_ptr, snap_len|].
  apply Forall_forall. intros b Hb. apply in_map_iff in Hb.
  destruct Hb as (b' & <- & _). apply snap_readable.
Qed.

Lemma legal_snap s k o : legal s k o -> legal s (map (snap (rmem s)) k) o.
Proof.
  destruct o; cbn; auto.
  - intros (b & Hb & E). exists (snap (rmem s) b). split; [apply in_map; exact Hb|exact E].
  - intros (b & Hb & E & L). exists (snap (rmem s) b).
    split; [apply in_map; exact Hb|]. split; [exact E|]. rewrite snap_len. exact L.
Qed.

Lemma holds_ptr_map f p k : (forall b, bptr (f b) = bptr b) ->
  holds_ptr p (map f k) = holds_ptr p k.
Proof. intros H. induction k as [|b r IH]; cbn; [reflexivity|]. rewrite H, IH. reflexivity. Qed.

Lemma pop_to_map f p k : (forall b, bptr (f b) = bptr b) ->
  pop_to p (map f k) = map f (pop_to p k).
Proof.
  intros H. induction k as [|b r IH]; cbn; [reflexivity|].
  rewrite holds_ptr_map, H by exact H.
  destruct (holds_ptr p r); [exact IH|]. destruct (bptr b =? p); reflexivity.
Qed.


Lemma op_preserves_bytes m s k o ret s' :
  reach s k -> malloc_contract m -> legal s k o -> is_write o = false ->
  region_op m s o = Ok (ret, s') ->
  forall b, In b k -> In b (spec_step k o ret) ->
  forall x, bptr b <= x < bptr b + blen b -> rmem s' x = rmem s x.
Proof.
  intros Hr Hm Hl Hw Ho b Hb Hb' x Hx. apply reach_Inv in Hr.
  pose proof (Inv_snap _ _ Hr) as Hs. pose proof (legal_snap _ _ _ Hl) as Hl'.
  destruct (step_ok m s _ o Hm Hs Hl') as [H|(ret' & s'' & H & Hi)]; rewrite H in Ho;
    [discriminate|]. injection Ho as -> ->.
  assert (Hin : In (snap (rmem s) b) (spec_step (map (snap (rmem s)) k) o ret)).
  { destruct o; cbn in *; try discriminate; try (right; apply in_map; exact Hb);
      try (apply in_map; exact Hb); auto.
    rewrite pop_to_map by apply snap_ptr. apply in_map. exact Hb'. }
  destruct Hi as (c & cs & k1 & k2 & _ & _ & _ & _ & _ & _ & _ & _ & Hrd).
  rewrite Forall_forall in Hrd. specialize (Hrd _ Hin).
  unfold readable in Hrd. unfold blen in Hx.
  specialize (Hrd (Z.to_nat (x - bptr b)) (rmem s x)).
  rewrite snap_ptr in Hrd.
  replace (bptr b + Z.of_nat (Z.to_nat (x - bptr b))) with x in Hrd by lia.
  apply Hrd. rewrite snap_nth by lia. do 3 f_equal. lia.
Qed.

(** tmpalloc *)
Lemma reach_tmp m s k n p s' :
  reach s k -> malloc_contract m -> 0 <= n <= MAXREQ ->
  region_tmpalloc m s n = Ok (p, s') ->
  p mod 16 = 0 /\ p = region_ptr s' /\
  exists c, In c (rchunks s') /\ cbase c <= p /\ p + n <= cend c /\
  forall b, In b k -> bptr b + blen b <= p \/ p + n <= bptr b.
Proof.
  intros Hr Hm Hn Ho. apply reach_Inv in Hr.
  destruct (tmpalloc_ok m s k n Hm Hr Hn) as [H|(s'' & H & Hi & (c' & Hc' & Hf))];
    rewrite H in Ho; [discriminate|]. injection Ho as <- <-.
  destruct Hi as (c & cs & k1 & k2 & Hc & Hk & Hok & Hap & Hmod & Hh & Hs & Hl & Hrd).
  rewrite Hc in Hc'. cbn in Hc'. injection Hc' as <-.
  split; [exact Hmod|]. split; [reflexivity|].
  exists c. rewrite Hc. cbn. split; [left; reflexivity|]. split; [lia|]. split; [exact Hf|].
  intros b Hb. subst k. apply in_app_or in Hb. destruct Hb as [Hb|Hb].
  - destruct (seg_in _ _ _ _ _ Hs Hb) as (A & B & C & D). lia.
  - destruct (lay_in _ _ Hl b Hb) as (d & Hd & R1 & R2 & R3 & R4).
    inversion Hap as [|? ? Hff ?]; subst. rewrite Forall_forall in Hff.
    specialize (Hff d Hd). unfold apart in Hff. lia.
Qed.

(** pop_to and positions *)
Lemma pop_to_split p k1 b k2 :
  bptr b = p -> holds_ptr p k2 = false -> pop_to p (k1 ++ b :: k2) = k2.
Proof.
  intros Hb H2. rewrite pop_to_app_right.
  - cbn. rewrite H2. subst p. rewrite Z.eqb_refl. reflexivity.
  - cbn. subst p. rewrite Z.eqb_refl. reflexivity.
Qed.

Lemma disjoint_ptr b b' : disjoint_blocks b b' -> 0 < blen b -> 0 < blen b' -> bptr b <> bptr b'.
Proof. unfold disjoint_blocks. lia. Qed.

(** all blocks of positive length in the invariant *)
Lemma FOP_mid {A} (R : A -> A -> Prop) l1 x l2 :
  ForallOrdPairs R (l1 ++ x :: l2) -> forall y, In y l2 -> R x y.
Proof.
  induction l1 as [|z l IH]; cbn; intros H y Hy.
  - inversion H as [|? ? Hf _]; subst. rewrite Forall_forall in Hf. auto.
  - inversion H; subst. eapply IH; eauto.
Qed.

Lemma reach_pop m s k1 b k2 :
  reach s (k1 ++ b :: k2) -> malloc_contract m ->
  (forall b', In b' (b :: k2) -> 0 < blen b') ->
  region_op m s (OPop (bptr b)) = Fault NoMem \/
  exists s', region_op m s (OPop (bptr b)) = Ok (0, s') /\ reach s' k2 /\
    (forall b', In b' k2 -> forall x, bptr b' <= x < bptr b' + blen b' -> rmem s' x = rmem s x).
Proof.
  intros Hr Hm Hpos.
  assert (Hl : legal s (k1 ++ b :: k2) (OPop (bptr b))).
  { cbn. exists b. split; [apply in_or_app; right; left; reflexivity|reflexivity]. }
  assert (Hh : holds_ptr (bptr b) k2 = false).
  { apply holds_ptr_false. intros b' Hb'. apply not_eq_sym.
    apply disjoint_ptr; [|apply Hpos; left; auto|apply Hpos; right; auto].
    apply (FOP_mid disjoint_blocks k1 b k2); [|exact Hb']. eapply reach_disjoint; eauto. }
  pose proof (pop_to_split (bptr b) k1 b k2 eq_refl Hh) as Hp.
  destruct (step_ok m s _ _ Hm (reach_Inv _ _ Hr) Hl) as [H|(ret & s' & H & _)]; [left; exact H|].
  right. assert (ret = 0) as ->.
  { cbn [region_op] in H. destruct (region_pop m s (bptr b)); cbn in H; congruence. }
  exists s'. split; [exact H|]. split.
  - rewrite <- Hp. exact (reach_step m s _ (OPop (bptr b)) 0 s' Hr Hm Hl H).
  - intros b' Hb' x Hx.
    eapply (op_preserves_bytes m s _ (OPop (bptr b)) 0 s' Hr Hm Hl eq_refl H b'); [| |exact Hx].
    + apply in_or_app. right. right. exact Hb'.
    + cbn [spec_step]. rewrite Hp. exact Hb'.
Qed.

(** the popped address is handed out again *)
Lemma pop_reuse m m' s k p n s' :
  reach s k -> malloc_contract m -> (exists b, In b k /\ bptr b = p) ->
  (exists c, hd_error (rchunks s) = Some c /\ cbase c <= p < cend c) ->
  region_op m s (OPop p) = Ok (0, s') ->
  0 < n <= region_freesize s' ->
  exists s'', region_op m' s' (OAlloc n) = Ok (p, s'').
Proof.
  intros Hr Hm Hl Htop Ho Hn. apply reach_Inv in Hr.
  pose proof Hr as (c0 & cs0 & _ & _ & Hc0 & _ & Hok0 & _).
  destruct (pop_ok m s k p Hm Hr Hl) as [H|(s1 & H & Hi & Hk)].
  { cbn in Ho. rewrite H in Ho. discriminate. }
  cbn in Ho. rewrite H in Ho. cbn in Ho. injection Ho as <-.
  destruct (Hk Htop) as [Hhd Hch].
  cbn [region_op]. unfold region_alloc. unfold region_freesize in Hn. rewrite Hch, Hc0 in *.
  rewrite Hhd in *.
  inversion Hok0 as [|? ? Hc _]. destruct Hc as (?&?&?&?).
  destruct (cend c0 <=? p) eqn:E; [lia|].
  replace (W64 <=? p + n) with false by (unfold W64; lia).
  replace (cend c0 <? p + n) with false by lia. cbn. rewrite Hhd. eauto.
Qed.

(** marks *)
Lemma seg_nth lo ce ks : forall hi i j x y, seg lo hi ce ks ->
  (i < j)%nat -> nth_error ks i = Some x -> nth_error ks j = Some y ->
  bptr y + blen y <= bptr x.
Proof.
  induction ks as [|b r IH]; intros hi i j x y Hs Hij Hx Hy; [destruct i; discriminate|].
  cbn in Hs. destruct Hs as (H1 & H2 & H3 & H4 & H5 & H6).
  destruct j as [|j]; [lia|]. cbn in Hy. destruct i as [|i]; cbn in Hx.
  - injection Hx as <-. apply nth_error_In in Hy.
    destruct (seg_in _ _ _ _ _ H6 Hy) as (A & B & C & D). lia.
  - eapply (IH (bptr b) i j); eauto. lia.
Qed.

Lemma lay_sandwich C k : lay C k -> ForallOrdPairs apart C ->
  forall i j l x y z, (i < j < l)%nat ->
    nth_error k i = Some x -> nth_error k j = Some y -> nth_error k l = Some z ->
    bptr x = bptr z -> blen y = 0.
Proof.
  induction 1 as [|c cs k1 k2 Hs Hl IH]; intros Hap i j l x y z Hij Hx Hy Hz E.
  { destruct i; discriminate. }
  inversion Hap as [|? ? Hf Hap']; subst. rewrite Forall_forall in Hf.
  destruct (le_lt_dec (length k1) i) as [Hi|Hi].
  - rewrite nth_error_app2 in Hx, Hy, Hz by lia.
    eapply (IH Hap' (i - length k1) (j - length k1) (l - length k1))%nat; eauto. lia.
  - rewrite nth_error_app1 in Hx by lia.
    destruct (le_lt_dec (length k1) l) as [Hll|Hll].
    + rewrite nth_error_app2 in Hz by lia. exfalso.
      apply nth_error_In in Hx, Hz.
      destruct (seg_in _ _ _ _ _ Hs Hx) as (A & B & CC & D & _).
      destruct (lay_in _ _ Hl z Hz) as (d & Hd & R1 & R2 & R3 & R4).
      specialize (Hf d Hd). unfold apart in Hf. lia.
    + rewrite nth_error_app1 in Hy, Hz by lia.
      pose proof (seg_nth _ _ _ _ i j x y Hs ltac:(lia) Hx Hy).
      pose proof (seg_nth _ _ _ _ j l y z Hs ltac:(lia) Hy Hz).
      pose proof (blen_nonneg y). pose proof (blen_nonneg z). lia.
Qed.

Lemma pop_to_keeps p k0 b :
  In b k0 ->
  (forall i j x z, (i < j)%nat -> nth_error k0 i = Some x -> nth_error k0 j = Some z ->
     bptr z = p -> x <> b) ->
  bptr b <> p -> In b (pop_to p k0).
Proof.
  induction k0 as [|a r IH]; intros Hin Hno Hne; [destruct Hin|].
  cbn. destruct (holds_ptr p r) eqn:E.
  - apply IH; [|intros i j x z Hij Hx Hz; apply (Hno (S i) (S j) x z); auto; lia|exact Hne].
    destruct Hin as [->|Hin]; [exfalso|exact Hin].
    apply holds_ptr_in in E. destruct E as (z & Hz & Ez).
    apply In_nth_error in Hz. destruct Hz as (j & Hj).
    apply (Hno O (S j) b z); auto. lia.
  - destruct (bptr a =? p) eqn:Ea; [|exact Hin].
    destruct Hin as [->|Hin]; [apply Z.eqb_eq in Ea; congruence|exact Hin].
Qed.

Lemma mark_pop m s k1 p k0 :
  reach s (k1 ++ mkB p [] :: k0) -> malloc_contract m ->
  region_op m s (OPop p) = Fault NoMem \/
  exists s', region_op m s (OPop p) = Ok (0, s') /\
    forall b, In b k0 -> 0 < blen b ->
      forall x, bptr b <= x < bptr b + blen b -> owns s' x /\ rmem s' x = rmem s x.
Proof.
  intros Hr Hm.
  assert (Hl : legal s (k1 ++ mkB p [] :: k0) (OPop p)).
  { cbn. eexists. split; [apply in_or_app; right; left; reflexivity|reflexivity]. }
  destruct (step_ok m s _ _ Hm (reach_Inv _ _ Hr) Hl) as [H|(ret & s' & H & HI)]; [left; exact H|].
  right. assert (ret = 0) as ->.
  { cbn [region_op] in H. destruct (region_pop m s p); cbn in H; congruence. }
  exists s'. split; [exact H|]. intros b Hb Hpos x Hx.
  assert (Hin : In b (pop_to p (k1 ++ mkB p [] :: k0))).
  { pose proof (reach_Inv _ _ Hr) as (c & cs & j1 & j2 & Hc & Hk & Hok & Hap & Hmod & Hh & Hs & Hl' & Hrd).
    assert (Hlay : lay (c :: cs) (k1 ++ mkB p [] :: k0)).
    { rewrite Hk. constructor; [|exact Hl']. eapply seg_weaken; [|exact Hs]. lia. }
    pose proof (lay_sandwich _ _ Hlay Hap) as Hsw.
    pose proof (reach_disjoint _ _ Hr) as Hd.
    assert (Hm0 : nth_error (k1 ++ mkB p [] :: k0) (length k1) = Some (mkB p [])).
    { rewrite nth_error_app2, Nat.sub_diag by lia. reflexivity. }
    assert (Hk0 : forall i, nth_error (k1 ++ mkB p [] :: k0) (length k1 + S i) = nth_error k0 i).
    { intros i. rewrite nth_error_app2 by lia.
      replace (length k1 + S i - length k1)%nat with (S i) by lia. reflexivity. }
    assert (Hkeep : bptr b <> p -> In b (pop_to p k0)).
    { intros Hne. apply pop_to_keeps; auto. intros i j y z Hij Hy Hz Ez ->.
      rewrite <- Hk0 in Hy, Hz.
      assert (blen b = 0); [|lia].
      eapply (Hsw (length k1) (length k1 + S i) (length k1 + S j))%nat; eauto. lia. }
    rewrite pop_to_app_right by (cbn; rewrite Z.eqb_refl; reflexivity).
    cbn. rewrite Z.eqb_refl. destruct (holds_ptr p k0) eqn:E; [|exact Hb].
    apply Hkeep. intros Ep.
    apply In_nth_error in Hb. destruct Hb as (i & Hi). rewrite <- Hk0 in Hi.
    assert (bptr b + blen b <= p); [|lia].
    clear - Hlay Hap Hm0 Hi Ep.
    revert Hm0 Hi. generalize (length k1) as u. generalize (k1 ++ mkB p [] :: k0), Hlay, Hap.
    clear Hlay Hap. generalize (c :: cs). intros C k HC.
    induction HC as [|d ds l1 l2 Hs Hl IH]; intros Hap u Hu Hi; [destruct u; discriminate|].
    inversion Hap as [|? ? Hf Hap']; subst. rewrite Forall_forall in Hf.
    destruct (le_lt_dec (length l1) u) as [G|G].
    - rewrite nth_error_app2 in Hu, Hi by lia. eapply (IH Hap' (u - length l1)%nat); eauto.
      replace (u - length l1 + S i)%nat with (u + S i - length l1)%nat by lia. exact Hi.
    - rewrite nth_error_app1 in Hu by lia.
      destruct (le_lt_dec (length l1) (u + S i)%nat) as [G'|G'].
      + exfalso. rewrite nth_error_app2 in Hi by lia. apply nth_error_In in Hu, Hi.
        destruct (seg_in _ _ _ _ _ Hs Hu) as (A & B & CC & D & _).
        destruct (lay_in _ _ Hl b Hi) as (e & He & R1 & R2 & R3 & R4).
        specialize (Hf e He). unfold apart in Hf. cbn in *. lia.
      + rewrite nth_error_app1 in Hi by lia.
        pose proof (seg_nth _ _ _ _ _ _ _ _ Hs (ltac:(lia) : (u < u + S i)%nat) Hu Hi). cbn in *. lia. }
  split.
  - destruct (Inv_in _ _ HI b Hin) as (c & Hc & R1 & R2 & R3 & R4).
    exists c. split; [exact Hc|lia].
  - eapply (op_preserves_bytes m s _ (OPop p) 0 s' Hr Hm Hl eq_refl H b); [|exact Hin|exact Hx].
    apply in_or_app. right. right. exact Hb.
Qed.

(** release *)
Lemma capacity_total cs : capacity cs = total cs.
Proof.
  unfold total.
  enough (H : forall a, fold_left (fun acc c => acc + (cend c - cbase c)) cs a = a + capacity cs)
    by (rewrite H; lia).
  induction cs as [|c r IH]; intros a; cbn; [lia|]. rewrite IH. unfold capacity. lia.
Qed.

Lemma alloc_nogrow m s k n c :
  Inv s k -> rchunks s = [c] -> 0 <= n -> rhead s + rounded n <= cend c ->
  exists s', region_alloc m s n = Ok (rhead s, s') /\ rchunks s' = [c] /\ rhead s' = rhead s + rounded n /\ rmem s' = rmem s.
Proof.
  intros (c0 & cs & k1 & k2 & Hc & Hk & Hok & Hap & Hmod & Hh & Hs & Hl' & Hrd) Hc1 Hn Hf.
  rewrite Hc1 in Hc. injection Hc as <- <-.
  inversion Hok as [|? ? (O1 & O2 & O3 & O4) _]; subst.
  assert (n <= rounded n) by (unfold rounded; lia).
  unfold region_alloc. rewrite Hc1.
  replace (W64 <=? rhead s + n) with false by (unfold W64; lia).
  replace (cend c <? rhead s + n) with false by lia. cbn [bind].
  eexists. split; [reflexivity|]. cbn [rhead rchunks rmem]. split; [exact Hc1|]. split; [|reflexivity].
  rewrite alignptr_eq. unfold rounded. clear - Hmod.
  assert (E : rhead s = 16 * (rhead s / 16)) by lia.
  replace (rhead s + n + 15) with (n + 15 + (rhead s / 16) * 16) by lia.
  rewrite (Z.div_add (n + 15) (rhead s / 16) 16) by discriminate. lia.
Qed.

Lemma allocs_nogrow : forall sizes ms s k c,
  Inv s k -> rchunks s = [c] -> (forall n, In n sizes -> 0 < n) ->
  rhead s + fold_right (fun n a => rounded n + a) 0 sizes <= cend c ->
  length ms = length sizes ->
  exists s', allocs ms s sizes = Ok s' /\ rchunks s' = [c].
Proof.
  induction sizes as [|n r IH]; intros ms s k c HI Hc Hpos Hf Hlen.
  { destruct ms; eexists; (split; [reflexivity|exact Hc]). }
  destruct ms as [|m ms]; [discriminate|]. cbn [allocs fold_right length In] in *.
  assert (Hr : 0 <= fold_right (fun n a => rounded n + a) 0 r).
  { assert (Hp : forall x, In x r -> 0 < x) by (intros x Hx; apply Hpos; auto).
    clear - Hp. induction r as [|x r IH]; cbn [fold_right]; [lia|].
    assert (0 < x) by (apply Hp; left; reflexivity).
    assert (0 <= fold_right (fun n a => rounded n + a) 0 r)
      by (apply IH; intros y Hy; apply Hp; right; exact Hy).
    unfold rounded at 1. lia. }
  assert (Hn : 0 < n) by (apply Hpos; auto).
  pose proof HI as (c0 & cs & k1 & k2 & Hc0 & Hk & Hok & Hap & Hmod & Hh & Hs & Hl' & Hrd).
  rewrite Hc in Hc0. injection Hc0 as <- <-.
  inversion Hok as [|? ? (O1 & O2 & O3 & O4) _]; subst.
  assert (Hrn : n <= rounded n) by (unfold rounded; lia).
  destruct (alloc_nogrow m s (k1 ++ k2) n c HI Hc ltac:(lia) ltac:(lia)) as (s' & E & Hc' & Hh' & Hm').
  rewrite E. cbn [bind].
  assert (HI' : Inv s' []).
  { exists c, [], [], []. rewrite Hc', Hh'. do 4 (split; [solve [auto]|]).
    split; [unfold rounded; lia|]. split; [lia|]. split; [exact I|]. split; constructor. }
  eapply IH; eauto. lia.
Qed.

Lemma reach_release m s k :
  reach s k -> malloc_contract m ->
  region_op m s ORelease = Fault NoMem \/
  exists s', region_op m s ORelease = Ok (0, s') /\ reach s' [] /\
    region_chunk_count s' = 1%nat /\ capacity (rchunks s) <= region_freesize s' /\
    forall sizes ms, (forall n, In n sizes -> 0 < n) -> length ms = length sizes ->
      fold_right (fun n a => rounded n + a) 0 sizes <= region_freesize s' ->
      exists s'', allocs ms s' sizes = Ok s'' /\ rchunks s'' = rchunks s'.
Proof.
  intros Hr Hm.
  destruct (release_ok m s k Hm (reach_Inv _ _ Hr)) as [H|(s' & c & H & HI & Hc & Hh & Ht)].
  { left. cbn. rewrite H. reflexivity. }
  right. exists s'.
  assert (Ho : region_op m s ORelease = Ok (0, s')) by (cbn; rewrite H; reflexivity).
  split; [exact Ho|].
  split; [exact (reach_step m s k ORelease 0 s' Hr Hm I Ho)|].
  split; [unfold region_chunk_count; rewrite Hc; reflexivity|].
  pose proof HI as (c0 & cs & k1 & k2 & Hc0 & _ & Hok & _ & _ & _ & _ & _ & _).
  rewrite Hc in Hc0. injection Hc0 as <- <-.
  inversion Hok as [|? ? (O1 & O2 & O3 & O4) _]; subst.
  assert (Hfs : region_freesize s' = cend c - cbase c).
  { unfold region_freesize. rewrite Hc, Hh.
    destruct (_ <=? _) eqn:E; lia. }
  rewrite Hfs. split; [rewrite capacity_total; exact Ht|].
  intros sizes ms Hpos Hlen Hf. rewrite Hc.
  eapply allocs_nogrow; eauto. lia.
Qed.

(** tmprealloc, when the top chunk is partly used and not full *)
Lemma tmprealloc_ok m s k n :
  reach s k -> malloc_contract m -> 0 <= n <= MAXREQ ->
  0 < region_freesize s < region_topsize s ->
  region_tmprealloc m s n = Fault NoMem \/
  exists p s', region_tmprealloc m s n = Ok (p, s') /\
    p mod 16 = 0 /\ p = region_ptr s' /\ n <= region_freesize s' /\
    (forall i, 0 <= i < n -> i < region_freesize s ->
       rmem s' (p + i) = rmem s (region_ptr s + i)) /\
    (forall b, In b k -> forall x, bptr b <= x < bptr b + blen b ->
       owns s' x /\ rmem s' x = rmem s x).
Proof.
  intros Hr Hm Hn Hfs. pose proof (reach_Inv _ _ Hr) as HI.
  pose proof HI as (c & cs & k1 & k2 & Hc & Hk & Hok & Hap & Hmod & Hh & Hs & Hl' & Hrd).
  inversion Hok as [|? ? Hokc Hokcs]. destruct Hokc as (O1 & O2 & O3 & O4). subst.
  unfold region_freesize, region_topsize in Hfs. rewrite Hc in Hfs.
  destruct (cend c <=? rhead s) eqn:Efs; [lia|].
  unfold region_tmprealloc, region_tmpalloc. rewrite Hc.
  replace (W64 <=? rhead s + n) with false by (unfold W64, MAXREQ in *; lia).
  assert (Hw : wrap64 (cend c - rhead s) = cend c - rhead s)
    by (unfold wrap64, W64; apply Z.mod_small; lia).
  rewrite Hw.
  destruct (cend c <? rhead s + n) eqn:E.
  - assert (Hlay : lay (c :: cs) (k1 ++ k2)).
    { constructor; [|exact Hl']. eapply seg_weaken; [|exact Hs]. lia. }
    unfold region_grow. rewrite Hc. rewrite (alignptr_id _ O1).
    replace (cbase c =? rhead s) with false by lia.
    set (nsize := Z.max _ _).
    assert (Hns : n + 16 <= nsize).
    { unfold nsize, wrap64, W64, MEMREG_ALIGN, MAXREQ in *.
      rewrite (Z.mod_small (n + 16)) by lia. lia. }
    unfold node_alloc, MEMREG_ALIGN in *.
    destruct (m (c :: cs) (nsize + 16)) as [[a junk]|] eqn:Em; [|left; reflexivity].
    destruct (Hm _ _ _ _ Em) as (Ha & Hpos & Hhi & Hd).
    rewrite (alignptr_id a Ha). cbn [bind]. right.
    unfold region_freesize. cbn [rchunks rhead cend].
    replace (a + nsize + 16 <=? a) with false by lia.
    replace (n <=? a + nsize + 16 - a) with true by lia.
    rewrite Ha. cbn [assert_then Z.eqb bind rhead rchunks rmem tl].
    pose proof (Hd c (or_introl eq_refl)) as Hdc.
    replace (rhead s =? a) with false by lia.
    replace (cend c - rhead s =? 0) with false by lia.
    replace (cend c <? rhead s) with false by lia.
    cbn [existsb]. rewrite !Z.eqb_refl. cbn [andb orb negb].
    eexists _, _. split; [reflexivity|].
    split; [exact Ha|]. split; [reflexivity|]. cbn [rchunks rhead rmem].
    unfold region_freesize, region_ptr. cbn [rchunks rhead cend].
    replace (a + nsize + 16 <=? a) with false by lia. rewrite Hc, Efs.
    split; [lia|]. split.
    + intros i Hi1 Hi2. rewrite fill_in by lia.
      replace (a + i - a + rhead s) with (rhead s + i) by lia.
      apply fill_out. lia.
    + intros b Hb x Hx.
      destruct (lay_in _ _ Hlay b Hb) as (d & Hdin & R1 & R2 & R3 & R4).
      split.
      * exists d. cbn [rchunks]. split; [right; exact Hdin|lia].
      * pose proof (Hd d Hdin) as Hdd.
        rewrite fill_out by lia. apply fill_out. lia.
  - right. cbn [bind]. rewrite Z.eqb_refl.
    exists (rhead s), s. split; [reflexivity|]. split; [exact Hmod|]. split; [reflexivity|].
    split; [unfold region_freesize; rewrite Hc, Efs; lia|].
    split; [reflexivity|]. intros b Hb x Hx. split; [|reflexivity].
    destruct (Inv_in _ _ HI b Hb) as (d & Hdin & R1 & R2 & R3 & R4).
    exists d. split; [exact Hdin|lia].
Qed.

(** runs of legal calls reach *)
Fixpoint legal_run (s : rstate) (k : stack) (h : list (mallocF * rop)) : Prop :=
  match h with
  | [] => True
  | (m, o) :: r =>
      malloc_contract m /\ legal s k o /\
      match region_op m s o with
      | Ok (ret, s') => legal_run s' (spec_step k o ret) r
      | Fault _ => False
      end
  end.

Lemma run_reach : forall h s k s' k',
  reach s k -> legal_run s k h -> run s k h = Ok (s', k') -> reach s' k'.
Proof.
  induction h as [|[m o] r IH]; intros s k s' k' Hr Hl He.
  - cbn in He. injection He as <- <-. exact Hr.
  - cbn in Hl, He. destruct Hl as (Hm & Hlo & Hl).
    destruct (region_op m s o) as [[ret s1]|] eqn:E; [|destruct Hl].
    cbn in He. eapply IH; [|exact Hl|exact He].
    eapply reach_step; eauto.
Qed.

Lemma init_run_reach m size mem s h s' k' :
  malloc_contract m -> 0 <= size -> region_init m size mem = Ok s ->
  legal_run s [] h -> run s [] h = Ok (s', k') -> reach s' k'.
Proof. intros Hm Hs Hi Hl Hr. eapply run_reach; [eapply reach_init; eauto|exact Hl|exact Hr]. Qed.

Ltac legal_tac :=
  repeat match goal with
  | |- True => exact I
  | |- malloc_contract _ => apply malloc_at_contract
  | |- _ < _ <= _ => unfold MAXREQ; cbn; lia
  | |- _ < _ < _ => cbn; lia
  | |- (0 <= _ <= _) /\ _ <= _ => unfold MAXREQ; cbn; lia
  | |- _ /\ _ => split
  | |- legal_run _ _ _ => progress cbn -[malloc_contract MAXREQ legal_run]
  | |- legal_run _ _ ((_, _) :: _) => cbn [legal_run]
  | |- legal_run _ _ [] => exact I
  | |- legal _ _ _ => cbn -[MAXREQ]
  | |- match region_op _ _ _ with _ => _ end => cbn -[malloc_contract MAXREQ legal_run]
  | |- exists _, _ => first
        [ exact I | lia
        | eexists; split; [left; reflexivity|]; solve [reflexivity | split; [reflexivity|vm_compute; split; [discriminate|reflexivity]]]
        | eexists; split; [right; left; reflexivity|]; solve [reflexivity | split; [reflexivity|vm_compute; split; [discriminate|reflexivity]]] ]
  end.

Definition nojunk : Z -> Z := fun _ => 7.
Definition M0 : mallocF := malloc_at 32 nojunk.
Definition M1 : mallocF := malloc_at 1024 nojunk.
Definition M2 : mallocF := malloc_at 4096 nojunk.
Definition s0 : rstate := mkR 32 [mkChunk 32 112] (fill (fun _ => 0) 32 80 nojunk).

Lemma s0_init : region_init M0 64 (fun _ => 0) = Ok s0.
Proof. reflexivity. Qed.

(** A history touching every operation: three blocks in two chunks. *)
Definition demo : list (mallocF * rop) :=
  [(M1, OAlloc 5); (M1, OWrite 32 3 42); (M1, ODup [1;2;3]); (M1, OTmp 10 [9;9]);
   (M1, OMark); (M1, OZalloc 200)].

Lemma demo_reach : exists s,
  reach s [mkB 1024 (repeat (Some 0) 200); mkB 64 []; mkB 48 [Some 1; Some 2; Some 3];
           mkB 32 [None; None; None; Some 42; None]] /\
  map (fun c => (cbase c, cend c)) (rchunks s) = [(1024, 1256); (32, 112)] /\ rhead s = 1232.
Proof.
  assert (H : exists s k, run s0 [] demo = Ok (s, k) /\
    k = [mkB 1024 (repeat (Some 0) 200); mkB 64 []; mkB 48 [Some 1; Some 2; Some 3];
           mkB 32 [None; None; None; Some 42; None]] /\
    map (fun c => (cbase c, cend c)) (rchunks s) = [(1024, 1256); (32, 112)] /\ rhead s = 1232).
  { eexists _, _. split; [reflexivity|]. repeat split. }
  destruct H as (s & k & Hr & -> & Hc & Hh). exists s. split; [|auto].
  eapply (init_run_reach M0 64 (fun _ => 0) s0 demo); [apply malloc_at_contract|lia|reflexivity| |exact Hr].
  unfold demo. legal_tac.
Qed.

(** C04: the mark is the end of a full chunk *)
Lemma mark_refuted_full :
  exists s k b m1 m2 n p s1 s2,
    reach s k /\ In b k /\ 0 < blen b /\ malloc_contract m1 /\ malloc_contract m2 /\
    0 < n <= MAXREQ /\
    region_alloc m1 s n = Ok (p, s1) /\
    region_op m2 s1 (OPop (region_ptr s)) = Ok (0, s2) /\
    ~ owns s2 (bptr b).
Proof.
  assert (H : exists s k, run s0 [] [(M0, OAlloc 80)] = Ok (s, k)) by (eexists _, _; reflexivity).
  destruct H as (s & k & H). exists s, k, (mkB 32 (repeat None 80)), M1, M2, 100.
  assert (Hr : reach s k).
  { eapply (init_run_reach M0 64 (fun _ => 0) s0); [apply malloc_at_contract|lia|reflexivity| |exact H].
    legal_tac. }
  cbn in H. injection H as <- <-. eexists _, _, _.
  split; [exact Hr|]. split; [left; reflexivity|]. split; [cbn; lia|].
  split; [apply malloc_at_contract|]. split; [apply malloc_at_contract|].
  split; [unfold MAXREQ; lia|]. split; [reflexivity|]. split; [reflexivity|].
  intros (c & Hc & Hb). cbn in Hc, Hb. destruct Hc as [<-|[]]. cbn in Hb. lia.
Qed.

(** C04: the mark is scratch space at the start of a fresh chunk *)
Lemma mark_refuted_fresh :
  exists s k b m0 m1 m2 t n mark q sA sB sC,
    reach s k /\ In b k /\ 0 < blen b /\
    malloc_contract m0 /\ malloc_contract m1 /\ malloc_contract m2 /\
    0 < t <= MAXREQ /\ 0 < n <= MAXREQ /\
    region_tmpalloc m0 s t = Ok (mark, sA) /\
    region_alloc m1 sA n = Ok (q, sB) /\
    region_op m2 sB (OPop mark) = Ok (0, sC) /\
    ~ owns sC (bptr b).
Proof.
  assert (H : exists s k, run s0 [] [(M0, OAlloc 60)] = Ok (s, k)) by (eexists _, _; reflexivity).
  destruct H as (s & k & H). exists s, k, (mkB 32 (repeat None 60)), M1, M2, (malloc_at 65536 nojunk), 100, 1000.
  assert (Hr : reach s k).
  { eapply (init_run_reach M0 64 (fun _ => 0) s0); [apply malloc_at_contract|lia|reflexivity| |exact H].
    legal_tac. }
  cbn in H. injection H as <- <-. eexists _, _, _, _, _.
  split; [exact Hr|]. split; [left; reflexivity|]. split; [cbn; lia|].
  do 3 (split; [apply malloc_at_contract|]).
  do 2 (split; [unfold MAXREQ; lia|]).
  split; [reflexivity|]. split; [reflexivity|]. split; [reflexivity|].
  intros (c & Hc & Hb). cbn in Hc, Hb. destruct Hc as [<-|[]]. cbn in Hb. lia.
Qed.

(** C05 *)
Lemma tmprealloc_refuted_uaf :
  exists s k m n, reach s k /\ malloc_contract m /\ 0 < n <= MAXREQ /\
    region_tmprealloc m s n = Fault UseAfterFree.
Proof.
  exists s0, [], M1, 100.
  split; [exact (reach_init M0 64 (fun _ => 0) s0 (malloc_at_contract _ _) ltac:(lia) eq_refl)|].
  split; [apply malloc_at_contract|]. split; [unfold MAXREQ; lia|]. reflexivity.
Qed.

Lemma tmprealloc_refuted_huge :
  exists s k b m n, reach s k /\ In b k /\ malloc_contract m /\ 0 < n <= MAXREQ /\
    region_tmprealloc m s n = Fault HugeCopy.
Proof.
  assert (H : exists s k s1, region_init M0 1 (fun _ => 0) = Ok s1 /\
            run s1 [] [(M0, OAlloc 17)] = Ok (s, k)) by (eexists _, _, _; split; reflexivity).
  destruct H as (s & k & s1 & H1 & H).
  exists s, k, (mkB 32 (repeat None 17)), M1, 100.
  assert (Hr : reach s k).
  { eapply (init_run_reach M0 1 (fun _ => 0) s1); [apply malloc_at_contract|lia|exact H1| |exact H].
    cbn in H1. injection H1 as <-. legal_tac. }
  cbn in H1. injection H1 as <-. cbn in H. injection H as <- <-.
  split; [exact Hr|]. split; [left; reflexivity|].
  split; [apply malloc_at_contract|]. split; [unfold MAXREQ; lia|]. reflexivity.
Qed.

(** C07 *)
Lemma huge_refuted :
  exists s k b m n p s', reach s k /\ In b k /\ 0 < blen b /\ malloc_contract m /\
    0 < n < 2 ^ 64 /\
    region_alloc m s n = Fault PtrOverflow /\
    region_alloc_flat m s n = Ok (p, s') /\
    region_ptr s' = bptr b.
Proof.
  assert (H : exists s k, run s0 [] [(M0, OAlloc 16)] = Ok (s, k)) by (eexists _, _; reflexivity).
  destruct H as (s & k & H). exists s, k, (mkB 32 (repeat None 16)), M1, (2 ^ 64 - 16).
  assert (Hr : reach s k).
  { eapply (init_run_reach M0 64 (fun _ => 0) s0); [apply malloc_at_contract|lia|reflexivity| |exact H].
    legal_tac. }
  cbn in H. injection H as <- <-. eexists _, _.
  split; [exact Hr|]. split; [left; reflexivity|]. split; [cbn; lia|].
  split; [apply malloc_at_contract|]. split; [lia|].
  split; [reflexivity|]. split; reflexivity.
Qed.

(** witnesses for the hypotheses *)
Lemma pop_demo : exists s k1 b k2, reach s (k1 ++ b :: k2) /\ k1 <> [] /\ k2 <> [] /\
  forall b', In b' (b :: k2) -> 0 < blen b'.
Proof.
  assert (H : exists s, run s0 [] [(M1, OAlloc 5); (M1, OAlloc 6); (M1, OAlloc 200)] =
    Ok (s, [mkB 1024 (repeat None 200)] ++ mkB 48 (repeat None 6) :: [mkB 32 (repeat None 5)]))
    by (eexists; reflexivity).
  destruct H as (s & H). exists s, [mkB 1024 (repeat None 200)], (mkB 48 (repeat None 6)), [mkB 32 (repeat None 5)].
  split.
  { eapply (init_run_reach M0 64 (fun _ => 0) s0); [apply malloc_at_contract|lia|reflexivity| |exact H].
    legal_tac. }
  do 2 (split; [discriminate|]). intros b' [<-|[<-|[]]]; vm_compute; reflexivity.
Qed.

Lemma mark_demo : exists s k1 p k0, reach s (k1 ++ mkB p [] :: k0) /\ k1 <> [] /\
  exists b, In b k0 /\ 0 < blen b.
Proof.
  destruct demo_reach as (s & H & _).
  exists s, [mkB 1024 (repeat (Some 0) 200)], 64,
    [mkB 48 [Some 1; Some 2; Some 3]; mkB 32 [None; None; None; Some 42; None]].
  split; [exact H|]. split; [discriminate|]. eexists. split; [left; reflexivity|]. reflexivity.
Qed.

Lemma tmprealloc_demo : exists s k b, reach s k /\ In b k /\ 0 < blen b /\
  0 < region_freesize s < region_topsize s.
Proof.
  assert (H : exists s k, run s0 [] [(M1, OAlloc 5)] = Ok (s, k)) by (eexists _, _; reflexivity).
  destruct H as (s & k & H). exists s, k, (mkB 32 (repeat None 5)).
  split. { eapply (init_run_reach M0 64 (fun _ => 0) s0); [apply malloc_at_contract|lia|reflexivity| |exact H].
           legal_tac. }
  cbn in H. injection H as <- <-. split; [left; reflexivity|]. split; vm_compute; [reflexivity|split; reflexivity].
Qed.
