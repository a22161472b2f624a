(** Proofs about pools and region lists. *)
From Coq Require Import ZArith List Bool Lia ZifyBool Permutation.
From Verif Require Import RegionModel RegionSpec RegionProofs PoolModel PoolSpec.
Import ListNotations.
Open Scope Z_scope.
Ltac Zify.zify_post_hook ::= Z.div_mod_to_equations.

(** * Words *)
Lemma le_bytes_length n : forall v, length (le_bytes n v) = n.
Proof. induction n; intros v; cbn; auto. Qed.

Lemma le_val_bytes n : forall v, 0 <= v < 256 ^ Z.of_nat n -> le_val (le_bytes n v) = v.
Proof.
  induction n as [|n IH]; intros v H.
  - cbn in *. lia.
  - cbn [le_bytes le_val]. rewrite IH.
    + lia.
    + rewrite Nat2Z.inj_succ, Z.pow_succ_r in H by lia. lia.
Qed.

Lemma nth_error_ext {A} : forall (l l' : list A),
  (forall i, nth_error l i = nth_error l' i) -> l = l'.
Proof.
  induction l as [|x r IH]; intros [|y r'] H; auto.
  - specialize (H O). discriminate.
  - specialize (H O). discriminate.
  - f_equal; [specialize (H O); cbn in H; congruence|]. apply IH. intros i. exact (H (S i)).
Qed.

Lemma read_write mem p l : read_bytes (write_bytes mem p l) p (length l) = l.
Proof.
  apply nth_error_ext. intros i. unfold read_bytes. rewrite nth_error_map.
  destruct (nth_error l i) as [v|] eqn:E.
  - assert (i < length l)%nat by (apply nth_error_Some; congruence).
    rewrite (nth_error_nth' (seq 0 (length l)) O) by (rewrite seq_length; lia).
    rewrite seq_nth by lia. cbn. f_equal. apply write_bytes_in. exact E.
  - assert (length l <= i)%nat by (apply nth_error_None; exact E).
    destruct (nth_error (seq 0 (length l)) i) eqn:E2; [|reflexivity].
    assert (i < length (seq 0 (length l)))%nat by (apply nth_error_Some; congruence).
    rewrite seq_length in *. lia.
Qed.

Lemma load_store mem p v : 0 <= v < 2 ^ 64 -> load64 (store64 mem p v) p = v.
Proof.
  intros H. unfold load64, store64.
  pose proof (read_write mem p (le_bytes 8 v)) as E. rewrite le_bytes_length in E.
  rewrite E. apply le_val_bytes. exact H.
Qed.

Lemma load_ext mem mem' p : (forall x, p <= x < p + 8 -> mem' x = mem x) ->
  load64 mem' p = load64 mem p.
Proof.
  intros H. unfold load64, read_bytes. f_equal. apply map_ext_in. intros i Hi.
  apply in_seq in Hi. apply H. lia.
Qed.

Lemma store_out mem p v x : x < p \/ p + 8 <= x -> store64 mem p v x = mem x.
Proof. intros H. apply write_bytes_out. rewrite le_bytes_length. lia. Qed.

Lemma load_store_other mem p q v : p + 8 <= q \/ q + 8 <= p ->
  load64 (store64 mem p v) q = load64 mem q.
Proof. intros H. apply load_ext. intros x Hx. apply store_out. lia. Qed.

(** * Ownership of disjoint areas of a region *)
Definition area := (Z * Z)%type.
Definition area_of (b : sblock) : area := (bptr b, blen b).
Definition sep (a b : area) : Prop := fst a + snd a <= fst b \/ fst b + snd b <= fst a.

Definition Own (s : rstate) (B : list area) : Prop :=
  exists k, Inv s k /\ Permutation (map area_of k) B /\
            forall b, In b k -> bdata b = repeat None (length (bdata b)).

Definition forget (b : sblock) : sblock := mkB (bptr b) (repeat None (length (bdata b))).
Lemma forget_ptr b : bptr (forget b) = bptr b. Proof. reflexivity. Qed.
Lemma forget_len b : blen (forget b) = blen b.
Proof. unfold blen, forget. cbn. rewrite repeat_length. reflexivity. Qed.

Lemma none_readable mem p n : readable mem (mkB p (repeat None n)).
Proof. intros i v H. cbn in H. apply nth_error_repeat_eq in H. discriminate. Qed.

Lemma Inv_forget s k : Inv s k -> Inv s (map forget k).
Proof.
  intros (c & cs & k1 & k2 & Hc & Hk & Hok & Hap & Hmod & Hh & Hs & Hl & Hr).
  exists c, cs, (map forget k1), (map forget k2).
  split; [exact Hc|]. split; [subst k; apply map_app|].
  do 4 (split; [assumption|]).
  split; [apply seg_map; auto using forget_ptr, forget_len|].
  split; [apply lay_map; auto using forget_ptr, forget_len|].
  apply Forall_forall. intros b Hb. apply in_map_iff in Hb.
  destruct Hb as (b' & <- & _). apply none_readable.
Qed.

Lemma Inv_anymem s k mem' : Inv s k ->
  (forall b, In b k -> bdata b = repeat None (length (bdata b))) -> Inv (with_mem s mem') k.
Proof.
  intros (c & cs & k1 & k2 & Hc & Hk & Hok & Hap & Hmod & Hh & Hs & Hl & Hr) Hn.
  exists c, cs, k1, k2. cbn. do 8 (split; [assumption|]).
  apply Forall_forall. intros b Hb. destruct b as [p d]. specialize (Hn _ Hb). cbn in Hn.
  rewrite Hn. apply none_readable.
Qed.

Lemma reach_Own s k : reach s k -> Own s (map area_of k).
Proof.
  intros H. exists (map forget k). split; [apply Inv_forget, reach_Inv; exact H|]. split.
  - rewrite map_map.
    erewrite map_ext; [apply Permutation_refl|]. intros b. unfold area_of. rewrite forget_len. reflexivity.
  - intros b Hb. apply in_map_iff in Hb. destruct Hb as (b' & <- & _). cbn.
    rewrite repeat_length. reflexivity.
Qed.

Lemma Own_perm s B B' : Permutation B B' -> Own s B -> Own s B'.
Proof.
  intros HP (k & HI & HB & Hn). exists k. split; [exact HI|]. split; [|exact Hn].
  eapply Permutation_trans; eauto.
Qed.

Lemma Own_mem s B mem' : Own s B -> Own (with_mem s mem') B.
Proof.
  intros (k & HI & HB & Hn). exists k. split; [apply Inv_anymem; assumption|]. auto.
Qed.

Lemma FOP_perm {A} (R : A -> A -> Prop) l l' : (forall x y, R x y -> R y x) ->
  Permutation l l' -> ForallOrdPairs R l -> ForallOrdPairs R l'.
Proof.
  intros Hsym HP. induction HP as [|x l l' HP IH|x y l|l l' l'' H1 IH1 H2 IH2]; intros H.
  - exact H.
  - inversion H as [|? ? Hf Ht]; subst. constructor; [|auto].
    eapply Permutation_Forall; eauto.
  - inversion H as [|? ? Hf Ht]; subst. inversion Ht as [|? ? Hf' Ht']; subst.
    inversion Hf as [|? ? Hxy Hf2]; subst.
    constructor; [constructor; auto|]. constructor; auto.
  - auto.
Qed.

Lemma Own_sep s B : Own s B -> ForallOrdPairs sep B.
Proof.
  intros (k & HI & HB & _). apply (FOP_perm sep _ _ ltac:(unfold sep; lia) HB).
  pose proof (Inv_disj _ _ HI) as H. clear HB HI.
  induction H as [|b r Hf Hr IH]; cbn; constructor; [|exact IH].
  apply Forall_map. eapply Forall_impl; [|exact Hf]. intros b' Hd. exact Hd.
Qed.

Lemma Own_bounds s B a : Own s B -> In a B ->
  16 < fst a /\ fst a mod 16 = 0 /\ fst a + snd a <= 2 ^ 63 /\ fst a < 2 ^ 63 /\ 0 <= snd a /\
  exists c, In c (rchunks s) /\ cbase c <= fst a /\ fst a + snd a <= cend c.
Proof.
  intros (k & HI & HB & _) Ha. apply (Permutation_in _ (Permutation_sym HB)) in Ha.
  apply in_map_iff in Ha. destruct Ha as (b & <- & Hb).
  destruct (Inv_in _ _ HI b Hb) as (c & Hc & R1 & R2 & R3 & R4).
  destruct HI as (c0 & cs & k1 & k2 & Hc0 & _ & Hok & _).
  rewrite Forall_forall in Hok. rewrite Hc0 in Hc. destruct (Hok c Hc) as (O1 & O2 & O3 & O4).
  cbn. pose proof (blen_nonneg b). repeat split; try lia.
  exists c. rewrite Hc0. split; [exact Hc|]. lia.
Qed.

(** frame, from the invariant *)
Lemma alloc_bytes m s k n p s' : malloc_contract m -> Inv s k -> 0 < n <= MAXREQ ->
  region_alloc m s n = Ok (p, s') ->
  forall b, In b k -> forall x, bptr b <= x < bptr b + blen b -> rmem s' x = rmem s x.
Proof.
  intros Hm HI Hn Ho b Hb x Hx.
  pose proof (Inv_snap _ _ HI) as Hs.
  destruct (step_ok m s _ (OAlloc n) Hm Hs Hn) as [H|(ret & s'' & H & Hi)];
    cbn [region_op] in H; rewrite H in Ho; [discriminate|]. injection Ho as -> ->.
  assert (Hin : In (snap (rmem s) b) (spec_step (map (snap (rmem s)) k) (OAlloc n) p)).
  { right. apply in_map. exact Hb. }
  destruct Hi as (c & cs & k1 & k2 & _ & _ & _ & _ & _ & _ & _ & _ & Hrd).
  rewrite Forall_forall in Hrd. specialize (Hrd _ Hin).
  unfold readable in Hrd. unfold blen in Hx.
  specialize (Hrd (Z.to_nat (x - bptr b)) (rmem s x)).
  rewrite snap_ptr in Hrd.
  replace (bptr b + Z.of_nat (Z.to_nat (x - bptr b))) with x in Hrd by lia.
  apply Hrd. rewrite snap_nth by lia. do 3 f_equal. lia.
Qed.

Lemma Own_alloc m s B n : malloc_contract m -> Own s B -> 0 < n <= MAXREQ ->
  region_alloc m s n = Fault NoMem \/
  exists p s', region_alloc m s n = Ok (p, s') /\ Own s' ((p, n) :: B) /\
    forall a, In a B -> forall x, fst a <= x < fst a + snd a -> rmem s' x = rmem s x.
Proof.
  intros Hm (k & HI & HB & Hno) Hn.
  destruct (step_ok m s k (OAlloc n) Hm HI Hn) as [H|(p & s' & H & Hi)]; cbn [region_op] in H; [auto|].
  right. exists p, s'. split; [exact H|]. split.
  - eexists. split; [exact Hi|]. cbn. split.
    + unfold area_of at 1, blen. cbn. rewrite repeat_length, Z2Nat.id by lia.
      apply perm_skip. exact HB.
    + intros b [<-|Hb]; [cbn; rewrite repeat_length; reflexivity|auto].
  - intros a Ha x Hx. apply (Permutation_in _ (Permutation_sym HB)) in Ha.
    apply in_map_iff in Ha. destruct Ha as (b & <- & Hb).
    eapply alloc_bytes; eauto.
Qed.

Lemma Own_release m s B : malloc_contract m -> Own s B ->
  region_release m s = Fault NoMem \/
  exists s', region_release m s = Ok s' /\ Own s' [].
Proof.
  intros Hm (k & HI & _ & _).
  destruct (release_ok m s k Hm HI) as [H|(s' & c & H & HI' & _)]; [auto|].
  right. exists s'. split; [exact H|]. exists []. split; [exact HI'|]. split; [constructor|].
  intros b [].
Qed.

(** * Pools *)
Fixpoint chain (mem : Z -> Z) (t : Z) (l : list Z) : Prop :=
  match l with
  | [] => t = 0
  | a :: r => t = a /\ chain mem (load64 mem a) r
  end.

Definition PI (size : Z) (p : pool) (v : pview) : Prop :=
  let '(use, freed) := v in
  16 <= psize p <= MAXREQ /\ size <= psize p /\
  Own (preg p) (map area_of use ++ map (fun a => (a, psize p)) freed) /\
  (forall b, In b use -> blen b = psize p /\ readable (rmem (preg p)) b) /\
  chain (rmem (preg p)) (ptop p) freed.

Lemma chain_ext mem mem' sz : forall l t, 8 <= sz ->
  (forall a, In a l -> forall x, a <= x < a + sz -> mem' x = mem x) ->
  chain mem t l -> chain mem' t l.
Proof.
  induction l as [|a r IH]; intros t Hsz H Hc; [exact Hc|].
  cbn [chain In] in *. destruct Hc as [-> Hc]. split; [reflexivity|].
  rewrite (load_ext mem mem' a) by (intros x Hx; apply (H a); [auto|lia]).
  apply IH; [exact Hsz| |exact Hc]. intros b Hb. apply H. right. exact Hb.
Qed.

Lemma FOP_app_r {A} (R : A -> A -> Prop) l1 l2 x y :
  ForallOrdPairs R (l1 ++ l2) -> In x l1 -> In y l2 -> R x y.
Proof.
  induction l1 as [|z r IH]; cbn; intros H Hx Hy; [destruct Hx|].
  inversion H as [|? ? Hf Ht]; subst. destruct Hx as [->|Hx]; [|auto].
  rewrite Forall_forall in Hf. apply Hf. apply in_or_app. auto.
Qed.

Lemma FOP_app_l {A} (R : A -> A -> Prop) l1 l2 :
  ForallOrdPairs R (l1 ++ l2) -> ForallOrdPairs R l1 /\ ForallOrdPairs R l2.
Proof.
  induction l1 as [|z r IH]; cbn; intros H; [split; [constructor|exact H]|].
  inversion H as [|? ? Hf Ht]; subst. destruct (IH Ht). split; [constructor|]; auto.
  apply Forall_app in Hf. tauto.
Qed.

Lemma PI_init size m count mem p : malloc_contract m -> 0 <= count -> 0 <= size <= MAXREQ ->
  pool_init m size count mem = Ok p -> PI size p ([], []).
Proof.
  intros Hm Hc Hs H. unfold pool_init in H.
  destruct (region_init m (Z.max size 16 * count) mem) as [r|] eqn:E; cbn in H; [|discriminate].
  injection H as <-. unfold MAXREQ in *. cbn. split; [lia|]. split; [lia|]. split; [|split; [intros b []|reflexivity]].
  assert (Hr : reach r []) by (eapply reach_init; [exact Hm| |exact E]; lia).
  exact (reach_Own _ _ Hr).
Qed.

(** two live areas with the same pointer are the same entry *)
Lemma use_split use b a : In b use -> bptr b = a ->
  ForallOrdPairs sep (map area_of use) -> (forall b, In b use -> 0 < blen b) ->
  exists u1 u2, use = u1 ++ b :: u2 /\ drop_ptr a use = u1 ++ u2.
Proof.
  intros Hb <- Hd Hpos. apply in_split in Hb. destruct Hb as (u1 & u2 & ->).
  exists u1, u2. split; [reflexivity|].
  assert (Hne : forall l, (forall y, In y l -> bptr y <> bptr b) -> drop_ptr (bptr b) l = l).
  { induction l as [|y r IH]; intros H; cbn; [reflexivity|].
    replace (bptr y =? bptr b) with false by (specialize (H y (or_introl eq_refl)); lia).
    cbn. f_equal. apply IH. intros z Hz. apply H. right. exact Hz. }
  unfold drop_ptr in *. rewrite filter_app. cbn. rewrite Z.eqb_refl. cbn.
  rewrite map_app in Hd. cbn in Hd.
  rewrite (Hne u1), (Hne u2); [reflexivity| |].
  - intros y Hy. apply FOP_app_l in Hd. destruct Hd as [_ Hd].
    inversion Hd as [|? ? Hf _]; subst. rewrite Forall_forall in Hf.
    specialize (Hf (area_of y) (in_map _ _ _ Hy)). unfold sep in Hf. cbn [fst snd area_of] in Hf.
    assert (0 < blen y) by (apply Hpos, in_or_app; right; right; auto).
    assert (0 < blen b) by (apply Hpos, in_or_app; right; left; auto). lia.
  - intros y Hy. pose proof (FOP_app_r sep _ _ (area_of y) (area_of b) Hd (in_map _ _ _ Hy) (or_introl eq_refl)) as Hf.
    unfold sep in Hf. cbn [fst snd area_of] in Hf.
    assert (0 < blen y) by (apply Hpos, in_or_app; left; auto).
    assert (0 < blen b) by (apply Hpos, in_or_app; right; left; auto). lia.
Qed.

Lemma PI_step size m p v o : malloc_contract m -> PI size p v -> pool_legal v o ->
  pool_op m p o = Fault NoMem \/
  exists ret p', pool_op m p o = Ok (ret, p') /\ PI size p' (pool_spec (psize p) v o ret) /\
    psize p' = psize p /\
    (o = PAlloc -> forall a r, snd v = a :: r -> ret = a /\ preg p' = preg p).
Proof.
  intros Hm HP Hl. destruct v as [use freed].
  destruct HP as (Hsz & Hsize & HO & Hu & Hch). cbn in Hl.
  pose proof (Own_sep _ _ HO) as Hsep.
  pose proof (FOP_app_l _ _ _ Hsep) as [Hsu Hsf].
  assert (Hpos : forall b, In b use -> 0 < blen b) by (intros b Hb; destruct (Hu b Hb); lia).
  destruct o as [|a| |a off x].
  - cbn [pool_op]. unfold pool_alloc. destruct freed as [|a r].
    + cbn [chain] in Hch. rewrite Hch. cbn [Z.eqb negb].
      destruct (Own_alloc m (preg p) _ (psize p) Hm HO ltac:(lia)) as [H|(q & s' & H & HO' & Hfr)];
        rewrite H; cbn [bind]; [left; reflexivity|right].
      exists q. eexists. split; [reflexivity|]. split; [|split; [reflexivity|intros _ a r E; discriminate]].
      cbn [pool_spec tl PI psize preg ptop]. split; [exact Hsz|]. split; [exact Hsize|]. split.
      { cbn. unfold area_of at 1, blen. cbn. rewrite repeat_length, Z2Nat.id by lia. exact HO'. }
      split; [|reflexivity]. intros b [<-|Hb].
      * split; [unfold blen; cbn; rewrite repeat_length; lia|]. apply none_readable.
      * destruct (Hu b Hb) as [Hlen Hrd]. split; [exact Hlen|].
        eapply readable_ext; [|exact Hrd]. intros x Hx.
        apply (Hfr (area_of b)); [apply in_or_app; left; apply in_map; exact Hb|exact Hx].
    + cbn [chain] in Hch. destruct Hch as [Ht Hch]. right.
      destruct (Own_bounds _ _ (a, psize p) HO) as (B1 & B2 & B3 & B4 & B5 & _).
      { apply in_or_app. right. left. reflexivity. }
      cbn in B1. rewrite Ht. replace (a =? 0) with false by lia. cbn [negb].
      exists a. eexists. split; [reflexivity|].
      split; [|split; [reflexivity|intros _ a' r' E; cbn in E; injection E as -> ->; auto]].
      cbn [pool_spec tl PI psize preg ptop]. split; [exact Hsz|]. split; [exact Hsize|]. split.
      { eapply Own_perm; [|exact HO]. cbn. unfold area_of at 2, blen. cbn.
        rewrite repeat_length, Z2Nat.id by lia. apply Permutation_sym, Permutation_middle. }
      split; [|exact Hch]. intros b [<-|Hb]; [|auto].
      split; [unfold blen; cbn; rewrite repeat_length; lia|]. apply none_readable.
  - destruct Hl as (b & Hb & Ea). right. exists 0. eexists. split; [reflexivity|].
    split; [|split; [reflexivity|discriminate]].
    destruct (use_split use b a Hb Ea Hsu Hpos) as (u1 & u2 & -> & Hdrop).
    unfold pool_free. cbn [pool_spec PI psize preg ptop]. rewrite Hdrop.
    split; [exact Hsz|]. split; [exact Hsize|].
    destruct (Hu b Hb) as [Hlb _].
    split.
    { apply Own_mem. eapply Own_perm; [|exact HO]. rewrite !map_app. cbn.
      replace (area_of b) with (a, psize p) by (unfold area_of; rewrite Hlb, Ea; reflexivity).
      rewrite <- !app_assoc. apply Permutation_app_head. cbn.
      apply Permutation_middle. }
    cbn [rmem with_mem].
    assert (Hfar : forall q, In q (map area_of (u1 ++ u2) ++ map (fun a => (a, psize p)) freed) ->
               sep q (a, psize p)).
    { intros q Hq.
      assert (Hs' : ForallOrdPairs sep ((a, psize p) :: map area_of (u1 ++ u2) ++ map (fun a => (a, psize p)) freed)).
      { eapply FOP_perm; [unfold sep; lia| |exact Hsep].
        rewrite !map_app. cbn.
        replace (area_of b) with (a, psize p) by (unfold area_of; rewrite Hlb, Ea; reflexivity).
        rewrite <- !app_assoc. cbn. apply Permutation_sym, Permutation_middle. }
      inversion Hs' as [|? ? Hf _]; subst. rewrite Forall_forall in Hf. specialize (Hf q Hq).
      unfold sep in *. lia. }
    split.
    { intros b' Hb'.
      assert (Hin : In b' (u1 ++ b :: u2)).
      { apply in_app_or in Hb'. apply in_or_app. cbn. tauto. }
      destruct (Hu b' Hin) as [Hl' Hr']. split; [exact Hl'|].
      eapply readable_ext; [|exact Hr']. intros x Hx. apply store_out.
      assert (Hs' := Hfar (area_of b') ltac:(apply in_or_app; left; apply in_map; exact Hb')).
      unfold sep in Hs'. cbn in Hs'. lia. }
    split; [reflexivity|].
    assert (Hlt : 0 <= ptop p < 2 ^ 64).
    { destruct freed as [|f r]; cbn [chain] in Hch; [lia|]. destruct Hch as [-> _].
      destruct (Own_bounds _ _ (f, psize p) HO) as (B1 & B2 & B3 & B4 & B5 & _).
      { apply in_or_app. right. left. reflexivity. } cbn in *. lia. }
    rewrite load_store by exact Hlt.
    eapply (chain_ext (rmem (preg p)) _ (psize p)); [lia| |exact Hch].
    intros f Hf x Hx. apply store_out.
    assert (Hs' := Hfar (f, psize p) ltac:(apply in_or_app; right; apply (in_map (fun a => (a, psize p))); exact Hf)).
    unfold sep in Hs'. cbn in Hs'. lia.
  - cbn [pool_op]. unfold pool_release.
    destruct (Own_release m (preg p) _ Hm HO) as [H|(s' & H & HO')]; rewrite H; cbn [bind]; [left; reflexivity|right].
    exists 0. eexists. split; [reflexivity|]. split; [|split; [reflexivity|discriminate]].
    cbn. split; [exact Hsz|]. split; [exact Hsize|]. split; [exact HO'|].
    split; [intros b []|reflexivity].
  - destruct Hl as (b & Hb & Ea & Hoff). right. exists 0. eexists. split; [reflexivity|].
    split; [|split; [reflexivity|discriminate]].
    cbn [pool_spec PI psize preg ptop]. split; [exact Hsz|]. split; [exact Hsize|].
    split.
    { apply Own_mem. rewrite store_map, map_map.
      erewrite map_ext; [exact HO|]. intros b'. unfold area_of.
      rewrite store1_ptr, store1_len. reflexivity. }
    cbn [rmem with_mem]. split.
    { intros b' Hb'. rewrite store_map in Hb'. apply in_map_iff in Hb'.
      destruct Hb' as (b0 & <- & Hb0). destruct (Hu b0 Hb0) as [Hl0 Hr0].
      split; [rewrite store1_len; exact Hl0|].
      destruct (Z.eq_dec (bptr b0) a) as [Ep|Ep].
      - intros i w Hi. rewrite store1_ptr. unfold store1 in Hi.
        replace (bptr b0 =? a) with true in Hi by lia.
        replace ((0 <=? off) && (off <? blen b0)) with true in Hi
          by (destruct (Hu b Hb); lia).
        replace (true && (0 <=? off) && (off <? blen b0)) with true in Hi
          by (destruct (Hu b Hb); lia).
        cbn in Hi. destruct (Nat.eq_dec (Z.to_nat off) i) as [E|E].
        + subst i. rewrite nth_upd_eq in Hi.
          * injection Hi as <-. replace (bptr b0 + Z.of_nat (Z.to_nat off) =? a + off) with true by lia.
            reflexivity.
          * destruct (Hu b Hb). unfold blen in *. lia.
        + rewrite nth_upd_ne in Hi by exact E.
          replace (bptr b0 + Z.of_nat i =? a + off) with false by lia. apply Hr0. exact Hi.
      - assert (Hst : store1 a off x b0 = b0).
        { unfold store1. replace (bptr b0 =? a) with false by lia. reflexivity. }
        rewrite Hst. eapply readable_ext; [|exact Hr0]. intros y Hy.
        destruct (y =? a + off) eqn:E; [|reflexivity]. exfalso.
        assert (Hd : sep (area_of b0) (area_of b)).
        { destruct (FOP_In2 sep _ _ _ Hsu (in_map area_of _ _ Hb0) (in_map area_of _ _ Hb)) as [H|[H|H]].
          - injection H as H _. congruence.
          - exact H.
          - unfold sep in *. lia. }
        unfold sep in Hd. cbn in Hd. lia. }
    eapply (chain_ext (rmem (preg p)) _ (psize p)); [lia| |exact Hch].
    intros f Hf y Hy. destruct (y =? a + off) eqn:E; [|reflexivity]. exfalso.
    assert (Hd := FOP_app_r sep _ _ (area_of b) (f, psize p) Hsep (in_map _ _ _ Hb) (in_map (fun a => (a, psize p)) _ _ Hf)).
    unfold sep in Hd. cbn in Hd. lia.
Qed.

Lemma pool_reach_PI size p v : pool_reach size p v -> PI size p v.
Proof.
  induction 1 as [m count mem p Hm Hc Hs H|m p v o ret p' Hr IH Hm Hl Ho].
  - eapply PI_init; eauto.
  - destruct (PI_step size m p v o Hm IH Hl) as [H|(ret' & p'' & H & HP & _)];
      rewrite H in Ho; [discriminate|]. injection Ho as <- <-. exact HP.
Qed.

Lemma pool_progress size m p v o :
  pool_reach size p v -> malloc_contract m -> pool_legal v o ->
  pool_op m p o = Fault NoMem \/ exists ret p', pool_op m p o = Ok (ret, p').
Proof.
  intros Hr Hm Hl. destruct (PI_step size m p v o Hm (pool_reach_PI _ _ _ Hr) Hl)
    as [H|(ret & p' & H & _)]; eauto.
Qed.

Lemma pool_objects size p use freed : pool_reach size p (use, freed) ->
  ForallOrdPairs disjoint_blocks use /\
  forall b, In b use ->
    size <= blen b /\ readable (rmem (preg p)) b /\ bptr b mod 16 = 0 /\
    exists c, In c (rchunks (preg p)) /\ inside b c.
Proof.
  intros Hr. destruct (pool_reach_PI _ _ _ Hr) as (Hsz & Hsize & HO & Hu & Hch).
  pose proof (FOP_app_l _ _ _ (Own_sep _ _ HO)) as [Hsu _]. split.
  - clear - Hsu. induction use as [|b r IH]; cbn in Hsu; constructor;
      inversion Hsu as [|? ? Hf Ht]; subst; [|auto].
    rewrite Forall_map in Hf. eapply Forall_impl; [|exact Hf]. intros b' H. exact H.
  - intros b Hb. destruct (Hu b Hb) as [Hlen Hrd]. split; [lia|]. split; [exact Hrd|].
    destruct (Own_bounds _ _ (area_of b) HO) as (B1 & B2 & B3 & B4 & B5 & (c & Hc & Hin)).
    { apply in_or_app. left. apply in_map. exact Hb. }
    split; [exact B2|]. exists c. split; [exact Hc|exact Hin].
Qed.

Lemma pool_lifo size m p use a freed :
  pool_reach size p (use, a :: freed) -> malloc_contract m ->
  exists p', pool_alloc m p = Ok (a, p') /\ preg p' = preg p.
Proof.
  intros Hr Hm. destruct (PI_step size m p _ PAlloc Hm (pool_reach_PI _ _ _ Hr) I)
    as [H|(ret & p' & H & _ & _ & Hl)].
  - cbn in H. unfold pool_alloc in H. 
    destruct (pool_reach_PI _ _ _ Hr) as (Hsz & Hsize & HO & Hu & (Ht & Hch)).
    destruct (Own_bounds _ _ (a, psize p) HO) as (B1 & B2 & B3 & B4 & B5 & _).
    { apply in_or_app. right. left. reflexivity. }
    cbn in B1. rewrite Ht in H. replace (a =? 0) with false in H by lia. discriminate.
  - destruct (Hl eq_refl a freed eq_refl) as [-> E]. exists p'. auto.
Qed.

(** freed objects stay apart from the ones in use *)
Lemma pool_freed_apart size p use freed a b :
  pool_reach size p (use, freed) -> In a freed -> In b use ->
  bptr b + blen b <= a \/ a + size <= bptr b.
Proof.
  intros Hr Ha Hb. destruct (pool_reach_PI _ _ _ Hr) as (Hsz & Hsize & HO & Hu & Hch).
  pose proof (FOP_app_r sep _ _ (area_of b) (a, psize p) (Own_sep _ _ HO) (in_map _ _ _ Hb)
    (in_map (fun a => (a, psize p)) _ _ Ha)) as H. unfold sep in H. cbn in H. lia.
Qed.

Definition poolA : outcome (Z * pool) :=
  bind (pool_init M0 20 4 (fun _ => 0)) (fun p => pool_alloc M1 p).

Lemma pool_demo : exists p use, pool_reach 20 p (use, [32]) /\ length use = 2%nat.
Proof.
  assert (H0 : exists p, pool_init M0 20 4 (fun _ => 0) = Ok p) by (eexists; reflexivity).
  destruct H0 as (p0 & H0).
  assert (R0 : pool_reach 20 p0 ([], [])).
  { eapply pr_init; [apply malloc_at_contract| | |exact H0]; unfold MAXREQ; lia. }
  cbn in H0. injection H0 as <-.
  pose proof (pr_step 20 M1 _ _ PAlloc 32 _ R0 (malloc_at_contract _ _) I eq_refl) as R1.
  pose proof (pr_step 20 M1 _ _ PAlloc 64 _ R1 (malloc_at_contract _ _) I eq_refl) as R2.
  pose proof (pr_step 20 M1 _ _ PAlloc 96 _ R2 (malloc_at_contract _ _) I eq_refl) as R3.
  assert (L : pool_legal (pool_spec 20 (pool_spec 20 (pool_spec 20 ([], []) PAlloc 32) PAlloc 64) PAlloc 96) (PFree 32)).
  { cbn. eexists. split; [right; right; left; reflexivity|reflexivity]. }
  pose proof (pr_step 20 M1 _ _ (PFree 32) 0 _ R3 (malloc_at_contract _ _) L eq_refl) as R4.
  cbn in R4. eexists _, _. split; [exact R4|reflexivity].
Qed.

(** * Lists *)
Definition node_area (nd : Z * Z) : area := (fst nd, 16 + snd nd).

Definition elem_ok (mem : Z -> Z) (a n : Z) (e : elt) : Prop :=
  match e with
  | EPtr p => load64 mem a = p
  | ECpy b => load64 mem a = a + 16 /\ n = Z.of_nat (length b) /\
              forall i x, nth_error b i = Some x -> mem (a + 16 + Z.of_nat i) = x
  end.

(** cells reachable from the pointer stored at [slot], ending with the pointer
    stored at [t] *)
Fixpoint lseg (mem : Z -> Z) (slot : Z) (nodes : list (Z * Z)) (l : list elt) (t : Z) : Prop :=
  match nodes, l with
  | [], [] => slot = t
  | nd :: r, e :: l' =>
      load64 mem slot = fst nd /\ elem_ok mem (fst nd) (snd nd) e /\
      lseg mem (fst nd + 8) r l' t
  | _, _ => False
  end.

Definition LI (s : rstate) (L : Z) (l : list elt) : Prop :=
  exists nodes others t,
    Own s ((L, 24) :: map node_area nodes ++ others) /\
    (forall nd, In nd nodes -> 0 <= snd nd) /\
    lseg (rmem s) (L + 8) nodes l t /\
    load64 (rmem s) t = 0 /\ load64 (rmem s) (L + 16) = t.

Lemma elem_ext mem mem' a n e : 0 <= n ->
  (forall x, a <= x < a + 8 \/ a + 16 <= x < a + 16 + n -> mem' x = mem x) ->
  elem_ok mem a n e -> elem_ok mem' a n e.
Proof.
  intros Hn H. destruct e as [p|b]; cbn [elem_ok].
  - intros <-. apply load_ext. intros x Hx. apply H. lia.
  - intros (E & Hl & Hb). split; [|split; [exact Hl|]].
    + rewrite <- E. apply load_ext. intros x Hx. apply H. lia.
    + intros i x Hi. rewrite H; [apply Hb; exact Hi|].
      assert (i < length b)%nat by (apply nth_error_Some; congruence). lia.
Qed.

(** nothing in the nodes or in a non-final slot changes *)
Lemma lseg_ext mem mem' : forall nodes slot l t,
  (forall nd, In nd nodes -> 0 <= snd nd) ->
  (nodes <> [] -> forall x, slot <= x < slot + 8 -> mem' x = mem x) ->
  (forall nd, In nd nodes -> forall x, fst nd <= x < fst nd + (16 + snd nd) -> mem' x = mem x) ->
  lseg mem slot nodes l t -> lseg mem' slot nodes l t.
Proof.
  induction nodes as [|nd r IH]; intros slot [|e l] t Hn Hs Hx H; cbn [lseg] in *; auto.
  destruct H as (E & He & H). split; [|split].
  - rewrite <- E. apply load_ext. apply Hs. discriminate.
  - eapply elem_ext; [apply Hn; left; reflexivity| |exact He].
    intros x Hx'. assert (0 <= snd nd) by (apply Hn; left; reflexivity).
    apply (Hx nd (or_introl eq_refl)). lia.
  - apply IH; auto.
    + intros nd' Hnd. apply Hn. right. exact Hnd.
    + intros _ x Hx'. assert (0 <= snd nd) by (apply Hn; left; reflexivity).
      apply (Hx nd (or_introl eq_refl)). lia.
    + intros nd' Hnd. apply Hx. right. exact Hnd.
Qed.

(** where the final slot is *)
Lemma lseg_tail mem : forall nodes slot l t, lseg mem slot nodes l t ->
  (nodes = [] /\ l = [] /\ t = slot) \/
  exists r nd, nodes = r ++ [nd] /\ t = fst nd + 8.
Proof.
  induction nodes as [|nd r IH]; intros slot [|e l] t H; cbn [lseg] in H; try tauto.
  - left. auto.
  - right. destruct H as (_ & _ & H). destruct (IH _ _ _ H) as [(-> & -> & ->)|(r' & nd' & -> & ->)].
    + exists [], nd. auto.
    + exists (nd :: r'), nd'. auto.
Qed.

(** writing the final slot extends the segment *)
Lemma lseg_snoc mem mem' v n e : forall nodes slot l t,
  (forall nd, In nd nodes -> 0 <= snd nd) ->
  ForallOrdPairs sep (map node_area nodes) ->
  (forall nd, In nd nodes -> slot + 8 <= fst nd \/ fst nd + 16 + snd nd <= slot) ->
  lseg mem slot nodes l t ->
  load64 mem' t = v ->
  (forall x, (x < t \/ t + 8 <= x) ->
     (slot <= x < slot + 8 \/ exists nd, In nd nodes /\ fst nd <= x < fst nd + (16 + snd nd)) ->
     mem' x = mem x) ->
  elem_ok mem' v n e ->
  lseg mem' slot (nodes ++ [(v, n)]) (l ++ [e]) (v + 8).
Proof.
  induction nodes as [|nd r IH]; intros slot [|e' l] t Hn Hsep Hslot H Hv Hx He; cbn [lseg app] in *; try tauto.
  - subst t. split; [exact Hv|]. split; [exact He|]. reflexivity.
  - destruct H as (E & He' & H). cbn in Hsep. inversion Hsep as [|? ? Hf Ht]; subst.
    assert (Hnn : 0 <= snd nd) by (apply Hn; left; reflexivity).
    (* the final slot lies in some node of nd :: r, at its next field *)
    assert (Htail : t = fst nd + 8 \/ exists nd', In nd' r /\ t = fst nd' + 8).
    { destruct (lseg_tail _ _ _ _ _ H) as [(_ & _ & ->)|(r' & nd' & -> & ->)]; [left; reflexivity|].
      right. exists nd'. split; [apply in_or_app; right; left; reflexivity|reflexivity]. }
    assert (Hbound : fst nd + 8 <= t \/ t + 8 <= fst nd).
    { destruct Htail as [->|(nd' & Hnd' & ->)]; [left; lia|].
      rewrite Forall_forall in Hf. specialize (Hf (node_area nd') (in_map _ _ _ Hnd')).
      assert (0 <= snd nd') by (apply Hn; right; exact Hnd').
      unfold sep, node_area in Hf. cbn [fst snd] in Hf. lia. }
    assert (Hbound2 : fst nd + 16 <= t + 8 -> fst nd + 16 + snd nd <= t \/ t + 8 <= fst nd + 16).
    { intros _. destruct Htail as [->|(nd' & Hnd' & ->)]; [right; lia|].
      rewrite Forall_forall in Hf. specialize (Hf (node_area nd') (in_map _ _ _ Hnd')).
      assert (0 <= snd nd') by (apply Hn; right; exact Hnd').
      unfold sep, node_area in Hf. cbn [fst snd] in Hf. lia. }
    split; [|split].
    + rewrite <- E. apply load_ext. intros x Hx'. apply Hx.
      * destruct Htail as [->|(nd' & Hnd' & ->)].
        -- specialize (Hslot nd (or_introl eq_refl)). lia.
        -- specialize (Hslot nd' (or_intror Hnd')).
           assert (0 <= snd nd') by (apply Hn; right; exact Hnd'). lia.
      * left. lia.
    + eapply elem_ext; [exact Hnn| |exact He']. intros x Hx'. apply Hx.
      * lia.
      * right. exists nd. split; [left; reflexivity|]. lia.
    + apply (IH (fst nd + 8) l t); auto.
      * intros nd' Hnd'. apply Hn. right. exact Hnd'.
      * intros nd' Hnd'. rewrite Forall_forall in Hf. specialize (Hf (node_area nd') (in_map _ _ _ Hnd')).
        assert (0 <= snd nd') by (apply Hn; right; exact Hnd').
        unfold sep, node_area in Hf. cbn [fst snd] in Hf. lia.
      * intros x Hx1 Hx2. apply Hx; [exact Hx1|]. right. destruct Hx2 as [Hx2|(nd' & Hnd' & Hx2)].
        -- exists nd. split; [left; reflexivity|lia].
        -- exists nd'. split; [right; exact Hnd'|lia].
Qed.

Lemma FOP_cons_In {A} (R : A -> A -> Prop) x l y : ForallOrdPairs R (x :: l) -> In y l -> R x y.
Proof. intros H Hy. inversion H as [|? ? Hf _]; subst. rewrite Forall_forall in Hf. auto. Qed.

(** A new node: result of cons_cpy / cons_ptr *)
Lemma cons_ok m s B e next :
  malloc_contract m -> Own s B ->
  (match e with EPtr p => 0 <= p < 2 ^ 64 | ECpy b => Z.of_nat (length b) <= 2 ^ 61 end) ->
  0 <= next < 2 ^ 64 ->
  let r := match e with EPtr p => cons_ptr m s p next | ECpy b => cons_cpy m s b next end in
  let n := match e with EPtr _ => 0 | ECpy b => Z.of_nat (length b) end in
  r = Fault NoMem \/
  exists a s', r = Ok (a, s') /\ Own s' ((a, 16 + n) :: B) /\ elem_ok (rmem s') a n e /\
    load64 (rmem s') (a + 8) = next /\
    forall q, In q B -> forall x, fst q <= x < fst q + snd q -> rmem s' x = rmem s x.
Proof.
  intros Hm HO He Hnext. destruct e as [p|b]; cbn zeta.
  - unfold cons_ptr.
    destruct (Own_alloc m s B 16 Hm HO ltac:(unfold MAXREQ; lia)) as [H|(a & s' & H & HO' & Hfr)];
      rewrite H; cbn [bind]; [left; reflexivity|right].
    exists a. eexists. split; [reflexivity|]. unfold st, f_data, f_next. cbn [with_mem rmem rhead rchunks].
    split; [apply Own_mem, Own_mem; exact HO'|].
    pose proof (fun q => FOP_cons_In _ _ _ q (Own_sep _ _ HO')) as Hf.
    split; [cbn [elem_ok]; rewrite load_store_other by lia; apply load_store; exact He|].
    split; [apply load_store; exact Hnext|].
    intros q Hq x Hx. specialize (Hf q Hq). unfold sep in Hf. cbn [fst snd area_of] in Hf.
    rewrite !store_out by lia. apply (Hfr q Hq x Hx).
  - unfold cons_cpy.
    destruct (Own_alloc m s B (16 + Z.of_nat (length b)) Hm HO ltac:(unfold MAXREQ; lia)) as [H|(a & s' & H & HO' & Hfr)];
      rewrite H; cbn [bind]; [left; reflexivity|right].
    exists a. eexists. split; [reflexivity|]. unfold st, ld, f_data, f_next. cbn [with_mem rmem rhead rchunks].
    split; [apply Own_mem, Own_mem, Own_mem; exact HO'|].
    pose proof (fun q => FOP_cons_In _ _ _ q (Own_sep _ _ HO')) as Hf.
    destruct (Own_bounds _ _ (a, 16 + Z.of_nat (length b)) HO' (or_introl eq_refl)) as (B1 & B2 & B3 & B4 & B5 & _).
    cbn [fst snd] in B1, B2, B3, B4, B5.
    assert (Hd : load64 (store64 (store64 (rmem s') a (a + 16)) (a + 8) next) a = a + 16).
    { rewrite load_store_other by lia. apply load_store. lia. }
    rewrite Hd. split; [|split].
    + cbn [elem_ok]. split; [|split; [reflexivity|]].
      * transitivity (load64 (store64 (store64 (rmem s') a (a + 16)) (a + 8) next) a); [|exact Hd].
        apply load_ext. intros x Hx. apply write_bytes_out. lia.
      * intros i x Hi. apply write_bytes_in. exact Hi.
    + erewrite load_ext; [apply load_store; exact Hnext|]. intros x Hx. apply write_bytes_out. lia.
    + intros q Hq x Hx. specialize (Hf q Hq). unfold sep in Hf. cbn [fst snd area_of] in Hf.
      rewrite write_bytes_out by lia. rewrite !store_out by lia. apply (Hfr q Hq x Hx).
Qed.


Lemma node_in_own L nodes others nd : In nd nodes ->
  In (node_area nd) ((L, 24) :: map node_area nodes ++ others).
Proof. intros H. right. apply in_or_app. left. apply in_map. exact H. Qed.

(** Layout facts from ownership, in arithmetic form. *)
Lemma own_facts s L nodes others : 
  Own s ((L, 24) :: map node_area nodes ++ others) ->
  (forall nd, In nd nodes -> 0 <= snd nd) ->
  (16 < L /\ L + 24 <= 2 ^ 63) /\
  (forall nd, In nd nodes -> 16 < fst nd /\ fst nd + (16 + snd nd) <= 2 ^ 63 /\
     (L + 24 <= fst nd \/ fst nd + (16 + snd nd) <= L)) /\
  ForallOrdPairs sep (map node_area nodes).
Proof.
  intros HO Hn. pose proof (Own_sep _ _ HO) as Hsep.
  destruct (Own_bounds _ _ (L, 24) HO (or_introl eq_refl)) as (B1 & B2 & B3 & B4 & B5 & _).
  cbn [fst snd] in *. split; [lia|]. split.
  - intros nd Hnd. destruct (Own_bounds _ _ _ HO (node_in_own L nodes others nd Hnd)) as (C1 & C2 & C3 & C4 & C5 & _).
    pose proof (FOP_cons_In _ _ _ (node_area nd) Hsep (in_or_app _ _ _ (or_introl (in_map _ _ _ Hnd)))) as Hs.
    unfold sep, node_area in *. cbn [fst snd] in *. lia.
  - inversion Hsep as [|? ? _ Ht]; subst. apply FOP_app_l in Ht. tauto.
Qed.

Lemma tail_facts mem L nodes l t : lseg mem (L + 8) nodes l t ->
  (nodes = [] /\ l = [] /\ t = L + 8) \/ exists r nd, nodes = r ++ [nd] /\ In nd nodes /\ t = fst nd + 8.
Proof.
  intros H. destruct (lseg_tail _ _ _ _ _ H) as [H'|(r & nd & -> & ->)]; [left; exact H'|].
  right. exists r, nd. split; [reflexivity|]. split; [apply in_or_app; right; left; reflexivity|reflexivity].
Qed.

Lemma head_range s L nodes others l t :
  Own s ((L, 24) :: map node_area nodes ++ others) ->
  (forall nd, In nd nodes -> 0 <= snd nd) ->
  lseg (rmem s) (L + 8) nodes l t -> load64 (rmem s) t = 0 ->
  0 <= load64 (rmem s) (L + 8) < 2 ^ 64 /\
  match nodes with [] => load64 (rmem s) (L + 8) = 0 | nd :: _ => load64 (rmem s) (L + 8) = fst nd end.
Proof.
  intros HO Hn Hl Ht. destruct (own_facts _ _ _ _ HO Hn) as (_ & Hnd & _).
  destruct nodes as [|nd r], l as [|e l]; cbn [lseg] in Hl; try tauto.
  - subst t. rewrite Ht. lia.
  - destruct Hl as (E & _). rewrite E. specialize (Hnd nd (or_introl eq_refl)).
    assert (0 <= snd nd) by (apply Hn; left; reflexivity). lia.
Qed.

Lemma LI_push m s L l e : malloc_contract m -> LI s L l ->
  (match e with EPtr p => 0 <= p < 2 ^ 64 | ECpy b => Z.of_nat (length b) <= 2 ^ 61 end) ->
  let r := match e with EPtr p => push_ptr m s L p | ECpy b => push_cpy m s L b end in
  r = Fault NoMem \/ exists s', r = Ok s' /\ LI s' L (e :: l).
Proof.
  intros Hm (nodes & others & t & HO & Hn & Hl & Ht & Htp) He. cbn zeta.
  destruct (head_range _ _ _ _ _ _ HO Hn Hl Ht) as [Hhr Hh].
  destruct (cons_ok m s _ e (load64 (rmem s) (L + 8)) Hm HO He Hhr) as [H|(a & s1 & H & HO1 & He1 & Hnx & Hfr)].
  { left. destruct e; unfold push_ptr, push_cpy, ld, f_head; rewrite H; reflexivity. }
  right. exists (push_cons s1 L a).
  split. { destruct e; unfold push_ptr, push_cpy, ld, f_head; rewrite H; reflexivity. }
  set (n := match e with EPtr _ => 0 | ECpy b => Z.of_nat (length b) end) in *.
  assert (Hn0 : 0 <= n) by (unfold n; destruct e; lia).
  destruct (own_facts _ _ _ _ HO Hn) as ((HL1 & HL2) & Hnd & Hsepn).
  (* facts about the new node *)
  destruct (Own_bounds _ _ _ HO1 (or_introl eq_refl)) as (B1 & B2 & B3 & B4 & B5 & _).
  pose proof (fun q => FOP_cons_In _ _ _ q (Own_sep _ _ HO1)) as Hsa.
  pose proof (Hsa (L, 24) (or_introl eq_refl)) as HaL. unfold sep in HaL. cbn [fst snd] in *.
  assert (Han : forall nd, In nd nodes -> a + (16 + n) <= fst nd \/ fst nd + (16 + snd nd) <= a).
  { intros nd Hi. pose proof (Hsa _ (node_in_own L nodes others nd Hi)) as Hs.
    unfold sep, node_area in Hs. cbn [fst snd] in Hs. lia. }
  assert (HfrL : forall x, L <= x < L + 24 -> rmem s1 x = rmem s x).
  { intros x Hx. apply (Hfr (L, 24) (or_introl eq_refl)). exact Hx. }
  assert (Hfrn : forall nd, In nd nodes -> forall x, fst nd <= x < fst nd + (16 + snd nd) -> rmem s1 x = rmem s x).
  { intros nd Hi x Hx. apply (Hfr _ (node_in_own L nodes others nd Hi)). exact Hx. }
  assert (Htp1 : load64 (rmem s1) (L + 16) = t).
  { rewrite <- Htp. apply load_ext. intros x Hx. apply HfrL. lia. }
  unfold push_cons, st, ld, f_head, f_tailp, f_next. cbn [with_mem rmem rhead rchunks].
  rewrite load_store_other by lia. rewrite Htp1.
  destruct (tail_facts _ _ _ _ _ Hl) as [(-> & -> & Et)|(r & ndt & Er & Hit & Et)].
  - (* empty list *)
    replace (L + 8 =? t) with true by lia. exists [(a, n)], others, (a + 8).
    cbn [with_mem rmem rhead rchunks]. split; [|split; [|split; [|split]]].
    + apply Own_mem, Own_mem. eapply Own_perm; [|exact HO1]. cbn. apply perm_swap.
    + intros nd [<-|[]]. exact Hn0.
    + cbn [lseg fst snd]. split; [|split; [|reflexivity]].
      * rewrite load_store_other by lia. apply load_store. lia.
      * eapply elem_ext; [exact Hn0| |exact He1]. intros x Hx. rewrite !store_out by lia. reflexivity.
    + rewrite !load_store_other by lia. rewrite Hnx. exact Hh.
    + apply load_store. lia.
  - (* non-empty *)
    assert (Hnn : 0 <= snd ndt) by (apply Hn; exact Hit).
    pose proof (Hnd ndt Hit) as Hndt.
    replace (L + 8 =? t) with false by lia.
    exists ((a, n) :: nodes), others, t. cbn [with_mem rmem rhead rchunks].
    assert (Hst : forall nd, In nd nodes -> forall x, fst nd <= x < fst nd + (16 + snd nd) ->
              store64 (rmem s1) (L + 8) a x = rmem s x).
    { intros nd Hi x Hx. pose proof (Hnd nd Hi). rewrite store_out by lia. apply (Hfrn nd Hi x Hx). }
    split; [|split; [|split; [|split]]].
    + apply Own_mem. eapply Own_perm; [|exact HO1]. cbn. apply perm_swap.
    + intros nd [<-|Hi]; [exact Hn0|auto].
    + cbn [lseg fst snd]. split; [apply load_store; lia|]. split.
      * eapply elem_ext; [exact Hn0| |exact He1]. intros x Hx. apply store_out. lia.
      * destruct nodes as [|nd1 r1]; [destruct Hit|]. destruct l as [|e1 l1]; cbn [lseg] in Hl |- *; [tauto|].
        destruct Hl as (E1 & Ee1 & Hl1). split; [|split].
        -- rewrite load_store_other by lia. rewrite Hnx. exact Hh.
        -- assert (0 <= snd nd1) by (apply Hn; left; reflexivity).
           eapply elem_ext; [assumption| |exact Ee1]. intros x Hx. apply (Hst nd1 (or_introl eq_refl)). lia.
        -- eapply lseg_ext; [| | |exact Hl1].
           ++ intros nd Hi. apply Hn. right. exact Hi.
           ++ intros _ x Hx. assert (0 <= snd nd1) by (apply Hn; left; reflexivity).
              apply (Hst nd1 (or_introl eq_refl)). lia.
           ++ intros nd Hi x Hx. apply (Hst nd (or_intror Hi)). exact Hx.
    + rewrite <- Ht. apply load_ext. intros x Hx. apply (Hst ndt Hit). lia.
    + rewrite load_store_other by lia. exact Htp1.
Qed.

Lemma LI_enqueue m s L l e : malloc_contract m -> LI s L l ->
  (match e with EPtr p => 0 <= p < 2 ^ 64 | ECpy b => Z.of_nat (length b) <= 2 ^ 61 end) ->
  let r := match e with EPtr p => enqueue_ptr m s L p | ECpy b => enqueue_cpy m s L b end in
  r = Fault NoMem \/ exists s', r = Ok s' /\ LI s' L (l ++ [e]).
Proof.
  intros Hm (nodes & others & t & HO & Hn & Hl & Ht & Htp) He. cbn zeta.
  destruct (cons_ok m s _ e 0 Hm HO He ltac:(lia)) as [H|(a & s1 & H & HO1 & He1 & Hnx & Hfr)].
  { left. destruct e; unfold enqueue_ptr, enqueue_cpy; rewrite H; reflexivity. }
  right. exists (enqueue_cons s1 L a).
  split. { destruct e; unfold enqueue_ptr, enqueue_cpy; rewrite H; reflexivity. }
  set (n := match e with EPtr _ => 0 | ECpy b => Z.of_nat (length b) end) in *.
  assert (Hn0 : 0 <= n) by (unfold n; destruct e; lia).
  destruct (own_facts _ _ _ _ HO Hn) as ((HL1 & HL2) & Hnd & Hsepn).
  destruct (Own_bounds _ _ _ HO1 (or_introl eq_refl)) as (B1 & B2 & B3 & B4 & B5 & _).
  pose proof (fun q => FOP_cons_In _ _ _ q (Own_sep _ _ HO1)) as Hsa.
  pose proof (Hsa (L, 24) (or_introl eq_refl)) as HaL. unfold sep in HaL. cbn [fst snd] in *.
  assert (Han : forall nd, In nd nodes -> a + (16 + n) <= fst nd \/ fst nd + (16 + snd nd) <= a).
  { intros nd Hi. pose proof (Hsa _ (node_in_own L nodes others nd Hi)) as Hs.
    unfold sep, node_area in Hs. cbn [fst snd] in Hs. lia. }
  assert (HfrL : forall x, L <= x < L + 24 -> rmem s1 x = rmem s x).
  { intros x Hx. apply (Hfr (L, 24) (or_introl eq_refl)). exact Hx. }
  assert (Hfrn : forall nd, In nd nodes -> forall x, fst nd <= x < fst nd + (16 + snd nd) -> rmem s1 x = rmem s x).
  { intros nd Hi x Hx. apply (Hfr _ (node_in_own L nodes others nd Hi)). exact Hx. }
  assert (Htp1 : load64 (rmem s1) (L + 16) = t).
  { rewrite <- Htp. apply load_ext. intros x Hx. apply HfrL. lia. }
  unfold enqueue_cons, st, ld, f_tailp, f_next. cbn [with_mem rmem rhead rchunks].
  rewrite Htp1.
  (* the final slot is apart from L+16 and from the new node *)
  assert (Htpos : t = L + 8 \/ exists nd, In nd nodes /\ t = fst nd + 8).
  { destruct (tail_facts _ _ _ _ _ Hl) as [(_ & _ & Et)|(r & ndt & _ & Hit & Et)]; eauto. }
  assert (HtL : t + 8 <= L + 16 \/ L + 24 <= t).
  { destruct Htpos as [->|(nd & Hi & ->)]; [lia|]. pose proof (Hnd nd Hi).
    assert (0 <= snd nd) by (apply Hn; exact Hi). lia. }
  assert (Hta : t + 8 <= a \/ a + (16 + n) <= t).
  { destruct Htpos as [->|(nd & Hi & ->)]; [lia|]. pose proof (Han nd Hi).
    assert (0 <= snd nd) by (apply Hn; exact Hi). lia. }
  exists (nodes ++ [(a, n)]), others, (a + 8). cbn [with_mem rmem rhead rchunks].
  split; [|split; [|split; [|split]]].
  - apply Own_mem, Own_mem. eapply Own_perm; [|exact HO1].
    rewrite map_app, <- app_assoc. cbn [map app].
    eapply perm_trans; [apply perm_swap|]. apply perm_skip. apply Permutation_middle.
  - intros nd Hi. apply in_app_or in Hi. destruct Hi as [Hi|[<-|[]]]; [auto|exact Hn0].
  - eapply (lseg_snoc (rmem s)); [exact Hn|exact Hsepn| |exact Hl| | |].
    + intros nd Hi. pose proof (Hnd nd Hi). assert (0 <= snd nd) by (apply Hn; exact Hi). lia.
    + rewrite load_store_other by lia. apply load_store. lia.
    + intros x Hx1 Hx2.
      destruct Hx2 as [Hx2|(nd & Hi & Hx2)].
      * rewrite !store_out by lia. apply HfrL. lia.
      * pose proof (Hnd nd Hi). rewrite !store_out by lia. apply (Hfrn nd Hi x Hx2).
    + eapply elem_ext; [exact Hn0| |exact He1]. intros x Hx. rewrite !store_out by lia. reflexivity.
  - rewrite !load_store_other by lia. exact Hnx.
  - apply load_store. lia.
Qed.

Lemma LI_pop s L l : LI s L l ->
  LI (snd (rlist_pop s L)) L (tl l) /\
  match l with
  | [] => fst (rlist_pop s L) = 0
  | e :: _ => denotes (rmem (snd (rlist_pop s L))) (fst (rlist_pop s L)) e
  end.
Proof.
  intros HI. pose proof HI as (nodes & others & t & HO & Hn & Hl & Ht & Htp).
  destruct (head_range _ _ _ _ _ _ HO Hn Hl Ht) as [Hhr Hh].
  destruct (own_facts _ _ _ _ HO Hn) as ((HL1 & HL2) & Hnd & Hsepn).
  unfold rlist_pop, ld, f_head, f_next, f_data, f_tailp.
  destruct nodes as [|nd r], l as [|e l]; cbn [lseg] in Hl; try tauto.
  - rewrite Hh. cbn. split; [exact HI|reflexivity].
  - rewrite Hh. pose proof (Hnd nd (or_introl eq_refl)) as Hnd0.
    assert (Hs0 : 0 <= snd nd) by (apply Hn; left; reflexivity).
    replace (fst nd =? 0) with false by lia. unfold st. cbn [with_mem rmem rhead rchunks].
    destruct Hl as (E & He & Hl).
    set (next := load64 (rmem s) (fst nd + 8)).
    assert (Hnr : 0 <= next < 2 ^ 64 /\ (next = 0 <-> r = [])).
    { destruct r as [|nd2 r2], l as [|e2 l2]; cbn [lseg] in Hl; try tauto.
      - rewrite <- Hl in Ht. unfold next. rewrite Ht. split; [lia|tauto].
      - destruct Hl as (E2 & _). unfold next. rewrite E2.
        pose proof (Hnd nd2 (or_intror (or_introl eq_refl))).
        assert (0 <= snd nd2) by (apply Hn; right; left; reflexivity).
        split; [lia|]. split; [lia|discriminate]. }
    destruct Hnr as [Hnr Hn0]. rewrite load_store by exact Hnr.
    assert (Hapart : forall nd', In nd' r -> fst nd + (16 + snd nd) <= fst nd' \/ fst nd' + (16 + snd nd') <= fst nd).
    { intros nd' Hi. pose proof (FOP_cons_In _ _ _ (node_area nd') Hsepn (in_map _ _ _ Hi)) as Hs.
      unfold sep, node_area in Hs. cbn [fst snd] in Hs. lia. }
    assert (HOp : Own s ((L, 24) :: map node_area r ++ node_area nd :: others)).
    { eapply Own_perm; [|exact HO]. apply perm_skip. cbn. apply Permutation_middle. }
    destruct (next =? 0) eqn:En.
    + assert (r = []) by (apply Hn0; lia). subst r. destruct l as [|e2 l2]; cbn [lseg] in Hl; [|tauto].
      cbn [fst snd with_mem rmem rhead rchunks tl]. split.
      * exists [], (node_area nd :: others), (L + 8). cbn [with_mem rmem].
        split; [apply Own_mem, Own_mem; exact HOp|]. split; [intros nd' []|].
        split; [reflexivity|]. split; [|apply load_store; lia].
        rewrite load_store_other by lia. rewrite load_store by exact Hnr. lia.
      * rewrite !load_store_other by lia.
        destruct e as [p|b]; cbn [elem_ok denotes] in *; [exact He|].
        destruct He as (Ed & Hlen & Hb). rewrite Ed. intros i x Hi.
        assert (i < length b)%nat by (apply nth_error_Some; congruence).
        rewrite !store_out by lia. apply Hb. exact Hi.
    + cbn [fst snd with_mem rmem rhead rchunks tl]. split.
      * exists r, (node_area nd :: others), t. cbn [with_mem rmem].
        split; [apply Own_mem; exact HOp|].
        split; [intros nd' Hi; apply Hn; right; exact Hi|].
        assert (Hst : forall nd', In nd' r -> forall x, fst nd' <= x < fst nd' + (16 + snd nd') ->
                  store64 (rmem s) (L + 8) next x = rmem s x).
        { intros nd' Hi x Hx. pose proof (Hnd nd' (or_intror Hi)). apply store_out. lia. }
        split; [|split].
        -- destruct r as [|nd2 r2]; [exfalso; destruct Hn0 as [_ Hn0]; specialize (Hn0 eq_refl); lia|].
           destruct l as [|e2 l2]; cbn [lseg] in Hl |- *; [tauto|].
           destruct Hl as (E2 & He2 & Hl). split; [|split].
           ++ rewrite load_store by exact Hnr. exact E2.
           ++ assert (0 <= snd nd2) by (apply Hn; right; left; reflexivity).
              eapply elem_ext; [assumption| |exact He2]. intros x Hx.
              apply (Hst nd2 (or_introl eq_refl)). lia.
           ++ eapply lseg_ext; [| | |exact Hl].
              ** intros nd' Hi. apply Hn. right. right. exact Hi.
              ** intros _ x Hx. assert (0 <= snd nd2) by (apply Hn; right; left; reflexivity).
                 apply (Hst nd2 (or_introl eq_refl)). lia.
              ** intros nd' Hi x Hx. apply (Hst nd' (or_intror Hi)). exact Hx.
        -- destruct (lseg_tail _ _ _ _ _ Hl) as [(-> & _ & _)|(r' & ndt & -> & ->)].
           { exfalso. destruct Hn0 as [_ Hn0]. specialize (Hn0 eq_refl). lia. }
           rewrite <- Ht. apply load_ext. intros x Hx.
           assert (Hi : In ndt (r' ++ [ndt])) by (apply in_or_app; right; left; reflexivity).
           assert (0 <= snd ndt) by (apply Hn; right; exact Hi).
           apply (Hst ndt Hi). lia.
        -- rewrite load_store_other by lia. exact Htp.
      * rewrite !load_store_other by lia.
        destruct e as [p|b]; cbn [elem_ok denotes] in *; [exact He|].
        destruct He as (Ed & Hlen & Hb). rewrite Ed. intros i x Hi.
        assert (i < length b)%nat by (apply nth_error_Some; congruence).
        rewrite !store_out by lia. apply Hb. exact Hi.
Qed.

Lemma LI_new m s0 k regaddr L s : reach s0 k -> malloc_contract m ->
  rlist_alloc m s0 regaddr = Ok (L, s) -> LI s L [].
Proof.
  intros Hr Hm H. unfold rlist_alloc in H.
  destruct (Own_alloc m s0 _ 24 Hm (reach_Own _ _ Hr) ltac:(unfold MAXREQ; lia)) as [E|(p & s' & E & HO & _)];
    rewrite E in H; cbn [bind] in H; [discriminate|]. injection H as <- <-.
  destruct (Own_bounds _ _ _ HO (or_introl eq_refl)) as (B1 & B2 & B3 & B4 & B5 & _). cbn [fst snd] in *.
  exists [], (map area_of k), (p + 8). unfold st, f_head, f_tailp. cbn [with_mem rmem rhead rchunks map app].
  split; [do 3 apply Own_mem; exact HO|]. split; [intros nd []|]. split; [reflexivity|].
  split.
  - rewrite load_store_other by lia. apply load_store. lia.
  - apply load_store. lia.
Qed.

Lemma LI_step m s L l o : malloc_contract m -> LI s L l -> lop_ok o ->
  rlist_op m s L o = Fault NoMem \/
  exists ret s', rlist_op m s L o = Ok (ret, s') /\ LI s' L (list_spec l o).
Proof.
  intros Hm HI Ho. destruct o as [p|b|p|b| |n]; cbn [rlist_op list_spec lop_ok] in *.
  - destruct (LI_push m s L l (EPtr p) Hm HI Ho) as [H|(s' & H & HI')]; rewrite H; cbn; eauto.
  - destruct (LI_push m s L l (ECpy b) Hm HI Ho) as [H|(s' & H & HI')]; rewrite H; cbn; eauto.
  - destruct (LI_enqueue m s L l (EPtr p) Hm HI Ho) as [H|(s' & H & HI')]; rewrite H; cbn; eauto.
  - destruct (LI_enqueue m s L l (ECpy b) Hm HI Ho) as [H|(s' & H & HI')]; rewrite H; cbn; eauto.
  - right. destruct (LI_pop s L l HI) as [HI' _]. destruct (rlist_pop s L) as [d s'].
    exists d, s'. auto.
  - destruct HI as (nodes & others & t & HO & Hn & Hl & Ht & Htp).
    destruct (Own_alloc m s _ n Hm HO Ho) as [H|(p & s' & H & HO' & Hfr)]; [auto|].
    right. exists p, s'. split; [exact H|].
    destruct (own_facts _ _ _ _ HO Hn) as ((HL1 & HL2) & Hnd & Hsepn).
    assert (HfrL : forall x, L <= x < L + 24 -> rmem s' x = rmem s x).
    { intros x Hx. apply (Hfr (L, 24) (or_introl eq_refl)). exact Hx. }
    assert (Hfrn : forall nd, In nd nodes -> forall x, fst nd <= x < fst nd + (16 + snd nd) -> rmem s' x = rmem s x).
    { intros nd Hi x Hx. apply (Hfr _ (node_in_own L nodes others nd Hi)). exact Hx. }
    exists nodes, ((p, n) :: others), t. split; [|split; [exact Hn|split; [|split]]].
    + eapply Own_perm; [|exact HO']. eapply perm_trans; [apply perm_swap|]. apply perm_skip.
      apply Permutation_middle.
    + eapply lseg_ext; [exact Hn| |exact Hfrn|exact Hl]. intros _ x Hx. apply HfrL. lia.
    + rewrite <- Ht. apply load_ext. intros x Hx.
      destruct (tail_facts _ _ _ _ _ Hl) as [(_ & _ & ->)|(r & ndt & _ & Hit & ->)].
      * apply HfrL. lia.
      * assert (0 <= snd ndt) by (apply Hn; exact Hit). apply (Hfrn ndt Hit). lia.
    + rewrite <- Htp. apply load_ext. intros x Hx. apply HfrL. lia.
Qed.

Lemma list_reach_LI s L l : list_reach s L l -> LI s L l.
Proof.
  induction 1 as [m s0 k regaddr L s Hr Hm H|m s L l o ret s' Hr IH Hm Ho H].
  - eapply LI_new; eauto.
  - destruct (LI_step m s L l o Hm IH Ho) as [E|(ret' & s'' & E & HI)]; rewrite E in H; [discriminate|].
    injection H as <- <-. exact HI.
Qed.

Lemma list_progress m s L l o : list_reach s L l -> malloc_contract m -> lop_ok o ->
  rlist_op m s L o = Fault NoMem \/ exists ret s', rlist_op m s L o = Ok (ret, s').
Proof.
  intros Hr Hm Ho. destruct (LI_step m s L l o Hm (list_reach_LI _ _ _ Hr) Ho) as [H|(r & s' & H & _)]; eauto.
Qed.

Lemma list_pop_front s L l : list_reach s L l ->
  match l with
  | [] => fst (rlist_pop s L) = 0
  | e :: _ => denotes (rmem (snd (rlist_pop s L))) (fst (rlist_pop s L)) e
  end.
Proof. intros H. apply LI_pop, list_reach_LI, H. Qed.

Lemma walk_ok s : forall nodes slot l t fuel,
  (forall nd, In nd nodes -> 16 < fst nd) ->
  lseg (rmem s) slot nodes l t -> load64 (rmem s) t = 0 -> (length l <= fuel)%nat ->
  exists ds, map_walk fuel s (load64 (rmem s) slot) = Some ds /\ Forall2 (denotes (rmem s)) ds l.
Proof.
  induction nodes as [|nd r IH]; intros slot [|e l] t fuel Hn Hl Ht Hf; cbn [lseg] in Hl; try tauto.
  - subst t. rewrite Ht. exists []. destruct fuel; cbn; auto.
  - destruct Hl as (E & He & Hl). cbn [length] in Hf. destruct fuel as [|f]; [lia|].
    destruct (IH _ _ _ f (fun nd' H => Hn nd' (or_intror H)) Hl Ht ltac:(lia)) as (ds & Hw & HF).
    cbn [map_walk]. rewrite E. pose proof (Hn nd (or_introl eq_refl)).
    replace (fst nd =? 0) with false by lia.
    unfold ld, f_next, f_data. rewrite Hw.
    eexists. split; [reflexivity|]. constructor; [|exact HF].
    destruct e as [p|b]; cbn [elem_ok denotes] in *; [exact He|].
    destruct He as (Ed & Hlen & Hb). rewrite Ed. exact Hb.
Qed.

Lemma list_map_ok s L l fuel : list_reach s L l -> (length l <= fuel)%nat ->
  exists ds, rlist_map fuel s L = Some ds /\ Forall2 (denotes (rmem s)) ds l.
Proof.
  intros Hr Hf. destruct (list_reach_LI _ _ _ Hr) as (nodes & others & t & HO & Hn & Hl & Ht & Htp).
  destruct (own_facts _ _ _ _ HO Hn) as (_ & Hnd & _).
  eapply walk_ok; eauto. intros nd Hi. apply (Hnd nd Hi).
Qed.

Definition is_ok {A} (o : outcome A) : bool := match o with Ok _ => true | Fault _ => false end.
Definition lstep (s : rstate) (o : lop) : rstate :=
  match rlist_op M1 s 32 o with Ok (_, s') => s' | Fault _ => s end.
Lemma lstep_reach s l o : list_reach s 32 l -> lop_ok o -> is_ok (rlist_op M1 s 32 o) = true ->
  list_reach (lstep s o) 32 (list_spec l o).
Proof.
  intros Hr Ho Hk. unfold lstep. destruct (rlist_op M1 s 32 o) as [[ret s']|] eqn:E; [|discriminate].
  exact (lr_step M1 s 32 l o ret s' Hr (malloc_at_contract _ _) Ho E).
Qed.

Definition list_start : rstate :=
  match rlist_alloc M1 s0 5 with Ok (_, s) => s | Fault _ => s0 end.

Lemma list_demo : exists s, list_reach s 32 [ECpy [9]; EPtr 77; ECpy [1; 2; 3]].
Proof.
  assert (R0 : reach s0 []) by exact (reach_init M0 64 (fun _ => 0) s0 (malloc_at_contract _ _) ltac:(lia) eq_refl).
  assert (R1 : list_reach list_start 32 []).
  { apply (lr_new M1 s0 [] 5 32 list_start R0 (malloc_at_contract _ _)). unfold list_start.
    destruct (rlist_alloc M1 s0 5) as [[L s]|] eqn:E; [|vm_compute in E; discriminate].
    f_equal. f_equal. assert (H : match rlist_alloc M1 s0 5 with Ok (L, _) => L | Fault _ => 0 end = 32)
      by (vm_compute; reflexivity). rewrite E in H. exact H. }
  pose proof (lstep_reach _ _ (LEnqPtr 1) R1 ltac:(cbn; lia) ltac:(vm_compute; reflexivity)) as R2.
  pose proof (lstep_reach _ _ LPop R2 I ltac:(vm_compute; reflexivity)) as R3.
  pose proof (lstep_reach _ _ (LEnqPtr 77) R3 ltac:(cbn; lia) ltac:(vm_compute; reflexivity)) as R4.
  pose proof (lstep_reach _ _ (LPushCpy [9]) R4 ltac:(cbn; lia) ltac:(vm_compute; reflexivity)) as R5.
  pose proof (lstep_reach _ _ (LEnqCpy [1; 2; 3]) R5 ltac:(cbn; lia) ltac:(vm_compute; reflexivity)) as R6.
  cbn [list_spec app tl] in R6. eexists. exact R6.
Qed.
