From Coq Require Import ZArith List Bool Lia ZifyBool Permutation PeanoNat.
From Verif Require Import BitsModel BitsProofs HeapModel HeapSpec.
Import ListNotations.
Open Scope nat_scope.

Section Proofs.
  Context {A : Type} (cmp : A -> A -> Z) (Hord : total_preorder cmp).
  Notation ge := (ge_by cmp).

  Lemma ge_refl x : ge x x.
  Proof. intros H. exact (proj1 Hord x x H H). Qed.
  Lemma ge_trans x y z : ge x y -> ge y z -> ge x z.
  Proof. apply (proj2 Hord). Qed.
  Lemma lt_ge x y : (cmp x y < 0)%Z -> ge y x.
  Proof. apply (proj1 Hord). Qed.

  Lemma swap_some (l : list A) i j x y : nth_error l i = Some x -> nth_error l j = Some y ->
    swap l i j = Some (set_nth (set_nth l i y) j x).
  Proof. intros H1 H2. unfold swap. rewrite H1, H2. reflexivity. Qed.

  Lemma swap_props (l l' : list A) i j : i < j -> swap l i j = Some l' ->
    length l' = length l /\ j < length l /\
    nth_error l' i = nth_error l j /\ nth_error l' j = nth_error l i /\
    (forall k, k <> i -> k <> j -> nth_error l' k = nth_error l k) /\
    Permutation l l'.
  Proof.
    intros Hij H. unfold swap in H.
    destruct (nth_error l i) as [x|] eqn:Ei; [|discriminate].
    destruct (nth_error l j) as [y|] eqn:Ej; [|discriminate].
    injection H as <-.
    assert (Hj : j < length l) by (apply nth_error_Some; congruence).
    split; [rewrite !set_nth_length; reflexivity|]. split; [exact Hj|].
    split. { rewrite set_nth_ne by lia. rewrite set_nth_eq by lia. congruence. }
    split. { rewrite set_nth_eq by (rewrite set_nth_length; lia). congruence. }
    split. { intros k H1 H2. rewrite !set_nth_ne by lia. reflexivity. }
    destruct (nth_error_split l i Ei) as (l1 & l2 & -> & Hl1).
    rewrite nth_error_app2 in Ej by lia.
    destruct (j - length l1) as [|d] eqn:Ed; [lia|]. cbn in Ej.
    destruct (nth_error_split l2 d Ej) as (m1 & m2 & -> & Hm1).
    subst i. rewrite set_nth_app.
    replace (set_nth (l1 ++ y :: m1 ++ y :: m2) j x) with (l1 ++ y :: m1 ++ x :: m2).
    2: { replace (l1 ++ y :: m1 ++ y :: m2) with ((l1 ++ y :: m1) ++ y :: m2) by (rewrite <- app_assoc; reflexivity).
         replace j with (length (l1 ++ y :: m1)) by (rewrite app_length; cbn; lia).
         rewrite set_nth_app, <- app_assoc. reflexivity. }
    apply Permutation_app_head.
    transitivity (x :: y :: m1 ++ m2).
    - constructor. symmetry. apply Permutation_middle.
    - transitivity (y :: x :: m1 ++ m2); [constructor|]. constructor. apply Permutation_middle.
  Qed.

  (** heap order from index [k] on, except possibly at parent [i] *)
  Definition heap_ex (l : list A) (n k i : nat) : Prop :=
    (forall p j, k <= p -> p <> i -> is_child p j -> j < n -> dominates cmp l p j) /\
    (forall p j, k <= p -> is_child p i -> is_child i j -> j < n -> dominates cmp l p j).
  Definition heap_from (l : list A) (n k : nat) : Prop :=
    forall p j, k <= p -> is_child p j -> j < n -> dominates cmp l p j.

  Lemma below_some (l : list A) i j : i < length l -> j < length l ->
    exists x y, nth_error l i = Some x /\ nth_error l j = Some y /\ below cmp l i j = Some (cmp x y <? 0)%Z.
  Proof.
    intros Hi Hj. unfold below.
    destruct (nth_error l i) as [x|] eqn:Ei; [|apply nth_error_None in Ei; lia].
    destruct (nth_error l j) as [y|] eqn:Ej; [|apply nth_error_None in Ej; lia].
    exists x, y. auto.
  Qed.

  Lemma child_above_spec (l : list A) n i c : n <= length l -> i < c ->
    exists b, child_above cmp l n i c = Some b /\
      (b = true -> c < n /\ exists x y, nth_error l i = Some x /\ nth_error l c = Some y /\ (cmp x y < 0)%Z) /\
      (b = false -> c < n -> dominates cmp l i c).
  Proof.
    intros Hn Hic. unfold child_above. destruct (c <? n) eqn:E.
    - destruct (below_some l i c) as (x & y & Ex & Ey & ->); try lia.
      eexists; split; [reflexivity|]. split.
      + intros H. split; [lia|]. exists x, y. repeat split; auto. lia.
      + intros H _ x' y' Hx Hy. rewrite Ex in Hx. rewrite Ey in Hy. injection Hx as <-. injection Hy as <-.
        unfold ge_by. lia.
    - exists false. split; [reflexivity|]. split; [discriminate|]. intros; lia.
  Qed.

  Definition same_beyond (l l' : list A) (n : nat) : Prop :=
    forall k, n <= k -> nth_error l' k = nth_error l k.

  Lemma heapify_ok : forall fuel l n k i,
    n <= length l -> n < fuel + i -> 0 < fuel -> k <= i -> heap_ex l n k i ->
    exists l', heapify cmp fuel l n i = Some l' /\ length l' = length l /\ Permutation l l' /\
      same_beyond l l' n /\ heap_from l' n k.
  Proof.
    induction fuel as [|f IH]; intros l n k i Hn Hf H0 Hk Hex; [lia|]. cbn [heapify].
    unfold heap_left, heap_right, heap_left.
    destruct (child_above_spec l n i (2 * i + 1) Hn ltac:(lia)) as (bl & -> & Hlt & Hlf).
    set (t1 := if bl then 2 * i + 1 else i).
    assert (Ht1 : t1 = i \/ t1 = 2 * i + 1) by (unfold t1; destruct bl; auto).
    destruct (child_above_spec l n t1 (2 * i + 1 + 1) Hn ltac:(lia)) as (br & -> & Hrt & Hrf).
    set (t2 := if br then 2 * i + 1 + 1 else t1).
    (* a chosen child dominates i and the other child *)
    assert (Hmax : t2 <> i -> is_child i t2 /\ t2 < n /\ dominates cmp l t2 i /\
        (forall j, is_child i j -> j < n -> dominates cmp l t2 j)).
    { intros Hne. unfold t2 in *. destruct br.
      - destruct (Hrt eq_refl) as (Hrn & x & y & Hx & Hy & Hc).
        assert (Hd1 : dominates cmp l (2 * i + 1 + 1) t1).
        { intros a b Ha Hb. rewrite Hy in Ha. rewrite Hx in Hb. injection Ha as <-. injection Hb as <-.
          apply lt_ge. exact Hc. }
        assert (Hd2 : dominates cmp l (2 * i + 1 + 1) i).
        { unfold t1 in *. destruct bl; [|exact Hd1].
          destruct (Hlt eq_refl) as (Hln & u & v & Hu & Hv & Huv).
          intros a b Ha Hb. rewrite Hu in Hb. injection Hb as <-.
          apply ge_trans with v; [apply Hd1; auto|]. apply lt_ge. exact Huv. }
        split; [right; lia|]. split; [exact Hrn|]. split; [exact Hd2|].
        intros j [->| ->] Hj.
        + unfold t1 in *. destruct bl; [exact Hd1|].
          intros a b Ha Hb. 
          destruct (nth_error l i) as [u|] eqn:Eu; [|apply nth_error_None in Eu; lia].
          apply ge_trans with u; [apply Hd2; auto|]. apply Hlf; auto; lia.
        + replace (2 * i + 2) with (2 * i + 1 + 1) by lia.
          intros a b Ha Hb. rewrite Ha in Hb. injection Hb as <-. apply ge_refl.
      - unfold t1 in *. destruct bl; [|lia].
        destruct (Hlt eq_refl) as (Hln & u & v & Hu & Hv & Huv).
        split; [left; reflexivity|]. split; [exact Hln|]. split.
        { intros a b Ha Hb. rewrite Hv in Ha. rewrite Hu in Hb. injection Ha as <-. injection Hb as <-.
          apply lt_ge. exact Huv. }
        intros j [->| ->] Hj.
        + intros a b Ha Hb. rewrite Ha in Hb. injection Hb as <-. apply ge_refl.
        + replace (2 * i + 2) with (2 * i + 1 + 1) in * by lia. apply Hrf; auto. }
    destruct (t2 =? i) eqn:Et; cbn [negb].
    - apply Nat.eqb_eq in Et. exists l. split; [reflexivity|]. split; [reflexivity|].
      split; [reflexivity|]. split; [intros ? ?; reflexivity|].
      assert (Hb : bl = false /\ br = false).
      { unfold t2, t1 in Et. destruct br, bl; auto; lia. }
      destruct Hb as [-> ->]. cbn in t1.
      intros p j Hp Hc Hj. destruct (Nat.eq_dec p i) as [->|Hne].
      + destruct Hc as [->| ->].
        * apply Hlf; auto.
        * replace (2 * i + 2) with (2 * i + 1 + 1) in * by lia. unfold t1 in Hrf. apply Hrf; auto.
      + apply (proj1 Hex p j); auto.
    - apply Nat.eqb_neq in Et. destruct (Hmax Et) as (Hc & Htn & Hdi & Hdj).
      assert (Hit : i < t2) by (unfold is_child in Hc; lia).
      destruct (nth_error l i) as [x|] eqn:Ex; [|apply nth_error_None in Ex; lia].
      destruct (nth_error l t2) as [y|] eqn:Ey; [|apply nth_error_None in Ey; lia].
      pose proof (swap_some l i t2 x y Ex Ey) as Hs. rewrite Hs.
      destruct (swap_props l _ i t2 Hit Hs) as (Sl & _ & Si & St & So & Sp).
      set (l1 := set_nth (set_nth l i y) t2 x) in *.
      assert (Hex1 : heap_ex l1 n k t2).
      { destruct Hex as [E1 E2]. split.
        - intros p j Hp Hne Hpc Hj. destruct (Nat.eq_dec p i) as [->|Hpi].
          + (* new top over the children of i *)
            intros a b Ha Hb. rewrite Si, Ey in Ha. injection Ha as <-.
            destruct (Nat.eq_dec j t2) as [->|Hjt].
            * rewrite St in Hb. apply (Hdi y b Ey). congruence.
            * rewrite So in Hb; [|unfold is_child in *; lia|exact Hjt]. apply (Hdj j Hpc Hj y b Ey Hb).
          + destruct (Nat.eq_dec j i) as [->|Hji].
            * (* parent of i over the new top *)
              intros a b Ha Hb. rewrite So in Ha by auto. rewrite Si in Hb.
              apply (E2 p t2 Hp Hpc Hc Htn a b Ha). congruence.
            * intros a b Ha Hb. rewrite So in Ha by auto.
              rewrite So in Hb; [|auto|unfold is_child in *; lia].
              apply (E1 p j Hp Hpi Hpc Hj a b Ha Hb).
        - intros p j Hp Hpc Hcj Hj. assert (p = i) by (unfold is_child in *; lia). subst p.
          intros a b Ha Hb. rewrite Si, Ey in Ha. injection Ha as <-.
          rewrite So in Hb; [|unfold is_child in *; lia|unfold is_child in *; lia].
          apply (E1 t2 j ltac:(lia) ltac:(lia) Hcj Hj y b Ey Hb). }
      destruct (IH l1 n k t2 ltac:(lia) ltac:(lia) ltac:(lia) ltac:(lia) Hex1)
        as (l' & -> & L1 & P1 & B1 & H1).
      exists l'. split; [reflexivity|]. split; [lia|]. split; [etransitivity; eauto|].
      split; [|exact H1]. intros q Hq. rewrite B1 by lia. apply So; lia.
  Qed.

  Lemma build_ok : forall k l n, n <= length l -> heap_from l n (S k) ->
    exists l', build_loop cmp l n k = Some l' /\ length l' = length l /\ Permutation l l' /\
      same_beyond l l' n /\ heap_from l' n 0.
  Proof.
    induction k as [|k IH]; intros l n Hn Hh.
    - cbn [build_loop].
      destruct (heapify_ok (S n) l n 0 0) as (l' & -> & H); try lia.
      { split; [intros p j _ Hp; apply Hh; lia|]. intros p j _ Hc. unfold is_child in Hc. lia. }
      exists l'. split; [reflexivity|exact H].
    - cbn [build_loop].
      destruct (heapify_ok (S n) l n (S k) (S k)) as (l1 & -> & L1 & P1 & B1 & H1); try lia.
      { split; [intros p j Hp Hne; apply Hh; lia|]. intros p j Hp Hc. unfold is_child in Hc. lia. }
      destruct (IH l1 n ltac:(lia) H1) as (l' & -> & L2 & P2 & B2 & H2).
      exists l'. split; [reflexivity|]. split; [lia|]. split; [etransitivity; eauto|].
      split; [|exact H2]. intros q Hq. rewrite B2, B1 by lia. reflexivity.
  Qed.

  Lemma heap_build_ok l n : n <= length l ->
    exists l', heap_build cmp l n = Some l' /\ length l' = length l /\ Permutation l l' /\
      same_beyond l l' n /\ is_heap cmp l' n.
  Proof.
    intros Hn. unfold heap_build. destruct (build_ok (n / 2) l n Hn) as (l' & E & L & P & B & H).
    - intros p j Hp Hc Hj. unfold is_child in Hc. pose proof (Nat.div_mod n 2 ltac:(lia)). pose proof (Nat.mod_upper_bound n 2 ltac:(lia)). lia.
    - exists l'. repeat (split; [assumption|]). intros i j. apply H. lia.
  Qed.

  Lemma heap_root_max l n : is_heap cmp l n -> n <= length l -> forall j, j < n -> dominates cmp l 0 j.
  Proof.
    intros Hh Hn j. induction j as [j IH] using lt_wf_ind. intros Hj.
    destruct j as [|j']; [intros a b Ha Hb; rewrite Ha in Hb; injection Hb as <-; apply ge_refl|].
    set (p := j' / 2). pose proof (Nat.div_mod j' 2 ltac:(lia)) as Hdm.
    pose proof (Nat.mod_upper_bound j' 2 ltac:(lia)).
    assert (Hc : is_child p (S j')) by (unfold is_child, p; lia).
    intros a b Ha Hb.
    destruct (nth_error l p) as [u|] eqn:Eu; [|apply nth_error_None in Eu; unfold p in *; lia].
    apply ge_trans with u; [apply (IH p); auto; unfold p; lia|apply (Hh p (S j') Hc Hj); auto].
  Qed.

  (** prefix of a list with unchanged suffix is permuted on its own *)
  Lemma perm_prefix (l l' : list A) n : length l' = length l -> Permutation l l' -> same_beyond l l' n ->
    Permutation (firstn n l) (firstn n l').
  Proof.
    intros Hl Hp Hb. apply Permutation_app_inv_r with (skipn n l).
    assert (E : skipn n l' = skipn n l).
    { clear Hp. revert l l' n Hl Hb. induction l as [|x r IH]; intros [|x' r'] n Hl Hb; cbn in Hl; try lia.
      - reflexivity.
      - destruct n as [|n].
        + cbn. f_equal; [specialize (Hb 0 ltac:(lia)); cbn in Hb; congruence|].
          apply (IH r' 0); [lia|]. intros k Hk. apply (Hb (S k)). lia.
        + cbn. apply IH; [lia|]. intros k Hk. apply (Hb (S k)). lia. }
    rewrite firstn_skipn. rewrite <- E. rewrite firstn_skipn. exact Hp.
  Qed.

  Lemma nth_error_firstn_lt (l : list A) n i : i < n -> nth_error (firstn n l) i = nth_error l i.
  Proof.
    revert l i; induction n as [|n IH]; intros l i H; [lia|].
    destruct l as [|x r]; [destruct i; reflexivity|]. destruct i; cbn; [reflexivity|apply IH; lia].
  Qed.

  (** elements from index [b] on are in order and dominate all before them *)
  Definition tail_sorted (l : list A) (b : nat) : Prop :=
    forall i j x y, i < j -> b <= j -> nth_error l i = Some x -> nth_error l j = Some y -> ge y x.

  Lemma sort_loop_ok : forall i l, i < length l -> is_heap cmp l (S i) -> tail_sorted l (S i) ->
    exists l', sort_loop cmp l i = Some l' /\ Permutation l l' /\ tail_sorted l' 0 /\
      same_beyond l l' (S i).
  Proof.
    induction i as [|i IH]; intros l Hi Hh Ht.
    - exists l. split; [reflexivity|]. split; [reflexivity|]. split.
      + intros p q x y Hpq _ Hx Hy. apply (Ht p q); auto. lia.
      + intros k _. reflexivity.
    - cbn [sort_loop].
      destruct (nth_error l 0) as [x0|] eqn:E0; [|apply nth_error_None in E0; lia].
      destruct (nth_error l (S i)) as [y0|] eqn:Ei; [|apply nth_error_None in Ei; lia].
      pose proof (swap_some l 0 (S i) x0 y0 E0 Ei) as Hs. rewrite Hs.
      destruct (swap_props l _ 0 (S i) ltac:(lia) Hs) as (Sl & _ & S0 & St & So & Sp).
      set (l1 := set_nth _ _ _) in *.
      destruct (heapify_ok (S (S i)) l1 (S i) 0 0) as (l2 & -> & L2 & P2 & B2 & H2); try lia.
      { split.
        - intros p j _ Hp Hc Hj a b Ha Hb. rewrite So in Ha by (unfold is_child in Hc; lia).
          rewrite So in Hb by (unfold is_child in Hc; lia). apply (Hh p j Hc ltac:(lia) a b Ha Hb).
        - intros p j _ Hc. unfold is_child in Hc. lia. }
      (* the tail is extended by the old root *)
      assert (Ht2 : tail_sorted l2 (S i)).
      { assert (Hpre : Permutation (firstn (S i) l1) (firstn (S i) l2)) by (apply perm_prefix; auto; lia).
        assert (Hin : forall p x, p < S i -> nth_error l2 p = Some x ->
                      exists q, q < S (S i) /\ nth_error l q = Some x).
        { intros p x Hp Hx.
          assert (Hx' : In x (firstn (S i) l1)).
          { apply Permutation_in with (firstn (S i) l2); [symmetry; exact Hpre|].
            apply nth_error_In with p. rewrite nth_error_firstn_lt by lia. exact Hx. }
          apply In_nth_error in Hx'. destruct Hx' as [q Hq].
          assert (q < S i).
          { assert (q < length (firstn (S i) l1)) by (apply nth_error_Some; congruence).
            rewrite firstn_length in *. lia. }
          rewrite nth_error_firstn_lt in Hq by lia.
          destruct (Nat.eq_dec q 0) as [->|Hq0].
          - exists (S i). split; [lia|]. congruence.
          - exists q. split; [lia|]. rewrite So in Hq by lia. exact Hq. }
        intros p q x y Hpq Hq Hx Hy.
        rewrite B2 in Hy by lia.
        destruct (Nat.eq_dec q (S i)) as [->|Hqi].
        - (* q is the moved root *)
          rewrite St in Hy.
          destruct (Hin p x ltac:(lia) Hx) as (r & Hr & Hrx).
          apply (heap_root_max l (S (S i)) Hh ltac:(lia) r Hr y x Hy Hrx).
        - rewrite So in Hy by lia.
          destruct (lt_dec p (S i)) as [Hp|Hp].
          + destruct (Hin p x Hp Hx) as (r & Hr & Hrx).
            apply (Ht r q x y); auto; lia.
          + rewrite B2 in Hx by lia.
            destruct (Nat.eq_dec p (S i)) as [->|Hpi].
            * rewrite St in Hx. apply (Ht 0 q x y); auto; lia.
            * rewrite So in Hx by lia. apply (Ht p q x y); auto; lia. }
      destruct (IH l2 ltac:(lia) ltac:(intros p j Hc Hj; apply H2; auto; lia) Ht2) as (l' & -> & P3 & T3 & B3).
      exists l'. split; [reflexivity|]. split; [etransitivity; [exact Sp|]; etransitivity; eauto|].
      split; [exact T3|]. intros k Hk. rewrite B3, B2 by lia. apply So; lia.
  Qed.

  Lemma heap_sort_ok (l : list A) : exists l', heap_sort cmp l (length l) = Some l' /\
    Permutation l l' /\ non_decreasing cmp l'.
  Proof.
    unfold heap_sort. destruct (length l <=? 1) eqn:E.
    - exists l. split; [reflexivity|]. split; [reflexivity|].
      intros i j x y Hij _ Hy. assert (j < length l) by (apply nth_error_Some; congruence). lia.
    - destruct (heap_build_ok l (length l) (le_n _)) as (l1 & -> & L1 & P1 & _ & H1).
      destruct (sort_loop_ok (length l - 1) l1) as (l' & -> & P2 & T2 & _).
      + lia.
      + replace (S (length l - 1)) with (length l) by lia. exact H1.
      + intros i j x y Hij Hj _ Hy. assert (j < length l1) by (apply nth_error_Some; congruence). lia.
      + exists l'. split; [reflexivity|]. split; [etransitivity; eauto|].
        intros i j x y Hij Hx Hy. apply (T2 i j); auto. lia.
  Qed.

  (** * check *)
  Lemma check_total : forall fuel l n i, n <= length l -> i < length l -> n < fuel + i -> 0 < fuel ->
    exists r, heap_check cmp fuel l n i = Some r.
  Proof.
    induction fuel as [|f IH]; intros l n i Hn Hi Hf H0; [lia|]. cbn [heap_check].
    assert (Hsub : forall j k, i < j -> (exists r, k = Some r) -> exists r,
      (if j <? n then
            match below cmp l i j with
            | None => None
            | Some true => Some i
            | Some false =>
                match heap_check cmp f l n j with
                | None => None
                | Some O => k
                | Some r => Some r
                end
            end
          else k) = Some r).
    { intros j k Hj [r ->]. destruct (j <? n) eqn:E; [|eauto].
      destruct (below_some l i j) as (x & y & _ & _ & ->); try lia.
      destruct (cmp x y <? 0)%Z; [eauto|].
      destruct (IH l n j) as [q ->]; try lia. destruct q; eauto. }
    apply Hsub; [unfold heap_left; lia|]. apply Hsub; [unfold heap_right, heap_left; lia|]. eauto.
  Qed.

  (** descendants of i in the tree *)
  Inductive desc (i : nat) : nat -> Prop :=
  | desc_refl : desc i i
  | desc_step p j : desc i p -> is_child p j -> desc i j.

  Lemma desc_cases i p : desc i p -> p = i \/ desc (2 * i + 1) p \/ desc (2 * i + 2) p.
  Proof.
    induction 1 as [|p j H IH Hc]; [auto|]. right. destruct IH as [->|[IH|IH]].
    - destruct Hc as [->| ->]; [left|right]; constructor.
    - left. econstructor; eauto.
    - right. econstructor; eauto.
  Qed.

  Lemma desc_zero p : desc 0 p.
  Proof.
    induction p as [p IH] using lt_wf_ind. destruct p as [|p]; [constructor|].
    pose proof (Nat.div_mod p 2 ltac:(lia)). pose proof (Nat.mod_upper_bound p 2 ltac:(lia)).
    apply desc_step with (p / 2); [apply IH; lia|]. unfold is_child. lia.
  Qed.

  Lemma desc_ge i p : desc i p -> i <= p.
  Proof. induction 1; [lia|]. unfold is_child in *. lia. Qed.

  Lemma check_zero : forall fuel l n i, heap_check cmp fuel l n i = Some 0 -> n <= length l -> i <> 0 ->
    forall p j, desc i p -> is_child p j -> j < n -> dominates cmp l p j.
  Proof.
    induction fuel as [|f IH]; intros l n i H Hn Hi; [discriminate|]. cbn [heap_check] in H.
    unfold heap_left, heap_right, heap_left in H.
    assert (Hsub : forall c k, is_child i c -> 
      (if c <? n then
            match below cmp l i c with
            | None => None
            | Some true => Some i
            | Some false =>
                match heap_check cmp f l n c with
                | None => None
                | Some O => k
                | Some r => Some r
                end
            end
          else k) = Some 0 ->
      k = Some 0 /\ (c < n -> dominates cmp l i c) /\
      (forall p j, desc c p -> is_child p j -> j < n -> dominates cmp l p j)).
    { intros c k Hc Hk. destruct (c <? n) eqn:E.
      - unfold below in Hk. destruct (nth_error l i) as [x|] eqn:Ex; [|discriminate].
        destruct (nth_error l c) as [y|] eqn:Ey; [|discriminate].
        destruct (cmp x y <? 0)%Z eqn:Exy; [congruence|].
        destruct (heap_check cmp f l n c) as [[|r]|] eqn:Er; try discriminate.
        split; [exact Hk|]. split.
        + intros _ a b Ha Hb. rewrite Ex in Ha. rewrite Ey in Hb. injection Ha as <-. injection Hb as <-.
          unfold ge_by. lia.
        + apply (IH l n c Er Hn). unfold is_child in Hc. lia.
      - split; [exact Hk|]. split; [lia|]. intros p j Hd Hpj Hj.
        pose proof (desc_ge _ _ Hd). unfold is_child in Hpj. lia. }
    destruct (Hsub _ _ ltac:(left; reflexivity) H) as (H1 & D1 & R1).
    destruct (Hsub (2 * i + 1 + 1) _ ltac:(right; lia) H1) as (_ & D2 & R2).
    intros p j Hd Hpj Hj. destruct (desc_cases i p Hd) as [->|[Hd'|Hd']].
    - destruct Hpj as [->| ->]; [apply D1; lia|].
      replace (2 * i + 2) with (2 * i + 1 + 1) in * by lia. apply D2; lia.
    - apply (R1 p j); auto.
    - apply (R2 p j); auto. replace (2 * i + 1 + 1) with (2 * i + 2) by lia. exact Hd'.
  Qed.

  Lemma check_nonzero : forall fuel l n i r, heap_check cmp fuel l n i = Some r -> r <> 0 ->
    exists j, is_child r j /\ j < n /\ ~ dominates cmp l r j.
  Proof.
    induction fuel as [|f IH]; intros l n i r H Hr; [discriminate|]. cbn [heap_check] in H.
    unfold heap_left, heap_right, heap_left in H.
    assert (Hsub : forall c k, is_child i c -> 
      (if c <? n then
            match below cmp l i c with
            | None => None
            | Some true => Some i
            | Some false =>
                match heap_check cmp f l n c with
                | None => None
                | Some O => k
                | Some r => Some r
                end
            end
          else k) = Some r ->
      k = Some r \/ exists j, is_child r j /\ j < n /\ ~ dominates cmp l r j).
    { intros c k Hc Hk. destruct (c <? n) eqn:E; [|auto].
      unfold below in Hk. destruct (nth_error l i) as [x|] eqn:Ex; [|discriminate].
      destruct (nth_error l c) as [y|] eqn:Ey; [|discriminate].
      destruct (cmp x y <? 0)%Z eqn:Exy.
      - injection Hk as <-. right. exists c. split; [exact Hc|]. split; [lia|].
        intros Hd. specialize (Hd x y Ex Ey). unfold ge_by in Hd. lia.
      - destruct (heap_check cmp f l n c) as [[|q]|] eqn:Er; try discriminate; [auto|].
        injection Hk as <-. right. apply (IH l n c (S q) Er). lia. }
    destruct (Hsub _ _ ltac:(left; reflexivity) H) as [H1|H1]; [|exact H1].
    destruct (Hsub (2 * i + 1 + 1) _ ltac:(right; lia) H1) as [H2|H2]; [congruence|exact H2].
  Qed.

  Lemma check_zero_root : forall fuel l n, heap_check cmp fuel l n 0 = Some 0 -> n <= length l ->
    (forall j, is_child 0 j -> j < n -> dominates cmp l 0 j) -> is_heap cmp l n.
  Proof.
    intros [|f] l n H Hn Hroot; [discriminate|]. cbn [heap_check] in H.
    unfold heap_left, heap_right, heap_left in H. cbn [Nat.mul Nat.add] in H.
    assert (Hb : forall j, is_child 0 j -> j < n -> below cmp l 0 j = Some false).
    { intros j Hc Hj. destruct (below_some l 0 j) as (x & y & Ex & Ey & ->); try lia.
      specialize (Hroot j Hc Hj x y Ex Ey). unfold ge_by in Hroot. f_equal. lia. }
    assert (Hsub : forall c k, is_child 0 c ->
      (if c <? n then
            match below cmp l 0 c with
            | None => None
            | Some true => Some 0
            | Some false =>
                match heap_check cmp f l n c with
                | None => None
                | Some O => k
                | Some r => Some r
                end
            end
          else k) = Some 0 ->
      k = Some 0 /\ (forall p j, desc c p -> is_child p j -> j < n -> dominates cmp l p j)).
    { intros c k Hc Hk. destruct (c <? n) eqn:E.
      - rewrite (Hb c Hc ltac:(lia)) in Hk.
        destruct (heap_check cmp f l n c) as [[|r]|] eqn:Er; try discriminate.
        split; [exact Hk|]. apply (check_zero f l n c Er Hn). unfold is_child in Hc. lia.
      - split; [exact Hk|]. intros p j Hd Hpj Hj.
        pose proof (desc_ge _ _ Hd). unfold is_child in Hpj. lia. }
    destruct (Hsub 1 _ ltac:(left; reflexivity) H) as (H1 & R1).
    destruct (Hsub 2 _ ltac:(right; reflexivity) H1) as (_ & R2).
    intros p j Hc Hj. destruct (desc_cases 0 p (desc_zero p)) as [->|[Hd|Hd]].
    - apply Hroot; auto.
    - apply (R1 p j); auto.
    - apply (R2 p j); auto.
  Qed.

  Lemma check_heap_zero l n : is_heap cmp l n -> n <= length l -> 0 < length l ->
    heap_check cmp (S n) l n 0 = Some 0.
  Proof.
    intros Hh Hn H0. destruct (check_total (S n) l n 0 Hn H0 ltac:(lia) ltac:(lia)) as [r Hr].
    destruct r as [|r]; [exact Hr|].
    destruct (check_nonzero _ _ _ _ _ Hr ltac:(lia)) as (j & Hc & Hj & Hnd).
    destruct Hnd. apply Hh; auto.
  Qed.
End Proofs.

Lemma check_root_refuted : exists l : list Z,
  heap_check Z.sub 10 l (length l) 0 = Some 0 /\ ~ is_heap Z.sub l (length l).
Proof.
  exists [1; 5]%Z. split; [reflexivity|]. intros H.
  specialize (H 0 1 ltac:(left; reflexivity) ltac:(cbn; lia) 1%Z 5%Z eq_refl eq_refl).
  unfold ge_by in H. lia.
Qed.
