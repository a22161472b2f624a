(** Rectangular problems, maximisation, and executions on the integers. *)
From Coq Require Import List Arith ZArith Bool Reals Lra Lia Permutation.
From Verif Require Import TrModel HgModel HgSpec HgBase HgProofs.
Import ListNotations.
Open Scope nat_scope.

(** ** the rectangular problem inside the padded square one *)
Lemma NoDup_app_intro : forall X (l l' : list X), NoDup l -> NoDup l' -> (forall x, In x l -> ~ In x l') -> NoDup (l ++ l').
Proof.
  induction l as [|a l IH]; intros l' N N' D; cbn; [exact N'|]. inversion N; subst. constructor.
  - intro H. apply in_app_or in H. destruct H as [H|H]; [contradiction|]. exact (D a (or_introl eq_refl) H).
  - apply IH; [assumption..|]. intros x Hx. apply D. right. exact Hx.
Qed.

Definition rest (p : nat) (l : list nat) : list nat := filter (fun x => negb (existsb (Nat.eqb x) l)) (seq 0 p).
Lemma in_rest : forall p l x, In x (rest p l) <-> x < p /\ ~ In x l.
Proof.
  intros. unfold rest. rewrite filter_In, in_seq, negb_true_iff. split.
  - intros [A B]. split; [lia|]. intro H.
    assert (existsb (Nat.eqb x) l = true) by (apply existsb_exists; exists x; split; [exact H|apply Nat.eqb_refl]). congruence.
  - intros [A B]. split; [lia|]. destruct (existsb (Nat.eqb x) l) eqn:E; [|reflexivity].
    apply existsb_exists in E. destruct E as [y [Hy E]]. apply Nat.eqb_eq in E. subst. contradiction.
Qed.
Lemma NoDup_filter' : forall X (f : X -> bool) l, NoDup l -> NoDup (filter f l).
Proof.
  induction l as [|a l IH]; intros N; cbn; [constructor|]. inversion N; subst. destruct (f a); [|apply IH; assumption].
  constructor; [|apply IH; assumption]. intro H. apply filter_In in H. tauto.
Qed.
Lemma rest_perm : forall p l, NoDup l -> (forall x, In x l -> x < p) -> Permutation (l ++ rest p l) (seq 0 p).
Proof.
  intros p l N B. apply NoDup_Permutation.
  - apply NoDup_app_intro; [exact N|apply NoDup_filter', seq_NoDup|]. intros x H H'. apply in_rest in H'. tauto.
  - apply seq_NoDup.
  - intros x. rewrite in_app_iff, in_rest, in_seq. split.
    + intros [H|[H _]]; [specialize (B x H); lia|lia].
    + intros H. destruct (in_dec Nat.eq_dec x l); [left; assumption|right; split; [lia|assumption]].
Qed.

Lemma combine_fst : forall (l l' : list nat), length l = length l' -> map fst (combine l l') = l.
Proof. induction l as [|a l IH]; intros [|b l'] H; cbn in *; try lia; [reflexivity|]. rewrite IH by lia. reflexivity. Qed.
Lemma combine_snd : forall (l l' : list nat), length l = length l' -> map snd (combine l l') = l'.
Proof. induction l as [|a l IH]; intros [|b l'] H; cbn in *; try lia; [reflexivity|]. rewrite IH by lia. reflexivity. Qed.

Section Rect.
Variables (m n : nat) (A : nat -> nat -> R).
Let p := Nat.max m n.
Let B (i j : nat) : R := if (i <? m) && (j <? n) then A i j else 0%R.

Lemma B_in : forall i j, i < m -> j < n -> B i j = A i j.
Proof. intros i j Hi Hj. unfold B. apply Nat.ltb_lt in Hi. apply Nat.ltb_lt in Hj. rewrite Hi, Hj. reflexivity. Qed.
Lemma B_out : forall i j, m <= i \/ n <= j -> B i j = 0%R.
Proof.
  intros i j H. unfold B. destruct (i <? m) eqn:C; [|reflexivity]. destruct (j <? n) eqn:D; [|reflexivity].
  apply Nat.ltb_lt in C. apply Nat.ltb_lt in D. lia.
Qed.

Lemma extend : forall L, matching m n L -> exists L', matching p p L' /\ total B L' = total A L.
Proof.
  intros L [Bd [N1 [N2 Len]]].
  set (R := rest p (map fst L)). set (C := rest p (map snd L)).
  assert (B1 : forall x, In x (map fst L) -> x < m).
  { intros x H. apply in_map_iff in H. destruct H as [[i j] [<- H]]. apply (Bd i j H). }
  assert (B2 : forall x, In x (map snd L) -> x < n).
  { intros x H. apply in_map_iff in H. destruct H as [[i j] [<- H]]. apply (Bd i j H). }
  assert (P1 : Permutation (map fst L ++ R) (seq 0 p)).
  { apply rest_perm; [exact N1|]. intros x H. specialize (B1 x H). unfold p. lia. }
  assert (P2 : Permutation (map snd L ++ C) (seq 0 p)).
  { apply rest_perm; [exact N2|]. intros x H. specialize (B2 x H). unfold p. lia. }
  pose proof (Permutation_length P1) as L1. pose proof (Permutation_length P2) as L2.
  rewrite app_length, map_length, seq_length in L1, L2.
  assert (LE : length R = length C) by lia.
  exists (L ++ combine R C). split.
  - split; [|split; [|split]].
    + intros i j H. apply in_app_or in H. destruct H as [H|H].
      * destruct (Bd i j H). unfold p. lia.
      * pose proof (in_combine_l _ _ _ _ H) as H1. pose proof (in_combine_r _ _ _ _ H) as H2.
        apply in_rest in H1. apply in_rest in H2. tauto.
    + rewrite map_app, combine_fst by exact LE. apply (Permutation_NoDup (Permutation_sym P1)), seq_NoDup.
    + rewrite map_app, combine_snd by exact LE. apply (Permutation_NoDup (Permutation_sym P2)), seq_NoDup.
    + rewrite app_length, combine_length. lia.
  - rewrite total_app. rewrite (total_zero B (combine R C)).
    + rewrite (total_ext B A); [lra|]. intros i j H. destruct (Bd i j H). apply B_in; assumption.
    + intros i j H. pose proof (in_combine_l _ _ _ _ H) as H1. pose proof (in_combine_r _ _ _ _ H) as H2.
      apply in_rest in H1. apply in_rest in H2. apply B_out.
      destruct (le_lt_dec m n) as [Q|Q].
      * left. destruct (le_lt_dec m i) as [|Z]; [assumption|]. exfalso. apply (proj2 H1).
        apply (Permutation_in i (Permutation_sym (nodup_full m (map fst L) N1 B1 ltac:(rewrite map_length; lia)))), in_seq. lia.
      * right. destruct (le_lt_dec n j) as [|Z]; [assumption|]. exfalso. apply (proj2 H2).
        apply (Permutation_in j (Permutation_sym (nodup_full n (map snd L) N2 B2 ltac:(rewrite map_length; lia)))), in_seq. lia.
Qed.

Definition inner (q : nat * nat) : bool := (fst q <? m) && (snd q <? n).

Lemma total_filter : forall L, total B (filter inner L) = total B L.
Proof.
  induction L as [|[i j] L IH]; [reflexivity|]. cbn [filter total]. unfold inner at 1. cbn [fst snd].
  destruct ((i <? m) && (j <? n)) eqn:C; cbn [total]; rewrite IH; [reflexivity|].
  unfold B at 2. rewrite C. lra.
Qed.

Lemma NoDup_map_filter : forall (f : nat * nat -> bool) (g : nat * nat -> nat) L, NoDup (map g L) -> NoDup (map g (filter f L)).
Proof.
  induction L as [|a L IH]; intros N; cbn in *; [constructor|]. inversion N; subst. destruct (f a); [|apply IH; assumption].
  cbn. constructor; [|apply IH; assumption]. intro H. apply H1. apply in_map_iff in H. destruct H as [y [E Hy]].
  apply filter_In in Hy. apply in_map_iff. exists y. tauto.
Qed.

Lemma filter_perm_len : forall (f : nat -> bool) l l', Permutation l l' -> length (filter f l) = length (filter f l').
Proof.
  induction 1; cbn; try lia.
  - destruct (f x); cbn; lia.
  - destruct (f x), (f y); cbn; lia.
Qed.

Lemma filter_lt_seq : forall a b, a <= b -> length (filter (fun x => x <? a) (seq 0 b)) = a.
Proof.
  intros a b H. replace b with (a + (b - a)) by lia. rewrite seq_app, filter_app, app_length.
  assert (G1 : forall l, (forall x, In x l -> x < a) -> filter (fun x => x <? a) l = l).
  { induction l as [|x l IH]; intros Hl; cbn [filter]; [reflexivity|].
    rewrite (proj2 (Nat.ltb_lt x a) (Hl x (or_introl eq_refl))), IH; [reflexivity|]. intros; apply Hl; right; assumption. }
  assert (G2 : forall l, (forall x, In x l -> a <= x) -> filter (fun x => x <? a) l = []).
  { induction l as [|x l IH]; intros Hl; cbn [filter]; [reflexivity|].
    rewrite (proj2 (Nat.ltb_ge x a) (Hl x (or_introl eq_refl))), IH; [reflexivity|]. intros; apply Hl; right; assumption. }
  rewrite G1, G2; [rewrite seq_length; cbn; lia|..]; intros x Hx; apply in_seq in Hx; lia.
Qed.

Lemma map_filter_len : forall (g : nat * nat -> nat) (f : nat -> bool) L,
  length (filter (fun q => f (g q)) L) = length (filter f (map g L)).
Proof. induction L as [|a L IH]; cbn; [reflexivity|]. destruct (f (g a)); cbn; lia. Qed.

Lemma filter_ext_len : forall (f g : nat * nat -> bool) L, (forall q, In q L -> f q = g q) -> filter f L = filter g L.
Proof.
  induction L as [|a L IH]; intros H; cbn; [reflexivity|]. rewrite (H a (or_introl eq_refl)), IH; [reflexivity|].
  intros; apply H; right; assumption.
Qed.

Lemma restrict : forall L, matching p p L -> matching m n (filter inner L).
Proof.
  intros L ML. pose proof ML as [Bd [N1 [N2 Len]]]. split; [|split; [|split]].
  - intros i j H. apply filter_In in H. destruct H as [_ H]. unfold inner in H. cbn in H.
    apply andb_true_iff in H. destruct H as [H1 H2]. apply Nat.ltb_lt in H1. apply Nat.ltb_lt in H2. auto.
  - apply NoDup_map_filter, N1.
  - apply NoDup_map_filter, N2.
  - destruct (le_lt_dec m n) as [Q|Q].
    + rewrite (filter_ext_len inner (fun q => fst q <? m)).
      * rewrite (map_filter_len fst (fun x => x <? m)), (filter_perm_len _ _ _ (matching_rows p L ML)).
        rewrite filter_lt_seq by (unfold p; lia). lia.
      * intros [i j] H. destruct (Bd i j H) as [_ Hj]. unfold inner. cbn [fst snd].
        rewrite (proj2 (Nat.ltb_lt j n)) by (unfold p in Hj; lia). apply andb_true_r.
    + rewrite (filter_ext_len inner (fun q => snd q <? n)).
      * rewrite (map_filter_len snd (fun x => x <? n)), (filter_perm_len _ _ _ (matching_cols p L ML)).
        rewrite filter_lt_seq by (unfold p; lia). lia.
      * intros [i j] H. destruct (Bd i j H) as [Hi _]. unfold inner. cbn [fst snd].
        rewrite (proj2 (Nat.ltb_lt i m)) by (unfold p in Hi; lia). reflexivity.
Qed.

Lemma rect_min : forall L, min_assignment p p B L -> min_assignment m n A (filter inner L).
Proof.
  intros L [ML Mn]. pose proof (restrict L ML) as MR. split; [exact MR|].
  intros L' ML'. destruct (extend L' ML') as [L2 [ML2 E2]]. rewrite <- E2.
  rewrite (total_ext A B (filter inner L)).
  - rewrite total_filter. apply Mn, ML2.
  - intros i j H. destruct MR as [Bd _]. destruct (Bd i j H). symmetry. apply B_in; assumption.
Qed.
End Rect.

Lemma min_assignment_ext : forall m n A B L, (forall i j, i < m -> j < n -> A i j = B i j) ->
  min_assignment m n A L -> min_assignment m n B L.
Proof.
  intros m n A B L E [ML Mn]. split; [exact ML|]. intros L' ML'. specialize (Mn L' ML').
  rewrite (total_ext B A L), (total_ext B A L'); [exact Mn|..].
  - intros i j H. destruct ML' as [Bd _]. destruct (Bd i j H). symmetry. auto.
  - intros i j H. destruct ML as [Bd _]. destruct (Bd i j H). symmetry. auto.
Qed.

Notation assignR := (assign_hungarian 0%R Rplus Rminus Rle_b).

Lemma perm_has : forall p L i, matching p p L -> i < p -> exists j, In (i, j) L.
Proof.
  intros p L i ML Hi. assert (H : In i (map fst L)) by (apply (Permutation_in i (Permutation_sym (matching_rows p L ML))), in_seq; lia).
  apply in_map_iff in H. destruct H as [[a b] [<- H]]. exists b. exact H.
Qed.
Lemma perm_has_col : forall p L j, matching p p L -> j < p -> exists i, In (i, j) L.
Proof.
  intros p L j ML Hj. assert (H : In j (map snd L)) by (apply (Permutation_in j (Permutation_sym (matching_cols p L ML))), in_seq; lia).
  apply in_map_iff in H. destruct H as [[a b] [<- H]]. exists a. exact H.
Qed.
Lemma nodup_fst : forall (L : list (nat * nat)) i j j', NoDup (map fst L) -> In (i, j) L -> In (i, j') L -> j = j'.
Proof.
  induction L as [|[a b] L IH]; intros i j j' N H H'; [destruct H|]. cbn in N. inversion N; subst.
  destruct H as [E|H], H' as [E'|H'].
  - congruence.
  - inversion E; subst. exfalso. apply H2. apply in_map_iff. exists (i, j'). auto.
  - inversion E'; subst. exfalso. apply H2. apply in_map_iff. exists (i, j). auto.
  - eapply IH; eassumption.
Qed.
Lemma nodup_snd : forall (L : list (nat * nat)) i i' j, NoDup (map snd L) -> In (i, j) L -> In (i', j) L -> i = i'.
Proof.
  induction L as [|[a b] L IH]; intros i i' j N H H'; [destruct H|]. cbn in N. inversion N; subst.
  destruct H as [E|H], H' as [E'|H'].
  - congruence.
  - inversion E; subst. exfalso. apply H2. apply in_map_iff. exists (i', j). auto.
  - inversion E'; subst. exfalso. apply H2. apply in_map_iff. exists (i, j). auto.
  - eapply IH; eassumption.
Qed.

Lemma assign_ok : forall fuel m n A lda row col alt, 0 < m -> 0 < n ->
  match assignR fuel m n A lda row col alt with
  | Done (r, c) => exists L, min_assignment m n (mref A lda) L /\ row_vector m L r /\ col_vector n L c
  | NoFuel => True
  | _ => False
  end.
Proof.
  intros fuel m n A lda row col alt Hm Hn. unfold assign_hungarian. cbv zeta.
  set (p := Nat.max m n). set (row0 := if m <? n then alt else row). set (col0 := if n <? m then alt else col).
  pose proof (opt_done fuel p (pad 0%R m n A lda) row0 col0 ltac:(unfold p; lia)) as O.
  destruct (opt_hungarian _ _ _ _ fuel p _ row0 col0) as [[r c]| | |]; try exact O.
  destruct O as [L [ML [MA V]]].
  assert (MA' : min_assignment p p (fun i j => if (i <? m) && (j <? n) then mref A lda i j else 0%R) L).
  { refine (min_assignment_ext p p _ _ L _ MA). intros i j Hi Hj. unfold pad. fold p.
    apply (get_tab _ _ p (fun i j => if (i <? m) && (j <? n) then mref A lda i j else 0%R)); assumption. }
  pose proof (rect_min m n (mref A lda) L MA') as RM.
  assert (IL : forall i j, In (i, j) (filter (inner m n) L) <-> In (i, j) L /\ i < m /\ j < n).
  { intros i j. rewrite filter_In. unfold inner. cbn [fst snd]. rewrite andb_true_iff, !Nat.ltb_lt. tauto. }
  pose proof ML as [Bd [N1 [N2 Len]]].
  assert (RV : forall r', (forall i j, i < m -> r i = Z.of_nat j -> j < p -> r' i = if j <? n then Z.of_nat j else (-1)%Z) ->
                row_vector m (filter (inner m n) L) r').
  { intros r' H i Hi. destruct (perm_has p L i ML ltac:(unfold p; lia)) as [j Hj].
    destruct (V i j Hj) as [Vr _]. specialize (H i j Hi Vr (proj2 (Bd i j Hj))). destruct (j <? n) eqn:C.
    - apply Nat.ltb_lt in C. left. exists j. split; [apply IL; auto|exact H].
    - apply Nat.ltb_ge in C. right. split; [|exact H]. intros j' H'. apply IL in H'. destruct H' as [H' [_ Hj']].
      rewrite (nodup_fst L i j j' N1 Hj H') in C. lia. }
  assert (CV : forall c', (forall i j, j < n -> c j = Z.of_nat i -> i < p -> c' j = if i <? m then Z.of_nat i else (-1)%Z) ->
                col_vector n (filter (inner m n) L) c').
  { intros c' H j Hj. destruct (perm_has_col p L j ML ltac:(unfold p; lia)) as [i Hi].
    destruct (V i j Hi) as [_ Vc]. specialize (H i j Hj Vc (proj1 (Bd i j Hi))). destruct (i <? m) eqn:C.
    - apply Nat.ltb_lt in C. left. exists i. split; [apply IL; auto|exact H].
    - apply Nat.ltb_ge in C. right. split; [|exact H]. intros i' H'. apply IL in H'. destruct H' as [H' [Hi' _]].
      rewrite (nodup_snd L i i' j N2 Hi H') in C. lia. }
  destruct (n <? m) eqn:C1.
  - apply Nat.ltb_lt in C1. exists (filter (inner m n) L). split; [exact RM|]. split.
    + apply RV. intros i j Hi E Hj. unfold fixup. rewrite E. rewrite (proj2 (Nat.ltb_lt i m) Hi). cbn [andb].
      destruct (j <? n) eqn:D; [apply Nat.ltb_lt in D|apply Nat.ltb_ge in D].
      * replace (Z.of_nat n <=? Z.of_nat j)%Z with false by (symmetry; apply Z.leb_gt; lia). reflexivity.
      * replace (Z.of_nat n <=? Z.of_nat j)%Z with true by (symmetry; apply Z.leb_le; lia). reflexivity.
    + apply CV. intros i j Hj E Hi. unfold memcpy. rewrite (proj2 (Nat.ltb_lt j n) Hj), E.
      rewrite (proj2 (Nat.ltb_lt i m)) by (unfold p in Hi; lia). reflexivity.
  - apply Nat.ltb_ge in C1. destruct (m <? n) eqn:C2.
    + apply Nat.ltb_lt in C2. exists (filter (inner m n) L). split; [exact RM|]. split.
      * apply RV. intros i j Hi E Hj. unfold memcpy. rewrite (proj2 (Nat.ltb_lt i m) Hi), E.
        rewrite (proj2 (Nat.ltb_lt j n)) by (unfold p in Hj; lia). reflexivity.
      * apply CV. intros i j Hj E Hi. unfold fixup. rewrite E. rewrite (proj2 (Nat.ltb_lt j n) Hj). cbn [andb].
        destruct (i <? m) eqn:D; [apply Nat.ltb_lt in D|apply Nat.ltb_ge in D].
        -- replace (Z.of_nat m <=? Z.of_nat i)%Z with false by (symmetry; apply Z.leb_gt; lia). reflexivity.
        -- replace (Z.of_nat m <=? Z.of_nat i)%Z with true by (symmetry; apply Z.leb_le; lia). reflexivity.
    + apply Nat.ltb_ge in C2. exists (filter (inner m n) L). split; [exact RM|]. split.
      * apply RV. intros i j Hi E Hj. rewrite E, (proj2 (Nat.ltb_lt j n)) by (unfold p in Hj; lia). reflexivity.
      * apply CV. intros i j Hj E Hi. rewrite E, (proj2 (Nat.ltb_lt i m)) by (unfold p in Hi; lia). reflexivity.
Qed.

(** ** maximisation *)
Lemma NoDup_cells : forall m n, NoDup (cells m n).
Proof.
  intros m n. unfold cells.
  assert (G : forall l : list nat, NoDup l -> NoDup (flat_map (fun j => map (fun i => (i, j)) (seq 0 m)) l)).
  { induction l as [|j l IH]; intros N; cbn; [constructor|]. inversion N; subst. apply NoDup_app_intro.
    - apply FinFun.Injective_map_NoDup; [intros x y E; congruence|apply seq_NoDup].
    - apply IH; assumption.
    - intros x H H'. apply in_map_iff in H. destruct H as [i [<- _]]. apply in_flat_map in H'.
      destruct H' as [j' [Hj' H']]. apply in_map_iff in H'. destruct H' as [i' [E _]]. inversion E; subst. contradiction. }
  apply G, seq_NoDup.
Qed.

Lemma addr_inj : forall lda i j i' j', i < lda -> i' < lda -> j * lda + i = j' * lda + i' -> i = i' /\ j = j'.
Proof. intros. assert (j = j') by nia. split; nia. Qed.

Lemma max2min_val : forall m n (A : nat -> R) lda, m <= lda ->
  (forall i j, i < m -> j < n ->
     mref (max2min Rminus Rle_b m n A lda) lda i j = (mat_max Rle_b m n (mref A lda) - mref A lda i j)%R) /\
  (forall a, (forall i j, i < m -> j < n -> a <> j * lda + i) -> max2min Rminus Rle_b m n A lda a = A a).
Proof.
  intros m n A lda Hl. unfold max2min. cbv zeta. set (mx := mat_max Rle_b m n (mref A lda)).
  assert (G : forall l B, NoDup l -> (forall i j, In (i, j) l -> i < m) ->
    let B' := fold_left (fun B p => fun a => if a =? snd p * lda + fst p then (mx - mref B lda (fst p) (snd p))%R else B a) l B in
    (forall i j, In (i, j) l -> B' (j * lda + i) = (mx - B (j * lda + i)%nat)%R) /\
    (forall a, (forall i j, In (i, j) l -> a <> j * lda + i) -> B' a = B a)).
  { induction l as [|[i j] l IH]; intros B N Bd; cbn [fold_left fst snd].
    - split; [intros i j []|reflexivity].
    - inversion N; subst. cbv zeta.
      set (B1 := fun a => if a =? j * lda + i then (mx - mref B lda i j)%R else B a).
      destruct (IH B1 H2) as [I1 I2]; [intros; eapply Bd; right; eassumption|]. split.
      + intros i' j' [E|H].
        * inversion E; subst i' j'. rewrite I2.
          -- unfold B1. rewrite Nat.eqb_refl. reflexivity.
          -- intros a b Hab E2. pose proof (Bd a b (or_intror Hab)). pose proof (Bd i j (or_introl eq_refl)).
             destruct (addr_inj lda i j a b) as [-> ->]; [lia|lia|exact E2|]. contradiction.
        * rewrite I1 by exact H. unfold B1. destruct (j' * lda + i' =? j * lda + i) eqn:E; [|reflexivity].
          apply Nat.eqb_eq in E. pose proof (Bd i' j' (or_intror H)). pose proof (Bd i j (or_introl eq_refl)).
          destruct (addr_inj lda i' j' i j) as [-> ->]; [lia|lia|exact E|]. contradiction.
      + intros a Ha. rewrite I2 by (intros; apply Ha; right; assumption). unfold B1.
        destruct (a =? j * lda + i) eqn:E; [|reflexivity]. apply Nat.eqb_eq in E. exfalso. exact (Ha i j (or_introl eq_refl) E). }
  destruct (G (cells m n) A (NoDup_cells m n)) as [G1 G2]; [intros i j H; apply in_cells in H; tauto|].
  split.
  - intros i j Hi Hj. unfold mref at 1. apply G1. apply in_cells. auto.
  - intros a Ha. apply G2. intros i j H. apply in_cells in H. apply Ha; tauto.
Qed.

Lemma mat_max_in : forall m n x, 0 < m -> 0 < n -> exists i j, i < m /\ j < n /\ mat_max Rle_b m n x = x i j.
Proof.
  intros m n x Hm Hn. unfold mat_max.
  assert (G : forall l xm, (forall i j, In (i, j) l -> i < m /\ j < n) -> (exists i j, i < m /\ j < n /\ xm = x i j) ->
     exists i j, i < m /\ j < n /\
       fold_left (fun xm p => if ltb Rle_b xm (x (fst p) (snd p)) then x (fst p) (snd p) else xm) l xm = x i j).
  { induction l as [|[a b] l IH]; intros xm Bd H; cbn [fold_left fst snd]; [exact H|]. apply IH.
    - intros i j Hij. apply Bd. right. exact Hij.
    - destruct (ltb Rle_b xm (x a b)); [|exact H]. destruct (Bd a b (or_introl eq_refl)). exists a, b. auto. }
  apply G; [intros i j H; apply in_rcells in H; exact H|]. exists 0, 0. auto.
Qed.
Lemma max2min_entries : forall m n (A : nat -> R) lda, 0 < m -> 0 < n -> m <= lda ->
  exists mx, (forall i j, i < m -> j < n -> (mref A lda i j <= mx)%R) /\
    (exists i j, i < m /\ j < n /\ mref A lda i j = mx) /\
    (forall i j, i < m -> j < n -> mref (max2min Rminus Rle_b m n A lda) lda i j = (mx - mref A lda i j)%R) /\
    (forall a, (forall i j, i < m -> j < n -> a <> j * lda + i) -> max2min Rminus Rle_b m n A lda a = A a).
Proof.
  intros m n A lda Hm Hn Hl. exists (mat_max Rle_b m n (mref A lda)).
  split; [intros; apply mat_max_ge; assumption|]. split.
  - destruct (mat_max_in m n (mref A lda) Hm Hn) as [i [j [Hi [Hj E]]]]. exists i, j. auto.
  - apply max2min_val, Hl.
Qed.

Lemma total_shift : forall A mx L, total (fun i j => mx - A i j)%R L = (INR (length L) * mx - total A L)%R.
Proof.
  induction L as [|[i j] L IH]; [cbn; lra|]. cbn [total]. rewrite IH.
  change (length ((i, j) :: L)) with (S (length L)). rewrite S_INR. lra.
Qed.

Lemma min_of_shift : forall m n A mx L, min_assignment m n (fun i j => mx - A i j)%R L -> max_assignment m n A L.
Proof.
  intros m n A mx L [ML Mn]. split; [exact ML|]. intros L' ML'. specialize (Mn L' ML').
  rewrite !total_shift in Mn. destruct ML as [_ [_ [_ E]]]. destruct ML' as [_ [_ [_ E']]]. rewrite E, E' in Mn. lra.
Qed.

Lemma assign_max : forall fuel m n A lda row col alt r c, 0 < m -> 0 < n -> m <= lda ->
  assignR fuel m n (max2min Rminus Rle_b m n A lda) lda row col alt = Done (r, c) ->
  exists L, max_assignment m n (mref A lda) L /\ row_vector m L r /\ col_vector n L c.
Proof.
  intros fuel m n A lda row col alt r c Hm Hn Hl E.
  pose proof (assign_ok fuel m n (max2min Rminus Rle_b m n A lda) lda row col alt Hm Hn) as O. rewrite E in O.
  destruct O as [L [MA [RV CV]]]. exists L. split; [|split; assumption].
  apply (min_of_shift m n _ (mat_max Rle_b m n (mref A lda))).
  refine (min_assignment_ext m n _ _ L _ MA). intros. apply max2min_val; assumption.
Qed.

(** ** more passes do not change the result *)
Lemma loop_mono : forall T (zero : T) add sub leb fuel n maxc s s' k,
  loop zero add sub leb fuel n maxc s = Done s' -> loop zero add sub leb (fuel + k) n maxc s = Done s'.
Proof.
  induction fuel as [|f IH]; intros n maxc s s' k E; [discriminate|].
  cbn [loop plus] in *. destruct (hph s).
  - destruct (step3 zero leb n s) as [[[|] s1]| | |]; try discriminate; [exact E|]. apply IH, E.
  - apply IH, E.
  - destruct (step5 n zi zj s) as [s1| | |]; try discriminate. apply IH, E.
  - apply IH, E.
Qed.
Lemma assign_mono : forall T (zero : T) add sub leb fuel m n A lda row col alt x k,
  assign_hungarian zero add sub leb fuel m n A lda row col alt = Done x ->
  assign_hungarian zero add sub leb (fuel + k) m n A lda row col alt = Done x.
Proof.
  intros until k. unfold assign_hungarian. cbv zeta. unfold opt_hungarian.
  destruct (loop zero add sub leb fuel _ _ _) as [s| | |] eqn:E; try discriminate.
  rewrite (loop_mono _ _ _ _ _ _ _ _ _ _ k E). auto.
Qed.

(** ** the same run on integers *)
Section Transfer.
Context {T U : Type} (f : T -> U) (z1 : T) (a1 s1 : T -> T -> T) (l1 : T -> T -> bool)
  (z2 : U) (a2 s2 : U -> U -> U) (l2 : U -> U -> bool).
Hypothesis Hz : f z1 = z2.
Hypothesis Ha : forall x y, f (a1 x y) = a2 (f x) (f y).
Hypothesis Hs : forall x y, f (s1 x y) = s2 (f x) (f y).
Hypothesis Hl : forall x y, l2 (f x) (f y) = l1 x y.

Definition mmap (M : list (list T)) : list (list U) := map (map f) M.
Definition lift (s : hst T) : hst U := mkh (mmap (hA s)) (hmask s) (hrc s) (hcc s) (hph s).
Definition omap {X Y} (g : X -> Y) (o : outcome X) : outcome Y :=
  match o with Done x => Done (g x) | NoFuel => NoFuel | AssertFail => AssertFail | Overflow => Overflow end.

Lemma get_mmap : forall M i j, get z2 (mmap M) i j = f (get z1 M i j).
Proof.
  intros. unfold get, mmap. change (@nil U) with (map f []). rewrite map_nth. rewrite <- Hz. apply map_nth.
Qed.
Lemma mmap_tab : forall n g, mmap (tab n g) = tab n (fun i j => f (g i j)).
Proof. intros. unfold mmap, tab. rewrite map_map. apply map_ext. intro. apply map_map. Qed.
Lemma tab_ext : forall X n (g h : nat -> nat -> X), (forall i j, g i j = h i j) -> tab n g = tab n h.
Proof. intros. unfold tab. apply map_ext. intro. apply map_ext. intro. apply H. Qed.
Lemma ltb_lift : forall x y, ltb l2 (f x) (f y) = ltb l1 x y.
Proof. intros. unfold ltb. rewrite Hl. reflexivity. Qed.

Lemma minloc_lift : forall n x y, (forall i, y i = f (x i)) -> minloc l2 n y = minloc l1 n x.
Proof.
  intros n x y E. unfold minloc. rewrite E.
  assert (G : forall l p, fold_left (fun s i => if ltb l2 (y i) (snd s) then (i, y i) else s) l (fst p, f (snd p)) =
     (fst (fold_left (fun s i => if ltb l1 (x i) (snd s) then (i, x i) else s) l p),
      f (snd (fold_left (fun s i => if ltb l1 (x i) (snd s) then (i, x i) else s) l p)))).
  { induction l as [|a l IH]; intros p; cbn [fold_left fst snd]; [reflexivity|].
    rewrite E, ltb_lift. destruct (ltb l1 (x a) (snd p)).
    - apply (IH (a, x a)).
    - apply IH. }
  rewrite (G _ (0, x 0)). reflexivity.
Qed.
Lemma mat_max_lift : forall m n x y, (forall i j, y i j = f (x i j)) -> mat_max l2 m n y = f (mat_max l1 m n x).
Proof.
  intros m n x y E. unfold mat_max. rewrite E.
  assert (G : forall l v, fold_left (fun xm p => if ltb l2 xm (y (fst p) (snd p)) then y (fst p) (snd p) else xm) l (f v) =
     f (fold_left (fun xm p => if ltb l1 xm (x (fst p) (snd p)) then x (fst p) (snd p) else xm) l v)).
  { induction l as [|a l IH]; intros v; cbn [fold_left]; [reflexivity|]. rewrite E, ltb_lift.
    destruct (ltb l1 v (x (fst a) (snd a))); apply IH. }
  apply G.
Qed.

Lemma red_cols_lift : forall n A, red_cols z2 s2 l2 n (mmap A) = mmap (red_cols z1 s1 l1 n A).
Proof.
  intros. unfold red_cols. rewrite mmap_tab. apply tab_ext. intros i j. rewrite Hs.
  rewrite (minloc_lift n (fun i' => get z1 A i' j)) by (intro; apply get_mmap). rewrite !get_mmap. reflexivity.
Qed.
Lemma red_rows_lift : forall n A, red_rows z2 s2 l2 n (mmap A) = mmap (red_rows z1 s1 l1 n A).
Proof.
  intros. unfold red_rows. rewrite mmap_tab. apply tab_ext. intros i j. rewrite Hs.
  rewrite (minloc_lift n (fun j' => get z1 A i j')) by (intro; apply get_mmap). rewrite !get_mmap. reflexivity.
Qed.
Lemma cA_lift : forall s i j, cA z2 (lift s) i j = f (cA z1 s i j).
Proof. intros. unfold cA, lift. cbn [hA]. apply get_mmap. Qed.
Lemma open_lift : forall s p, open_zero z2 l2 (lift s) p = open_zero z1 l1 s p.
Proof. intros. unfold open_zero. rewrite cA_lift, <- Hz, Hl. reflexivity. Qed.
Lemma find_ext : forall X (g h : X -> bool) l, (forall x, g x = h x) -> find g l = find h l.
Proof. induction l as [|a l IH]; intros E; cbn; [reflexivity|]. rewrite E, IH by exact E. reflexivity. Qed.
Lemma star_col_lift : forall n s j, star_col z2 l2 n (lift s) j = lift (star_col z1 l1 n s j).
Proof.
  intros. unfold star_col. rewrite (find_ext _ _ _ _ (open_lift s)).
  destruct (find (open_zero z1 l1 s) (map (fun i => (i, j)) (seq 0 n))) as [[i x]|]; reflexivity.
Qed.
Lemma init_lift : forall n A, init z2 s2 l2 n (mmap A) = lift (init z1 s1 l1 n A).
Proof.
  intros. unfold init. cbv zeta. rewrite red_cols_lift, red_rows_lift.
  set (s0 := mkh (red_rows z1 s1 l1 n (red_cols z1 s1 l1 n A)) (tab n (fun _ _ => 0)) (vtab n (fun _ => false)) (vtab n (fun _ => false)) S3).
  change (mkh (mmap (red_rows z1 s1 l1 n (red_cols z1 s1 l1 n A))) (tab n (fun _ _ => 0)) (vtab n (fun _ => false)) (vtab n (fun _ => false)) S3) with (lift s0).
  assert (G : forall l s, fold_left (star_col z2 l2 n) l (lift s) = lift (fold_left (star_col z1 l1 n) l s)).
  { induction l as [|j l IH]; intros s; cbn [fold_left]; [reflexivity|]. rewrite star_col_lift. apply IH. }
  rewrite G. reflexivity.
Qed.
Lemma step3_lift : forall n s, step3 z2 l2 n (lift s) = omap (fun q => (fst q, lift (snd q))) (step3 z1 l1 n s).
Proof.
  intros. unfold step3.
  assert (E : forallb (fun p => if mk (lift s) (fst p) (snd p) =? 1 then l2 (cA z2 (lift s) (fst p) (snd p)) z2 else true) (cells n n) =
              forallb (fun p => if mk s (fst p) (snd p) =? 1 then l1 (cA z1 s (fst p) (snd p)) z1 else true) (cells n n)).
  { induction (cells n n) as [|p l IH]; [reflexivity|]. cbn [forallb]. rewrite IH, cA_lift, <- Hz, Hl. reflexivity. }
  rewrite E. match goal with |- context [forallb ?a ?b] => destruct (forallb a b) end; [|reflexivity]. cbv zeta.
  change (hmask (lift s)) with (hmask s). unfold ccov, mk. cbn [lift hcc hmask hrc hA].
  destruct (n <=? _); reflexivity.
Qed.
Lemma step4_lift : forall n s, step4 z2 l2 n (lift s) = lift (step4 z1 l1 n s).
Proof.
  intros. unfold step4. rewrite (find_ext _ _ _ _ (open_lift s)).
  destruct (find (open_zero z1 l1 s) (cells n n)) as [[i j]|]; [|reflexivity]. cbv zeta. cbn [lift hmask hrc hcc hA].
  destruct (find _ (seq 0 n)); reflexivity.
Qed.
Lemma step5_lift : forall n zi zj s, step5 n zi zj (lift s) = omap lift (step5 n zi zj s).
Proof. intros. unfold step5. cbv zeta. cbn [lift hmask hA]. destruct (n * n <? _); reflexivity. Qed.
Lemma step6_lift : forall n maxc s, step6 z2 a2 s2 l2 n (f maxc) (lift s) = lift (step6 z1 a1 s1 l1 n maxc s).
Proof.
  intros. unfold step6. cbv zeta.
  assert (E : minval z2 l2 n (f maxc) (lift s) = f (minval z1 l1 n maxc s)).
  { unfold minval. revert maxc. induction (cells n n) as [|p l IH]; intros maxc; cbn [fold_left]; [reflexivity|].
    rewrite cA_lift, ltb_lift. change (rcov (lift s)) with (rcov s). change (ccov (lift s)) with (ccov s).
    destruct (negb (rcov s (fst p)) && negb (ccov s (snd p)) && ltb l1 (cA z1 s (fst p) (snd p)) maxc); apply IH. }
  rewrite E.
  match goal with |- _ = lift (mkh (tab n ?g) ?a ?b ?c ?d) =>
    change (lift (mkh (tab n g) a b c d)) with (mkh (mmap (tab n g)) a b c d); rewrite (mmap_tab n g) end.
  change (hmask (lift s)) with (hmask s). change (hrc (lift s)) with (hrc s). change (hcc (lift s)) with (hcc s).
  f_equal. apply tab_ext. intros i j.
  rewrite cA_lift. change (rcov (lift s)) with (rcov s). change (ccov (lift s)) with (ccov s).
  destruct (rcov s i), (ccov s j); rewrite ?Hs, ?Ha; reflexivity.
Qed.
Lemma loop_lift : forall fuel n maxc s, loop z2 a2 s2 l2 fuel n (f maxc) (lift s) = omap lift (loop z1 a1 s1 l1 fuel n maxc s).
Proof.
  induction fuel as [|k IH]; intros n maxc s; [reflexivity|]. cbn [loop].
  change (hph (lift s)) with (hph s). destruct (hph s).
  - rewrite step3_lift. destruct (step3 z1 l1 n s) as [[[|] s']| | |]; cbn [omap fst snd]; try reflexivity. apply IH.
  - rewrite step4_lift. apply IH.
  - rewrite step5_lift. destruct (step5 n zi zj s); cbn [omap]; try reflexivity. apply IH.
  - rewrite step6_lift. apply IH.
Qed.
Lemma assign_lift : forall fuel m n A lda row col alt,
  assign_hungarian z2 a2 s2 l2 fuel m n (fun a => f (A a)) lda row col alt =
  assign_hungarian z1 a1 s1 l1 fuel m n A lda row col alt.
Proof.
  intros. unfold assign_hungarian. cbv zeta. set (p := Nat.max m n).
  assert (E : pad z2 m n (fun a => f (A a)) lda = mmap (pad z1 m n A lda)).
  { unfold pad. rewrite mmap_tab. apply tab_ext. intros i j. destruct ((i <? m) && (j <? n)); [reflexivity|symmetry; exact Hz]. }
  rewrite E. unfold opt_hungarian. rewrite init_lift.
  rewrite (mat_max_lift p p (get z1 (pad z1 m n A lda))) by (intros; apply get_mmap).
  rewrite loop_lift. destruct (loop z1 a1 s1 l1 fuel p _ _); reflexivity.
Qed.
End Transfer.

Lemma assign_IZR : forall fuel m n (A : nat -> Z) lda row col alt,
  assignR fuel m n (fun a => IZR (A a)) lda row col alt =
  assign_hungarian 0%Z Z.add Z.sub Z.leb fuel m n A lda row col alt.
Proof.
  intros. apply assign_lift.
  - reflexivity.
  - exact plus_IZR.
  - exact minus_IZR.
  - intros x y. unfold Rle_b. destruct (Rle_dec (IZR x) (IZR y)) as [H|H].
    + apply le_IZR in H. symmetry. apply Z.leb_le, H.
    + symmetry. apply Z.leb_gt. destruct (Z_lt_le_dec y x); [assumption|]. exfalso. apply H. apply IZR_le. assumption.
Qed.

(** ** runs that do not end *)
Fixpoint adv {T} (zero : T) (add sub : T -> T -> T) leb (k n : nat) (maxc : T) (s : hst T) : option (hst T) :=
  match k with
  | 0 => Some s
  | S k' => match hph s with
            | S3 => match step3 zero leb n s with Done (false, s') => adv zero add sub leb k' n maxc s' | _ => None end
            | S4 => adv zero add sub leb k' n maxc (step4 zero leb n s)
            | S5 zi zj => match step5 n zi zj s with Done s' => adv zero add sub leb k' n maxc s' | _ => None end
            | S6 => adv zero add sub leb k' n maxc (step6 zero add sub leb n maxc s)
            end
  end.
Lemma adv_loop : forall T (zero : T) add sub leb k n maxc s s' fuel,
  adv zero add sub leb k n maxc s = Some s' ->
  loop zero add sub leb fuel n maxc s = NoFuel \/
  exists f, fuel = k + f /\ loop zero add sub leb fuel n maxc s = loop zero add sub leb f n maxc s'.
Proof.
  induction k as [|k IH]; intros n maxc s s' fuel E; cbn [adv] in E.
  - inversion E; subst. right. exists fuel. split; reflexivity.
  - destruct fuel as [|f]; [left; reflexivity|]. cbn [loop]. destruct (hph s).
    + destruct (step3 zero leb n s) as [[[|] s1]| | |]; try discriminate.
      destruct (IH n maxc s1 s' f E) as [H|[g [-> H]]]; [left; exact H|right; exists g; auto].
    + destruct (IH n maxc _ s' f E) as [H|[g [-> H]]]; [left; exact H|right; exists g; auto].
    + destruct (step5 n zi zj s) as [s1| | |]; try discriminate.
      destruct (IH n maxc s1 s' f E) as [H|[g [-> H]]]; [left; exact H|right; exists g; auto].
    + destruct (IH n maxc _ s' f E) as [H|[g [-> H]]]; [left; exact H|right; exists g; auto].
Qed.
Lemma cycle_loop : forall T (zero : T) add sub leb k n maxc s, 0 < k ->
  adv zero add sub leb k n maxc s = Some s -> forall fuel, loop zero add sub leb fuel n maxc s = NoFuel.
Proof.
  intros T zero add sub leb k n maxc s Hk E. induction fuel as [fuel IH] using (well_founded_induction lt_wf).
  destruct (adv_loop _ _ _ _ _ _ _ _ _ _ fuel E) as [H|[f [-> H]]]; [exact H|]. rewrite H. apply IH. lia.
Qed.
Lemma lasso : forall T (zero : T) add sub leb k q n maxc s s', 0 < q ->
  adv zero add sub leb k n maxc s = Some s' -> adv zero add sub leb q n maxc s' = Some s' ->
  forall fuel, loop zero add sub leb fuel n maxc s = NoFuel.
Proof.
  intros T zero add sub leb k q n maxc s s' Hq E1 E2 fuel.
  destruct (adv_loop _ _ _ _ _ _ _ _ _ _ fuel E1) as [H|[f [-> H]]]; [exact H|]. rewrite H. eapply cycle_loop; eassumption.
Qed.

(** the column-major contents of a 4 by 4 matrix of zeros and ones on which the search goes on for ever:
<<
      1 1 1 0
      1 0 0 1
      1 1 1 0
      0 0 1 0
>>
    and of a 3 by 3 matrix of costs that are not positive:
<<
      0  0 -1
      0  0 -1
     -1 -1 -1
>> *)
Definition endless4 (a : nat) : Z := nth a [1;1;1;0; 1;0;1;0; 1;0;1;1; 0;1;0;0]%Z 0%Z.
Definition endless3 (a : nat) : Z := nth a [0;0;-1; 0;0;-1; -1;-1;-1]%Z 0%Z.

Lemma endless4_loop : forall fuel row col alt,
  assignR fuel 4 4 (fun a => IZR (endless4 a)) 4 row col alt = NoFuel.
Proof.
  intros. rewrite assign_IZR. unfold assign_hungarian, opt_hungarian. cbv zeta. change (Nat.max 4 4) with 4.
  set (P := pad 0%Z 4 4 endless4 4).
  set (k := 13). set (q := 2).
  set (o := adv 0%Z Z.add Z.sub Z.leb k 4 (mat_max Z.leb 4 4 (get 0%Z P)) (init 0%Z Z.sub Z.leb 4 P)).
  assert (E : match o with Some s => adv 0%Z Z.add Z.sub Z.leb q 4 (mat_max Z.leb 4 4 (get 0%Z P)) s = Some s | None => False end)
    by (vm_compute; reflexivity).
  destruct o as [s|] eqn:O; [|destruct E].
  rewrite (lasso _ _ _ _ _ k q 4 _ _ s ltac:(unfold q; lia) O E). reflexivity.
Qed.
Lemma endless3_loop : forall fuel row col alt,
  assignR fuel 3 3 (fun a => IZR (endless3 a)) 3 row col alt = NoFuel.
Proof.
  intros. rewrite assign_IZR. unfold assign_hungarian, opt_hungarian. cbv zeta. change (Nat.max 3 3) with 3.
  set (P := pad 0%Z 3 3 endless3 3).
  set (k := 2). set (q := 2).
  set (o := adv 0%Z Z.add Z.sub Z.leb k 3 (mat_max Z.leb 3 3 (get 0%Z P)) (init 0%Z Z.sub Z.leb 3 P)).
  assert (E : match o with Some s => adv 0%Z Z.add Z.sub Z.leb q 3 (mat_max Z.leb 3 3 (get 0%Z P)) s = Some s | None => False end)
    by (vm_compute; reflexivity).
  destruct o as [s|] eqn:O; [|destruct E].
  rewrite (lasso _ _ _ _ _ k q 3 _ _ s ltac:(unfold q; lia) O E). reflexivity.
Qed.
