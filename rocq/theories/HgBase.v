(** Tables, the invariant of the assignment solver, and its preservation by every step. *)
From Coq Require Import List Arith ZArith Bool Reals Lra Lia.
From Verif Require Import TrModel HgModel.
Import ListNotations.
Open Scope nat_scope.

Lemma nth_map_seq : forall X (f : nat -> X) n i d, i < n -> nth i (map f (seq 0 n)) d = f i.
Proof.
  intros X f n i d H.
  rewrite (nth_indep _ d (f 0)) by (rewrite map_length, seq_length; exact H).
  rewrite map_nth. rewrite seq_nth by exact H. reflexivity.
Qed.

Lemma get_tab : forall X (d : X) n f i j, i < n -> j < n -> get d (tab n f) i j = f i j.
Proof.
  intros X d n f i j Hi Hj. unfold get, tab.
  rewrite (nth_map_seq _ (fun i => map (f i) (seq 0 n))) by exact Hi.
  apply nth_map_seq, Hj.
Qed.

Lemma nth_vtab : forall X n (f : nat -> X) i d, i < n -> nth i (vtab n f) d = f i.
Proof. intros. apply nth_map_seq. assumption. Qed.

Lemma nth_vset : forall X n (d : X) v k x i, i < n -> nth i (vset n d v k x) d = if Nat.eqb i k then x else nth i v d.
Proof. intros. unfold vset. rewrite nth_vtab by assumption. reflexivity. Qed.

Lemma get_mset : forall n M i j x i' j', i' < n -> j' < n ->
  get 0 (mset n M i j x) i' j' = if Nat.eqb i' i && Nat.eqb j' j then x else get 0 M i' j'.
Proof. intros. unfold mset. rewrite get_tab by assumption. reflexivity. Qed.

Lemma in_cells : forall m n i j, In (i, j) (cells m n) <-> i < m /\ j < n.
Proof.
  intros m n i j. unfold cells. rewrite in_flat_map. split.
  - intros [j' [Hj H]]. apply in_map_iff in H. destruct H as [i' [E H]]. inversion E; subst.
    apply in_seq in Hj. apply in_seq in H. lia.
  - intros [Hi Hj]. exists j. split; [apply in_seq; lia|]. apply in_map_iff. exists i. split; [reflexivity|apply in_seq; lia].
Qed.

Lemma in_rcells : forall m n i j, In (i, j) (rcells m n) <-> i < m /\ j < n.
Proof.
  intros m n i j. unfold rcells. rewrite in_flat_map. split.
  - intros [i' [Hi H]]. apply in_map_iff in H. destruct H as [j' [E H]]. inversion E; subst.
    apply in_seq in Hi. apply in_seq in H. lia.
  - intros [Hi Hj]. exists i. split; [apply in_seq; lia|]. apply in_map_iff. exists j. split; [reflexivity|apply in_seq; lia].
Qed.

(** ** the solver over the reals *)
Notation stR := (hst R).
Definition cR (s : stR) := cA 0%R s.
Notation open := (open_zero 0%R Rle_b).

Lemma Rle_b_true : forall a b, Rle_b a b = true <-> (a <= b)%R.
Proof. intros. unfold Rle_b. destruct (Rle_dec a b); split; intro H; try discriminate; auto; contradiction. Qed.
Lemma ltb_true : forall a b, ltb Rle_b a b = true <-> (a < b)%R.
Proof. intros. unfold ltb, Rle_b. destruct (Rle_dec b a); cbn; split; intro H; try discriminate; auto; lra. Qed.
Lemma ltb_false : forall a b, ltb Rle_b a b = false <-> (b <= a)%R.
Proof. intros. unfold ltb, Rle_b. destruct (Rle_dec b a); cbn; split; intro H; try discriminate; auto; lra. Qed.

Lemma minloc_spec : forall n x, 0 < n ->
  minloc Rle_b n x < n /\ forall i, i < n -> (x (minloc Rle_b n x) <= x i)%R.
Proof.
  intros n x Hn. unfold minloc.
  assert (G : forall l p, snd p = x (fst p) -> fst p < n -> (forall i, In i l -> i < n) ->
     let q := fold_left (fun s i => if ltb Rle_b (x i) (snd s) then (i, x i) else s) l p in
     snd q = x (fst q) /\ fst q < n /\ (snd q <= snd p)%R /\ forall i, In i l -> (snd q <= x i)%R).
  { induction l as [|a l IH]; intros p E L I; cbn [fold_left].
    - cbn. split; [exact E|]. split; [exact L|]. split; [lra|]. intros i [].
    - assert (Ha : a < n) by (apply I; left; reflexivity).
      assert (I' : forall i, In i l -> i < n) by (intros; apply I; right; assumption).
      destruct (ltb Rle_b (x a) (snd p)) eqn:C.
      + apply ltb_true in C. destruct (IH (a, x a) eq_refl Ha I') as [A [B [D F]]]. cbv zeta.
        split; [exact A|]. split; [exact B|]. cbn [snd] in D. split; [lra|].
        intros i [->|Hi]; [exact D|apply F, Hi].
      + apply ltb_false in C. destruct (IH p E L I') as [A [B [D F]]]. cbv zeta.
        split; [exact A|]. split; [exact B|]. split; [lra|].
        intros i [->|Hi]; [lra|apply F, Hi]. }
  destruct (G (seq 1 (n - 1)) (0, x 0) eq_refl Hn) as [A [B [D F]]].
  { intros i Hi. apply in_seq in Hi. lia. }
  split; [exact B|]. intros i Hi. rewrite <- A.
  destruct i; [exact D|apply F, in_seq; lia].
Qed.

Lemma mat_max_ge : forall m n x i j, i < m -> j < n -> (x i j <= mat_max Rle_b m n x)%R.
Proof.
  intros m n x i j Hi Hj. unfold mat_max.
  assert (G : forall l xm, let q := fold_left (fun xm p => if ltb Rle_b xm (x (fst p) (snd p)) then x (fst p) (snd p) else xm) l xm in
     (xm <= q)%R /\ forall p, In p l -> (x (fst p) (snd p) <= q)%R).
  { induction l as [|a l IH]; intros xm; cbn [fold_left].
    - cbn. split; [lra|]. intros p [].
    - destruct (ltb Rle_b xm (x (fst a) (snd a))) eqn:C.
      + apply ltb_true in C. destruct (IH (x (fst a) (snd a))) as [A B]. cbv zeta. split; [lra|].
        intros p [->|H]; [exact A|apply B, H].
      + apply ltb_false in C. destruct (IH xm) as [A B]. cbv zeta. split; [exact A|].
        intros p [->|H]; [lra|apply B, H]. }
  destruct (G (rcells m n) (x 0 0)) as [_ B].
  exact (B (i, j) (proj2 (in_rcells m n i j) (conj Hi Hj))).
Qed.

(** ** the invariant *)
Definition star n (s : stR) i j := i < n /\ j < n /\ mk s i j = 1.
Definition prime n (s : stR) i j := i < n /\ j < n /\ mk s i j = 2.
Definition no_open n s := forall i j, i < n -> j < n -> rcov s i = false -> ccov s j = false -> (0 < cR s i j)%R.

Record inv (n : nat) (A0 : nat -> nat -> R) (s : stR) : Prop := {
  i_dual : exists u v : nat -> R, forall i j, i < n -> j < n -> cR s i j = (A0 i j - u i - v j)%R;
  i_pos : forall i j, i < n -> j < n -> (0 <= cR s i j)%R;
  i_star : forall i j, star n s i j -> (cR s i j <= 0)%R;
  i_prime : forall i j, prime n s i j -> (cR s i j <= 0)%R;
  i_row : forall i j j', star n s i j -> star n s i j' -> j = j';
  i_ph : match hph s with
         | S3 => (forall i j, ~ prime n s i j) /\ (forall i, i < n -> rcov s i = false) /\ (forall j, j < n -> ccov s j = false)
         | S4 => (forall i, i < n -> rcov s i = true -> exists k, star n s i k /\ ccov s k = false) /\
                 (forall i j, prime n s i j -> rcov s i = true /\ ccov s j = false)
         | S5 zi zj => prime n s zi zj /\ forall k, ~ star n s zi k
         | S6 => (forall i, i < n -> rcov s i = true -> exists k, star n s i k /\ ccov s k = false) /\
                 (forall i j, prime n s i j -> rcov s i = true /\ ccov s j = false) /\ no_open n s
         end }.

Lemma open_true : forall (s : stR) i j, open s (i, j) = true <-> (cR s i j <= 0)%R /\ rcov s i = false /\ ccov s j = false.
Proof.
  intros. unfold open_zero, cR. cbn [fst snd]. rewrite !andb_true_iff, !negb_true_iff, Rle_b_true. tauto.
Qed.

Lemma find_open_none : forall n (s : stR), find (open s) (cells n n) = None -> no_open n s.
Proof.
  intros n s H i j Hi Hj Hr Hc.
  destruct (Rlt_le_dec 0 (cR s i j)) as [|L]; [assumption|]. exfalso.
  assert (O : open s (i, j) = true) by (apply open_true; auto).
  pose proof (find_none _ _ H (i, j) (proj2 (in_cells n n i j) (conj Hi Hj))). congruence.
Qed.

(** ** step 3 *)
Lemma step3_assert : forall n A0 s, inv n A0 s -> hph s = S3 ->
  exists b s', step3 0%R Rle_b n s = Done (b, s').
Proof.
  intros n A0 s I P. unfold step3.
  assert (E : forallb (fun p => if mk s (fst p) (snd p) =? 1 then Rle_b (cA 0%R s (fst p) (snd p)) 0 else true) (cells n n) = true).
  { apply forallb_forall. intros [i j] H. apply in_cells in H. destruct H as [Hi Hj]. cbn [fst snd].
    destruct (mk s i j =? 1) eqn:C; [|reflexivity]. apply Nat.eqb_eq in C.
    apply Rle_b_true. apply (i_star _ _ _ I). repeat split; assumption. }
  rewrite E. cbv zeta. destruct (n <=? _); eauto.
Qed.

Lemma filter_all : forall X (f : X -> bool) l, length l <= length (filter f l) -> forall x, In x l -> f x = true.
Proof.
  induction l as [|a l IH]; intros H x Hx; [destruct Hx|].
  cbn in H. pose proof (fun (k : nat) => k) as _.
  assert (L : length (filter f l) <= length l) by (clear; induction l as [|b l IH]; cbn; [lia|destruct (f b); cbn; lia]).
  destruct (f a) eqn:E; cbn in H; [|lia].
  destruct Hx as [<-|Hx]; [exact E|]. apply IH; [lia|exact Hx].
Qed.

Lemma step3_ccov : forall n A0 s, inv n A0 s -> hph s = S3 -> forall j, j < n ->
  nth j (vtab n (fun j => ccov s j || existsb (fun i => mk s i j =? 1) (seq 0 n))) false = true ->
  exists i, star n s i j.
Proof.
  intros n A0 s I P j Hj H. rewrite nth_vtab in H by exact Hj.
  pose proof (i_ph _ _ _ I) as Q. rewrite P in Q. destruct Q as [_ [_ Q]].
  rewrite Q in H by exact Hj. cbn in H. apply existsb_exists in H. destruct H as [i [Hi H]].
  apply in_seq in Hi. apply Nat.eqb_eq in H. exists i. split; [lia|]. split; [exact Hj|exact H].
Qed.

Lemma step3_done : forall n A0 s s', inv n A0 s -> hph s = S3 -> step3 0%R Rle_b n s = Done (true, s') ->
  hmask s' = hmask s /\ forall j, j < n -> exists i, star n s i j.
Proof.
  intros n A0 s s' I P. unfold step3. destruct (forallb _ _); [|discriminate]. cbv zeta.
  destruct (n <=? _) eqn:C; [|discriminate]. intro E. inversion E; subst. split; [reflexivity|].
  intros j Hj. apply Nat.leb_le in C.
  apply (step3_ccov n A0 s I P j Hj).
  rewrite <- (seq_length n 0) in C at 1.
  refine (filter_all _ _ _ C j _). apply in_seq. lia.
Qed.

Lemma step3_next : forall n A0 s s', inv n A0 s -> hph s = S3 -> step3 0%R Rle_b n s = Done (false, s') -> inv n A0 s'.
Proof.
  intros n A0 s s' I P. unfold step3. destruct (forallb _ _); [|discriminate]. cbv zeta.
  destruct (n <=? _) eqn:C; [discriminate|]. intro E. inversion E; subst. clear E.
  pose proof (i_ph _ _ _ I) as Q. rewrite P in Q. destruct Q as [Q1 [Q2 _]].
  constructor.
  - exact (i_dual _ _ _ I).
  - exact (i_pos _ _ _ I).
  - exact (i_star _ _ _ I).
  - exact (i_prime _ _ _ I).
  - exact (i_row _ _ _ I).
  - cbn. split.
    + intros i Hi H. unfold rcov in H. cbn in H. unfold rcov in Q2. rewrite Q2 in H by exact Hi. discriminate.
    + intros i j H. exfalso. exact (Q1 i j H).
Qed.

(** ** step 4 *)
Lemma step4_inv : forall n A0 s, inv n A0 s -> hph s = S4 -> inv n A0 (step4 0%R Rle_b n s).
Proof.
  intros n A0 s I P. unfold step4.
  pose proof (i_ph _ _ _ I) as Q. rewrite P in Q. destruct Q as [Q1 Q2].
  destruct (find (open s) (cells n n)) as [[i j]|] eqn:F.
  - apply find_some in F. destruct F as [F O]. apply in_cells in F. destruct F as [Hi Hj].
    apply open_true in O. destruct O as [O1 [O2 O3]].
    cbv zeta. set (m := mset n (hmask s) i j 2).
    assert (Gm : forall i' j', i' < n -> j' < n -> get 0 m i' j' = if (i' =? i) && (j' =? j) then 2 else mk s i' j')
      by (intros; apply get_mset; assumption).
    assert (Old : forall i' j' t, t <> 2 -> i' < n -> j' < n -> get 0 m i' j' = t -> mk s i' j' = t).
    { intros i' j' t Ht Hi' Hj' E. rewrite Gm in E by assumption. destruct ((i' =? i) && (j' =? j)); [congruence|exact E]. }
    assert (P2 : forall i' j', i' < n -> j' < n -> get 0 m i' j' = 2 -> (i' = i /\ j' = j) \/ mk s i' j' = 2).
    { intros i' j' Hi' Hj' E. rewrite Gm in E by assumption. destruct ((i' =? i) && (j' =? j)) eqn:Z; [|right; exact E].
      apply andb_true_iff in Z. destruct Z as [Z1 Z2]. apply Nat.eqb_eq in Z1. apply Nat.eqb_eq in Z2. left. auto. }
    assert (Keep : forall i' j', i' < n -> j' < n -> i' <> i -> get 0 m i' j' = mk s i' j').
    { intros i' j' Hi' Hj' Ne. rewrite Gm by assumption. apply Nat.eqb_neq in Ne. rewrite Ne. reflexivity. }
    destruct (find (fun k => get 0 m i k =? 1) (seq 0 n)) as [k|] eqn:K.
    + apply find_some in K. destruct K as [K1 K2]. apply in_seq in K1. apply Nat.eqb_eq in K2.
      constructor.
      * exact (i_dual _ _ _ I).
      * exact (i_pos _ _ _ I).
      * intros i' j' [A [B C]]. apply (i_star _ _ _ I). split; [exact A|]. split; [exact B|].
        apply (Old i' j' 1); auto.
      * intros i' j' [A [B C]]. destruct (P2 i' j' A B C) as [[-> ->]|D]; [exact O1|].
        apply (i_prime _ _ _ I). repeat split; auto.
      * intros i' j' j'' [A [B C]] [A' [B' C']]. apply (i_row _ _ _ I i'); (split; [exact A|]; split; [assumption|]);
          apply (Old i' _ 1); auto.
      * cbn. split.
        -- intros i' Hi' R. unfold rcov in R. cbn in R. rewrite nth_vset in R by exact Hi'.
           destruct (i' =? i) eqn:Ei.
           ++ apply Nat.eqb_eq in Ei. subst i'. exists k. split.
              ** split; [exact Hi|]. split; [lia|exact K2].
              ** unfold ccov. cbn. rewrite nth_vset by lia. rewrite Nat.eqb_refl. reflexivity.
           ++ apply Nat.eqb_neq in Ei. destruct (Q1 i' Hi' R) as [k' [[A [B C]] D]]. exists k'. split.
              ** split; [exact A|]. split; [exact B|]. change (get 0 m i' k' = 1). rewrite Keep by assumption. exact C.
              ** unfold ccov. cbn. rewrite nth_vset by exact B. destruct (k' =? k); [reflexivity|exact D].
        -- intros i' j' [A [B C]]. unfold rcov, ccov. cbn. rewrite !nth_vset by assumption.
           destruct (P2 i' j' A B C) as [[-> ->]|D].
           ++ rewrite Nat.eqb_refl. split; [reflexivity|]. destruct (j =? k); [reflexivity|exact O3].
           ++ destruct (Q2 i' j' (conj A (conj B D))) as [X Y]. split.
              ** destruct (i' =? i); [reflexivity|exact X].
              ** destruct (j' =? k); [reflexivity|exact Y].
    + constructor.
      * exact (i_dual _ _ _ I).
      * exact (i_pos _ _ _ I).
      * intros i' j' [A [B C]]. apply (i_star _ _ _ I). split; [exact A|]. split; [exact B|].
        apply (Old i' j' 1); auto.
      * intros i' j' [A [B C]]. destruct (P2 i' j' A B C) as [[-> ->]|D]; [exact O1|].
        apply (i_prime _ _ _ I). repeat split; auto.
      * intros i' j' j'' [A [B C]] [A' [B' C']]. apply (i_row _ _ _ I i'); (split; [exact A|]; split; [assumption|]);
          apply (Old i' _ 1); auto.
      * cbn. split.
        -- split; [exact Hi|]. split; [exact Hj|]. change (get 0 m i j = 2). rewrite Gm by assumption.
           rewrite !Nat.eqb_refl. reflexivity.
        -- intros k [A [B C]]. pose proof (find_none _ _ K k) as N. cbv beta in N.
           assert (In k (seq 0 n)) by (apply in_seq; lia). specialize (N H). apply Nat.eqb_neq in N. apply N. exact C.
  - constructor.
    + exact (i_dual _ _ _ I).
    + exact (i_pos _ _ _ I).
    + exact (i_star _ _ _ I).
    + exact (i_prime _ _ _ I).
    + exact (i_row _ _ _ I).
    + cbn. split; [exact Q1|]. split; [exact Q2|]. exact (find_open_none n s F).
Qed.

(** ** step 6 *)
Lemma minval_spec : forall n maxc (s : stR),
  (minval 0%R Rle_b n maxc s <= maxc)%R /\
  (forall i j, i < n -> j < n -> rcov s i = false -> ccov s j = false -> (minval 0%R Rle_b n maxc s <= cR s i j)%R) /\
  (forall b, (b <= maxc)%R -> (forall i j, i < n -> j < n -> rcov s i = false -> ccov s j = false -> (b <= cR s i j)%R) ->
     (b <= minval 0%R Rle_b n maxc s)%R).
Proof.
  intros n maxc s. unfold minval.
  assert (G : forall l mv, let q := fold_left (fun mv p => if negb (rcov s (fst p)) && negb (ccov s (snd p)) && ltb Rle_b (cA 0%R s (fst p) (snd p)) mv
                         then cA 0%R s (fst p) (snd p) else mv) l mv in
    (q <= mv)%R /\ (forall i j, In (i, j) l -> rcov s i = false -> ccov s j = false -> (q <= cR s i j)%R) /\
    forall b, (b <= mv)%R -> (forall i j, In (i, j) l -> rcov s i = false -> ccov s j = false -> (b <= cR s i j)%R) -> (b <= q)%R).
  { induction l as [|[i j] l IH]; intros mv; cbn [fold_left fst snd].
    - cbv zeta. split; [lra|]. split; [intros i j []|]. intros b H _. exact H.
    - destruct (negb (rcov s i) && negb (ccov s j) && ltb Rle_b (cA 0%R s i j) mv) eqn:C.
      + apply andb_true_iff in C. destruct C as [C C3]. apply andb_true_iff in C. destruct C as [C1 C2].
        apply negb_true_iff in C1. apply negb_true_iff in C2. apply ltb_true in C3.
        destruct (IH (cA 0%R s i j)) as [A [B D]]. cbv zeta. split; [lra|]. split.
        * intros i' j' [E|H] R S'; [inversion E; subst; exact A|apply B; assumption].
        * intros b Hb H. apply D; [apply H; [left; reflexivity|exact C1|exact C2]|]. intros; apply H; [right|..]; assumption.
      + destruct (IH mv) as [A [B D]]. cbv zeta. split; [exact A|]. split.
        * intros i' j' [E|H] R S'; [|apply B; assumption]. inversion E; subst. rewrite R, S' in C. cbn in C.
          apply ltb_false in C. unfold cR. lra.
        * intros b Hb H. apply D; [exact Hb|]. intros; apply H; [right|..]; assumption. }
  destruct (G (cells n n) maxc) as [A [B D]]. split; [exact A|]. split.
  - intros. apply B; auto. apply in_cells. auto.
  - intros b Hb H. apply D; [exact Hb|]. intros i j E. apply in_cells in E. destruct E. apply H; assumption.
Qed.

Lemma step6_cost : forall n maxc (s : stR) i j, i < n -> j < n ->
  cR (step6 0%R Rplus Rminus Rle_b n maxc s) i j =
  (cR s i j + (if rcov s i then minval 0%R Rle_b n maxc s else 0) - (if ccov s j then 0 else minval 0%R Rle_b n maxc s))%R.
Proof.
  intros. unfold step6, cR, cA at 1. cbn [hA]. rewrite get_tab by assumption. cbv zeta.
  destruct (rcov s i), (ccov s j); lra.
Qed.

Lemma step6_inv : forall n A0 maxc s, (0 <= maxc)%R -> inv n A0 s -> hph s = S6 ->
  inv n A0 (step6 0%R Rplus Rminus Rle_b n maxc s).
Proof.
  intros n A0 maxc s Hm I P. pose proof (step6_cost n maxc s) as E.
  destruct (minval_spec n maxc s) as [_ [M2 M3]].
  set (mv := minval 0%R Rle_b n maxc s) in *.
  pose proof (i_ph _ _ _ I) as Q. rewrite P in Q. destruct Q as [Q1 [Q2 Q3]].
  assert (M0 : (0 <= mv)%R).
  { apply M3; [exact Hm|]. intros. apply (i_pos _ _ _ I); assumption. }
  constructor.
  - destruct (i_dual _ _ _ I) as [u [v D]].
    exists (fun i => u i - (if rcov s i then mv else 0))%R, (fun j => v j + (if ccov s j then 0 else mv))%R.
    intros i j Hi Hj. rewrite E by assumption. rewrite D by assumption. lra.
  - intros i j Hi Hj. rewrite E by assumption. pose proof (i_pos _ _ _ I i j Hi Hj).
    destruct (rcov s i) eqn:R, (ccov s j) eqn:C; try lra. pose proof (M2 i j Hi Hj R C). lra.
  - intros i j H. pose proof H as [Hi [Hj _]]. assert (H' : star n s i j) by exact H.
    rewrite E by assumption. pose proof (i_star _ _ _ I i j H').
    destruct (rcov s i) eqn:R.
    + destruct (Q1 i Hi R) as [k [K1 K2]]. rewrite (i_row _ _ _ I i j k H' K1). rewrite K2.
      rewrite (i_row _ _ _ I i j k H' K1) in H0. lra.
    + destruct (ccov s j) eqn:C; [lra|]. pose proof (Q3 i j Hi Hj R C). lra.
  - intros i j H. pose proof H as [Hi [Hj _]]. assert (H' : prime n s i j) by exact H.
    rewrite E by assumption. pose proof (i_prime _ _ _ I i j H').
    destruct (Q2 i j H') as [-> ->]. lra.
  - exact (i_row _ _ _ I).
  - cbn. split; [exact Q1|exact Q2].
Qed.

(** with no positive cost, a state without open zero never leaves steps 4 and 6 *)
Lemma stuck4 : forall fuel n maxc (s : stR), (maxc <= 0)%R -> no_open n s -> hph s = S4 \/ hph s = S6 ->
  loop 0%R Rplus Rminus Rle_b fuel n maxc s = NoFuel.
Proof.
  induction fuel as [|f IH]; intros n maxc s Hm N P; [reflexivity|].
  cbn [loop]. destruct P as [P|P]; rewrite P.
  - apply IH; [exact Hm|..]; unfold step4; destruct (find (open s) (cells n n)) as [[i j]|] eqn:F.
    + exfalso. apply find_some in F. destruct F as [F O]. apply in_cells in F. apply open_true in O.
      destruct O as [O1 [O2 O3]]. pose proof (N i j (proj1 F) (proj2 F) O2 O3). lra.
    + exact N.
    + exfalso. apply find_some in F. destruct F as [F O]. apply in_cells in F. apply open_true in O.
      destruct O as [O1 [O2 O3]]. pose proof (N i j (proj1 F) (proj2 F) O2 O3). lra.
    + right. reflexivity.
  - apply IH; [exact Hm| |left; reflexivity].
    intros i j Hi Hj R C. rewrite step6_cost by assumption.
    change (rcov s i = false) in R. change (ccov s j = false) in C. rewrite R, C.
    pose proof (N i j Hi Hj R C). destruct (minval_spec n maxc s) as [M _]. lra.
Qed.
