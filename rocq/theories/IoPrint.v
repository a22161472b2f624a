(** Printed vectors and matrices, and reading them back. *)
From Coq Require Import ZArith Reals List Bool Arith Lia.
From Verif Require Import RegionModel RegionSpec RegionProofs IoModel IoSpec IoProofs IoNum IoLines IoVec IoMat IoHeap.
Import ListNotations.
Open Scope nat_scope.

(** what is printed *)
Lemma print_from (fmt : R -> list Z) base incx (x : nat -> R) n : forall k j, j + k = n ->
  flat_map (fun i => fmt (x (base + i * incx)) ++ (if i <? n - 1 then [9%Z] else [])) (seq j k) =
  tabbed (map (fun i => fmt (x (base + i * incx))) (seq j k)).
Proof.
  induction k as [|k IH]; intros j H; [reflexivity|].
  cbn [seq flat_map map]. rewrite IH by lia. destruct k as [|k].
  - cbn [seq map tabbed]. destruct (Nat.ltb_spec j (n - 1)); [lia|]. now rewrite !app_nil_r.
  - destruct (Nat.ltb_spec j (n - 1)); [|lia]. cbn [seq map]. rewrite <- app_assoc. reflexivity.
Qed.
Definition elems (x : nat -> R) (base incx n : nat) : list R := map (fun i => x (base + i * incx)) (seq 0 n).
Lemma elems_len x base incx n : length (elems x base incx n) = n.
Proof. unfold elems. now rewrite map_length, seq_length. Qed.
Lemma elems_nth x base incx n i : i < n -> nth_error (elems x base incx n) i = Some (x (base + i * incx)).
Proof.
  intros H. unfold elems. rewrite nth_error_map. rewrite (nth_error_nth' _ 0) by now rewrite seq_length.
  cbn. now rewrite seq_nth.
Qed.
Lemma print_is (fmt : R -> list Z) n base incx x : d_print fmt n base incx x = tabbed (map fmt (elems x base incx n)) ++ [10%Z].
Proof. unfold d_print, elems. rewrite print_from by lia. now rewrite map_map. Qed.
Lemma text_end lines : text_of (lines ++ [[]]) = flat_map (fun l => l ++ [10%Z]) lines.
Proof.
  induction lines as [|l ls IH]; [reflexivity|]. cbn [app]. rewrite text_cons, IH.
  cbn [flat_map]. rewrite <- app_assoc. f_equal. destruct ls; reflexivity.
Qed.
Definition print_lines (fmt : R -> list Z) (rows : list (list R)) : list (list Z) := map (fun xs => tabbed (map fmt xs)) rows.
Definition matrix_rows (by_column : bool) (m n : nat) (A : nat -> R) (lda : nat) : list (list R) :=
  if by_column then map (fun j => elems A (j * lda) 1 m) (seq 0 n) else map (fun i => elems A i lda n) (seq 0 m).
Lemma gemp_is (fmt : R -> list Z) bc m n A lda : d_gemp fmt bc m n A lda = text_of (print_lines fmt (matrix_rows bc m n A lda) ++ [[]]).
Proof.
  rewrite text_end. unfold d_gemp, print_lines, matrix_rows. destruct bc; rewrite !flat_map_concat_map, !map_map; f_equal;
    apply map_ext; intros i; apply print_is.
Qed.

Lemma ends_nonempty (lines : list (list Z)) l : lines ++ [l] <> [].
Proof. destruct lines; discriminate. Qed.

Section Print.
  Variable strtod : list Z -> R * nat.
  Variable fmt : R -> list Z.
  Variable rnd : R -> R.
  Hypothesis Hp : printable strtod fmt rnd.
  Hypothesis H0 : strtod [] = (0%R, 0).

  Lemma stops_nil : stops strtod [].
  Proof. right. split; [discriminate|exact H0]. Qed.
  Lemma tabbed_numbers xs : numbers strtod [] (tabbed (map fmt xs)) (map rnd xs).
  Proof.
    induction xs as [|x xs IH]; [constructor; exact stops_nil|].
    destruct (Hp x) as [Ht _]. destruct xs as [|y ys].
    - cbn [map tabbed]. rewrite <- (app_nil_r (fmt x)). change (@nil Z) with (@nil Z ++ []) at 2.
      constructor; [exact Ht|constructor|now left|constructor; exact stops_nil].
    - cbn [map] in *. change (tabbed (fmt x :: fmt y :: map fmt ys)) with (fmt x ++ [9%Z] ++ tabbed (fmt y :: map fmt ys)).
      constructor; [exact Ht|constructor; [now right|constructor]| |exact IH].
      right. right. exists 9%Z. eexists. split; [reflexivity|now right].
  Qed.
  Lemma tabbed_line xs : number_line strtod (tabbed (map fmt xs)) (map rnd xs) [].
  Proof. exists [], (tabbed (map fmt xs)). repeat split; [constructor|apply tabbed_numbers|now left]. Qed.
  Lemma tabbed_plain xs : plain (tabbed (map fmt xs)).
  Proof.
    induction xs as [|x xs [I1 I2]]; [split; intros []|]. destruct (Hp x) as [_ [P1 P2]]. destruct xs as [|y ys]; [split; assumption|].
    cbn [map] in *. change (tabbed (fmt x :: fmt y :: map fmt ys)) with (fmt x ++ [9%Z] ++ tabbed (fmt y :: map fmt ys)).
    split; intros H; apply in_app_or in H; destruct H as [H|[H|H]]; try contradiction; discriminate.
  Qed.
  Lemma row_back xs n : length xs = n -> row strtod n (tabbed (map fmt xs)) (map rnd xs).
  Proof.
    intros H. split; [now rewrite map_length|]. exists [], []. rewrite app_nil_r. apply tabbed_line.
  Qed.

  Lemma vector_back ms n base incx x base' incx' X s k :
    reach s k -> 1 <= incx' -> (size (d_print fmt n base incx x) <= region_freesize s)%Z ->
    exists X' s', getvector strtod ms (d_print fmt n base incx x) s n base' incx' X = Got (n, X', [], false, s') /\
      (forall i, i < n -> X' (base' + i * incx') = rnd (x (base + i * incx))) /\
      elsewhere X X' base' incx' n /\ as_before s s' k.
  Proof.
    intros Hr Hi Hs. rewrite print_is. rewrite print_is in Hs. set (xs := elems x base incx n) in *.
    assert (Hlen : length xs = n) by apply elems_len.
    unfold size in Hs. rewrite app_length in Hs. cbn [length] in Hs.
    change (tabbed (map fmt xs) ++ [10%Z]) with (text_of [tabbed (map fmt xs); []]).
    assert (Hf : free_at s (region_freesize s)) by (apply (reach_free s k); [exact Hr|lia|lia]).
    destruct (getvector_read strtod ms (tabbed (map fmt xs)) [[]] s _ n base' incx' X Hf (tabbed_plain xs)) as (s' & G & B); [unfold size; lia|].
    destruct (vector_ok strtod _ _ _ n base' incx' X (tabbed_line xs) Hi) as (rest & X' & P & L & V & O); [left; rewrite map_length; lia|].
    rewrite map_length, Hlen, Nat.min_id in P, O. rewrite P in G. cbn [fst snd] in G. exists X', s'. split; [exact G|]. split; [|split].
    - intros i Hin. apply V. rewrite firstn_all2 by (rewrite map_length; lia).
      rewrite nth_error_map. unfold xs. now rewrite elems_nth.
    - exact O.
    - now apply back_before.
  Qed.

  Lemma rows_back z n rows : Forall (fun xs => length xs = n) rows ->
    Forall (fun l => (size l + 1 <= z)%Z) (print_lines fmt rows) ->
    Forall2 (fun l xs => plain l /\ (size l + 1 <= z)%Z /\ row strtod n l xs) (print_lines fmt rows) (map (map rnd) rows).
  Proof.
    induction 1 as [|xs rows Hx Hxs IH]; cbn; intros H; [constructor|]. apply Forall_cons_iff in H. destruct H as [H1 H2].
    constructor; [|now apply IH]. split; [apply tabbed_plain|]. split; [exact H1|now apply row_back].
  Qed.
  Lemma matrix_fix_back ms m0 m1 m n A lda lda' A0 s k :
    reach s k -> 1 <= m -> m <= lda' ->
    Forall (fun l => (size l + 1 <= region_freesize s)%Z) (print_lines fmt (matrix_rows false m n A lda)) ->
    exists A' s', fread_matrix_fix strtod ms m0 m1 (d_gemp fmt false m n A lda) s m n lda' A0 = Got (m * n, A', [], s') /\
      (forall i j, i < m -> j < n -> A' (i + j * lda') = rnd (A (i + j * lda))) /\
      (forall q, (forall i j, i < m -> j < n -> q <> i + j * lda') -> A' q = A0 q) /\ as_before s s' k.
  Proof.
    intros Hr Hm Hl Hs. rewrite gemp_is.
    set (rows := matrix_rows false m n A lda) in *.
    assert (Hlen : length rows = m) by (unfold rows, matrix_rows; now rewrite map_length, seq_length).
    assert (Hz : (0 < region_freesize s)%Z).
    { destruct rows as [|r rows]; [cbn in Hlen; lia|]. cbn in Hs. apply Forall_cons_iff in Hs. unfold size in Hs. lia. }
    assert (Hf : free_at s (region_freesize s)) by (apply (reach_free s k); [exact Hr|lia|lia]).
    assert (HF : Forall (fun xs => length xs = n) rows).
    { apply Forall_forall. intros xs Hx. unfold rows, matrix_rows in Hx. apply in_map_iff in Hx. destruct Hx as (i & <- & _). apply elems_len. }
    destruct (rows_read strtod ms _ n lda' ltac:(lia) _ _ (rows_back _ n rows HF Hs) 0 s A0 0 [[]] Hf) as (A' & s' & E & B & V & O).
    { rewrite map_length. lia. }
    rewrite map_length, Hlen in E. cbn [text_of Nat.add] in E.
    destruct (fix_wrap strtod ms m0 m1 _ s m n lda' A0 _ _ s' _ A' Hf ltac:(lia) E B) as (s2 & E2 & B2).
    exists A', s2. split; [exact E2|]. split; [|split; [|now apply back_before]].
    - intros i j Hi Hj. specialize (V i (map rnd (elems A i lda n)) j (rnd (A (i + j * lda)))). cbn [Nat.add] in V. apply V.
      + rewrite nth_error_map. unfold rows, matrix_rows. rewrite nth_error_map, (nth_error_nth' _ 0) by now rewrite seq_length.
        rewrite seq_nth by exact Hi. reflexivity.
      + rewrite nth_error_map, elems_nth by exact Hj. reflexivity.
    - intros q Hq. apply O. rewrite map_length, Hlen. intros r j H1 H2. now apply Hq.
  Qed.

  Lemma data_back n rows z : 1 <= n -> (1 <= z)%Z -> Forall (fun xs => length xs = n) rows ->
    Forall (fun l => (size l + 1 <= z)%Z) (print_lines fmt rows) ->
    data strtod n (print_lines fmt rows ++ [[]]) (map (map rnd) rows) z 16.
  Proof.
    intros Hn Hz. induction 1 as [|xs rows Hx Hxs IH]; cbn [print_lines map app]; intros H.
    - change 16%Z with (rounded (size [] + 1) + 0)%Z. constructor; [split; intros []| |unfold size; cbn; lia|constructor].
      exists [], []. repeat split; [constructor|now left].
    - apply Forall_cons_iff in H. destruct H as [H1 H2]. constructor; [apply tabbed_plain|now apply row_back|exact H1|now apply IH].
  Qed.
  Lemma matrix_heap_back ms m n A lda junk s k :
    reach s k -> 1 <= m -> (1 <= region_freesize s)%Z ->
    Forall (fun l => (size l + 1 <= region_freesize s)%Z) (print_lines fmt (matrix_rows true m n A lda)) ->
    exists A' s', fread_matrix_heap strtod ms (d_gemp fmt true m n A lda) s m None junk = Got (Z.of_nat n, A', [], s') /\
      n * m <= h_elts A' /\ (forall i j, i < m -> j < n -> h_data A' (j * m + i) = rnd (A (j * lda + i))) /\
      region_ptr s' = (region_ptr s + 16)%Z /\ rchunks s' = rchunks s /\ (forall b, In b k -> readable (rmem s') b).
  Proof.
    intros Hr Hm Hz Hs. rewrite gemp_is.
    set (rows := matrix_rows true m n A lda) in *.
    assert (Hlen : length rows = n) by (unfold rows, matrix_rows; now rewrite map_length, seq_length).
    assert (HF : Forall (fun xs => length xs = m) rows).
    { apply Forall_forall. intros xs Hx. unfold rows, matrix_rows in Hx. apply in_map_iff in Hx. destruct Hx as (i & <- & _). apply elems_len. }
    destruct (heap_ok strtod ms m _ _ 16 None junk s k Hr Hm (ends_nonempty _ _)
               (data_back m rows _ Hm Hz HF Hs)) as (A' & s' & E & H1 & V & H2 & H3 & H4); [discriminate|].
    rewrite map_length, Hlen in E, H1. exists A', s'. split; [exact E|]. split; [exact H1|]. split; [|auto].
    intros i j Hi Hj. apply (V j (map rnd (elems A (j * lda) 1 m)) i).
    - rewrite nth_error_map. unfold rows, matrix_rows. rewrite nth_error_map, (nth_error_nth' _ 0) by now rewrite seq_length.
      rewrite seq_nth by exact Hj. reflexivity.
    - rewrite nth_error_map, elems_nth by exact Hi. cbn. now rewrite Nat.mul_1_r.
  Qed.
End Print.
