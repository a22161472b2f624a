(** Proofs about collision sets and motion-plan sequences. *)
From Coq Require Import ZArith String List Bool Reals Lia Arith.
From Verif Require Import TfModel SgModel SgSpec SgFkProofs2 ClModel ClSpec.
Import ListNotations.
Open Scope Z_scope.

Definition wf (n : nat) (c : clset) : Prop := c_n c = n /\ length (c_v c) = (n * n)%nat.
(** position of a pair *)
Definition pos (n : nat) (i j : Z) : nat :=
  (n * Z.to_nat (Z.max i j) + Z.to_nat (Z.min i j))%nat.
Lemma pos_sym n i j : pos n i j = pos n j i.
Proof. unfold pos. now rewrite Z.max_comm, Z.min_comm. Qed.
Lemma cl_i_ok n c i j : wf n c -> cl_i c i j =
  if (0 <=? i) && (0 <=? j) && (i <? Z.of_nat n) && (j <? Z.of_nat n) then Ok (pos n i j) else Abort.
Proof.
  intros [E L]. unfold cl_i. rewrite E, L.
  destruct (Z.ltb_spec i 0), (Z.ltb_spec j 0), (Z.leb_spec 0 i), (Z.leb_spec 0 j); try lia; cbn [orb andb]; auto.
  replace (if Nat.ltb (Z.to_nat i) (Z.to_nat j) then (n * Z.to_nat j + Z.to_nat i)%nat else (n * Z.to_nat i + Z.to_nat j)%nat)
    with (pos n i j).
  2:{ unfold pos. destruct (Nat.ltb_spec (Z.to_nat i) (Z.to_nat j)).
      - rewrite Z.max_r, Z.min_l by lia. reflexivity.
      - rewrite Z.max_l, Z.min_r by lia. reflexivity. }
  unfold pos. destruct (Z.ltb_spec i (Z.of_nat n)), (Z.ltb_spec j (Z.of_nat n)); cbn [andb];
    match goal with |- context [Nat.ltb ?a ?b] => destruct (Nat.ltb_spec a b) as [B|B] end; auto; exfalso; nia.
Qed.
Lemma pos_inj n i j i' j' : valid n i -> valid n j -> valid n i' -> valid n j' -> pos n i j = pos n i' j' ->
  same_pair i j i' j'.
Proof.
  unfold valid, pos. intros. assert (Z.max i j = Z.max i' j' /\ Z.min i j = Z.min i' j') as [A B].
  { set (a := Z.max i j) in *. set (b := Z.min i j) in *. set (c := Z.max i' j') in *. set (d := Z.min i' j') in *.
    assert (0 <= a < Z.of_nat n /\ 0 <= b < Z.of_nat n /\ 0 <= c < Z.of_nat n /\ 0 <= d < Z.of_nat n) by lia.
    assert (E : (n * Z.to_nat a + Z.to_nat b = n * Z.to_nat c + Z.to_nat d)%nat) by assumption.
    assert (Z.to_nat a = Z.to_nat c) by nia. nia. }
  unfold same_pair. lia.
Qed.
Lemma pos_lt n i j : valid n i -> valid n j -> (pos n i j < n * n)%nat.
Proof. unfold valid, pos. intros. nia. Qed.

Lemma valid_b n i j : (0 <=? i) && (0 <=? j) && (i <? Z.of_nat n) && (j <? Z.of_nat n) = true <-> valid n i /\ valid n j.
Proof. rewrite !andb_true_iff, !Z.leb_le, !Z.ltb_lt. unfold valid. lia. Qed.
Lemma cl_i_valid n c i j : wf n c -> valid n i -> valid n j -> cl_i c i j = Ok (pos n i j).
Proof. intros W A B. rewrite (cl_i_ok n) by auto. now rewrite (proj2 (valid_b n i j) (conj A B)). Qed.
Lemma cl_i_invalid n c i j : wf n c -> ~ (valid n i /\ valid n j) -> cl_i c i j = Abort.
Proof.
  intros W H. rewrite (cl_i_ok n) by auto.
  destruct ((0 <=? i) && (0 <=? j) && (i <? Z.of_nat n) && (j <? Z.of_nat n)) eqn:E; auto.
  apply valid_b in E. tauto.
Qed.
Lemma cl_get_valid n c i j : wf n c -> valid n i -> valid n j ->
  cl_get c i j = Ok (nth (pos n i j) (c_v c) false).
Proof.
  intros W A B. unfold cl_get. rewrite (cl_i_valid n) by auto. cbn [bind].
  rewrite (nth_error_nth' (c_v c) false); [reflexivity|]. destruct W as [_ ->]. now apply pos_lt.
Qed.

Lemma nth_set_at_d {A} (l : list A) k x j d : (k < length l)%nat -> nth j (set_at l k x) d = if Nat.eqb k j then x else nth j l d.
Proof.
  intros L. destruct (Nat.eqb_spec k j) as [->|N].
  - apply nth_error_nth. rewrite nth_set_at, Nat.eqb_refl. destruct (Nat.ltb_spec j (length l)); [auto|lia].
  - destruct (nth_error l j) as [y|] eqn:E.
    + rewrite (nth_error_nth _ _ _ E). apply nth_error_nth. rewrite nth_set_at. destruct (Nat.eqb_spec k j); [congruence|auto].
    + apply nth_error_None in E. rewrite !nth_overflow; auto. now rewrite set_at_len.
Qed.
Lemma set_get n c i j x c' : wf n c -> cl_set c i j x = Ok c' -> wf n c' /\ valid n i /\ valid n j /\
  forall k l, valid n k -> valid n l ->
    (same_pair i j k l -> cl_get c' k l = Ok x) /\ (~ same_pair i j k l -> cl_get c' k l = cl_get c k l).
Proof.
  intros W E. unfold cl_set in E.
  destruct ((0 <=? i) && (0 <=? j) && (i <? Z.of_nat n) && (j <? Z.of_nat n)) eqn:V.
  2:{ rewrite (cl_i_ok n), V in E by auto. discriminate. }
  apply valid_b in V as [Vi Vj]. rewrite (cl_i_valid n) in E by auto. cbn in E. injection E as <-.
  assert (W' : wf n (mkC (c_n c) (set_at (c_v c) (pos n i j) x))).
  { destruct W as [A B]. split; cbn; auto. now rewrite set_at_len. }
  split; auto. split; auto. split; auto. intros k l Vk Vl. rewrite !(cl_get_valid n) by auto. cbn [c_v].
  assert (L : (pos n i j < length (c_v c))%nat) by (destruct W as [_ ->]; now apply pos_lt).
  rewrite nth_set_at_d by auto. split; intros H.
  - assert (P : pos n i j = pos n k l) by (destruct H as [[-> ->]|[-> ->]]; auto using pos_sym).
    now rewrite P, Nat.eqb_refl.
  - destruct (Nat.eqb_spec (pos n i j) (pos n k l)) as [P|]; auto. exfalso. apply H. now apply (pos_inj n).
Qed.
Lemma wf_create n : wf n (cl_create n).
Proof. split; cbn; auto. apply repeat_length. Qed.
Lemma create_get n i j : valid n i -> valid n j -> cl_get (cl_create n) i j = Ok false.
Proof.
  intros A B. rewrite (cl_get_valid n) by (auto; apply wf_create). cbn [cl_create c_v]. f_equal.
  assert (H : forall k m, nth k (repeat false m) false = false).
  { intros k m. revert k. induction m; intros [|k]; cbn; auto. }
  apply H.
Qed.
Lemma clear_get n c : wf n c -> exists c', cl_clear c = Ok c' /\ wf n c' /\ forall i j, valid n i -> valid n j -> cl_get c' i j = Ok false.
Proof.
  intros [A B]. unfold cl_clear. rewrite A, B, Nat.eqb_refl. cbn. eexists. split; [reflexivity|].
  assert (E : mkC n (repeat false (n * n)) = cl_create n) by reflexivity. rewrite E. split; [apply wf_create|].
  intros. now apply create_get.
Qed.
Lemma fill_get n c d : wf n c -> wf n d -> wf n (cl_fill c d) /\ forall i j, cl_get (cl_fill c d) i j = cl_get d i j.
Proof.
  intros [A B] [A' B']. assert (E : cl_fill c d = d) by (destruct d; unfold cl_fill; cbn in *; congruence).
  rewrite E. split; [split; auto|auto].
Qed.

Lemma merge_row_ok n src i : wf n src -> valid n (Z.of_nat i) -> forall js into, wf n into -> (forall j, In j js -> (j < i)%nat) ->
  exists into', merge_row src i js into = Ok into' /\ wf n into' /\
    forall k l, valid n k -> valid n l ->
      cl_get into' k l = bind (cl_get into k l) (fun b => bind (cl_get src k l) (fun b' => Ok (b || (b' && 
        existsb (fun j => ((k =? Z.of_nat i) && (l =? Z.of_nat j)) || ((l =? Z.of_nat i) && (k =? Z.of_nat j))) js)))).
Proof.
  intros Ws Vi. induction js as [|j r IH]; intros into W Hj.
  - exists into. split; auto. split; auto. intros k l Vk Vl. cbn [existsb]. rewrite !(cl_get_valid n) by auto. cbn [bind].
    now rewrite andb_false_r, orb_false_r.
  - cbn [merge_row]. assert (Vj : valid n (Z.of_nat j)).
    { specialize (Hj j (or_introl eq_refl)). unfold valid in *. lia. }
    rewrite (cl_get_valid n src) by auto. cbn [bind].
    set (b := nth (pos n (Z.of_nat i) (Z.of_nat j)) (c_v src) false).
    assert (S1 : exists into1, (if b then cl_set into (Z.of_nat i) (Z.of_nat j) true else Ok into) = Ok into1 /\ wf n into1 /\
      forall k l, valid n k -> valid n l -> cl_get into1 k l = bind (cl_get into k l) (fun x => bind (cl_get src k l) (fun y => Ok (x || (y &&
        (((k =? Z.of_nat i) && (l =? Z.of_nat j)) || ((l =? Z.of_nat i) && (k =? Z.of_nat j)))))))).
    { destruct b eqn:Eb.
      - assert (exists c', cl_set into (Z.of_nat i) (Z.of_nat j) true = Ok c') as [c' E].
        { unfold cl_set. rewrite (cl_i_valid n) by auto. cbn. eauto. }
        destruct (set_get n into _ _ _ _ W E) as (W' & _ & _ & H). exists c'. split; auto. split; auto.
        intros k l Vk Vl. destruct (H k l Vk Vl) as [H1 H2].
        rewrite !(cl_get_valid n into), !(cl_get_valid n src) by auto. cbn [bind].
        destruct (((k =? Z.of_nat i) && (l =? Z.of_nat j)) || ((l =? Z.of_nat i) && (k =? Z.of_nat j))) eqn:Ek.
        + assert (SP : same_pair (Z.of_nat i) (Z.of_nat j) k l).
          { apply orb_true_iff in Ek as [Ek|Ek]; apply andb_true_iff in Ek as [A B]; apply Z.eqb_eq in A, B; unfold same_pair; lia. }
          rewrite (H1 SP). assert (P : pos n k l = pos n (Z.of_nat i) (Z.of_nat j)).
          { destruct SP as [[<- <-]|[<- <-]]; auto using pos_sym. }
          rewrite P. fold b. rewrite Eb. cbn. now rewrite orb_true_r.
        + assert (SP : ~ same_pair (Z.of_nat i) (Z.of_nat j) k l).
          { intros [[<- <-]|[<- <-]]; rewrite !Z.eqb_refl in Ek; cbn in Ek; [discriminate|]. rewrite orb_true_r in Ek. discriminate. }
          rewrite (H2 SP), (cl_get_valid n) by auto. now rewrite andb_false_r, orb_false_r.
      - exists into. split; auto. split; auto. intros k l Vk Vl. rewrite !(cl_get_valid n) by auto. cbn [bind].
        destruct (((k =? Z.of_nat i) && (l =? Z.of_nat j)) || ((l =? Z.of_nat i) && (k =? Z.of_nat j))) eqn:Ek.
        + assert (P : pos n k l = pos n (Z.of_nat i) (Z.of_nat j)).
          { apply orb_true_iff in Ek as [Ek|Ek]; apply andb_true_iff in Ek as [A B]; apply Z.eqb_eq in A, B; subst; auto using pos_sym. }
          rewrite P. fold b. rewrite Eb. cbn. now rewrite orb_false_r.
        + now rewrite andb_false_r, orb_false_r. }
    destruct S1 as (into1 & -> & W1 & H1). cbn [bind].
    destruct (IH into1 W1) as (into' & E' & W' & H'); [intros x Hx; apply Hj; now right|].
    exists into'. split; auto. split; auto. intros k l Vk Vl. rewrite H', H1 by auto.
    rewrite !(cl_get_valid n into), !(cl_get_valid n src) by auto. cbn [bind existsb]. f_equal.
    destruct (nth (pos n k l) (c_v into) false), (nth (pos n k l) (c_v src) false); cbn; auto.
Qed.
Lemma merge_rows_ok n src : wf n src -> forall is into, wf n into -> (forall i, In i is -> (i < n)%nat) ->
  exists into', merge_rows src is into = Ok into' /\ wf n into' /\
    forall k l, valid n k -> valid n l ->
      cl_get into' k l = bind (cl_get into k l) (fun b => bind (cl_get src k l) (fun b' => Ok (b || (b' &&
        existsb (fun i => (Z.of_nat i =? Z.max k l) && negb (k =? l)) is)))).
Proof.
  intros Ws. induction is as [|i r IH]; intros into W Hi.
  - exists into. split; auto. split; auto. intros k l Vk Vl. rewrite !(cl_get_valid n) by auto. cbn. now rewrite andb_false_r, orb_false_r.
  - cbn [merge_rows]. assert (Vi : valid n (Z.of_nat i)) by (specialize (Hi i (or_introl eq_refl)); unfold valid; lia).
    destruct (merge_row_ok n src i Ws Vi (seq 0 i) into W) as (into1 & -> & W1 & H1).
    { intros j Hj. apply in_seq in Hj. lia. }
    cbn [bind]. destruct (IH into1 W1) as (into' & E' & W' & H'); [intros x Hx; apply Hi; now right|].
    exists into'. split; auto. split; auto. intros k l Vk Vl. rewrite H', H1 by auto.
    rewrite !(cl_get_valid n into), !(cl_get_valid n src) by auto. cbn [bind existsb]. f_equal.
    assert (Ex : existsb (fun j => ((k =? Z.of_nat i) && (l =? Z.of_nat j)) || ((l =? Z.of_nat i) && (k =? Z.of_nat j))) (seq 0 i)
      = (Z.of_nat i =? Z.max k l) && negb (k =? l)).
    { unfold valid in *. apply eq_true_iff_eq. rewrite existsb_exists, andb_true_iff, negb_true_iff, Z.eqb_eq, Z.eqb_neq. split.
      - intros (j & Hj & E). apply in_seq in Hj. apply orb_true_iff in E as [E|E]; apply andb_true_iff in E as [A B]; apply Z.eqb_eq in A, B; lia.
      - intros [A B]. exists (Z.to_nat (Z.min k l)). rewrite in_seq. split; [lia|].
        rewrite orb_true_iff, !andb_true_iff, !Z.eqb_eq. lia. }
    rewrite Ex. destruct (nth (pos n k l) (c_v into) false), (nth (pos n k l) (c_v src) false); cbn; auto.
Qed.
Lemma merge_get n c d : wf n c -> wf n d -> exists c', cl_merge c d = Ok c' /\ wf n c' /\
  forall i j, valid n i -> valid n j ->
    cl_get c' i j = if i =? j then cl_get c i j else bind (cl_get c i j) (fun a => bind (cl_get d i j) (fun b => Ok (a || b))).
Proof.
  intros Wc Wd. unfold cl_merge. rewrite (proj1 Wc), (proj1 Wd), Nat.eqb_refl. cbn [negb].
  destruct (merge_rows_ok n d Wd (seq 0 n) c Wc) as (c' & E & W' & H).
  { intros i Hi. apply in_seq in Hi. lia. }
  exists c'. split; auto. split; auto. intros i j Vi Vj. rewrite H, !(cl_get_valid n) by auto. cbn [bind].
  destruct (Z.eqb_spec i j) as [->|N].
  - assert (Ex : existsb (fun i0 => (Z.of_nat i0 =? Z.max j j) && negb true) (seq 0 n) = false).
    { apply not_true_is_false. rewrite existsb_exists. intros (x & _ & A). rewrite andb_false_r in A. discriminate. }
    now rewrite Ex, andb_false_r, orb_false_r.
  - assert (Ex : existsb (fun i0 => (Z.of_nat i0 =? Z.max i j) && negb false) (seq 0 n) = true).
    { unfold valid in *. rewrite existsb_exists. exists (Z.to_nat (Z.max i j)). rewrite in_seq, andb_true_r, Z.eqb_eq. lia. }
    now rewrite Ex, andb_true_r.
Qed.

Lemma made_wf n c : made n c -> wf n c.
Proof.
  induction 1 as [|c i j x c' M W E|c d M W M' W'|c d c' M W M' W' E|c c' M W E].
  - apply wf_create.
  - eapply set_get; eauto.
  - now apply fill_get.
  - destruct (merge_get n c d W W') as (c2 & E2 & W2 & _). congruence.
  - destruct (clear_get n c W) as (c2 & E2 & W2 & _). congruence.
Qed.

Lemma c56_sym n c i j : made n c -> valid n i -> valid n j -> exists b, cl_get c i j = Ok b /\ cl_get c j i = Ok b.
Proof.
  intros M A B. apply made_wf in M. exists (nth (pos n i j) (c_v c) false).
  rewrite !(cl_get_valid n) by auto. now rewrite (pos_sym n j i).
Qed.
Lemma c56_range n c i j x : made n c -> ~ (valid n i /\ valid n j) -> cl_get c i j = Abort /\ cl_set c i j x = Abort.
Proof. intros M H. apply made_wf in M. unfold cl_get, cl_set. now rewrite (cl_i_invalid n). Qed.
Lemma c56_set n c i j x : made n c -> valid n i -> valid n j ->
  exists c', cl_set c i j x = Ok c' /\ forall k l, valid n k -> valid n l ->
    (same_pair i j k l -> cl_get c' k l = Ok x) /\ (~ same_pair i j k l -> cl_get c' k l = cl_get c k l).
Proof.
  intros M A B. apply made_wf in M.
  assert (exists c', cl_set c i j x = Ok c') as [c' E] by (unfold cl_set; rewrite (cl_i_valid n) by auto; cbn; eauto).
  exists c'. split; auto. eapply set_get; eauto.
Qed.
Lemma c56_clear n c : made n c -> exists c', cl_clear c = Ok c' /\ forall i j, valid n i -> valid n j -> cl_get c' i j = Ok false.
Proof. intros M. destruct (clear_get n c (made_wf _ _ M)) as (c' & E & _ & H). eauto. Qed.
Lemma c56_fill n c d : made n c -> made n d -> forall i j, cl_get (cl_fill c d) i j = cl_get d i j.
Proof. intros M M'. apply (fill_get n); now apply made_wf. Qed.
Lemma c56_merge n c d : made n c -> made n d -> exists c', cl_merge c d = Ok c' /\
  forall i j, valid n i -> valid n j ->
    cl_get c' i j = if i =? j then cl_get c i j else bind (cl_get c i j) (fun a => bind (cl_get d i j) (fun b => Ok (a || b))).
Proof. intros M M'. destruct (merge_get n c d (made_wf _ _ M) (made_wf _ _ M')) as (c' & E & _ & H). eauto. Qed.

(** ** Motion plans *)
Lemma append_all_data l : forall p p', append_all p l = Ok p' ->
  ms_data p' = ms_data p ++ map (fun '(g, m, n, src) => mkME (firstn (m * n) src) n g) l /\
  ms_n p' = (ms_n p + fold_right (fun '(g, m, n, src) a => n + a) 0 l)%nat.
Proof.
  induction l as [|[[[g m] n] src] r IH]; intros p p' E; cbn in E.
  - injection E as <-. cbn. rewrite app_nil_r. auto.
  - destruct (mp_append p g m n src) as [p1| | |] eqn:E1; try discriminate. cbn in E.
    unfold mp_append in E1. destruct (Nat.ltb (length src) (m * n)); [discriminate|]. injection E1 as <-.
    apply IH in E as [-> ->]. cbn. rewrite <- app_assoc. cbn. split; auto. lia.
Qed.
Lemma c57_total l : (forall g m n src, In (g, m, n, src) l -> (m * n <= length src)%nat) -> forall p, exists p', append_all p l = Ok p'.
Proof.
  induction l as [|[[[g m] n] src] r IH]; intros H p; cbn; eauto.
  unfold mp_append. destruct (Nat.ltb_spec (length src) (m * n)).
  - specialize (H g m n src (or_introl eq_refl)). lia.
  - cbn. apply IH. intros g0 m0 n0 s0 Hi. apply (H g0 m0 n0 s0). now right.
Qed.
Lemma c57 l p : append_all mp_create l = Ok p ->
  mp_count p = length l /\
  mp_points p = fold_right (fun '(g, m, n, src) a => (n + a)%nat) 0%nat l /\
  (forall i g m n src, nth_error l i = Some (g, m, n, src) -> mp_elt p i = Ok (Some g, n, Some (firstn (m * n) src))) /\
  (forall i, (length l <= i)%nat -> mp_elt p i = Ok (None, 0%nat, None)).
Proof.
  intros E. apply append_all_data in E as [D N]. cbn in D, N.
  assert (C : mp_count p = length l) by (unfold mp_count; rewrite D; apply map_length).
  split; auto. split; [exact N|]. split.
  - intros i g m n src H. unfold mp_elt. rewrite C.
    assert (i < length l)%nat by (apply nth_error_Some; congruence).
    destruct (Nat.leb_spec (length l) i); [lia|]. rewrite D, nth_error_map, H. reflexivity.
  - intros i H. unfold mp_elt. rewrite C. destruct (Nat.leb_spec (length l) i); [auto|lia].
Qed.
