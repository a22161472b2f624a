(** String maps. *)
From Coq Require Import ZArith String List Bool Reals Lia Sorted OrderedTypeEx.
From Verif Require Import TfModel SgModel.
Import ListNotations.

Definition slt (a b : string) : Prop := String.compare a b = Lt.
Lemma slt_lts a b : slt a b <-> String_as_OT.lt a b.
Proof. unfold slt. apply String_as_OT.cmp_lt. Qed.
Lemma slt_trans a b c : slt a b -> slt b c -> slt a c.
Proof. rewrite !slt_lts. apply String_as_OT.lt_trans. Qed.
Lemma slt_irrefl a : ~ slt a a.
Proof. rewrite slt_lts. intros H. apply (String_as_OT.lt_not_eq a a H). reflexivity. Qed.
Lemma scmp_refl a : String.compare a a = Eq.
Proof. apply String_as_OT.cmp_eq. reflexivity. Qed.
Lemma scmp_gt a b : String.compare a b = Gt -> slt b a.
Proof. intros H. unfold slt. rewrite String.compare_antisym, H. reflexivity. Qed.

Section M.
  Context {A : Type}.
  Implicit Types (m : smap A) (k n : string) (a : A).

  Lemma mfind_mset_same k a m : mfind k (mset k a m) = Some a.
  Proof.
    induction m as [|[k' a'] r IH]; cbn; [now rewrite String.eqb_refl|].
    destruct (String.compare k k') eqn:C; cbn; try now rewrite String.eqb_refl.
    destruct (String.eqb_spec k k') as [->|]; auto. now rewrite scmp_refl in C.
  Qed.
  Lemma mfind_mset_other k k' a m : k' <> k -> mfind k' (mset k a m) = mfind k' m.
  Proof.
    intros N. induction m as [|[x b] r IH]; cbn.
    - destruct (String.eqb_spec k' k); congruence.
    - destruct (String.compare k x) eqn:C; cbn.
      + apply String.compare_eq_iff in C. subst x. destruct (String.eqb_spec k' k); congruence.
      + destruct (String.eqb_spec k' k); congruence.
      + now rewrite IH.
  Qed.
  Lemma mfind_mset k k' a m :
    mfind k' (mset k a m) = if String.eqb k' k then Some a else mfind k' m.
  Proof.
    destruct (String.eqb_spec k' k) as [->|N]; [apply mfind_mset_same|now apply mfind_mset_other].
  Qed.

  Definition keys m : list string := map fst m.
  Definition sorted m : Prop := StronglySorted slt (keys m).

  Lemma mset_keys k a m x : In x (keys (mset k a m)) <-> x = k \/ In x (keys m).
  Proof.
    induction m as [|[y b] r IH]; cbn; [intuition|].
    destruct (String.compare k y) eqn:C; cbn.
    - apply String.compare_eq_iff in C. subst y. intuition.
    - intuition.
    - rewrite IH. intuition.
  Qed.
  Lemma sorted_mset k a m : sorted m -> sorted (mset k a m).
  Proof.
    unfold sorted. induction m as [|[y b] r IH]; cbn; intros H; [repeat constructor|].
    inversion H as [|? ? H1 H2]; subst.
    destruct (String.compare k y) eqn:C; cbn.
    - apply String.compare_eq_iff in C. subst y. now constructor.
    - constructor; [now constructor|]. constructor; [exact C|].
      eapply Forall_impl; [|exact H2]. intros z Hz. eapply slt_trans; eauto.
    - constructor; [auto|]. apply Forall_forall. intros x Hx. apply mset_keys in Hx as [->|Hx].
      + now apply scmp_gt.
      + rewrite Forall_forall in H2. auto.
  Qed.
  Lemma mdel_keys k m x : In x (keys (mdel k m)) -> In x (keys m).
  Proof.
    induction m as [|[y b] r IH]; cbn; auto. destruct (String.eqb k y); cbn; intuition.
  Qed.
  Lemma sorted_mdel k m : sorted m -> sorted (mdel k m).
  Proof.
    unfold sorted. induction m as [|[y b] r IH]; cbn; intros H; auto.
    inversion H as [|? ? H1 H2]; subst. destruct (String.eqb k y); cbn; auto.
    constructor; auto. apply Forall_forall. intros x Hx. apply mdel_keys in Hx.
    rewrite Forall_forall in H2. auto.
  Qed.
  Lemma mfind_keys k m : In k (keys m) <-> mfind k m <> None.
  Proof.
    induction m as [|[y b] r IH]; cbn; [intuition congruence|].
    destruct (String.eqb_spec k y) as [->|N].
    - split; [congruence|auto].
    - rewrite <- IH. intuition congruence.
  Qed.
  Lemma sorted_nodup m : sorted m -> NoDup (keys m).
  Proof.
    unfold sorted. generalize (keys m) as l. induction l as [|x l IH]; intros H; constructor.
    - inversion H as [|? ? _ F]; subst. intros I. rewrite Forall_forall in F.
      now apply (slt_irrefl x), F.
    - inversion H; auto.
  Qed.
  Lemma mfind_mdel_other k k' m : k' <> k -> mfind k' (mdel k m) = mfind k' m.
  Proof.
    intros N. induction m as [|[x b] r IH]; cbn; auto.
    destruct (String.eqb_spec k x) as [->|N2].
    - destruct (String.eqb_spec k' x); congruence.
    - cbn. now rewrite IH.
  Qed.
  Lemma mfind_mdel_same k m : sorted m -> mfind k (mdel k m) = None.
  Proof.
    intros S. apply sorted_nodup in S. induction m as [|[x b] r IH]; cbn in *; auto.
    inversion S; subst. destruct (String.eqb_spec k x) as [->|N].
    - destruct (mfind x r) eqn:E; auto. exfalso. apply H1. apply mfind_keys. congruence.
    - cbn. destruct (String.eqb_spec k x); [congruence|auto].
  Qed.
  Lemma mfind_in k a m : mfind k m = Some a -> In (k, a) m.
  Proof.
    induction m as [|[x b] r IH]; cbn; [discriminate|].
    destruct (String.eqb_spec k x) as [->|N]; [intros [= ->]; auto|auto].
  Qed.
  Lemma in_mfind k a m : sorted m -> In (k, a) m -> mfind k m = Some a.
  Proof.
    intros S. apply sorted_nodup in S. induction m as [|[x b] r IH]; cbn in *; [tauto|].
    inversion S; subst. intros [E|I].
    - injection E as -> ->. now rewrite String.eqb_refl.
    - destruct (String.eqb_spec k x) as [->|N]; auto.
      exfalso. apply H1. change x with (fst (x, a)). now apply in_map.
  Qed.
  Lemma mhas_iff k m : mhas k m = true <-> exists a, mfind k m = Some a.
  Proof. unfold mhas. destruct (mfind k m); split; intros H; eauto; try discriminate. now destruct H. Qed.
  Lemma mhas_false k m : mhas k m = false <-> mfind k m = None.
  Proof. unfold mhas. destruct (mfind k m); split; congruence. Qed.

  (** sorted maps are determined by their contents *)
  Lemma sorted_ext m1 m2 : sorted m1 -> sorted m2 ->
    (forall k, mfind k m1 = mfind k m2) -> m1 = m2.
  Proof.
    revert m2. induction m1 as [|[k a] r IH]; intros m2 S1 S2 E.
    - destruct m2 as [|[k a] r]; auto. specialize (E k). cbn in E. rewrite String.eqb_refl in E. discriminate.
    - destruct m2 as [|[k2 a2] r2].
      { specialize (E k). cbn in E. rewrite String.eqb_refl in E. discriminate. }
      unfold sorted in S1, S2. cbn in S1, S2.
      inversion S1 as [|? ? S1' F1]; inversion S2 as [|? ? S2' F2]; subst.
      rewrite Forall_forall in F1, F2.
      assert (K : k = k2).
      { pose proof (E k) as Ek. pose proof (E k2) as Ek2. cbn in Ek, Ek2.
        rewrite String.eqb_refl in Ek, Ek2.
        destruct (String.eqb_spec k k2) as [|N]; auto.
        destruct (String.eqb_spec k2 k); [congruence|].
        assert (I1 : In k (keys r2)) by (apply mfind_keys; congruence).
        assert (I2 : In k2 (keys r)) by (apply mfind_keys; congruence).
        apply F2 in I1. apply F1 in I2. exfalso. apply (slt_irrefl k). eapply slt_trans; eauto. }
      subst k2. pose proof (E k) as Ek. cbn in Ek. rewrite String.eqb_refl in Ek. injection Ek as ->.
      f_equal. apply IH; auto. intros y. specialize (E y). cbn in E.
      destruct (String.eqb_spec y k) as [Hy|]; [rewrite Hy|exact E].
      destruct (mfind k r) eqn:M1.
      { exfalso. apply (slt_irrefl k), F1, mfind_keys. congruence. }
      destruct (mfind k r2) eqn:M2; auto.
      exfalso. apply (slt_irrefl k), F2, mfind_keys. congruence.
  Qed.
End M.

Lemma mfind_map {A B} (g : A -> B) k (m : smap A) :
  mfind k (map (fun p => (fst p, g (snd p))) m) = option_map g (mfind k m).
Proof. induction m as [|[x a] r IH]; cbn; auto. now destruct (String.eqb k x). Qed.
Lemma keys_map {A B} (g : A -> B) (m : smap A) :
  keys (map (fun p => (fst p, g (snd p))) m) = keys m.
Proof. unfold keys. rewrite map_map. apply map_ext. reflexivity. Qed.
Lemma sorted_map {A B} (g : A -> B) (m : smap A) :
  sorted m -> sorted (map (fun p => (fst p, g (snd p))) m).
Proof. unfold sorted. now rewrite keys_map. Qed.
Lemma map_mset {A B} (g : A -> B) k a (m : smap A) :
  map (fun p => (fst p, g (snd p))) (mset k a m) = mset k (g a) (map (fun p => (fst p, g (snd p))) m).
Proof.
  induction m as [|[x b] r IH]; cbn; auto.
  destruct (String.compare k x); cbn; auto. now rewrite IH.
Qed.
Lemma mset_same_keys {A} k (a b : A) m : sorted m -> mfind k m = Some b -> keys (mset k a m) = keys m.
Proof.
  revert k a b. induction m as [|[x c] r IH]; cbn; [discriminate|]. intros k a b S F.
  unfold sorted in S. cbn in S. inversion S as [|? ? S' Fa]; subst.
  destruct (String.eqb_spec k x) as [->|N].
  - rewrite scmp_refl. reflexivity.
  - destruct (String.compare k x) eqn:C.
    + now apply String.compare_eq_iff in C.
    + exfalso. assert (I : In k (keys r)) by (apply mfind_keys; congruence).
      rewrite Forall_forall in Fa. apply Fa in I. apply (slt_irrefl k). eapply slt_trans; eauto.
    + change (x :: keys (mset k a r) = x :: keys r). f_equal. eapply IH; eauto.
Qed.
Lemma mset_same_len {A} k (a b : A) m : sorted m -> mfind k m = Some b -> length (mset k a m) = length m.
Proof.
  intros S F. pose proof (mset_same_keys k a b m S F) as E.
  apply (f_equal (@length _)) in E. unfold keys in E. now rewrite !map_length in E.
Qed.
