(** Sorting and indexing of frames. *)
From Coq Require Import ZArith String List Bool Reals Lia Sorted.
From Verif Require Import TfModel SgModel SgMapProofs.
Import ListNotations.
Open Scope Z_scope.

(** ** The sort *)

Definition closed (m : smap frame) : Prop :=
  forall n f, mfind n m = Some f -> f_parent f = ""%string \/ mfind (f_parent f) m <> None.
Definition names_ok (m : smap frame) : Prop := forall n f, mfind n m = Some f -> f_name f = n.

Lemma existsb_in (n : string) v : existsb (String.eqb n) v = true <-> In n v.
Proof.
  rewrite existsb_exists. split.
  - intros [x [I E]]. apply String.eqb_eq in E. now subst.
  - intros I. exists n. split; auto. apply String.eqb_refl.
Qed.
Lemma existsb_nin (n : string) v : existsb (String.eqb n) v = false <-> ~ In n v.
Proof. rewrite <- existsb_in. destruct (existsb _ v); intuition congruence. Qed.

Lemma sort_helper_ok m : sorted m -> closed m ->
  forall fuel name l v,
  NoDup v -> incl v (keys m) -> name = ""%string \/ In name (keys m) ->
  (S (length m - length v) <= fuel)%nat ->
  exists l', sort_helper fuel m name l v = Ok (l ++ l', l' ++ v) /\ NoDup (l' ++ v) /\
    incl l' (keys m) /\ ~ In ""%string l' /\ (name = ""%string \/ In name (l' ++ v)).
Proof.
  intros S C fuel. induction fuel as [|k IH]; intros name l v D Iv In_ Hf; [lia|].
  cbn [sort_helper].
  destruct (String.eqb_spec name "") as [->|Ne]; cbn [orb].
  { exists []. rewrite app_nil_r. cbn. repeat split; auto. intros x []. }
  destruct (existsb (String.eqb name) v) eqn:Ev.
  { exists []. rewrite app_nil_r. apply existsb_in in Ev. cbn. repeat split; auto. intros x []. }
  apply existsb_nin in Ev.
  destruct In_ as [->|I]; [congruence|].
  destruct (mfind name m) as [f|] eqn:F; [|apply mfind_keys in I; congruence].
  assert (D' : NoDup (name :: v)) by now constructor.
  assert (Iv' : incl (name :: v) (keys m)) by (intros x [<-|X]; auto).
  assert (L : (length (name :: v) <= length m)%nat).
  { pose proof (NoDup_incl_length D' Iv') as H. unfold keys in H. now rewrite map_length in H. }
  cbn in L.
  assert (P : f_parent f = ""%string \/ In (f_parent f) (keys m)).
  { destruct (C _ _ F); auto. right. now apply mfind_keys. }
  destruct (IH (f_parent f) l (name :: v) D' Iv' P) as (l' & E & N & Il & Em & _).
  { cbn. lia. }
  exists (l' ++ [name]). rewrite E. cbn [bind]. split; [|split; [|split; [|split]]].
  - now rewrite <- !app_assoc.
  - now rewrite <- app_assoc.
  - intros x X. apply in_app_or in X as [X|[<-|[]]]; auto.
  - intros X. apply in_app_or in X as [X|[X|[]]]; auto.
  - right. apply in_or_app. left. apply in_or_app. right. now left.
Qed.

Lemma sort_all_ok m : sorted m -> closed m -> names_ok m ->
  forall todo, incl todo m -> forall l v,
  NoDup v -> NoDup l -> incl v (keys m) -> (forall n, In n l <-> In n v) -> ~ In ""%string v ->
  exists l', sort_all m todo l v = Ok (l ++ l') /\ NoDup (l ++ l') /\
    ~ In ""%string (l ++ l') /\ incl (l ++ l') (keys m) /\
    forall n f, In (n, f) todo -> n <> ""%string -> In n (l ++ l').
Proof.
  intros S C NO todo. induction todo as [|[k f] r IH]; intros It l v Dv Dl Iv Q E0; cbn.
  { exists []. rewrite app_nil_r. repeat split; auto.
    - now rewrite Q.
    - intros x X. apply Iv. now apply Q.
    - intros n f [].  }
  assert (K : In (k, f) m) by (apply It; now left).
  pose proof (in_mfind _ _ _ S K) as Fk.
  rewrite (NO _ _ Fk).
  assert (Ik : In k (keys m)) by (apply mfind_keys; congruence).
  destruct (sort_helper_ok m S C (Datatypes.S (length m)) k l v Dv Iv (or_intror Ik)) as
    (l' & E & N & Il & Em & Hk); [lia|].
  cbn [sort_helper] in E. rewrite E. cbn [bind].
  destruct (IH (fun x X => It x (or_intror X)) (l ++ l') (l' ++ v)) as (l2 & E2 & N2 & M2 & I2 & T2).
  - exact N.
  - (* l ++ l' is duplicate free because it has the elements of l' ++ v *)
    assert (X : NoDup (l' ++ l)).
    { clear - N Dl Q. induction l' as [|a l' IH']; cbn in *; auto.
      inversion N; subst. constructor; auto. intros X. apply H1. apply in_app_or in X as [X|X]; apply in_or_app; auto.
      right. now apply Q. }
    apply NoDup_incl_NoDup with (l := l' ++ l); auto.
    + rewrite !app_length. lia.
    + intros x X'. apply in_app_or in X' as [X'|X']; apply in_or_app; auto.
  - intros x X. apply in_app_or in X as [X|X]; auto.
  - intros n. rewrite !in_app_iff, Q. tauto.
  - intros X. apply in_app_or in X as [X|X]; auto.
  - exists (l' ++ l2). rewrite E2. rewrite <- app_assoc in *. repeat split; auto.
    intros n g [X|X] Ne.
    + injection X as <- <-. destruct Hk as [Hk|Hk]; [congruence|].
      apply in_app_or in Hk as [Hk|Hk]; rewrite !in_app_iff; auto. left. now apply Q.
    + apply T2 with g; auto.
Qed.

(** ** Parents come first in a forest *)

Inductive depth (m : smap frame) : string -> nat -> Prop :=
| depth_top n f : mfind n m = Some f -> f_parent f = ""%string -> depth m n 0
| depth_child n f d : mfind n m = Some f -> f_parent f <> ""%string ->
    depth m (f_parent f) d -> depth m n (S d).

Lemma depth_uniq m n d1 d2 : depth m n d1 -> depth m n d2 -> d1 = d2.
Proof.
  intros H1. revert d2. induction H1; intros d2 H2; inversion H2; subst; try congruence.
  assert (f = f0) by congruence. subst. f_equal. auto.
Qed.

Definition ordered (m : smap frame) (l : list string) : Prop :=
  forall l1 n l2 f, l = l1 ++ n :: l2 -> mfind n m = Some f ->
    f_parent f = ""%string \/ In (f_parent f) l1.

Lemma ordered_snoc m l n : ordered m l ->
  (forall f, mfind n m = Some f -> f_parent f = ""%string \/ In (f_parent f) l) ->
  ordered m (l ++ [n]).
Proof.
  intros O H l1 x l2 f E F.
  destruct l2 as [|y l2 _] using rev_ind.
  - apply app_inj_tail in E as [-> ->]. auto.
  - change (x :: l2 ++ [y]) with ((x :: l2) ++ [y]) in E. rewrite app_assoc in E.
    apply app_inj_tail in E as [E ->]. eapply O; eauto.
Qed.

Lemma sort_helper_ordered m : sorted m -> closed m ->
  forall fuel name l v d,
  NoDup v -> incl v (keys m) -> (S (length m - length v) <= fuel)%nat ->
  depth m name d ->
  (forall x, In x v -> In x l \/ exists dx, depth m x dx /\ (d < dx)%nat) ->
  ordered m l ->
  forall l', sort_helper fuel m name l v = Ok (l ++ l', l' ++ v) -> ordered m (l ++ l').
Proof.
  intros S C fuel. induction fuel as [|k IH]; intros name l v d D Iv Hf Hd St O l' E; [lia|].
  cbn [sort_helper] in E.
  destruct (String.eqb_spec name "") as [->|Ne]; cbn [orb] in E.
  { injection E as E _. now rewrite <- E. }
  destruct (existsb (String.eqb name) v) eqn:Ev.
  { injection E as E _. now rewrite <- E. }
  apply existsb_nin in Ev.
  destruct (mfind name m) as [f|] eqn:F; [|discriminate].
  assert (D' : NoDup (name :: v)) by now constructor.
  assert (Iv' : incl (name :: v) (keys m)).
  { intros x [<-|X]; auto. apply mfind_keys. congruence. }
  assert (L : (length (name :: v) <= length m)%nat).
  { pose proof (NoDup_incl_length D' Iv') as H. unfold keys in H. now rewrite map_length in H. }
  cbn in L.
  destruct (sort_helper_ok m S C k (f_parent f) l (name :: v) D' Iv') as (l2 & E2 & N2 & I2 & M2 & H2).
  { destruct (C _ _ F); auto. right. now apply mfind_keys. }
  { cbn. lia. }
  rewrite E2 in E. cbn [bind] in E. injection E as E _.
  rewrite <- E. apply ordered_snoc.
  - inversion Hd as [n0 f0 F0 P0|n0 f0 d0 F0 P0 Hd0]; subst.
    + assert (f0 = f) by congruence. subst f0. rewrite P0 in E2.
      destruct k; cbn in E2; [lia|]. injection E2 as E2 _. now rewrite <- E2.
    + assert (f0 = f) by congruence. subst f0.
      apply (IH (f_parent f) l (name :: v) d0); auto.
      * cbn. lia.
      * intros x [<-|X].
        { right. exists (Datatypes.S d0). split; auto. }
        { destruct (St x X) as [|[dx [Hx Lx]]]; auto. right. exists dx. split; auto. lia. }
  - intros g G. assert (g = f) by congruence. subst g.
    inversion Hd as [n0 f0 F0 P0|n0 f0 d0 F0 P0 Hd0]; subst.
    + left. congruence.
    + assert (f0 = f) by congruence. subst f0. right.
      destruct H2 as [H2|H2]; [congruence|].
      apply in_app_or in H2 as [H2|[H2|H2]]; apply in_or_app; auto.
      * exfalso. rewrite <- H2 in Hd0. pose proof (depth_uniq _ _ _ _ Hd Hd0). lia.
      * destruct (St _ H2) as [|[dx [Hx Lx]]]; auto.
        exfalso. pose proof (depth_uniq _ _ _ _ Hx Hd0). lia.
Qed.

Lemma sort_all_ordered m : sorted m -> closed m -> names_ok m ->
  (forall n f, mfind n m = Some f -> exists d, depth m n d) ->
  forall todo, incl todo m -> forall l v,
  NoDup v -> NoDup l -> incl v (keys m) -> (forall n, In n l <-> In n v) -> ~ In ""%string v ->
  ordered m l ->
  forall l', sort_all m todo l v = Ok l' -> ordered m l'.
Proof.
  intros S C NO Dp todo. induction todo as [|[k f] r IH]; intros It l v Dv Dl Iv Q E0 O l' E; cbn in E.
  { injection E as <-. auto. }
  assert (K : In (k, f) m) by (apply It; now left).
  pose proof (in_mfind _ _ _ S K) as Fk. rewrite (NO _ _ Fk) in E.
  assert (Ik : In k (keys m)) by (apply mfind_keys; congruence).
  destruct (sort_helper_ok m S C (Datatypes.S (length m)) k l v Dv Iv (or_intror Ik)) as
    (l1 & E1 & N & Il & Em & Hk); [lia|].
  assert (O1 : ordered m (l ++ l1)).
  { destruct (Dp _ _ Fk) as [d Hd].
    apply (sort_helper_ordered m S C (Datatypes.S (length m)) k l v d); auto; [lia|].
    intros x X. left. now apply Q. }
  cbn [sort_helper] in E1. rewrite E1 in E. cbn [bind] in E.
  apply IH with (l := l ++ l1) (v := l1 ++ v); auto.
  - intros x X. apply It. now right.
  - assert (X : NoDup (l1 ++ l)).
    { clear - N Dl Q. induction l1 as [|a l' IH']; cbn in *; auto.
      inversion N; subst. constructor; auto. intros X. apply H1. apply in_app_or in X as [X|X]; apply in_or_app; auto.
      right. now apply Q. }
    apply NoDup_incl_NoDup with (l := l1 ++ l); auto.
    + rewrite !app_length. lia.
    + intros x X'. apply in_app_or in X' as [X'|X']; apply in_or_app; auto.
  - intros x X. apply in_app_or in X as [X|X]; auto.
  - intros n. rewrite !in_app_iff, Q. tauto.
  - intros X. apply in_app_or in X as [X|X]; auto.
Qed.

(** The result of the sort. *)
Definition sorted_list (m : smap frame) (l : list string) : Prop :=
  NoDup l /\ (forall n, In n l <-> n <> ""%string /\ mfind n m <> None).

Theorem sort_ok m : sorted m -> closed m -> names_ok m ->
  exists l, sort_all m m [] [] = Ok l /\ sorted_list m l.
Proof.
  intros S C NO.
  destruct (sort_all_ok m S C NO m (incl_refl m) [] []) as (l & E & N & M & I & T); auto.
  1,2: constructor. { intros x []. } { tauto. }
  cbn in *. exists l. split; auto. split; auto. intros n. split.
  - intros X. split; [intros ->; auto|]. apply mfind_keys. auto.
  - intros [Ne X]. destruct (mfind n m) as [f|] eqn:F; [|congruence].
    apply T with f; auto. now apply mfind_in.
Qed.
Theorem sort_forest m : sorted m -> closed m -> names_ok m ->
  (forall n f, mfind n m = Some f -> exists d, depth m n d) ->
  forall l, sort_all m m [] [] = Ok l -> ordered m l.
Proof.
  intros S C NO D l E.
  eapply (sort_all_ordered m S C NO D m (incl_refl m) [] []); eauto.
  1,2: constructor. { intros x []. } { tauto. }
  intros [|] ? ? ? X; discriminate.
Qed.

(** The sort depends only on the names and the parents. *)
Definition skel (m : smap frame) : smap (string * string) :=
  map (fun p => (fst p, (f_name (snd p), f_parent (snd p)))) m.
Lemma sort_helper_skel m1 m2 : skel m1 = skel m2 ->
  forall fuel n l v, sort_helper fuel m1 n l v = sort_helper fuel m2 n l v.
Proof.
  intros E. induction fuel as [|k IH]; intros n l v; cbn; auto.
  assert (F : option_map (fun f => (f_name f, f_parent f)) (mfind n m1)
            = option_map (fun f => (f_name f, f_parent f)) (mfind n m2)).
  { rewrite <- !mfind_map. unfold skel in E. now rewrite E. }
  destruct (mfind n m1), (mfind n m2); cbn in F; try discriminate; auto.
  injection F as _ F. rewrite F. now rewrite IH.
Qed.
Lemma sort_all_skel m1 m2 : skel m1 = skel m2 ->
  sort_all m1 m1 [] [] = sort_all m2 m2 [] [].
Proof.
  intros E.
  assert (L : length m1 = length m2).
  { apply (f_equal (@length _)) in E. unfold skel in E. now rewrite !map_length in E. }
  assert (G : forall t1 t2, skel t1 = skel t2 -> forall l v, sort_all m1 t1 l v = sort_all m2 t2 l v).
  { induction t1 as [|[k f] r IH]; intros [|[k2 f2] r2] Et l v; try discriminate; auto.
    cbn in Et. injection Et as _ En _ Er. cbn [sort_all]. rewrite En, L.
    rewrite (sort_helper_skel m1 m2 E).
    destruct (sort_helper _ m2 (f_name f2) l v) as [[l' v']| | |]; cbn; auto. }
  apply G; auto.
Qed.
