(** Invariants of the plugin model. *)
From Coq Require Import List Arith Lia.
From Verif Require Import PlugModel PlugSpec.
Import ListNotations.

Lemma upd_len {A} (l : list A) i x : length (upd l i x) = length l.
Proof. revert i. induction l as [|h t IH]; intros [|i]; simpl; auto. Qed.

Lemma upd_same {A} (l : list A) i x y : nth_error l i = Some y -> nth_error (upd l i x) i = Some x.
Proof. revert i. induction l as [|h t IH]; intros [|i]; simpl; intro H; try discriminate; auto. Qed.

Lemma upd_other {A} (l : list A) i j x : j <> i -> nth_error (upd l i x) j = nth_error l j.
Proof.
  revert i j. induction l as [|h t IH]; intros [|i] [|j] H; simpl; auto; try congruence.
Qed.

Lemma sum_upd {A} (h : A -> nat) (l : list A) i x y :
  nth_error l i = Some x ->
  list_sum (map h (upd l i y)) + h x = list_sum (map h l) + h y.
Proof.
  revert i. induction l as [|a t IH]; intros [|i] H; simpl in *; try discriminate.
  - injection H as ->. unfold list_sum. lia.
  - specialize (IH i H). unfold list_sum in *. lia.
Qed.

Lemma sum_app {A} (h : A -> nat) (a b : list A) :
  list_sum (map h (a ++ b)) = list_sum (map h a) + list_sum (map h b).
Proof. rewrite map_app. apply list_sum_app. Qed.

Lemma sum_ge {A} (h : A -> nat) (l : list A) i x :
  nth_error l i = Some x -> h x <= list_sum (map h l).
Proof.
  revert i. induction l as [|a t IH]; intros [|i] H; simpl in *; try discriminate.
  - injection H as ->. unfold list_sum; lia.
  - specialize (IH i H). unfold list_sum in *. lia.
Qed.

Lemma sum_zero {A} (h : A -> nat) (l : list A) :
  (forall i x, nth_error l i = Some x -> h x = 0) -> list_sum (map h l) = 0.
Proof.
  induction l as [|a t IH]; intro H; [reflexivity|].
  change (h a + list_sum (map h t) = 0).
  rewrite (H 0 a eq_refl), IH; [reflexivity|]. intros i x Hx. exact (H (S i) x Hx).
Qed.

Lemma sum_pos {A} (h : A -> nat) (l : list A) :
  0 < list_sum (map h l) -> exists i x, nth_error l i = Some x /\ 0 < h x.
Proof.
  induction l as [|a t IH]; intro H; [cbn in H; lia|].
  change (0 < h a + list_sum (map h t)) in H.
  destruct (h a) eqn:E.
  - destruct (IH H) as (i & x & H1 & H2). exists (S i), x. auto.
  - exists 0, a. split; [reflexivity|lia].
Qed.

Lemma nth_lt {A} (l : list A) i x : nth_error l i = Some x -> i < length l.
Proof. intro H. apply nth_error_Some. congruence. Qed.

Lemma nth_app_cases {A} (a b : list A) i x :
  nth_error (a ++ b) i = Some x ->
  nth_error a i = Some x \/ (length a <= i /\ nth_error b (i - length a) = Some x).
Proof.
  intro H. destruct (Nat.lt_ge_cases i (length a)) as [L|L].
  - left. rewrite nth_error_app1 in H; auto.
  - right. rewrite nth_error_app2 in H; auto.
Qed.

Lemma nth_repeat_eq {A} (a x : A) n i : nth_error (repeat a n) i = Some x -> x = a /\ i < n.
Proof.
  intro H. split.
  - apply nth_error_In in H. exact (repeat_spec _ _ _ H).
  - apply nth_lt in H. rewrite repeat_length in H. exact H.
Qed.

Definition cnt (m : nat) (l : list nat) : nat := count_occ Nat.eq_dec l m.

Definition ref1 (m : nat) (q : sgr) : nat := if g_live q then cnt m (g_mesh q) else 0.

Definition refs (m : nat) (l : list sgr) : nat := list_sum (map (ref1 m) l).

Arguments cnt : simpl never.
Arguments refs : simpl never.

Lemma cnt_nil m : cnt m [] = 0.
Proof. reflexivity. Qed.

Lemma cnt_cons m a l : cnt m (a :: l) = (if Nat.eqb a m then 1 else 0) + cnt m l.
Proof.
  unfold cnt. simpl. destruct (Nat.eq_dec a m) as [E|E].
  - subst. rewrite Nat.eqb_refl. reflexivity.
  - apply Nat.eqb_neq in E. rewrite E. reflexivity.
Qed.

Lemma cnt_app m a b : cnt m (a ++ b) = cnt m a + cnt m b.
Proof. apply count_occ_app. Qed.

Lemma cnt_pos m l : In m l <-> 0 < cnt m l.
Proof. unfold cnt. rewrite (count_occ_In Nat.eq_dec). lia. Qed.

Lemma cnt_none m l : ~ In m l -> cnt m l = 0.
Proof. intro H. apply (proj1 (count_occ_not_In Nat.eq_dec l m)) in H. exact H. Qed.

Lemma cnt_seq m a n : cnt m (seq a n) = if andb (a <=? m) (m <? a + n) then 1 else 0.
Proof.
  revert a. induction n as [|n IH]; intro a.
  - simpl. replace (a + 0) with a by lia.
    destruct (a <=? m) eqn:E1; destruct (m <? a) eqn:E2; auto.
    apply Nat.leb_le in E1. apply Nat.ltb_lt in E2. lia.
  - simpl seq. rewrite cnt_cons, IH.
    destruct (Nat.eqb_spec a m); destruct (Nat.leb_spec a m); destruct (Nat.leb_spec (S a) m);
      destruct (Nat.ltb_spec m (S a + n)); destruct (Nat.ltb_spec m (a + S n)); simpl; lia.
Qed.

Record Inv (p : list nat) (L : nat -> nat) (s : st) : Prop := mkInv
  { I_ref : forall m r, nth_error (meshes s) m = Some r ->
      m_ref r = (if m_held r then 1 else 0) + refs m (sgs s) + cnt m p;
    I_rng : forall g q m, nth_error (sgs s) g = Some q -> g_live q = true ->
      In m (g_mesh q) -> m < length (meshes s);
    I_prng : forall m, In m p -> m < length (meshes s);
    I_open : forall f, opens s f = owners s f + L f;
    I_dt : forall m r f, nth_error (meshes s) m = Some r -> m_dtor r = Some f -> m_data r = Some f;
    I_held : forall m r f, nth_error (meshes s) m = Some r -> m_data r = Some f ->
      m_dtor r = None -> m_held r = false }.

Definition stat (r : mesh) := (m_dtor r, m_data r).
Definition keeps (s s' : st) : Prop :=
  map stat (meshes s') = map stat (meshes s) /\ sgs s' = sgs s.

Lemma map_upd_same {A B} (h : A -> B) (l : list A) i x y :
  nth_error l i = Some x -> h y = h x -> map h (upd l i y) = map h l.
Proof.
  revert i. induction l as [|a t IH]; intros [|i] H E; simpl in *; try discriminate.
  - injection H as ->. rewrite E. reflexivity.
  - rewrite (IH i H E). reflexivity.
Qed.

Lemma keeps_len s s' : keeps s s' -> length (meshes s') = length (meshes s).
Proof. intros [H _]. rewrite <- (map_length stat), H, map_length. reflexivity. Qed.

Lemma keeps_refl s : keeps s s. Proof. split; reflexivity. Qed.

Lemma keeps_trans a b c : keeps a b -> keeps b c -> keeps a c.
Proof. intros [H1 H2] [H3 H4]. split; congruence. Qed.

Lemma dlclose_ok s f k :
  opens s f = S k -> dlclose s f = Some (mkSt (fset (opens s) f k) (meshes s) (sgs s)).
Proof. intro H. unfold dlclose. rewrite H. reflexivity. Qed.

(** Writing the count (and the ghost flag) of one mesh. *)
Lemma inv_set_mesh p p' L s m r r' o :
  Inv p L s ->
  nth_error (meshes s) m = Some r ->
  m_dtor r' = m_dtor r -> m_data r' = m_data r ->
  (m_held r' = true -> m_held r = true) ->
  m_ref r' = (if m_held r' then 1 else 0) + refs m (sgs s) + cnt m p' ->
  (forall m', m' <> m -> cnt m' p' = cnt m' p) ->
  (forall m', In m' p' -> In m' p \/ m' = m) ->
  (forall f, o f + mesh_owner f r = opens s f + mesh_owner f r') ->
  Inv p' L (mkSt o (upd (meshes s) m r') (sgs s)).
Proof.
  intros I Hm Hd Hda Hh Hr Hc Hin Ho.
  assert (Lm := nth_lt _ _ _ Hm).
  assert (Cases : forall m' x, nth_error (upd (meshes s) m r') m' = Some x ->
            (m' = m /\ x = r') \/ (m' <> m /\ nth_error (meshes s) m' = Some x)).
  { intros m' x H. destruct (Nat.eq_dec m' m) as [->|N].
    - rewrite (upd_same _ _ _ _ Hm) in H. injection H as <-. auto.
    - rewrite upd_other in H; auto. }
  constructor; simpl.
  - intros m' x H. destruct (Cases _ _ H) as [[-> ->]|[N H']].
    + exact Hr.
    + rewrite (Hc _ N). exact (I_ref _ _ _ I _ _ H').
  - intros g q m' H1 H2 H3. rewrite upd_len. exact (I_rng _ _ _ I g q m' H1 H2 H3).
  - intros m' H. rewrite upd_len. destruct (Hin _ H) as [H'| ->]; auto. exact (I_prng _ _ _ I _ H').
  - intro f. unfold owners. simpl.
    generalize (sum_upd (mesh_owner f) _ _ _ r' Hm) (Ho f) (I_open _ _ _ I f).
    unfold owners. lia.
  - intros m' x f H E. destruct (Cases _ _ H) as [[-> ->]|[N H']].
    + rewrite Hda. apply (I_dt _ _ _ I _ _ _ Hm). congruence.
    + exact (I_dt _ _ _ I _ _ _ H' E).
  - intros m' x f H E1 E2. destruct (Cases _ _ H) as [[-> ->]|[N H']].
    + destruct (m_held r') eqn:E; auto.
      rewrite <- (I_held _ _ _ I _ _ f Hm); [|congruence|congruence]. symmetry. auto.
    + exact (I_held _ _ _ I _ _ _ H' E1 E2).
Qed.

Lemma owner_pos f r k : m_ref r = S k -> m_dtor r = Some f -> mesh_owner f r = 1.
Proof. intros H1 H2. unfold mesh_owner. rewrite H1, H2, Nat.eqb_refl. reflexivity. Qed.

Lemma sg_owner_pos f q : g_live q = true -> g_dtor q = Some f -> sg_owner f q = 1.
Proof. intros H1 H2. unfold sg_owner. rewrite H1, H2, Nat.eqb_refl. reflexivity. Qed.

Lemma owner_eq f r r' k k' :
  m_ref r = S k -> m_ref r' = S k' -> m_dtor r' = m_dtor r -> mesh_owner f r' = mesh_owner f r.
Proof. intros H1 H2 H3. unfold mesh_owner. rewrite H1, H2, H3. reflexivity. Qed.

Lemma inc_ok p L s m r :
  Inv p L s -> nth_error (meshes s) m = Some r -> 0 < m_ref r ->
  exists s', mesh_inc s m = Some s' /\ Inv (m :: p) L s' /\ keeps s s' /\ opens s' = opens s.
Proof.
  intros I Hm Hp. unfold mesh_inc. rewrite Hm. destruct (m_ref r) as [|k] eqn:E; [lia|].
  eexists. split; [reflexivity|]. split; [|split].
  - refine (inv_set_mesh p (m :: p) L s m r _ (opens s) I Hm _ _ _ _ _ _ _); simpl; auto.
    + rewrite cnt_cons, Nat.eqb_refl. generalize (I_ref _ _ _ I _ _ Hm). lia.
    + intros m' N. rewrite cnt_cons. destruct (Nat.eqb_spec m m'); [congruence|reflexivity].
    + intros m' [H|H]; auto.
    + intro f. f_equal. symmetry. apply (owner_eq _ _ _ k (S k) E); reflexivity.
  - split; [|reflexivity]. simpl. apply map_upd_same with (x := r); auto.
  - reflexivity.
Qed.

(** Dropping one reference. *)
Lemma drop_ok p p' L s m r h :
  Inv p L s -> nth_error (meshes s) m = Some r ->
  m_ref r = S ((if h : bool then 1 else 0) + refs m (sgs s) + cnt m p') ->
  (h = true -> m_held r = true) ->
  (forall m', m' <> m -> cnt m' p' = cnt m' p) ->
  (forall m', In m' p' -> In m' p) ->
  exists s', mesh_destroy (set_mesh s m (mkMesh (m_ref r) (m_dtor r) (m_data r) h)) m = Some s'
             /\ Inv p' L s' /\ keeps s s'.
Proof.
  intros I Hm Hr Hh Hc Hin. unfold mesh_destroy. simpl.
  rewrite (upd_same _ _ _ _ Hm). simpl.
  assert (U : forall x y, upd (upd (meshes s) m x) m y = upd (meshes s) m y).
  { clear. generalize (meshes s) as l. intros l x y. revert m.
    induction l as [|a t IH]; intros [|i]; simpl; auto. f_equal. apply IH. }
  assert (K : forall o x, m_dtor x = m_dtor r -> m_data x = m_data r ->
             keeps s (mkSt o (upd (meshes s) m x) (sgs s))).
  { intros o x E1 E2. split; [|reflexivity]. simpl.
    apply map_upd_same with (x := r); auto. unfold stat. congruence. }
  destruct ((if h then 1 else 0) + refs m (sgs s) + cnt m p') as [|k] eqn:Z; rewrite Hr.
  - unfold set_mesh; simpl. rewrite U.
    unfold run_dtor. destruct (m_dtor r) as [f|] eqn:D.
    + assert (O : exists k, opens s f = S k).
      { generalize (I_open _ _ _ I f) (sum_ge (mesh_owner f) _ _ _ Hm) (owner_pos f r 0 Hr D).
        unfold owners. intros. exists (opens s f - 1). lia. }
      destruct O as [k O]. rewrite (dlclose_ok _ f k); [|exact O]. simpl.
      eexists. split; [reflexivity|]. split.
      * refine (inv_set_mesh p p' L s m r _ _ I Hm _ _ _ _ Hc _ _); simpl; auto; try congruence.
        intro f'. unfold fset. unfold mesh_owner. rewrite Hr, D. simpl.
        rewrite (Nat.eqb_sym f f'). destruct (Nat.eqb_spec f' f) as [->|N]; lia.
      * apply K; simpl; auto.
    + eexists. split; [reflexivity|]. split.
      * refine (inv_set_mesh p p' L s m r _ _ I Hm _ _ _ _ Hc _ _); simpl; auto; try congruence.
        intro f'. unfold mesh_owner. rewrite Hr, D. simpl. lia.
      * apply K; simpl; auto.
  - unfold set_mesh; simpl. rewrite U.
    eexists. split; [reflexivity|]. split.
    + refine (inv_set_mesh p p' L s m r _ _ I Hm _ _ _ _ Hc _ _); simpl; auto; try congruence.
      intro f'. f_equal. symmetry. apply (owner_eq f' r _ (S k) k Hr); reflexivity.
    + apply K; simpl; auto.
Qed.

Lemma upd_id {A} (l : list A) i x : nth_error l i = Some x -> upd l i x = l.
Proof.
  revert i. induction l as [|a t IH]; intros [|i] H; simpl in *; try discriminate.
  - injection H as ->. reflexivity.
  - f_equal. auto.
Qed.

Lemma dec_ok p L s m :
  Inv (m :: p) L s -> exists s', mesh_destroy s m = Some s' /\ Inv p L s' /\ keeps s s'.
Proof.
  intro I.
  assert (Lm : m < length (meshes s)) by (apply (I_prng _ _ _ I); left; reflexivity).
  destruct (nth_error (meshes s) m) as [r|] eqn:Hm; [|apply nth_error_Some in Lm; congruence].
  destruct (drop_ok (m :: p) p L s m r (m_held r) I Hm) as (s' & H1 & H2 & H3); auto.
  - rewrite (I_ref _ _ _ I _ _ Hm), cnt_cons, Nat.eqb_refl. lia.
  - intros m' N. rewrite cnt_cons. destruct (Nat.eqb_spec m m'); [congruence|reflexivity].
  - intros m' H. right. exact H.
  - exists s'. split; auto. rewrite <- H1. f_equal. destruct s as [o ms gs]. unfold set_mesh. simpl in *.
    f_equal. symmetry. apply upd_id. rewrite Hm. destruct r; reflexivity.
Qed.

Lemma each_dec l p L s :
  Inv (l ++ p) L s -> exists s', each mesh_destroy s l = Some s' /\ Inv p L s' /\ keeps s s'.
Proof.
  revert s. induction l as [|m t IH]; intros s I.
  - exists s. split; [reflexivity|]. split; [exact I|apply keeps_refl].
  - destruct (dec_ok (t ++ p) L s m I) as (s1 & H1 & H2 & H3).
    destruct (IH s1 H2) as (s2 & H4 & H5 & H6).
    exists s2. simpl. rewrite H1. split; auto. split; auto. exact (keeps_trans _ _ _ H3 H6).
Qed.

Lemma inv_perm p p' L s :
  Inv p L s -> (forall m, cnt m p' = cnt m p) -> Inv p' L s.
Proof.
  intros I H. constructor; try apply I.
  - intros m r Hm. rewrite H. exact (I_ref _ _ _ I _ _ Hm).
  - intros m Hm. apply (I_prng _ _ _ I). apply cnt_pos. rewrite <- H. apply cnt_pos. exact Hm.
Qed.

Lemma each_inc l p L s :
  Inv p L s -> (forall m, In m l -> 0 < refs m (sgs s) /\ m < length (meshes s)) ->
  exists s', each mesh_inc s l = Some s' /\ Inv (l ++ p) L s' /\ keeps s s' /\ opens s' = opens s.
Proof.
  revert s p. induction l as [|m t IH]; intros s p I H.
  - exists s. split; [reflexivity|]. split; [exact I|]. split; [apply keeps_refl|reflexivity].
  - destruct (H m (or_introl eq_refl)) as [H1 H2].
    destruct (nth_error (meshes s) m) as [r|] eqn:Hm; [|apply nth_error_Some in H2; congruence].
    destruct (inc_ok p L s m r I Hm) as (s1 & E1 & I1 & K1 & O1).
    { generalize (I_ref _ _ _ I _ _ Hm). lia. }
    destruct (IH s1 (m :: p) I1) as (s2 & E2 & I2 & K2 & O2).
    { intros m' H'. rewrite (proj2 K1), (keeps_len _ _ K1). apply H. right. exact H'. }
    exists s2. simpl. rewrite E1. split; auto. split; [|split].
    + apply (inv_perm _ _ _ _ I2). intro m'. rewrite cnt_cons, !cnt_app, cnt_cons. lia.
    + exact (keeps_trans _ _ _ K1 K2).
    + congruence.
Qed.

Lemma shown_refs s g q m :
  nth_error (sgs s) g = Some q -> g_live q = true -> In m (g_mesh q) -> 0 < refs m (sgs s).
Proof.
  intros H1 H2 H3. unfold refs. apply Nat.lt_le_trans with (ref1 m q).
  - unfold ref1. rewrite H2. apply cnt_pos. exact H3.
  - exact (sum_ge (ref1 m) _ _ _ H1).
Qed.

(** Replacing one scene graph. *)
Lemma inv_set_sg p p' L L' s g q q' o :
  Inv p L s -> nth_error (sgs s) g = Some q ->
  (forall m, ref1 m q' + cnt m p' = ref1 m q + cnt m p) ->
  (forall m, In m p' \/ (g_live q' = true /\ In m (g_mesh q')) ->
             In m p \/ (g_live q = true /\ In m (g_mesh q))) ->
  (forall f, o f + sg_owner f q + L f = opens s f + sg_owner f q' + L' f) ->
  Inv p' L' (mkSt o (meshes s) (upd (sgs s) g q')).
Proof.
  intros I Hg Hr Hin Ho.
  assert (P : forall m, In m p' \/ (g_live q' = true /\ In m (g_mesh q')) -> m < length (meshes s)).
  { intros m H. destruct (Hin m H) as [H'|[H1 H2]].
    - exact (I_prng _ _ _ I _ H').
    - exact (I_rng _ _ _ I _ _ _ Hg H1 H2). }
  constructor; simpl; try apply I.
  - intros m r Hm. rewrite (I_ref _ _ _ I _ _ Hm). unfold refs.
    generalize (sum_upd (ref1 m) _ _ _ q' Hg) (Hr m). lia.
  - intros g' x m H1 H2 H3. destruct (Nat.eq_dec g' g) as [->|N].
    + rewrite (upd_same _ _ _ _ Hg) in H1. injection H1 as <-. auto.
    + rewrite upd_other in H1; auto. exact (I_rng _ _ _ I _ _ _ H1 H2 H3).
  - intros m H. auto.
  - intro f. generalize (Ho f) (I_open _ _ _ I f) (sum_upd (sg_owner f) _ _ _ q' Hg).
    unfold owners. simpl. lia.
Qed.

Lemma inv_add_sg p L s l d o :
  Inv p L s -> (forall m, cnt m l = cnt m p) ->
  (forall f, o f = opens s f + sg_owner f (mkSg true d l)) ->
  Inv [] L (mkSt o (meshes s) (sgs s ++ [mkSg true d l])).
Proof.
  intros I H Ho. constructor; simpl; try apply I.
  - intros m r Hm. rewrite (I_ref _ _ _ I _ _ Hm). unfold refs. rewrite sum_app.
    change (list_sum (map (ref1 m) [mkSg true d l])) with (cnt m l + 0).
    change (cnt m []) with 0. rewrite H. lia.
  - intros g q m H1 H2 H3. apply nth_app_cases in H1. destruct H1 as [H1|[H1 H1']].
    + exact (I_rng _ _ _ I _ _ _ H1 H2 H3).
    + destruct (g - length (sgs s)) as [|k]; simpl in H1'; [|destruct k; discriminate].
      injection H1' as <-. simpl in H3. apply (I_prng _ _ _ I). apply cnt_pos. rewrite <- H.
      apply cnt_pos. exact H3.
  - intros m [].
  - intro f. rewrite Ho, (I_open _ _ _ I f). unfold owners. simpl. rewrite sum_app. simpl. lia.
Qed.

(** Adding meshes: fresh identifiers enter the pending list. *)
Lemma fresh_refs p L s m : Inv p L s -> length (meshes s) <= m -> refs m (sgs s) = 0 /\ cnt m p = 0.
Proof.
  intros I H. split.
  - apply sum_zero. intros g q Hg. unfold ref1. destruct (g_live q) eqn:E; auto.
    apply cnt_none. intro Hi. generalize (I_rng _ _ _ I _ _ _ Hg E Hi). lia.
  - apply cnt_none. intro Hi. generalize (I_prng _ _ _ I _ Hi). lia.
Qed.

Lemma inv_add_held L s d f o :
  Inv [] L s -> d = f ->
  (forall k, o k = opens s k + mesh_owner k (mkMesh 1 d f true)) ->
  Inv [] L (mkSt o (meshes s ++ [mkMesh 1 d f true]) (sgs s)).
Proof.
  intros I E Ho. subst f.
  assert (C : forall m r, nth_error (meshes s ++ [mkMesh 1 d d true]) m = Some r ->
    nth_error (meshes s) m = Some r \/ (m = length (meshes s) /\ r = mkMesh 1 d d true)).
  { intros m r H. apply nth_app_cases in H. destruct H as [H|[H1 H2]]; auto. right.
    destruct (m - length (meshes s)) as [|k] eqn:K; simpl in H2; [|destruct k; discriminate].
    injection H2 as <-. split; [lia|reflexivity]. }
  constructor; simpl.
  - intros m r H. destruct (C _ _ H) as [H'|[-> ->]].
    + exact (I_ref _ _ _ I _ _ H').
    + simpl. destruct (fresh_refs [] L s (length (meshes s)) I (le_n _)) as [-> _]. reflexivity.
  - intros g q m H1 H2 H3. rewrite app_length. generalize (I_rng _ _ _ I _ _ _ H1 H2 H3). lia.
  - intros m [].
  - intro k. rewrite Ho, (I_open _ _ _ I k). unfold owners. simpl. rewrite sum_app. simpl. lia.
  - intros m r k H. destruct (C _ _ H) as [H'|[-> ->]]; auto. exact (I_dt _ _ _ I _ _ _ H').
  - intros m r k H. destruct (C _ _ H) as [H'|[-> ->]].
    + exact (I_held _ _ _ I _ _ _ H').
    + simpl. congruence.
Qed.

Lemma inv_add_many L s f n :
  Inv [] L s ->
  Inv (seq (length (meshes s)) n) L
      (mkSt (opens s) (meshes s ++ repeat (mkMesh 1 None (Some f) false) n) (sgs s)).
Proof.
  intro I. constructor; simpl.
  - intros m r H. rewrite cnt_seq. apply nth_app_cases in H. destruct H as [H|[H1 H2]].
    + rewrite (I_ref _ _ _ I _ _ H), cnt_nil. apply nth_lt in H.
      destruct (Nat.leb_spec (length (meshes s)) m); [lia|]. simpl. lia.
    + apply nth_repeat_eq in H2. destruct H2 as [-> H2]. simpl.
      destruct (fresh_refs [] L s m I H1) as [-> _].
      destruct (Nat.leb_spec (length (meshes s)) m); [|lia].
      destruct (Nat.ltb_spec m (length (meshes s) + n)); [reflexivity|lia].
  - intros g q m H1 H2 H3. rewrite app_length. generalize (I_rng _ _ _ I _ _ _ H1 H2 H3). lia.
  - intros m H. apply in_seq in H. rewrite app_length, repeat_length. lia.
  - intro k. rewrite (I_open _ _ _ I k). unfold owners. simpl. rewrite sum_app.
    rewrite (sum_zero (mesh_owner k) (repeat _ n)); [lia|].
    intros i x H. apply nth_repeat_eq in H. destruct H as [-> _]. reflexivity.
  - intros m r k H. apply nth_app_cases in H. destruct H as [H|[H1 H2]].
    + exact (I_dt _ _ _ I _ _ _ H).
    + apply nth_repeat_eq in H2. destruct H2 as [-> _]. simpl. discriminate.
  - intros m r k H. apply nth_app_cases in H. destruct H as [H|[H1 H2]].
    + exact (I_held _ _ _ I _ _ _ H).
    + apply nth_repeat_eq in H2. destruct H2 as [-> _]. reflexivity.
Qed.

Lemma inv_dlopen_lost L s f :
  Inv [] L s -> Inv [] (fun k => L k + (if Nat.eqb f k then 1 else 0)) (dlopen s f).
Proof.
  intro I. constructor; simpl; try apply I.
  intro k. unfold owners, fset. simpl. generalize (I_open _ _ _ I k). unfold owners.
  rewrite (Nat.eqb_sym f k). destruct (Nat.eqb_spec k f) as [->|]; lia.
Qed.

Lemma inv_ext p L L' s : Inv p L s -> (forall f, L' f = L f) -> Inv p L' s.
Proof. intros I H. constructor; try apply I. intro f. rewrite H. apply I. Qed.

(** [shown_ok]: without copies, what a scene graph shows is kept by its own
    handle, the mesh's handle or a lost one. *)
Definition shown_ok (L : nat -> nat) (s : st) : Prop :=
  forall g q m r f, nth_error (sgs s) g = Some q -> g_live q = true -> In m (g_mesh q) ->
    nth_error (meshes s) m = Some r -> m_data r = Some f ->
    m_dtor r = Some f \/ g_dtor q = Some f \/ 0 < L f.

Lemma keeps_nth s s' m r' : keeps s s' -> nth_error (meshes s') m = Some r' ->
  exists r, nth_error (meshes s) m = Some r /\ m_dtor r = m_dtor r' /\ m_data r = m_data r'.
Proof.
  intros [K _] H. apply (map_nth_error stat) in H. rewrite K in H.
  rewrite nth_error_map in H. destruct (nth_error (meshes s) m) as [r|]; simpl in H; [|discriminate].
  exists r. split; auto. unfold stat in H. injection H. auto.
Qed.

Lemma keeps_shown L s s' : keeps s s' -> shown_ok L s -> shown_ok L s'.
Proof.
  intros K S g q m r f H1 H2 H3 H4 H5. destruct (keeps_nth _ _ _ _ K H4) as (r0 & E1 & E2 & E3).
  rewrite (proj2 K) in H1. rewrite <- E2. apply (S g q m r0 f); auto. congruence.
Qed.

Lemma step_ok L s e :
  Inv [] L s -> legal s e ->
  exists s', step s e = Some s' /\ Inv [] (fun f => L f + lost1 s e f) s' /\
             (is_copy e = false -> shown_ok L s -> shown_ok (fun f => L f + lost1 s e f) s').
Proof.
  intros I Hl. destruct e as [f w| |m|m g|f w tgt n|g|g]; simpl in *.
  - (* DlMesh *)
    unfold dl_mesh, rx_dlopen. destruct w; simpl.
    + exists s. split; auto. split.
      * apply (inv_ext _ _ _ _ I). intro; lia.
      * intros _ S g q m r k H1 H2 H3 H4 H5. destruct (S g q m r k H1 H2 H3 H4 H5) as [|[|]]; auto.
        right; right; lia.
    + eexists. split; [reflexivity|]. split.
      * apply inv_dlopen_lost. exact I.
      * intros _ S g q m r k H1 H2 H3 H4 H5. destruct (S g q m r k H1 H2 H3 H4 H5) as [|[|]]; auto.
        right; right; lia.
    + eexists. split; [reflexivity|]. split.
      * apply (inv_ext _ L); [|intro; lia].
        apply (inv_add_held L s (Some f) (Some f)); auto.
        intro k. unfold fset, mesh_owner. simpl. rewrite (Nat.eqb_sym f k).
        destruct (Nat.eqb_spec k f) as [->|]; lia.
      * intros _ S g q m r k H1 H2 H3 H4 H5. simpl in *.
        apply nth_app_cases in H4. destruct H4 as [H4|[H4 _]].
        -- destruct (S g q m r k H1 H2 H3 H4 H5) as [|[|]]; auto. right; right; lia.
        -- generalize (I_rng _ _ _ I _ _ _ H1 H2 H3). lia.
  - (* UserMesh *)
    eexists. split; [reflexivity|]. split.
    + apply (inv_ext _ L); [|intro; lia]. apply inv_add_held; auto.
    + intros _ S g q m r k H1 H2 H3 H4 H5. simpl in *.
      apply nth_app_cases in H4. destruct H4 as [H4|[H4 _]].
      * destruct (S g q m r k H1 H2 H3 H4 H5) as [|[|]]; auto. right; right; lia.
      * generalize (I_rng _ _ _ I _ _ _ H1 H2 H3). lia.
  - (* Release *)
    destruct Hl as (r & Hm & Hh). unfold release. rewrite Hm.
    destruct (drop_ok [] [] L s m r false I Hm) as (s' & H1 & H2 & H3); auto.
    + rewrite (I_ref _ _ _ I _ _ Hm), Hh, cnt_nil. lia.
    + exists s'. split; auto. split.
      * apply (inv_ext _ L); auto.
      * intros _ S. apply (keeps_shown _ _ _ H3). intros g q m' r' k A1 A2 A3 A4 A5.
        destruct (S g q m' r' k A1 A2 A3 A4 A5) as [|[|]]; auto. right; right; lia.
  - (* Attach *)
    destruct Hl as [(r & Hm & Hh) (q & Hg & Hq)]. unfold attach.
    destruct (inc_ok [] L s m r I Hm) as (s1 & E1 & I1 & K1 & O1).
    { generalize (I_ref _ _ _ I _ _ Hm). rewrite Hh. lia. }
    rewrite E1, (proj2 K1), Hg, Hq. eexists. split; [reflexivity|].
    assert (Hg1 : nth_error (sgs s1) g = Some q) by (rewrite (proj2 K1); exact Hg).
    split.
    + apply (inv_set_sg [m] [] L _ s1 g q); auto.
      * intro m'. unfold ref1. simpl. rewrite Hq, !cnt_cons. rewrite ?cnt_nil; lia.
      * intros m' [[]|[_ H]]. simpl in H. destruct H as [->|H]; [left; left; reflexivity|].
        right. auto.
      * intro k. unfold sg_owner. simpl. rewrite Hq. lia.
    + intros _ S g' q' m' r' k A1 A2 A3 A4 A5. simpl in *.
      destruct (keeps_nth _ _ _ _ K1 A4) as (r0 & B1 & B2 & B3).
      destruct (Nat.eq_dec g' g) as [->|N].
      * rewrite (upd_same _ _ _ _ Hg1) in A1. injection A1 as <-. simpl in *.
        destruct A3 as [<-|A3].
        -- left. rewrite Hm in B1. injection B1 as <-. rewrite <- B2.
           destruct (m_dtor r) as [f'|] eqn:D.
           ++ generalize (I_dt _ _ _ I _ _ _ Hm D). congruence.
           ++ rewrite (I_held _ _ _ I _ _ k Hm) in Hh; congruence.
        -- destruct (S g q m' r0 k) as [E|[E|E]]; auto; try congruence.
           ++ left; congruence.
           ++ right; right; lia.
      * rewrite upd_other in A1 by exact N. rewrite (proj2 K1) in A1.
        destruct (S g' q' m' r0 k) as [E|[E|E]]; auto; try congruence.
        -- left; congruence.
        -- right; right; lia.
  - (* DlSg *)
    unfold dl_sg, rx_dlopen. destruct w; simpl.
    + exists s. split; auto. split.
      * apply (inv_ext _ _ _ _ I). intro; destruct tgt; lia.
      * intros _ S g q m r k H1 H2 H3 H4 H5. destruct (S g q m r k H1 H2 H3 H4 H5) as [|[|]]; auto.
        right; right; lia.
    + eexists. split; [reflexivity|]. split.
      * apply inv_dlopen_lost. exact I.
      * intros _ S g q m r k H1 H2 H3 H4 H5. destruct (S g q m r k H1 H2 H3 H4 H5) as [|[|]]; auto.
        right; right; lia.
    + assert (IM := inv_add_many L s f n I).
      destruct tgt as [g|]; simpl.
      * destruct Hl as (q & Hg & Hq). unfold scene_fun. simpl. rewrite Hg, Hq. simpl.
        unfold set_destructor. simpl. rewrite (upd_same _ _ _ _ Hg). simpl.
        eexists. split; [reflexivity|].
        assert (U : forall x y, upd (upd (sgs s) g x) g y = upd (sgs s) g y).
        { clear. generalize (sgs s) as l. intros l x y. revert g.
          induction l as [|a t IH]; intros [|i]; simpl; auto. f_equal. apply IH. }
        unfold set_sg; simpl. rewrite U. split.
        -- refine (inv_set_sg _ [] L _ _ g q _ _ IM Hg _ _ _); simpl.
           ++ intro m. unfold ref1. simpl. rewrite Hq, cnt_app. rewrite ?cnt_nil; lia.
           ++ intros m [[]|[_ H]]. apply in_app_or in H. destruct H; auto.
           ++ intro k. unfold fset, sg_owner. simpl. rewrite Hq, (Nat.eqb_sym f k).
              destruct (Nat.eqb_spec k f) as [->|]; lia.
        -- intros _ S g' q' m r k A1 A2 A3 A4 A5. simpl in *.
           destruct (Nat.eq_dec g' g) as [->|N].
           ++ rewrite (upd_same _ _ _ _ Hg) in A1. injection A1 as <-. simpl in *.
              apply nth_app_cases in A4. destruct A4 as [A4|[A4 A4']].
              ** apply in_app_or in A3. destruct A3 as [A3|A3].
                 { apply in_seq in A3. apply nth_lt in A4. lia. }
                 destruct (S g q m r k) as [E|[E|E]]; auto.
                 { right; right. unfold sg_owner. rewrite Hq, E, Nat.eqb_refl. lia. }
                 { right; right. lia. }
              ** apply nth_repeat_eq in A4'. destruct A4' as [-> _]. simpl in A5. auto.
           ++ rewrite upd_other in A1 by exact N.
              apply nth_app_cases in A4. destruct A4 as [A4|[A4 A4']].
              ** destruct (S g' q' m r k) as [E|[E|E]]; auto. right; right; lia.
              ** generalize (I_rng _ _ _ I _ _ _ A1 A2 A3). lia.
      * unfold set_destructor. simpl. rewrite nth_error_app2, Nat.sub_diag by lia. simpl.
        eexists. split; [reflexivity|].
        assert (U : forall (l : list sgr) x y, upd (l ++ [x]) (length l) y = l ++ [y]).
        { clear. induction l as [|a t IH]; intros; simpl; auto. f_equal. apply IH. }
        unfold set_sg; simpl. rewrite U. split.
        -- apply (inv_ext _ L); [|intro; lia].
           refine (inv_add_sg _ L _ _ (Some f) _ IM _ _); auto.
           intro k. simpl. unfold fset, sg_owner. simpl. rewrite (Nat.eqb_sym f k).
           destruct (Nat.eqb_spec k f) as [->|]; lia.
        -- intros _ S g' q' m r k A1 A2 A3 A4 A5. simpl in *.
           apply nth_app_cases in A1. destruct A1 as [A1|[A1 A1']].
           ++ apply nth_app_cases in A4. destruct A4 as [A4|[A4 A4']].
              ** destruct (S g' q' m r k) as [E|[E|E]]; auto. right; right; lia.
              ** generalize (I_rng _ _ _ I _ _ _ A1 A2 A3). lia.
           ++ destruct (g' - length (sgs s)) as [|j]; simpl in A1'; [|destruct j; discriminate].
              injection A1' as <-. simpl in *. apply in_seq in A3.
              apply nth_app_cases in A4. destruct A4 as [A4|[A4 A4']].
              ** apply nth_lt in A4. lia.
              ** apply nth_repeat_eq in A4'. destruct A4' as [-> _]. simpl in A5. auto.
  - (* Copy *)
    destruct Hl as (q & Hg & Hq). unfold sg_copy. rewrite Hg, Hq.
    destruct (each_inc (g_mesh q) [] L s I) as (s1 & E1 & I1 & K1 & O1).
    { intros m H. split; [exact (shown_refs s g q m Hg Hq H)|exact (I_rng _ _ _ I _ _ _ Hg Hq H)]. }
    rewrite E1. eexists. split; [reflexivity|]. split; [|discriminate].
    apply (inv_ext _ L); [|intro; lia].
    apply (inv_add_sg (g_mesh q ++ []) L s1); auto.
    + intro m. rewrite app_nil_r. reflexivity.
  - (* Destroy *)
    destruct Hl as (q & Hg & Hq). unfold sg_destroy. rewrite Hg, Hq.
    assert (D : exists s1, run_dtor (g_dtor q) (set_sg s g (mkSg false None [])) = Some s1 /\
              Inv (g_mesh q ++ []) L s1 /\ meshes s1 = meshes s /\
              sgs s1 = upd (sgs s) g (mkSg false None [])).
    { assert (G : forall o, (forall f, o f + sg_owner f q = opens s f) ->
                  Inv (g_mesh q ++ []) L (mkSt o (meshes s) (upd (sgs s) g (mkSg false None [])))).
      { intros o Ho. apply (inv_set_sg [] _ L L s g q); auto.
        - intro m. unfold ref1. simpl. rewrite Hq, app_nil_r. rewrite ?cnt_nil; lia.
        - intros m [H|[H _]]; [|discriminate]. rewrite app_nil_r in H. auto.
        - intro f. generalize (Ho f). change (sg_owner f (mkSg false None [])) with 0. lia. }
      unfold run_dtor. destruct (g_dtor q) as [f|] eqn:E.
      - assert (O : exists k, opens s f = S k).
        { generalize (I_open _ _ _ I f) (sum_ge (sg_owner f) _ _ _ Hg) (sg_owner_pos f q Hq E).
          unfold owners. intros.
          exists (opens s f - 1). lia. }
        destruct O as [k O]. rewrite (dlclose_ok _ f k); [|exact O]. simpl.
        eexists. split; [reflexivity|]. split; [|split; reflexivity].
        apply G. intro f'. unfold fset, sg_owner. rewrite Hq, E, (Nat.eqb_sym f f').
        destruct (Nat.eqb_spec f' f) as [->|]; lia.
      - eexists. split; [reflexivity|]. split; [|split; reflexivity].
        apply G. intro f'. unfold sg_owner. rewrite Hq, E. lia. }
    destruct D as (s1 & E1 & I1 & M1 & S1). rewrite E1.
    destruct (each_dec (g_mesh q) [] L s1 I1) as (s2 & E2 & I2 & K2).
    exists s2. split; auto. split.
    + apply (inv_ext _ L); auto.
    + intros _ S. apply (keeps_shown _ _ _ K2). intros g' q' m r k A1 A2 A3 A4 A5.
      rewrite S1 in A1. rewrite M1 in A4. destruct (Nat.eq_dec g' g) as [->|N].
      * rewrite (upd_same _ _ _ _ Hg) in A1. injection A1 as <-. discriminate.
      * rewrite upd_other in A1 by exact N.
        destruct (S g' q' m r k) as [X|[X|X]]; auto. right; right; lia.
Qed.

Lemma exec_ok es : forall L s,
  Inv [] L s -> legal_hist s es ->
  exists s', exec s es = Some s' /\ Inv [] (fun f => L f + lost s es f) s' /\
             (forallb (fun e => negb (is_copy e)) es = true -> shown_ok L s ->
              shown_ok (fun f => L f + lost s es f) s').
Proof.
  induction es as [|e t IH]; intros L s I H; simpl in *.
  - exists s. split; auto. split.
    + apply (inv_ext _ L); auto.
    + intros _ S g q m r k A1 A2 A3 A4 A5. destruct (S g q m r k) as [X|[X|X]]; auto.
      right; right; lia.
  - destruct H as [H1 H2]. destruct (step_ok L s e I H1) as (s1 & E1 & I1 & S1).
    rewrite E1. destruct (IH _ s1 I1 (H2 _ E1)) as (s2 & E2 & I2 & S2).
    exists s2. split; auto. split.
    + apply (inv_ext _ _ _ _ I2). intro; lia.
    + intros C S. apply Bool.andb_true_iff in C. destruct C as [C1 C2].
      apply Bool.negb_true_iff in C1.
      intros g q m r k A1 A2 A3 A4 A5.
      destruct (S2 C2 (S1 C1 S) g q m r k) as [X|[X|X]]; auto. right; right; lia.
Qed.

Lemma inv_init : Inv [] (fun _ => 0) init.
Proof.
  constructor; simpl; auto; try (intros [|?]; discriminate); try tauto.
Qed.

Lemma reach es s : legal_hist init es -> exec init es = Some s ->
  Inv [] (lost init es) s /\
  (forallb (fun e => negb (is_copy e)) es = true -> shown_ok (lost init es) s).
Proof.
  intros H E. destruct (exec_ok es (fun _ => 0) init inv_init H) as (s' & E' & I & S).
  rewrite E in E'. injection E' as <-. split; [exact I|].
  intro C. apply S; auto. intros g q m r k A. destruct g; discriminate.
Qed.

Lemma safe_thm es : legal_hist init es -> exists s, exec init es = Some s.
Proof.
  intro H. destruct (exec_ok es (fun _ => 0) init inv_init H) as (s & E & _). exists s. exact E.
Qed.

Lemma ledger_thm es s f : legal_hist init es -> exec init es = Some s ->
  opens s f = owners s f + lost init es f.
Proof. intros H E. apply (I_open _ _ _ (proj1 (reach es s H E))). Qed.

Lemma read_ok s m r : nth_error (meshes s) m = Some r -> 0 < m_ref r ->
  (forall f, m_data r = Some f -> 0 < opens s f) -> read_mesh s m = Some tt.
Proof.
  intros Hm Hr Hd. unfold read_mesh. rewrite Hm. destruct (m_ref r); [lia|].
  destruct (m_data r) as [f|]; auto. specialize (Hd f eq_refl). destruct (opens s f); [lia|auto].
Qed.

Lemma open_by_mesh L s m r f : Inv [] L s -> nth_error (meshes s) m = Some r -> 0 < m_ref r ->
  m_dtor r = Some f -> 0 < opens s f.
Proof.
  intros I Hm Hr D. destruct (m_ref r) as [|k] eqn:E; [lia|].
  generalize (I_open _ _ _ I f) (sum_ge (mesh_owner f) _ _ _ Hm) (owner_pos f r k E D).
  unfold owners. lia.
Qed.

Lemma held_thm es s m : legal_hist init es -> exec init es = Some s -> held s m ->
  read_mesh s m = Some tt.
Proof.
  intros H E (r & Hm & Hh). destruct (reach es s H E) as [I _].
  assert (R : 0 < m_ref r) by (rewrite (I_ref _ _ _ I _ _ Hm), Hh; lia).
  apply (read_ok s m r Hm R). intros f Hd. destruct (m_dtor r) as [f'|] eqn:D.
  - generalize (I_dt _ _ _ I _ _ _ Hm D). intro X. rewrite Hd in X. injection X as ->.
    exact (open_by_mesh _ s m r f' I Hm R D).
  - rewrite (I_held _ _ _ I _ _ f Hm Hd D) in Hh. discriminate.
Qed.

Lemma shown_thm es s g m : legal_hist init es -> exec init es = Some s ->
  forallb (fun e => negb (is_copy e)) es = true -> shows s g m -> read_mesh s m = Some tt.
Proof.
  intros H E C (q & Hg & Hq & Hi). destruct (reach es s H E) as [I S]. specialize (S C).
  assert (Lm := I_rng _ _ _ I _ _ _ Hg Hq Hi).
  destruct (nth_error (meshes s) m) as [r|] eqn:Hm; [|apply nth_error_Some in Lm; congruence].
  assert (R : 0 < m_ref r).
  { rewrite (I_ref _ _ _ I _ _ Hm). generalize (shown_refs s g q m Hg Hq Hi). lia. }
  apply (read_ok s m r Hm R). intros f Hd. destruct (S g q m r f Hg Hq Hi Hm Hd) as [D|[D|D]].
  - exact (open_by_mesh _ s m r f I Hm R D).
  - generalize (I_open _ _ _ I f) (sum_ge (sg_owner f) _ _ _ Hg) (sg_owner_pos f q Hq D).
    unfold owners. lia.
  - generalize (I_open _ _ _ I f). lia.
Qed.

Lemma gone_refs L s m r : Inv [] L s -> all_gone s -> nth_error (meshes s) m = Some r -> m_ref r = 0.
Proof.
  intros I [A1 A2] Hm. rewrite (I_ref _ _ _ I _ _ Hm). destruct (m_held r) eqn:Eh.
  - exfalso. apply (A1 m). exists r. auto.
  - rewrite cnt_nil, Nat.add_0_r. apply sum_zero. intros g q Hg. unfold ref1. destruct (g_live q) eqn:El; auto.
    exfalso. apply (A2 g). exists q. auto.
Qed.

Lemma gone_thm es s : legal_hist init es -> exec init es = Some s -> all_gone s ->
  (forall f, opens s f = lost init es f) /\
  (forall m r, nth_error (meshes s) m = Some r -> m_ref r = 0).
Proof.
  intros H E A. destruct (reach es s H E) as [I _]. split.
  - intro f. rewrite (I_open _ _ _ I f). unfold owners.
    rewrite (sum_zero (mesh_owner f)), (sum_zero (sg_owner f)); auto.
    + intros g q Hg. unfold sg_owner. destruct (g_live q) eqn:El; auto.
      exfalso. apply (proj2 A g). exists q. auto.
    + intros m r Hm. unfold mesh_owner. rewrite (gone_refs _ s m r I A Hm). reflexivity.
  - intros m r Hm. exact (gone_refs _ s m r I A Hm).
Qed.

Lemma plain_lost es : forall s f, forallb plain es = true -> lost s es f = 0.
Proof.
  induction es as [|e t IH]; intros s f H; simpl in *; auto.
  apply Bool.andb_true_iff in H. destruct H as [H1 H2].
  assert (Z : lost1 s e f = 0)
    by (destruct e as [? []| | | |? [] []| |]; simpl in *; auto; discriminate).
  rewrite Z. destruct (step s e); [exact (IH _ _ H2)|reflexivity].
Qed.

(** While the scene graph a plugin was last loaded into lives, what that plugin
    brought stays readable wherever it is shared. *)
Lemma live_owner_thm es s g q f m r : legal_hist init es -> exec init es = Some s ->
  nth_error (sgs s) g = Some q -> g_live q = true -> g_dtor q = Some f ->
  nth_error (meshes s) m = Some r -> 0 < m_ref r -> m_data r = Some f -> read_mesh s m = Some tt.
Proof.
  intros H E Hg Hq D Hm Hr Hd. destruct (reach es s H E) as [I _].
  apply (read_ok s m r Hm Hr). intros f' Hf. assert (f' = f) by congruence. subst f'.
  generalize (I_open _ _ _ I f) (sum_ge (sg_owner f) _ _ _ Hg) (sg_owner_pos f q Hq D).
    unfold owners. lia.
Qed.

Lemma plain_closed_thm es s f : legal_hist init es -> exec init es = Some s ->
  forallb plain es = true -> all_gone s -> opens s f = 0.
Proof.
  intros H E P A. rewrite (proj1 (gone_thm es s H E A) f). apply plain_lost. exact P.
Qed.

(** Deciding the legality of concrete histories. *)
Definition legalb (s : st) (e : ev) : bool :=
  let h m := match nth_error (meshes s) m with Some r => m_held r | None => false end in
  let l g := match nth_error (sgs s) g with Some q => g_live q | None => false end in
  match e with
  | DlMesh _ _ | UserMesh => true
  | Release m => h m
  | Attach m g => andb (h m) (l g)
  | DlSg _ _ None _ => true
  | DlSg _ _ (Some g) _ => l g
  | Copy g | Destroy g => l g
  end.

Lemma legalb_ok s e : legalb s e = true -> legal s e.
Proof.
  assert (Hh : forall m, match nth_error (meshes s) m with Some r => m_held r | None => false end = true
            -> held s m).
  { intros m H. unfold held. destruct (nth_error (meshes s) m) as [r|]; [|discriminate]. eauto. }
  assert (Hl : forall g, match nth_error (sgs s) g with Some q => g_live q | None => false end = true
            -> live s g).
  { intros g H. unfold live. destruct (nth_error (sgs s) g) as [q|]; [|discriminate]. eauto. }
  destruct e as [? ?| | |m g|? ? [g|] ?| |]; cbn; auto.
  intro H. apply Bool.andb_true_iff in H. destruct H. auto.
Qed.

Fixpoint legal_histb (s : st) (es : list ev) : bool :=
  match es with
  | [] => true
  | e :: t => andb (legalb s e) (match step s e with Some s' => legal_histb s' t | None => true end)
  end.

Lemma legal_histb_ok es : forall s, legal_histb s es = true -> legal_hist s es.
Proof.
  induction es as [|e t IH]; intros s H; cbn [legal_histb legal_hist] in *; auto.
  apply Bool.andb_true_iff in H. destruct H as [H1 H2]. split; [exact (legalb_ok s e H1)|].
  intros s' E. rewrite E in H2. exact (IH s' H2).
Qed.

Lemma gone_of s :
  forallb (fun r => negb (m_held r)) (meshes s) = true ->
  forallb (fun q => negb (g_live q)) (sgs s) = true -> all_gone s.
Proof.
  intros A B. split.
  - intros m (r & H1 & H2). apply nth_error_In in H1.
    rewrite forallb_forall in A. specialize (A r H1). rewrite H2 in A. discriminate.
  - intros g (q & H1 & H2). apply nth_error_In in H1.
    rewrite forallb_forall in B. specialize (B q H1). rewrite H2 in B. discriminate.
Qed.

Lemma copy_refuted_thm :
  ~ (forall es s g m, legal_hist init es -> exec init es = Some s ->
       shows s g m -> read_mesh s m = Some tt).
Proof.
  intro H.
  assert (X := H [DlSg 0 Found None 1; Copy 0; Destroy 0]).
  edestruct (exec init [DlSg 0 Found None 1; Copy 0; Destroy 0]) as [s|] eqn:E; [|discriminate].
  assert (Y : read_mesh s 0 = Some tt).
  { apply (X s 1 0); auto.
    - apply legal_histb_ok. reflexivity.
    - cbv in E. injection E as <-. eexists. split; [reflexivity|]. split; [reflexivity|]. left. reflexivity. }
  cbv in E. injection E as <-. cbv in Y. discriminate.
Qed.

Lemma closed_refuted_thm :
  ~ (forall es s f, legal_hist init es -> exec init es = Some s -> all_gone s -> opens s f = 0).
Proof.
  intro H.
  assert (X := H [DlSg 0 Found None 1; DlSg 1 Found (Some 0) 1; Destroy 0]).
  destruct (exec init [DlSg 0 Found None 1; DlSg 1 Found (Some 0) 1; Destroy 0]) as [s|] eqn:E;
    [|discriminate].
  assert (Y : opens s 0 = 0).
  { apply X; auto.
    - apply legal_histb_ok. reflexivity.
    - cbv in E. injection E as <-. apply gone_of; reflexivity. }
  cbv in E. injection E as <-. cbv in Y. discriminate.
Qed.

Lemma second_load_thm f1 f2 n1 n2 s :
  exec init [DlSg f1 Found None n1; DlSg f2 Found (Some 0) n2; Destroy 0] = Some s ->
  forall f, opens s f = if Nat.eqb f1 f then 1 else 0.
Proof.
  intros E f.
  set (es := [DlSg f1 Found None n1; DlSg f2 Found (Some 0) n2; Destroy 0]) in *.
  assert (Lg : legal_hist init es).
  { unfold es. cbn [legal_hist legal step]. split; [exact I|]. intros s1 E1.
    injection E1 as <-. split.
    - eexists. split; reflexivity.
    - intros s2 E2. injection E2 as <-. split.
      + eexists. split; reflexivity.
      + intros s3 _. exact I. }
  assert (A : all_gone s).
  { unfold es in E. cbn [exec step] in E.
    change (dl_sg init f1 Found None n1) with
      (Some (mkSt (fset (fun _ => 0) f1 1) (repeat (mkMesh 1 None (Some f1) false) n1)
              [mkSg true (Some f1) (seq 0 n1)])) in E.
    cbv beta iota in E.
    match type of E with match ?x with _ => _ end = _ => destruct x as [s2|] eqn:E2; [|discriminate] end.
    assert (G2 : exists o ids, s2 = mkSt o
       (repeat (mkMesh 1 None (Some f1) false) n1 ++ repeat (mkMesh 1 None (Some f2) false) n2)
       [mkSg true (Some f2) ids]).
    { cbv [dl_sg rx_dlopen scene_fun set_destructor dlopen] in E2.
      cbn [nth_error sgs g_live upd meshes opens set_sg g_mesh g_dtor] in E2.
      injection E2 as <-. eexists. eexists. reflexivity. }
    destruct G2 as (o & ids & ->).
    cbv [sg_destroy] in E. cbn [nth_error sgs g_live g_mesh g_dtor] in E.
    match type of E with match match ?x with _ => _ end with _ => _ end = _ =>
      destruct x as [s3|] eqn:E3; [|discriminate] end.
    match type of E with match ?x with _ => _ end = _ => destruct x as [s4|] eqn:E4; [|discriminate] end.
    injection E as <-.
    assert (S3 : sgs s3 = [mkSg false None []] /\ forallb (fun r => negb (m_held r)) (meshes s3) = true).
    { cbv [run_dtor dlclose set_sg] in E3. cbn [opens sgs upd meshes] in E3.
      destruct (o f2); [discriminate|]. injection E3 as <-. cbn [sgs meshes]. split; [reflexivity|].
      rewrite forallb_app. apply Bool.andb_true_iff. split; apply forallb_forall;
        intros x Hx; apply repeat_spec in Hx; subst; reflexivity. }
    assert (P : forall l a b, each mesh_destroy a l = Some b ->
      forallb (fun r => negb (m_held r)) (meshes a) = true ->
      sgs b = sgs a /\ forallb (fun r => negb (m_held r)) (meshes b) = true).
    { assert (U : forall (l : list mesh) i x, m_held x = false ->
        forallb (fun r => negb (m_held r)) l = true ->
        forallb (fun r => negb (m_held r)) (upd l i x) = true).
      { induction l as [|a t IH]; intros [|i] x Hx Hl; cbn in *; auto;
          apply Bool.andb_true_iff in Hl; destruct Hl as [Ha Ht]; apply Bool.andb_true_iff; split; auto.
        rewrite Hx. reflexivity. }
      induction l as [|m t IH]; intros a b Hab Ha; cbn [each] in Hab.
      - injection Hab as <-. auto.
      - destruct (mesh_destroy a m) as [a'|] eqn:D; [|discriminate].
        assert (Q : sgs a' = sgs a /\ forallb (fun r => negb (m_held r)) (meshes a') = true).
        { unfold mesh_destroy in D. destruct (nth_error (meshes a) m) as [r|] eqn:Hm; [|discriminate].
          assert (Hr : m_held r = false).
          { rewrite forallb_forall in Ha. apply Bool.negb_true_iff. apply Ha.
            exact (nth_error_In _ _ Hm). }
          destruct (m_ref r) as [|[|k]]; [discriminate| |].
          - unfold run_dtor in D. destruct (m_dtor r) as [f'|].
            + unfold dlclose in D. destruct (opens _ f'); [discriminate|]. injection D as <-.
              cbn. split; auto.
            + injection D as <-. cbn. split; auto.
          - injection D as <-. cbn. split; auto. }
        destruct Q as [Q1 Q2]. destruct (IH _ _ Hab Q2) as [R1 R2]. split; congruence. }
    destruct (P _ _ _ E4 (proj2 S3)) as [P1 P2].
    apply gone_of; auto. rewrite P1, (proj1 S3). reflexivity. }
  rewrite (proj1 (gone_thm es s Lg E A) f).
  unfold es. cbn [lost lost1 step].
  change (dl_sg init f1 Found None n1) with
      (Some (mkSt (fset (fun _ => 0) f1 1) (repeat (mkMesh 1 None (Some f1) false) n1)
              [mkSg true (Some f1) (seq 0 n1)])).
  cbn [nth_error sgs]. cbv [sg_owner]. cbn [g_live g_dtor].
  destruct (dl_sg _ f2 _ _ _) as [s2|]; [destruct (sg_destroy s2 0)|]; destruct (Nat.eqb f1 f); reflexivity.
Qed.

Lemma plug_example :
  let es := [DlMesh 3 Found; DlSg 5 Found None 2; Attach 0 0; Release 0; Copy 0] in
  let fin := es ++ [Destroy 1; Destroy 0] in
  legal_hist init fin /\
  (exists s, exec init es = Some s /\ opens s 3 = 1 /\ opens s 5 = 1 /\
     shows s 1 0 /\ shows s 1 2 /\ read_mesh s 0 = Some tt /\ read_mesh s 2 = Some tt) /\
  (exists s, exec init fin = Some s /\ opens s 3 = 0 /\ opens s 5 = 0 /\ all_gone s).
Proof.
  cbv zeta. split; [apply legal_histb_ok; reflexivity|]. split.
  - eexists. split; [reflexivity|]. split; [reflexivity|]. split; [reflexivity|].
    split; [|split; [|split; reflexivity]].
    + eexists. split; [reflexivity|]. split; [reflexivity|]. cbn. auto.
    + eexists. split; [reflexivity|]. split; [reflexivity|]. cbn. auto.
  - eexists. split; [reflexivity|]. split; [reflexivity|]. split; [reflexivity|].
    apply gone_of; reflexivity.
Qed.
