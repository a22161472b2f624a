(** Every buffer scheduled once is destroyed at most once and never lost. *)
From Coq Require Import Arith List Bool Lia Permutation.
From Verif Require Import DeadModel DeadSpec.
Import ListNotations.

(** The buffers found from a pointer *)
Fixpoint chain (h : heap) (l : option nat) (L : list nat) : Prop :=
  match L with
  | [] => l = None
  | x :: r => l = Some x /\ exists n, h x = Some n /\ chain h n r
  end.
Lemma chain_upd h b v L : ~ In b L -> forall l, chain h l L -> chain (upd h b v) l L.
Proof.
  induction L as [|x r IH]; intros N l H; cbn in *; [exact H|].
  destruct H as (-> & n & E & C). split; [reflexivity|]. exists n. split.
  - unfold upd. destruct (x =? b) eqn:X; [|exact E]. apply Nat.eqb_eq in X. subst. tauto.
  - apply IH; tauto.
Qed.

Definition pend (o : op) : list nat := match o with Sched b => [b] | Clean => [] end.
Definition holds (p : ph) : bool :=
  match p with S1 _ | S2 _ | S3 | C1 | C2 _ | C3 _ => true | _ => false end.

(** The buffers a thread's phase holds *)
Definition ph_ok (h : heap) (hd : option nat) (p : ph) (Q : list nat) : Prop :=
  match p with
  | Idle | S3 | C1 => Q = []
  | S1 b => Q = [b]
  | S2 b => Q = [b] /\ h b = Some hd
  | C2 l => Q = [] /\ l = hd
  | C3 l | W l => chain h l Q
  | D x n => exists Q', Q = x :: Q' /\ h x = Some n /\ chain h n Q'
  end.
Lemma ph_head h hd hd' p Q : holds p = false -> ph_ok h hd p Q -> ph_ok h hd' p Q.
Proof. destruct p; cbn; try discriminate; auto. Qed.
Lemma ph_upd h hd p Q b v : ~ In b Q -> ph_ok h hd p Q -> ph_ok (upd h b v) hd p Q.
Proof.
  destruct p; cbn; auto.
  - intros N (-> & E). split; [reflexivity|]. unfold upd. destruct (b0 =? b) eqn:X; [|exact E].
    apply Nat.eqb_eq in X. subst. cbn in N. tauto.
  - intros N C. now apply chain_upd.
  - intros N C. now apply chain_upd.
  - intros N (Q' & -> & E & C). exists Q'. cbn in N. split; [reflexivity|]. split.
    + unfold upd. destruct (x =? b) eqn:X; [|exact E]. apply Nat.eqb_eq in X. subst. tauto.
    + apply chain_upd; tauto.
Qed.

Fixpoint holders (ts : list thread) : nat :=
  match ts with [] => 0 | t :: r => (if holds (t_ph t) then 1 else 0) + holders r end.
Lemma holders_app a b : holders (a ++ b) = holders a + holders b.
Proof. induction a; cbn; [reflexivity|]. rewrite IHa. lia. Qed.
Lemma holders_0 ts : holders ts = 0 -> forall t, In t ts -> holds (t_ph t) = false.
Proof.
  induction ts as [|x r IH]; cbn; [tauto|]. intros H t [->|I].
  - now destruct (holds (t_ph t)).
  - apply IH; [lia|exact I].
Qed.

Definition pending (t : thread) : list nat := flat_map pend (t_ops t).

(** What a thread holds *)
Definition th_ok (h : heap) (hd : option nat) (t : thread) (Q : list nat) : Prop := ph_ok h hd (t_ph t) Q.

Record inv (All : list nat) (s : st) : Prop := {
  iv_live : forall b, In b All -> ~ In b (g_gone (s_g s)) -> g_heap (s_g s) b <> None;
  iv_lock : holders (s_ts s) = if g_lock (s_g s) then 1 else 0;
  iv_lists : exists L Qs,
    chain (g_heap (s_g s)) (g_head (s_g s)) L /\
    Forall2 (th_ok (g_heap (s_g s)) (g_head (s_g s))) (s_ts s) Qs /\
    Permutation All (g_gone (s_g s) ++ L ++ concat Qs ++ flat_map pending (s_ts s)) }.

Lemma set_nth_split n t ts x : nth_error ts n = Some x ->
  exists a c, ts = a ++ x :: c /\ set_nth n t ts = a ++ t :: c.
Proof.
  revert n. induction ts as [|y r IH]; intros [|n] H; cbn in *; try discriminate.
  - inversion H. subst. exists [], r. auto.
  - destruct (IH n H) as (a & c & -> & E). exists (y :: a), c. cbn. rewrite E. auto.
Qed.

Lemma F2_imp {A B} (P Q : A -> B -> Prop) l m : (forall x y, In x l -> In y m -> P x y -> Q x y) ->
  Forall2 P l m -> Forall2 Q l m.
Proof. intros H F. induction F; constructor; [apply H; cbn; auto|]. apply IHF. intros. apply H; cbn; auto. Qed.

Lemma nodup_app {A} (a b : list A) x : NoDup (a ++ b) -> In x a -> In x b -> False.
Proof.
  induction a as [|y a IH]; cbn; [tauto|]. intros N [->|I] J; inversion N; subst.
  - apply H1. apply in_or_app. auto.
  - now apply IH.
Qed.

Lemma perm_front {A} (g l a q c p : list A) : Permutation (g ++ l ++ (a ++ q ++ c) ++ p) (q ++ g ++ l ++ a ++ c ++ p).
Proof.
  rewrite <- !app_assoc. rewrite (Permutation_app_swap_app a q), (Permutation_app_swap_app l q), (Permutation_app_swap_app g q).
  reflexivity.
Qed.

Section STEP.
Variable All : list nat.
Hypothesis ND : NoDup All.

(** One thread moves: the others keep what they have *)
Lemma step_inv s n s' : inv All s -> step_at s n = Some s' -> inv All s'.
Proof.
  intros [Lv Lk (L & Qs & Ch & F & Pm)] E. unfold step_at in E.
  destruct (nth_error (s_ts s) n) as [t|] eqn:Nth; [|inversion E; subst; constructor; eauto].
  destruct (tstep (s_g s) t) as [g' t'| | |] eqn:T; try discriminate;
    try (inversion E; subst; constructor; eauto; fail).
  destruct (set_nth_split n t' _ _ Nth) as (a & c & Ets & Eset). inversion E. subst s'. clear E.
  rewrite Eset. rewrite Ets in *. clear Nth Eset.
  apply Forall2_app_inv_l in F. destruct F as (Qa & Q2 & Fa & F2 & ->).
  inversion F2 as [|? Qt ? Qc Ft Fc]. subst Q2. subst.
  destruct s as [g ts]. destruct g as [hd lk h gone]. cbn [s_g s_ts g_head g_lock g_heap g_gone] in *.
  destruct t as [p ops]. cbn [t_ph t_ops] in *.
  (* the others, when this thread holds the lock *)
  assert (Oth : holds p = true -> forall t, In t a \/ In t c -> holds (t_ph t) = false).
  { intros Hp. rewrite holders_app in Lk. cbn in Lk. rewrite Hp in Lk.
    intros t [I|I]; refine (holders_0 _ _ _ I); destruct lk; lia. }
  assert (FaH : holds p = true -> forall hd', Forall2 (th_ok h hd') a Qa).
  { intros Hp hd'. eapply F2_imp; [|exact Fa]. intros x y I _ K. apply (ph_head h hd); auto. }
  assert (FcH : holds p = true -> forall hd', Forall2 (th_ok h hd') c Qc).
  { intros Hp hd'. eapply F2_imp; [|exact Fc]. intros x y I _ K. apply (ph_head h hd); auto. }
  unfold th_ok in Ft. cbn [t_ph] in Ft.
  rewrite concat_app in Pm. cbn [concat] in Pm.
  assert (N2 : NoDup (gone ++ L ++ (concat Qa ++ Qt ++ concat Qc) ++ flat_map pending (a ++ mkT p ops :: c)))
    by (eapply Permutation_NoDup; eauto).
  (* a buffer this thread holds is nobody else's *)
  assert (Mine : forall b, In b Qt -> ~ In b L /\ (forall q, In q Qa -> ~ In b q) /\ (forall q, In q Qc -> ~ In b q) /\ In b All /\ ~ In b gone).
  { intros b I.
    assert (N3 : NoDup (Qt ++ (gone ++ L ++ concat Qa ++ concat Qc ++ flat_map pending (a ++ mkT p ops :: c)))).
    { eapply Permutation_NoDup; [|exact N2]. apply perm_front. }
    assert (No : forall x, In x Qt -> In x (gone ++ L ++ concat Qa ++ concat Qc ++ flat_map pending (a ++ mkT p ops :: c)) -> False).
    { intros x I1 J1. exact (nodup_app _ _ x N3 I1 J1). }
    split; [intros J; apply (No b I); rewrite !in_app_iff; tauto|].
    split; [intros q Hq J; apply (No b I); rewrite !in_app_iff; right; right; left; apply in_concat; eauto|].
    split; [intros q Hq J; apply (No b I); rewrite !in_app_iff; right; right; right; left; apply in_concat; eauto|].
    split; [|intros J; apply (No b I); rewrite !in_app_iff; tauto].
    eapply Permutation_in; [symmetry; exact Pm|]. rewrite !in_app_iff. tauto. }
  assert (Oa : forall b v hd', In b Qt -> (forall t, In t a -> holds (t_ph t) = false) \/ hd' = hd -> Forall2 (th_ok (upd h b v) hd') a Qa).
  { intros b v hd' I D. eapply F2_imp; [|exact Fa]. intros x y I1 I2 K. destruct (Mine b I) as (_ & M2 & _). apply ph_upd; [now apply M2|].
    destruct D as [D| ->]; [|exact K]. apply (ph_head h hd); auto. }
  assert (Oc : forall b v hd', In b Qt -> (forall t, In t c -> holds (t_ph t) = false) \/ hd' = hd -> Forall2 (th_ok (upd h b v) hd') c Qc).
  { intros b v hd' I D. eapply F2_imp; [|exact Fc]. intros x y I1 I2 K. destruct (Mine b I) as (_ & _ & M3 & _). apply ph_upd; [now apply M3|].
    destruct D as [D| ->]; [|exact K]. apply (ph_head h hd); auto. }
  rewrite holders_app in Lk. cbn [holders t_ph] in Lk.
  rewrite flat_map_app in Pm. cbn [flat_map pending t_ops] in Pm. clear N2.
  destruct p as [|b|b| | |l|l|l|x m]; cbn [tstep t_ph t_ops] in T.
  - (* Idle *)
    cbn in Ft. subst Qt. cbn [holds] in Lk. cbn [app] in Pm.
    destruct ops as [|[b|] ops]; unfold lock in T; cbn [g_lock] in T; try discriminate;
      destruct lk; try discriminate; inversion T; subst g' t'.
    + constructor; cbn [s_g s_ts g_head g_lock g_heap g_gone].
      * exact Lv.
      * rewrite holders_app. cbn [holders t_ph holds]. lia.
      * exists L, (Qa ++ [b] :: Qc). split; [exact Ch|]. split.
        -- apply Forall2_app; [exact Fa|]. constructor; [reflexivity|exact Fc].
        -- rewrite Pm, concat_app, flat_map_app. cbn [concat flat_map pending t_ops pend app].
           apply Permutation_app_head, Permutation_app_head. rewrite <- !app_assoc. cbn [app].
           apply Permutation_app_head.
           rewrite (app_assoc (concat Qc) (flat_map pending a)).
           rewrite <- Permutation_middle. rewrite <- app_assoc. reflexivity.
    + constructor; cbn [s_g s_ts g_head g_lock g_heap g_gone].
      * exact Lv.
      * rewrite holders_app. cbn [holders t_ph holds]. lia.
      * exists L, (Qa ++ [] :: Qc). split; [exact Ch|]. split.
        -- apply Forall2_app; [exact Fa|]. constructor; [reflexivity|exact Fc].
        -- rewrite Pm, concat_app, flat_map_app. reflexivity.
  - (* S1 *)
    cbn in Ft. subst Qt. cbn [g_heap] in T. destruct (h b) as [v|] eqn:Hb; [|discriminate].
    inversion T; subst g' t'. cbn [holds] in Lk.
    destruct (Mine b (or_introl eq_refl)) as (M1 & M2 & M3 & M4 & M5).
    constructor; cbn [s_g s_ts g_head g_lock g_heap g_gone].
    + intros y I J. unfold upd. destruct (y =? b); [discriminate|now apply Lv].
    + rewrite holders_app. cbn [holders t_ph holds]. exact Lk.
    + exists L, (Qa ++ [b] :: Qc). split; [now apply chain_upd|]. split.
      * apply Forall2_app; [apply Oa; cbn; auto|]. constructor; [|apply Oc; cbn; auto].
        split; [reflexivity|]. unfold upd. now rewrite Nat.eqb_refl.
      * rewrite Pm, concat_app, flat_map_app. reflexivity.
  - (* S2 *)
    cbn in Ft. destruct Ft as (-> & Hb). inversion T; subst g' t'. cbn [holds] in Lk.
    constructor; cbn [s_g s_ts g_head g_lock g_heap g_gone].
    + exact Lv.
    + rewrite holders_app. cbn [holders t_ph holds]. exact Lk.
    + exists (b :: L), (Qa ++ [] :: Qc). split.
      { cbn. split; [reflexivity|]. exists hd. auto. }
      split.
      * apply Forall2_app; [now apply FaH|]. constructor; [reflexivity|now apply FcH].
      * rewrite Pm, concat_app, flat_map_app. cbn [concat flat_map pending t_ops app].
        apply Permutation_app_head. rewrite <- !app_assoc. cbn [app].
        rewrite (app_assoc L (concat Qa)), <- Permutation_middle, <- app_assoc. reflexivity.
  - (* S3 *)
    cbn in Ft. subst Qt. inversion T; subst g' t'. cbn [holds] in Lk.
    constructor; cbn [s_g s_ts g_head g_lock g_heap g_gone].
    + exact Lv.
    + rewrite holders_app. cbn [holders t_ph holds]. destruct lk; lia.
    + exists L, (Qa ++ [] :: Qc). split; [exact Ch|]. split.
      * apply Forall2_app; [exact Fa|]. constructor; [reflexivity|exact Fc].
      * rewrite Pm, concat_app, flat_map_app. reflexivity.
  - (* C1 *)
    cbn in Ft. subst Qt. cbn [holds] in Lk. cbn [g_head] in T.
    destruct hd as [hb|]; inversion T; subst g' t'.
    + constructor; cbn [s_g s_ts g_head g_lock g_heap g_gone].
      * exact Lv.
      * rewrite holders_app. cbn [holders t_ph holds]. exact Lk.
      * exists L, (Qa ++ [] :: Qc). split; [exact Ch|]. split.
        -- apply Forall2_app; [exact Fa|]. constructor; [cbn; auto|exact Fc].
        -- rewrite Pm, concat_app, flat_map_app. reflexivity.
    + constructor; cbn [s_g s_ts g_head g_lock g_heap g_gone].
      * exact Lv.
      * rewrite holders_app. cbn [holders t_ph holds]. exact Lk.
      * exists L, (Qa ++ [] :: Qc). split; [exact Ch|]. split.
        -- apply Forall2_app; [exact Fa|]. constructor; [cbn; auto|exact Fc].
        -- rewrite Pm, concat_app, flat_map_app. reflexivity.
  - (* C2 *)
    cbn in Ft. destruct Ft as (-> & ->). inversion T; subst g' t'. cbn [holds] in Lk.
    constructor; cbn [s_g s_ts g_head g_lock g_heap g_gone].
    + exact Lv.
    + rewrite holders_app. cbn [holders t_ph holds]. exact Lk.
    + exists [], (Qa ++ L :: Qc). split; [reflexivity|]. split.
      * apply Forall2_app; [now apply FaH|]. constructor; [exact Ch|now apply FcH].
      * rewrite Pm, concat_app, flat_map_app. cbn [concat flat_map pending t_ops app].
        apply Permutation_app_head. rewrite <- !app_assoc. rewrite (app_assoc L), (Permutation_app_comm L), <- app_assoc. reflexivity.
  - (* C3 *)
    cbn in Ft. inversion T; subst g' t'. cbn [holds] in Lk.
    constructor; cbn [s_g s_ts g_head g_lock g_heap g_gone].
    + exact Lv.
    + rewrite holders_app. cbn [holders t_ph holds]. destruct lk; lia.
    + exists L, (Qa ++ Qt :: Qc). split; [exact Ch|]. split.
      * apply Forall2_app; [exact Fa|]. constructor; [exact Ft|exact Fc].
      * rewrite Pm, concat_app, flat_map_app. reflexivity.
  - (* W *)
    cbn in Ft. cbn [holds] in Lk. destruct l as [x|]; [cbn [g_heap] in T; destruct (h x) as [m|] eqn:Hx; [|discriminate]|]; inversion T; subst g' t'.
    + constructor; cbn [s_g s_ts g_head g_lock g_heap g_gone].
      * exact Lv.
      * rewrite holders_app. cbn [holders t_ph holds]. exact Lk.
      * exists L, (Qa ++ Qt :: Qc). split; [exact Ch|]. split.
        -- apply Forall2_app; [exact Fa|]. constructor; [|exact Fc].
           destruct Qt as [|y Q']; [discriminate|]. cbn in Ft. destruct Ft as (Ey & m' & Em & Cm). inversion Ey. subst y.
           exists Q'. rewrite Hx in Em. inversion Em. subst. auto.
        -- rewrite Pm, concat_app, flat_map_app. reflexivity.
    + assert (Qt = []) by (destruct Qt; [reflexivity|cbn in Ft; destruct Ft; discriminate]). subst Qt.
      constructor; cbn [s_g s_ts g_head g_lock g_heap g_gone].
      * exact Lv.
      * rewrite holders_app. cbn [holders t_ph holds]. exact Lk.
      * exists L, (Qa ++ [] :: Qc). split; [exact Ch|]. split.
        -- apply Forall2_app; [exact Fa|]. constructor; [reflexivity|exact Fc].
        -- rewrite Pm, concat_app, flat_map_app. reflexivity.
  - (* D *)
    cbn in Ft. destruct Ft as (Q' & -> & Hx & Cm). cbn [g_heap] in T. rewrite Hx in T.
    inversion T; subst g' t'. cbn [holds] in Lk.
    destruct (Mine x (or_introl eq_refl)) as (M1 & M2 & M3 & M4 & M5).
    constructor; cbn [s_g s_ts g_head g_lock g_heap g_gone].
    + intros y I J. rewrite in_app_iff in J. unfold upd. destruct (y =? x) eqn:X.
      * apply Nat.eqb_eq in X. subst. exfalso. apply J. cbn. auto.
      * apply Lv; tauto.
    + rewrite holders_app. cbn [holders t_ph holds]. exact Lk.
    + exists L, (Qa ++ Q' :: Qc). split; [now apply chain_upd|]. split.
      * apply Forall2_app; [apply Oa; cbn; auto|]. constructor; [|apply Oc; cbn; auto].
        apply chain_upd; [|exact Cm]. intros J.
        assert (N3 : NoDup (gone ++ L ++ (concat Qa ++ (x :: Q') ++ concat Qc) ++ flat_map pending a ++ flat_map pend ops ++ flat_map pending c))
          by (eapply Permutation_NoDup; eauto).
        assert (N4 : NoDup ((x :: Q') ++ (gone ++ L ++ concat Qa ++ concat Qc ++ flat_map pending a ++ flat_map pend ops ++ flat_map pending c))).
        { eapply Permutation_NoDup; [|exact N3]. apply perm_front. }
        cbn [app] in N4. inversion N4. apply H1. apply in_or_app. auto.
      * rewrite Pm, concat_app, flat_map_app. cbn [concat flat_map pending t_ops].
        rewrite <- !app_assoc. apply Permutation_app_head. cbn [app].
        rewrite (app_assoc L (concat Qa)). rewrite <- Permutation_middle. rewrite <- app_assoc. reflexivity.
Qed.

(** No step is undefined *)
Lemma step_good s n : inv All s -> step_at s n <> None.
Proof.
  intros [Lv Lk (L & Qs & Ch & F & Pm)]. unfold step_at.
  destruct (nth_error (s_ts s) n) as [t|] eqn:Nth; [|discriminate].
  destruct (set_nth_split n t _ _ Nth) as (a & c & Ets & _). rewrite Ets in *. clear Nth.
  apply Forall2_app_inv_l in F. destruct F as (Qa & Q2 & Fa & F2 & ->).
  inversion F2 as [|? Qt ? Qc Ft Fc]. subst Q2. subst. unfold th_ok in Ft.
  assert (Li : forall b, In b Qt -> g_heap (s_g s) b <> None).
  { intros b I.
    assert (N2 : NoDup (g_gone (s_g s) ++ L ++ concat (Qa ++ Qt :: Qc) ++ flat_map pending (a ++ t :: c)))
      by (eapply Permutation_NoDup; eauto).
    assert (I2 : In b (L ++ concat (Qa ++ Qt :: Qc) ++ flat_map pending (a ++ t :: c))).
    { rewrite concat_app. cbn [concat]. rewrite !in_app_iff. tauto. }
    apply Lv.
    - eapply Permutation_in; [symmetry; exact Pm|]. apply in_or_app. auto.
    - intros J. exact (nodup_app _ _ b N2 J I2). }
  destruct t as [p ops]. cbn [t_ph] in Ft. unfold tstep. cbn [t_ph t_ops].
  destruct p as [|b|b| | |l|l|[x|]|x m]; try discriminate.
  - destruct ops as [|[b|] r]; unfold lock; try discriminate; destruct (g_lock (s_g s)); discriminate.
  - cbn in Ft. subst Qt. specialize (Li b (or_introl eq_refl)). destruct (g_heap (s_g s) b); [discriminate|tauto].
  - destruct (g_head (s_g s)); discriminate.
  - cbn in Ft. destruct Qt as [|y Q']; [discriminate|]. cbn in Ft. destruct Ft as (E & m & Hm & _). inversion E. rewrite Hm. discriminate.
  - cbn in Ft. destruct Ft as (Q' & _ & Hm & _). rewrite Hm. discriminate.
Qed.

Lemma exec_inv picks : forall s, inv All s -> exists s', exec s picks = Some s' /\ inv All s'.
Proof.
  induction picks as [|n r IH]; intros s V; cbn; [eauto|].
  destruct (step_at s n) as [s1|] eqn:E; [|destruct (step_good s n V E)].
  apply IH. eapply step_inv; eauto.
Qed.

(** Some thread can move unless all have finished *)
Definition moves (s : st) (n : nat) : Prop :=
  exists t g' t', nth_error (s_ts s) n = Some t /\ tstep (s_g s) t = Step g' t'.
Lemma tstep_moves s t : inv All s -> In t (s_ts s) -> holds (t_ph t) = true \/ g_lock (s_g s) = false -> finished t = false ->
  exists n, moves s n.
Proof.
  intros V I H Fi. apply In_nth_error in I. destruct I as (n & Hn). exists n. unfold moves.
  pose proof (step_good s n V) as G. unfold step_at in G. rewrite Hn in G.
  destruct (tstep (s_g s) t) as [g' t'| | |] eqn:T.
  - exists t, g', t'. auto.
  - exfalso. unfold tstep in T. destruct t as [p ops]. cbn [t_ph t_ops] in *.
    destruct p as [|b|b| | |l|l|[x|]|x m]; cbn in H; try discriminate.
    + destruct H as [H|H]; [discriminate|]. destruct ops as [|[b|] r]; try discriminate; unfold lock in T; rewrite H in T; discriminate.
    + destruct (g_heap (s_g s) b); discriminate.
    + destruct (g_head (s_g s)); discriminate.
    + destruct (g_heap (s_g s) x); discriminate.
    + destruct (g_heap (s_g s) x); discriminate.
  - exfalso. unfold tstep in T. destruct t as [p ops]. unfold finished in Fi. cbn [t_ph t_ops] in *.
    destruct p as [|b|b| | |l|l|[x|]|x m]; try discriminate.
    + destruct ops as [|[b|] r]; try discriminate; unfold lock in T; destruct (g_lock (s_g s)); discriminate.
    + destruct (g_heap (s_g s) b); discriminate.
    + destruct (g_head (s_g s)); discriminate.
    + destruct (g_heap (s_g s) x); discriminate.
    + destruct (g_heap (s_g s) x); discriminate.
  - now destruct G.
Qed.
Lemma holder_in ts : holders ts <> 0 -> exists t, In t ts /\ holds (t_ph t) = true.
Proof.
  induction ts as [|t r IH]; cbn; [lia|]. destruct (holds (t_ph t)) eqn:H; [exists t; auto|].
  intros N. destruct (IH N) as (u & I & K). exists u. auto.
Qed.
Lemma progress s : inv All s -> (exists t, In t (s_ts s) /\ finished t = false) -> exists n, moves s n.
Proof.
  intros V (t & I & Fi). destruct (g_lock (s_g s)) eqn:K.
  - pose proof (iv_lock _ _ V) as H. rewrite K in H. destruct (holder_in (s_ts s)) as (u & Iu & Hu); [lia|].
    apply (tstep_moves s u V Iu); [auto|]. unfold finished. destruct u as [p o]. cbn in *. destruct p; try discriminate; reflexivity.
  - apply (tstep_moves s t V I); auto.
Qed.
End STEP.

(** ** A run of one thread that cleans up alone *)
Lemma nth_mid (a c : list thread) t : nth_error (a ++ t :: c) (length a) = Some t.
Proof. induction a; cbn; auto. Qed.
Lemma set_mid (a c : list thread) t u : set_nth (length a) u (a ++ t :: c) = a ++ u :: c.
Proof. induction a; cbn; [reflexivity|]. now rewrite IHa. Qed.

Lemma exec_app p q : forall s, exec s (p ++ q) = match exec s p with Some s' => exec s' q | None => None end.
Proof. induction p as [|n p IH]; intros s; cbn; [reflexivity|]. destruct (step_at s n); [apply IH|reflexivity]. Qed.

Lemma step_last a g t g' t' : tstep g t = Step g' t' ->
  step_at (mkSt g (a ++ [t])) (length a) = Some (mkSt g' (a ++ [t'])).
Proof. intros H. unfold step_at. cbn [s_ts s_g]. rewrite nth_mid, H, set_mid. reflexivity. Qed.

Lemma walk_alone a Q : forall hd h gone l, NoDup Q -> chain h l Q ->
  exists k h', exec (mkSt (mkG hd false h gone) (a ++ [mkT (W l) []])) (repeat (length a) k) =
               Some (mkSt (mkG hd false h' (gone ++ Q)) (a ++ [mkT Idle []])).
Proof.
  induction Q as [|x Q IH]; intros hd h gone l ND C; cbn in C.
  - subst l. exists 1, h. cbn [repeat exec]. rewrite (step_last a _ _ (mkG hd false h gone) (mkT Idle [])) by reflexivity.
    now rewrite app_nil_r.
  - destruct C as (-> & n & Hx & C). inversion ND. subst.
    destruct (IH hd (upd h x None) (gone ++ [x]) n H2 (chain_upd h x None Q H1 n C)) as (k & h' & E).
    exists (S (S k)), h'. cbn [repeat exec].
    rewrite (step_last a _ _ (mkG hd false h gone) (mkT (D x n) [])) by (cbn; now rewrite Hx).
    rewrite (step_last a _ _ (mkG hd false (upd h x None) (gone ++ [x])) (mkT (W n) [])) by (cbn; now rewrite Hx).
    rewrite E. now rewrite <- app_assoc.
Qed.

Lemma clean_alone a Q hd h gone : NoDup Q -> chain h hd Q ->
  exists k h', exec (mkSt (mkG hd false h gone) (a ++ [mkT Idle [Clean]])) (repeat (length a) k) =
               Some (mkSt (mkG None false h' (gone ++ Q)) (a ++ [mkT Idle []])).
Proof.
  intros ND C. destruct (walk_alone a Q None h gone hd ND C) as (k & h' & E).
  destruct hd as [x|].
  - exists (4 + k), h'. cbn [repeat exec plus].
    rewrite (step_last a _ _ (mkG (Some x) true h gone) (mkT C1 [])) by reflexivity.
    rewrite (step_last a _ _ (mkG (Some x) true h gone) (mkT (C2 (Some x)) [])) by reflexivity.
    rewrite (step_last a _ _ (mkG None true h gone) (mkT (C3 (Some x)) [])) by reflexivity.
    rewrite (step_last a _ _ (mkG None false h gone) (mkT (W (Some x)) [])) by reflexivity.
    exact E.
  - exists (3 + k), h'. cbn [repeat exec plus].
    rewrite (step_last a _ _ (mkG None true h gone) (mkT C1 [])) by reflexivity.
    rewrite (step_last a _ _ (mkG None true h gone) (mkT (C3 None) [])) by reflexivity.
    rewrite (step_last a _ _ (mkG None false h gone) (mkT (W None) [])) by reflexivity.
    exact E.
Qed.

Lemma pending_start progs : flat_map pending (map (mkT Idle) progs) = scheduled progs.
Proof. unfold scheduled. induction progs as [|p r IH]; cbn; [reflexivity|]. now rewrite IH. Qed.
Lemma start_inv garbage progs : inv (scheduled progs) (start garbage progs).
Proof.
  constructor; cbn [start s_g s_ts g_head g_lock g_heap g_gone].
  - discriminate.
  - induction progs; cbn; auto.
  - exists [], (map (fun _ => []) progs). split; [reflexivity|]. split.
    + induction progs; cbn; constructor; auto. reflexivity.
    + cbn [app]. rewrite pending_start.
      replace (concat (map (fun _ => []) progs)) with (@nil nat); [reflexivity|]. induction progs; cbn; auto.
Qed.

Lemma once garbage progs picks : NoDup (scheduled progs) ->
  exists s, exec (start garbage progs) picks = Some s /\ NoDup (destroyed s) /\ incl (destroyed s) (scheduled progs).
Proof.
  intros ND. destruct (exec_inv _ ND picks _ (start_inv garbage progs)) as (s & E & [Lv Lk (L & Qs & Ch & F & Pm)]).
  exists s. split; [exact E|]. unfold destroyed.
  assert (N2 := Permutation_NoDup Pm ND). split.
  - clear -N2. revert N2. generalize (L ++ concat Qs ++ flat_map pending (s_ts s)). generalize (g_gone (s_g s)).
    induction l as [|x l IH]; intros m N; cbn in *; [constructor|]. inversion N. subst. constructor; [|eauto].
    intros I. apply H1. apply in_or_app. auto.
  - intros x I. eapply Permutation_in; [symmetry; exact Pm|]. apply in_or_app. auto.
Qed.

Lemma Forall2_nil_concat h hd ts Qs : Forall2 (th_ok h hd) ts Qs -> (forall t, In t ts -> finished t = true) ->
  concat Qs = [] /\ flat_map pending ts = [] /\ holders ts = 0.
Proof.
  intros F. induction F as [|t Q ts Qs H F IH]; intros Fi; [auto|].
  destruct (IH (fun u I => Fi u (or_intror I))) as (E1 & E2 & E3).
  pose proof (Fi t (or_introl eq_refl)) as Ft. destruct t as [p ops]. unfold finished in Ft. cbn in Ft.
  destruct p; try discriminate. destruct ops; try discriminate. unfold th_ok in H. cbn in H. subst Q.
  cbn. now rewrite E1, E2, E3.
Qed.

Lemma none_lost garbage progs picks s : NoDup (scheduled progs) ->
  exec (start garbage progs) picks = Some s -> all_finished s ->
  exists k s', exec (join s [Clean]) (repeat (length (s_ts s)) k) = Some s' /\ all_finished s' /\
               g_head (s_g s') = None /\ Permutation (destroyed s') (scheduled progs).
Proof.
  intros ND E Fi. destruct (exec_inv _ ND picks _ (start_inv garbage progs)) as (s1 & E1 & [Lv Lk (L & Qs & Ch & F & Pm)]).
  rewrite E in E1. inversion E1. subst s1. clear E1.
  destruct (Forall2_nil_concat _ _ _ _ F Fi) as (C1 & C2 & C3). rewrite C1, C2 in Pm. cbn [app] in Pm. rewrite app_nil_r in Pm.
  destruct s as [[hd lk h gone] ts]. cbn [s_g s_ts g_head g_lock g_heap g_gone] in *.
  rewrite C3 in Lk. destruct lk; [discriminate|].
  assert (NL : NoDup L).
  { pose proof (Permutation_NoDup (Permutation_app_comm gone L) (Permutation_NoDup Pm ND)) as N.
    clear -N. revert N. generalize gone. induction L as [|x l IH]; intros m N; cbn in *; [constructor|]. inversion N. subst. constructor; [|eauto].
    intros I. apply H1. apply in_or_app. auto. }
  destruct (clean_alone ts L hd h gone NL Ch) as (k & h' & Ek).
  eexists k, _. split; [exact Ek|]. split; [|split].
  - intros t I. cbn in I. apply in_app_iff in I. destruct I as [I|[<-|[]]]; [now apply Fi|reflexivity].
  - reflexivity.
  - unfold destroyed. cbn. symmetry. exact Pm.
Qed.

Lemma no_deadlock garbage progs picks s : NoDup (scheduled progs) ->
  exec (start garbage progs) picks = Some s -> ~ all_finished s ->
  exists n t g' t', nth_error (s_ts s) n = Some t /\ tstep (s_g s) t = Step g' t'.
Proof.
  intros ND E N. destruct (exec_inv _ ND picks _ (start_inv garbage progs)) as (s1 & E1 & V).
  rewrite E in E1. inversion E1. subst s1.
  destruct (existsb (fun t => negb (finished t)) (s_ts s)) eqn:X.
  - apply existsb_exists in X. destruct X as (t & I & H). apply negb_true_iff in H.
    destruct (progress _ ND s V) as (n & M); [eauto|]. exists n. exact M.
  - exfalso. apply N. intros t I. destruct (finished t) eqn:Ft; [reflexivity|].
    assert (Y : existsb (fun t => negb (finished t)) (s_ts s) = true) by (apply existsb_exists; exists t; rewrite Ft; auto).
    congruence.
Qed.
