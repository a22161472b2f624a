(** The display loop keeps its promises, by induction over its turns. *)
From Coq Require Import ZArith List Bool Lia.
From Verif Require Import UiModel UiSpec.
Import ListNotations.
Open Scope Z_scope.

(** ** Traces *)
Lemma always_nil P : always P [].
Proof. intros b o r H. destruct b; discriminate. Qed.
Lemma always_snoc P tr o : always P tr -> P tr o -> always P (tr ++ [o]).
Proof.
  intros A H b x r E. destruct (@exists_last _ (x :: r)) as (l & y & E2); [discriminate|].
  assert (Q : tr ++ [o] = (b ++ l) ++ [y]) by (rewrite E, E2; now rewrite app_assoc).
  apply app_inj_tail in Q. destruct Q as (Q1 & Q2). subst y tr.
  destruct l as [|z l]; cbn in E2.
  - inversion E2. subst. now rewrite app_nil_r in H.
  - inversion E2. subst z r. apply (A b x l). reflexivity.
Qed.
Lemma always_binds (P : list obs -> obs -> Prop) bs : (forall tr b, P tr (OBind b)) ->
  forall tr, always P tr -> always P (tr ++ map OBind bs).
Proof.
  intros H. induction bs as [|b bs IH]; intros tr A; cbn; [now rewrite app_nil_r|].
  replace (tr ++ OBind b :: map OBind bs) with ((tr ++ [OBind b]) ++ map OBind bs) by now rewrite <- app_assoc.
  apply IH. apply always_snoc; auto.
Qed.

Lemma ldf_app tr : forall acc tr', last_display_from acc (tr ++ tr') = last_display_from (last_display_from acc tr) tr'.
Proof. induction tr as [|o tr IH]; intros acc tr'; cbn; [reflexivity|]. destruct o; apply IH. Qed.
Lemma ld_display tr d : last_display (tr ++ [ODisplay d]) = Some (d, []).
Proof. unfold last_display. now rewrite ldf_app. Qed.
Definition not_display (o : obs) : Prop := forall d, o <> ODisplay d.
Lemma ld_other tr o : not_display o ->
  last_display (tr ++ [o]) = match last_display tr with Some (d, l) => Some (d, l ++ [o]) | None => None end.
Proof. intros N. unfold last_display. rewrite ldf_app. destruct o; try reflexivity. now destruct (N d). Qed.
Lemma ld_binds bs : forall tr,
  last_display (tr ++ map OBind bs) = match last_display tr with Some (d, l) => Some (d, l ++ map OBind bs) | None => None end.
Proof.
  induction bs as [|b bs IH]; intros tr; cbn.
  - rewrite app_nil_r. destruct (last_display tr) as [(d, l)|]; [now rewrite app_nil_r|reflexivity].
  - replace (tr ++ OBind b :: map OBind bs) with ((tr ++ [OBind b]) ++ map OBind bs) by now rewrite <- app_assoc.
    rewrite IH, ld_other by (intros d; discriminate).
    destruct (last_display tr) as [(d, l)|]; [|reflexivity]. now rewrite <- app_assoc.
Qed.

Lemma existsb_binds f bs : (forall b, f (OBind b) = false) -> existsb f (map OBind bs) = false.
Proof. intros H. induction bs as [|b bs IH]; cbn; [reflexivity|]. now rewrite H, IH. Qed.

(** ** Handlers *)
Lemma search_app l l' k : search (l ++ l') k = match search l k with Some h => Some h | None => search l' k end.
Proof. induction l as [|(k', h) l IH]; cbn; [reflexivity|]. destruct (k =? k'); [reflexivity|exact IH]. Qed.
Lemma bind_for r b e : handler_for (do_bind r b) e = match handler_for r e with Some h => Some h | None => serves b e end.
Proof.
  unfold handler_for, SDL_KEYDOWN. destruct b as [t h|k h]; cbn [do_bind events keys serves].
  - destruct (etype e =? 768); cbn [negb andb].
    + now destruct (search (keys r) _).
    + rewrite search_app. destruct (search (events r) _); [reflexivity|]. cbn. now destruct (etype e =? t).
  - destruct (etype e =? 768); cbn [negb andb].
    + rewrite search_app. destruct (search (keys r) _); [reflexivity|]. cbn. now destruct (ekey e =? k).
    + now destruct (search (events r) _).
Qed.
Lemma fb_snoc tr o e : first_bound (tr ++ [o]) e =
  match first_bound tr e with Some h => Some h | None => match o with OBind b => serves b e | _ => None end end.
Proof.
  induction tr as [|x tr IH]; cbn.
  - destruct o; try reflexivity. now destruct (serves b e).
  - destruct x; try apply IH. destruct (serves b e); [reflexivity|apply IH].
Qed.
Lemma fb_binds bs : forall r tr, (forall e, handler_for r e = first_bound tr e) ->
  forall e, handler_for (fold_left do_bind bs r) e = first_bound (tr ++ map OBind bs) e.
Proof.
  induction bs as [|b bs IH]; intros r tr H e; cbn; [now rewrite app_nil_r|].
  replace (tr ++ OBind b :: map OBind bs) with ((tr ++ [OBind b]) ++ map OBind bs) by now rewrite <- app_assoc.
  apply IH. intros e'. rewrite bind_for, fb_snoc, H. reflexivity.
Qed.
Lemma fb_other tr o e : (forall b, o <> OBind b) -> first_bound (tr ++ [o]) e = first_bound tr e.
Proof. intros N. rewrite fb_snoc. destruct (first_bound tr e); [reflexivity|]. destruct o; try reflexivity. now destruct (N b). Qed.

(** ** The invariant *)
Definition claims (t0 : Z) (before : list obs) (o : obs) : Prop :=
  first_ok before o /\ times_ok t0 before o /\ update_ok before o /\ swap_ok before o /\
  quit_ok before o /\ handler_ok before o /\
  match o with ODisplay d => forall e, d_event d <> Live e | _ => True end.

Section INV.
Variables (delta t0 : Z).

Record inv (t : Z) (s : st) (tr : list obs) : Prop := {
  iv_quit : existsb quits tr = p_quit (s_p s);
  iv_reg : forall e, handler_for (s_reg s) e = first_bound tr e;
  iv_event : forall e, p_event (s_p s) <> Live e;
  iv_init : p_init (s_p s) = t0;
  iv_at :
    match last_display tr with
    | None => s_at s = ATop /\ p_first (s_p s) = true /\ p_now (s_p s) = t0 /\
              p_update (s_p s) = true /\ p_quit (s_p s) = false
    | Some (d, l) =>
        p_first (s_p s) = false /\ p_now (s_p s) = d_now d /\
        p_update (s_p s) = existsb asks l /\ existsb is_clean l = true /\
        match s_at s with
        | ATop => d_now d + delta - 1000000 < t /\ existsb is_wait l = true /\ p_quit (s_p s) = false
        | AWait next _ => next = d_now d + delta /\ p_quit (s_p s) = false
        | ADone => p_quit (s_p s) = true
        end
    end }.

Lemma claims_bind tr b : claims t0 tr (OBind b). Proof. repeat split. Qed.
Lemma pace_bind tr b : pace_ok delta tr (OBind b). Proof. exact I. Qed.

Lemma inner_quit p next timeout : p_quit p = true -> inner p next timeout = ADone.
Proof. intros H. unfold inner. now rewrite H. Qed.
Lemma inner_not p next timeout : p_quit p = false ->
  inner p next timeout = if 0 <? timeout then AWait next timeout else ATop.
Proof. intros H. unfold inner. rewrite H. now destruct (0 <? timeout). Qed.

Lemma cycle_inv t s tr i : inv t s tr -> s_at s = ATop ->
  let (s', out) := cycle delta s i in
  inv (i_time i) s' (tr ++ out) /\ (always (claims t0) tr -> always (claims t0) (tr ++ out)) /\
  (t <= i_time i -> always (pace_ok delta) tr -> always (pace_ok delta) (tr ++ out)).
Proof.
  intros [Q Rg Ev In At] HA. unfold cycle.
  set (p := s_p s) in *. set (d := mkShown _ _ _ _ _ _ _ _).
  set (upd := p_update p || i_asks i). set (sw := if upd then [OSwap] else []).
  set (p' := mkP _ _ _ _ _ _ _).
  assert (NQ : p_quit p = false).
  { destruct (last_display tr) as [(d0, l)|]; [|tauto]. rewrite HA in At. tauto. }
  assert (LD1 : last_display (tr ++ [ODisplay d]) = Some (d, [])) by apply ld_display.
  assert (E1 : tr ++ ODisplay d :: map OBind (i_binds i) ++ sw ++ [OClean] =
    (((tr ++ [ODisplay d]) ++ map OBind (i_binds i)) ++ sw) ++ [OClean]).
  { rewrite <- !app_assoc. reflexivity. }
  rewrite E1.
  assert (LD2 : last_display ((tr ++ [ODisplay d]) ++ map OBind (i_binds i)) = Some (d, map OBind (i_binds i))).
  { rewrite ld_binds, LD1. reflexivity. }
  assert (LD3 : last_display (((tr ++ [ODisplay d]) ++ map OBind (i_binds i)) ++ sw) = Some (d, map OBind (i_binds i) ++ sw)).
  { unfold sw. destruct upd; [rewrite ld_other, LD2 by (intros x; discriminate); reflexivity|].
    now rewrite !app_nil_r. }
  assert (LD4 : last_display ((((tr ++ [ODisplay d]) ++ map OBind (i_binds i)) ++ sw) ++ [OClean]) =
     Some (d, (map OBind (i_binds i) ++ sw) ++ [OClean])).
  { rewrite ld_other, LD3 by (intros x; discriminate). reflexivity. }
  assert (NS : forall f, (forall b, f (OBind b) = false) -> f OSwap = false -> existsb f (map OBind (i_binds i) ++ sw) = false).
  { intros f F1 F2. rewrite existsb_app, existsb_binds by exact F1. unfold sw. destruct upd; cbn; now rewrite ?F2. }
  split; [|split].
  - constructor.
    + rewrite !existsb_app. rewrite Q. cbn. rewrite existsb_binds by reflexivity.
      unfold sw. destruct upd; cbn; now rewrite !orb_false_r.
    + intros e. cbn [s_reg]. rewrite fb_other by (intros; discriminate).
      assert (X : forall tr', first_bound (tr' ++ sw) e = first_bound tr' e).
      { intros tr'. unfold sw. destruct upd; [apply fb_other; intros; discriminate|now rewrite app_nil_r]. }
      rewrite X. apply fb_binds. intros e'. rewrite fb_other by (intros; discriminate). apply Rg.
    + exact Ev.
    + exact In.
    + rewrite LD4. cbn [s_p s_at p' p_first p_now p_update p_quit]. repeat split.
      * rewrite existsb_app, NS by reflexivity. reflexivity.
      * rewrite existsb_app. cbn. apply orb_true_r.
      * destruct (p_quit p || i_quits i) eqn:EQ.
        -- rewrite inner_quit by reflexivity. reflexivity.
        -- rewrite inner_not by reflexivity. cbn. split; reflexivity.
  - intros A. apply always_snoc; [|].
    + assert (A1 : always (claims t0) ((tr ++ [ODisplay d]) ++ map OBind (i_binds i))).
      { apply always_binds; [apply claims_bind|]. apply always_snoc; [exact A|].
        unfold claims, first_ok, times_ok, update_ok, swap_ok, quit_ok, handler_ok. cbn [d d_first d_update d_event d_now d_init d_last].
        rewrite Q. destruct (last_display tr) as [(d0, l)|].
        - rewrite HA in At. destruct At as (F & N & U & C & _). rewrite F, N, U. repeat split; try congruence; auto.
        - destruct At as (_ & F & N & U & _). rewrite F, N, U. repeat split; try congruence; auto. }
      unfold sw. destruct upd eqn:EU; [|now rewrite app_nil_r]. apply always_snoc; [exact A1|].
      unfold claims. repeat split; try exact I. cbn. exists d, (map OBind (i_binds i)). split; [exact LD2|]. split; [exact EU|].
      intros x Hx. apply in_map_iff in Hx. destruct Hx as (b & <- & _). now exists b.
    + unfold claims. repeat split; try exact I. cbn. exists d, (map OBind (i_binds i) ++ sw). split; [exact LD3|].
      split; [now apply NS|]. change (d_update d || d_asks d) with upd. rewrite existsb_app, existsb_binds by reflexivity.
      unfold sw. now destruct upd.
  - intros T A. apply always_snoc; [|exact I].
    assert (A1 : always (pace_ok delta) ((tr ++ [ODisplay d]) ++ map OBind (i_binds i))).
    { apply always_binds; [apply pace_bind|]. apply always_snoc; [exact A|]. cbn.
      destruct (last_display tr) as [(d0, l)|]; [|exact I]. rewrite HA in At.
      destruct At as (_ & _ & _ & _ & B & W & _). split; [lia|exact W]. }
    unfold sw. destruct upd; [|now rewrite app_nil_r]. apply always_snoc; [exact A1|exact I].
Qed.

Lemma turn_inv t s tr i next timeout0 : inv t s tr -> s_at s = AWait next timeout0 ->
  let (s', out) := turn s next i in
  inv (i_time i) s' (tr ++ out) /\ (always (claims t0) tr -> always (claims t0) (tr ++ out)) /\
  (always (pace_ok delta) tr -> always (pace_ok delta) (tr ++ out)).
Proof.
  intros [Q Rg Ev In At] HA. unfold turn.
  set (p := s_p s) in *. set (timeout := msec (next - i_time i)). set (ms := if timeout <? 0 then 0 else timeout).
  destruct (last_display tr) as [(d0, l)|] eqn:LD; [|destruct At as (A1 & _); congruence].
  rewrite HA in At. destruct At as (F & N & U & C & En & NQ).
  set (w := OWait (i_time i) ms).
  assert (LW : last_display (tr ++ [w]) = Some (d0, l ++ [w])) by (rewrite ld_other, LD by (intros x; discriminate); reflexivity).
  assert (CW : always (claims t0) tr -> always (claims t0) (tr ++ [w])).
  { intros A. apply always_snoc; [exact A|]. unfold claims. repeat split; try exact I.
    - cbn. now rewrite LD.
    - cbn. now rewrite Q. }
  assert (MS : 1000000 * timeout <= next - i_time i < 1000000 * timeout + 1000000).
  { unfold timeout, msec. pose proof (Z.div_mod (next - i_time i) 1000000). pose proof (Z.mod_pos_bound (next - i_time i) 1000000). lia. }
  assert (PW : always (pace_ok delta) tr -> always (pace_ok delta) (tr ++ [w])).
  { intros A. apply always_snoc; [exact A|]. unfold pace_ok, w. rewrite LD. unfold ms.
    destruct (timeout <? 0) eqn:L; [lia|]. apply Z.ltb_ge in L. split; [lia|]. intros _. subst next. lia. }
  assert (TM : timeout <= 0 -> d_now d0 + delta - 1000000 < i_time i) by (subst next; lia).
  destruct (i_ev i) as [e|].
  - set (h := handler_for (s_reg s) e).
    set (r := match h with Some _ => i_result i | None => -1 end).
    set (called := match h with Some _ => true | None => false end).
    set (ask := called && i_asks i || negb (r =? 0) && i_cam i). set (qt := called && i_quits i).
    set (binds := if called then i_binds i else []).
    set (o := OEvent _).
    assert (E1 : tr ++ w :: o :: map OBind binds = ((tr ++ [w]) ++ [o]) ++ map OBind binds)
      by (rewrite <- !app_assoc; reflexivity).
    rewrite E1.
    assert (LO : last_display ((tr ++ [w]) ++ [o]) = Some (d0, (l ++ [w]) ++ [o]))
      by (rewrite ld_other, LW by (intros x; discriminate); reflexivity).
    split; [|split].
    + constructor.
      * rewrite !existsb_app, Q. cbn. rewrite existsb_binds by reflexivity. fold p. now rewrite !orb_false_r.
      * intros e'. cbn [s_reg]. apply fb_binds. intros e2. rewrite !fb_other by (intros; discriminate). apply Rg.
      * intros e'. discriminate.
      * exact In.
      * rewrite ld_binds, LO. cbn [s_p s_at p_first p_now p_update p_quit]. split; [exact F|]. split; [exact N|].
        assert (WT : existsb is_wait (((l ++ [w]) ++ [o]) ++ map OBind binds) = true)
          by (rewrite !existsb_app; cbn; now rewrite orb_true_r).
        split; [rewrite !existsb_app, existsb_binds by reflexivity; cbn; now rewrite U, !orb_false_r|].
        split; [rewrite !existsb_app, C; reflexivity|].
        destruct (p_quit p || qt) eqn:EQ.
        -- rewrite inner_quit by reflexivity. reflexivity.
        -- rewrite inner_not by reflexivity. destruct (0 <? timeout) eqn:L; [split; [exact En|reflexivity]|].
           apply Z.ltb_ge in L. split; [now apply TM|]. split; [exact WT|reflexivity].
    + intros A. apply always_binds; [apply claims_bind|]. apply always_snoc; [now apply CW|].
      unfold claims. repeat split; try exact I.
      * cbn. rewrite existsb_app, Q. cbn. fold p. now rewrite NQ.
      * cbn. rewrite fb_other by (intros; discriminate). apply Rg.
      * cbn. unfold r. now intros ->.
      * cbn. intros H. apply negb_true_iff, Z.eqb_neq in H. exact H.
      * cbn. intros H. apply negb_true_iff, Z.eqb_neq. exact H.
      * exists tr, (i_time i), ms. reflexivity.
    + intros A. apply always_binds; [apply pace_bind|]. apply always_snoc; [now apply PW|exact I].
  - split; [|split; assumption]. constructor.
    + rewrite existsb_app, Q. cbn. now rewrite orb_false_r.
    + intros e. cbn [s_reg]. rewrite fb_other by (intros; discriminate). apply Rg.
    + intros e. discriminate.
    + exact In.
    + rewrite LW. cbn [s_p s_at p_first p_now p_update p_quit]. split; [exact F|]. split; [exact N|].
      split; [rewrite existsb_app; cbn; now rewrite orb_false_r|]. split; [now rewrite existsb_app, C|].
      fold p. rewrite inner_not by exact NQ. destruct (0 <? timeout) eqn:L; [split; [exact En|exact NQ]|].
      apply Z.ltb_ge in L. split; [now apply TM|]. split; [|exact NQ]. rewrite existsb_app. cbn. apply orb_true_r.
Qed.

Lemma steps_inv ins : forall t s tr, inv t s tr ->
  let (s', out) := steps delta s ins in
  (always (claims t0) tr -> always (claims t0) (tr ++ out)) /\
  (clock_from t ins -> always (pace_ok delta) tr -> always (pace_ok delta) (tr ++ out)).
Proof.
  induction ins as [|i ins IH]; intros t s tr V; cbn [steps].
  - rewrite app_nil_r. auto.
  - unfold step. destruct (s_at s) as [|next to|] eqn:HA.
    + pose proof (cycle_inv t s tr i V HA) as Q. destruct (cycle delta s i) as (s1, o1). destruct Q as (V1 & A1 & B1).
      specialize (IH _ _ _ V1). destruct (steps delta s1 ins) as (s2, o2). destruct IH as (A2 & B2).
      rewrite app_assoc. split; [auto|]. intros (T & K) A. apply B2; auto.
    + pose proof (turn_inv t s tr i next to V HA) as Q. destruct (turn s next i) as (s1, o1). destruct Q as (V1 & A1 & B1).
      specialize (IH _ _ _ V1). destruct (steps delta s1 ins) as (s2, o2). destruct IH as (A2 & B2).
      rewrite app_assoc. split; [auto|]. intros (T & K) A. apply B2; auto.
    + assert (V1 : inv (i_time i) s tr).
      { destruct V. constructor; auto. destruct (last_display tr) as [(d, l)|]; [|tauto]. now rewrite HA in *. }
      specialize (IH _ _ _ V1). destruct (steps delta s ins) as (s2, o2). cbn [app]. destruct IH as (A2 & B2).
      split; [auto|]. intros (T & K) A. apply B2; auto.
Qed.

Lemma start_inv binds : inv t0 (start t0 binds) (map OBind binds).
Proof.
  constructor; cbn [start s_p s_at s_reg p_quit p_event p_init p_first p_now p_update].
  - apply existsb_binds. reflexivity.
  - intros e. apply (fb_binds binds (mkReg [] []) []). intros e'. unfold handler_for. now destruct (_ =? _).
  - discriminate.
  - reflexivity.
  - replace (last_display (map OBind binds)) with (@None (shown * list obs)); [repeat split|].
    symmetry. exact (ld_binds binds []).
Qed.

Lemma loop_claims binds ins : always (claims t0) (loop delta t0 binds ins).
Proof.
  unfold loop. pose proof (steps_inv ins t0 _ _ (start_inv binds)) as Q.
  destruct (steps delta (start t0 binds) ins) as (s', out). cbn [snd]. apply (proj1 Q).
  apply (always_binds (claims t0) binds (claims_bind) []). apply always_nil.
Qed.
Lemma loop_pace binds ins : clock_from t0 ins -> always (pace_ok delta) (loop delta t0 binds ins).
Proof.
  unfold loop. pose proof (steps_inv ins t0 _ _ (start_inv binds)) as Q.
  destruct (steps delta (start t0 binds) ins) as (s', out). cbn [snd]. intros C. apply (proj2 Q C).
  apply (always_binds (pace_ok delta) binds (pace_bind) []). apply always_nil.
Qed.
End INV.

Lemma always_imp (P Q : list obs -> obs -> Prop) tr : (forall b o, P b o -> Q b o) -> always P tr -> always Q tr.
Proof. intros H A b o r E. apply H. exact (A b o r E). Qed.

(** A handler that the program binds first is the one called *)
Lemma fb_keep tr tr' e h : first_bound tr e = Some h -> first_bound (tr ++ tr') e = Some h.
Proof.
  induction tr as [|o tr IH]; cbn; [discriminate|]. destruct o; auto. destruct (serves b e); auto.
Qed.

Lemma close_quits delta t0 user ins before t rest :
  (forall b u r, loop delta t0 (ui_setup ++ user) ins = b ++ OEvent u :: r -> t_handler u = Some H_QUIT -> t_quits u = true) ->
  loop delta t0 (ui_setup ++ user) ins = before ++ OEvent t :: rest -> etype (t_ev t) = SDL_QUIT ->
  forall d, ~ In (ODisplay d) rest.
Proof.
  intros K E T d H. pose proof (loop_claims delta t0 (ui_setup ++ user) ins) as A.
  pose proof (A _ _ _ E) as C1. destruct C1 as (_ & _ & _ & _ & _ & (C1 & _) & _).
  assert (HQ : t_handler t = Some H_QUIT).
  { rewrite C1.
    assert (X : exists tl, before = map OBind ui_setup ++ tl).
    { unfold loop in E. rewrite map_app, <- app_assoc in E. cbn in E.
      destruct before as [|o1 [|o2 [|o3 b]]]; cbn in E; try discriminate. inversion E. now exists b. }
    destruct X as (tl & ->). apply fb_keep. cbn. rewrite T. reflexivity. }
  pose proof (K _ _ _ E HQ) as Qt.
  apply in_split in H. destruct H as (l1 & l2 & ->).
  assert (E2 : loop delta t0 (ui_setup ++ user) ins = (before ++ OEvent t :: l1) ++ ODisplay d :: l2)
    by (rewrite E, <- app_assoc; reflexivity).
  pose proof (A _ _ _ E2) as C2. destruct C2 as (_ & _ & _ & _ & C2 & _). cbn in C2.
  rewrite existsb_app in C2. cbn in C2. rewrite Qt in C2. now rewrite orb_true_r in C2.
Qed.
