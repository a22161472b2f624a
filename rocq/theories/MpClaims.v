(** Proofs for C96: paths, goals, start states and tracked collisions. *)
From Coq Require Import ZArith List Bool Reals Arith Lia.
From Verif Require Import TfModel SgModel SgSpec SgKinSpec SgClaims3 ClModel ClSpec ClProofs FcModel FcAllow MpModel MpSpec MpProofs.
Import ListNotations.
Open Scope Z_scope.

Lemma combine_snoc {A B} (l : list A) (r : list B) a b : length l = length r -> combine (l ++ [a]) (r ++ [b]) = combine l r ++ [(a, b)].
Proof. revert r. induction l as [|x l IH]; intros [|y r]; cbn; intros; try lia; auto. now rewrite IH by lia. Qed.
Lemma last_in {A} (l : list A) d : l <> [] -> In (last l d) l.
Proof. intros H. rewrite (app_removelast_last d H) at 2. apply in_or_app. right. now left. Qed.
Lemma Forall2_last {A B} (R : A -> B -> Prop) l r d e : Forall2 R l r -> l <> [] -> R (last l d) (last r e).
Proof.
  induction 1 as [|x y l r H F IH]; intros N; [easy|]. cbn. destruct F; auto. apply IH. discriminate.
Qed.

Section Claims.
Variables (near : QV -> QV -> Prop) (sc : scene).
Hypothesis Sc : scene_ok sc.
Let n := sc_nf sc.

Lemma ids_in (q : list R) : length q = sc_nq sc -> ids_ok (sc_ids sc) q.
Proof. intros L z H. rewrite L. now apply Sc. Qed.
Lemma set_ok (st q : list R) : length q = sc_nq sc -> length st = length (sc_ids sc) -> exists w, config_set (sc_ids sc) st q = Ok w /\ replaced (sc_ids sc) st q w.
Proof. intros L Ls. apply config_set_ok; [apply Sc|now apply ids_in|lia]. Qed.
Lemma set_replaced (st q w : list R) : length q = sc_nq sc -> length st = length (sc_ids sc) -> config_set (sc_ids sc) st q = Ok w -> replaced (sc_ids sc) st q w.
Proof. intros L Ls E. destruct (set_ok st q L Ls) as (w' & E' & H). rewrite E in E'. now injection E' as <-. Qed.
Lemma list_ext {A} (l r : list A) : (forall k, nth_error l k = nth_error r k) -> l = r.
Proof.
  revert r. induction l as [|x l IH]; intros [|y r] H; auto; try (specialize (H O); discriminate).
  f_equal; [specialize (H O); cbn in H; congruence|]. apply IH. intros k. exact (H (S k)).
Qed.
Lemma set_back (q st w : list R) : length q = sc_nq sc -> config_get (sc_ids sc) q = Ok st -> config_set (sc_ids sc) st q = Ok w -> w = q.
Proof.
  intros L G E. destruct (config_get_ok (sc_ids sc) q) as (st' & G' & Ls & H); [now apply ids_in|].
  rewrite G in G'. injection G' as <-. destruct (set_replaced _ _ _ L Ls E) as (Lw & H1 & H2).
  apply list_ext. intros i. destruct (in_dec Z.eq_dec (Z.of_nat i) (sc_ids sc)) as [I|N]; auto.
  apply In_nth_error in I as [k K]. pose proof (H _ _ K) as Hk. rewrite Nat2Z.id in Hk.
  destruct (nth_error st k) as [x|] eqn:X.
  - pose proof (H1 _ _ _ K X) as Hx. rewrite Nat2Z.id in Hx. congruence.
  - apply nth_error_None in X. rewrite Ls in X. apply nth_error_None in X. congruence.
Qed.

(** ** Induction over histories with honest planners *)
Lemma run_ind (I : list mop -> list Z -> mp -> Prop) (K : mop -> Prop) :
  (forall h cs m o c m', K o -> I h cs m -> match o with MPlan p => honest near sc m p | _ => True end -> mstep sc m o = Ok (c, m') ->
     I (h ++ [o]) (cs ++ [c]) m') ->
  forall h2 h cs m cs2 m', Forall K h2 -> I h cs m -> all_honest near sc m h2 -> mrun sc m h2 = Ok (cs2, m') -> I (h ++ h2) (cs ++ cs2) m'.
Proof.
  intros St. induction h2 as [|o h2 IH]; intros h cs m cs2 m' Hk Hi Hh E; cbn in E.
  - injection E as <- <-. now rewrite !app_nil_r.
  - inversion_clear Hk. destruct Hh as [H1 H2]. destruct (mstep sc m o) as [[c m1]| | |] eqn:S1; try discriminate. cbn [bind] in E.
    destruct (mrun sc m1 h2) as [[cs1 m2]| | |] eqn:S2; try discriminate. cbn in E. injection E as <- <-.
    replace (h ++ o :: h2) with ((h ++ [o]) ++ h2) by (now rewrite <- app_assoc).
    replace (cs ++ c :: cs1) with ((cs ++ [c]) ++ cs1) by (now rewrite <- app_assoc).
    apply (IH _ _ m1); eauto.
Qed.
Lemma honest_split h1 : forall h2 m cs m', all_honest near sc m (h1 ++ h2) -> mrun sc m h1 = Ok (cs, m') ->
  all_honest near sc m h1 /\ all_honest near sc m' h2.
Proof.
  induction h1 as [|o h1 IH]; intros h2 m cs m' H E; cbn in *.
  - injection E as <- <-. auto.
  - destruct H as [H1 H2]. destruct (mstep sc m o) as [[c m1]| | |] eqn:S1; try discriminate. cbn [bind] in E.
    destruct (mrun sc m1 h1) as [[cs1 m2]| | |] eqn:S2; try discriminate. cbn in E. injection E as <- <-.
    destruct (IH _ _ _ _ (H2 _ _ eq_refl) S2) as [A B]. split; auto. split; auto. intros c' m'' [= <- <-]. auto.
Qed.
Lemma mrun_app h1 : forall h2 m cs m', mrun sc m (h1 ++ h2) = Ok (cs, m') ->
  exists c1 m1 c2, mrun sc m h1 = Ok (c1, m1) /\ mrun sc m1 h2 = Ok (c2, m') /\ cs = c1 ++ c2.
Proof.
  induction h1 as [|o h1 IH]; intros h2 m cs m' E; cbn in *.
  - exists [], m, cs. auto.
  - destruct (mstep sc m o) as [[c m1]| | |] eqn:S1; try discriminate. cbn [bind] in *.
    destruct (mrun sc m1 (h1 ++ h2)) as [[cs1 m2]| | |] eqn:S2; try discriminate. cbn in E. injection E as <- <-.
    destruct (IH _ _ _ _ S2) as (c1 & m3 & c2 & A & B & ->). rewrite A. cbn. exists (c :: c1), m3, c2. auto.
Qed.

Definition goal_rel (g gs : goal) : Prop :=
  match g, gs with
  | GNone, GNone => True
  | GState a, GState b => a = b /\ length a = length (sc_ids sc)
  | GWs _ fs E, GWs _ fs' E' => E = E' /\ E <> [] /\ (length E <= length fs')%nat /\ fs = firstn (length E) fs'
  | _, _ => False
  end.
Lemma last_goal_app h cs o c : length cs = length h -> last_goal sc (h ++ [o]) (cs ++ [c]) = goal_step sc (last_goal sc h cs) (o, c).
Proof. intros L. unfold last_goal. rewrite combine_snoc by auto. now rewrite fold_left_app. Qed.

(** ** Steps *)
Definition base (h : list mop) (cs : list Z) (m : mp) : Prop :=
  minv sc h m /\ length cs = length h /\ goal_rel (m_goal m) (last_goal sc h cs).
Lemma base_step h cs m o c m' : base h cs m -> mstep sc m o = Ok (c, m') -> base (h ++ [o]) (cs ++ [c]) m'.
Proof.
  intros (I & L & G) E. split; [eapply minv_step; eauto|]. split; [rewrite !app_length; cbn; lia|].
  rewrite last_goal_app by auto. destruct o as [q|q|a b x|st|f Es|x|x|o]; cbn in E |- *.
  - unfold ret0, mp_set_start in E. destruct (mp_allow_config sc m q) as [m1| | |] eqn:A; try discriminate. cbn [bind] in E.
    destruct (config_get (sc_ids sc) q) as [st| | |]; try discriminate. cbn [bind] in E. injection E as <- <-. cbn.
    destruct (allow_config_inv _ Sc _ _ _ _ I A) as (_ & _ & _ & Eg & _). now rewrite Eg.
  - unfold ret0 in E. destruct (mp_allow_config sc m q) as [m1| | |] eqn:A; try discriminate. cbn in E. injection E as <- <-.
    destruct (allow_config_inv _ Sc _ _ _ _ I A) as (_ & _ & _ & Eg & _). now rewrite Eg.
  - unfold ret0 in E. destruct (mp_allow_collision m a b x) as [m1| | |] eqn:A; try discriminate. cbn in E. injection E as <- <-.
    destruct (allow_collision_inv _ Sc _ _ _ _ _ _ I A) as (_ & _ & Eg & _). now rewrite Eg.
  - destruct (set_goal_inv _ Sc _ _ _ _ _ I E) as (_ & Ls & [[-> Eg]|[-> Eg]] & _); rewrite Eg; cbn; auto.
  - unfold ret0, mp_set_wsgoal in E. set (fs := match f with Some f => f | None => repeat (sc_last sc) (length Es) end) in *.
    destruct (Nat.eqb_spec (length Es) 0) as [|Ne]; [discriminate|]. destruct (Nat.ltb_spec (length fs) (length Es)) as [|Le]; [discriminate|].
    cbn in E. injection E as <- <-. cbn. split; auto. split; [now intros ->|]. auto.
  - now injection E as <- <-.
  - now injection E as <- <-.
  - destruct (mp_plan sc m o) as [[[c1 l1] m1]| | |] eqn:A; try discriminate. cbn in E. injection E as <- <-.
    destruct (plan_inv _ Sc _ _ _ _ _ _ I A) as (_ & _ & Eg & _). rewrite Eg. exact G.
Qed.
Definition keeps (m m' : mp) : Prop := m_starts m' = m_starts m /\ m_config m' = m_config m /\ m_qall m' = m_qall m.
(** calls other than configurations and plans *)
Lemma quiet_step h m o c m' : minv sc h m -> mstep sc m o = Ok (c, m') -> ~ is_config o -> ~ is_plan o -> keeps m m' /\ m_sols m' = m_sols m.
Proof.
  intros I E Nc Np. unfold keeps. destruct o as [q|q|a b x|st|f Es|x|x|o]; cbn in E, Nc, Np; try tauto.
  - unfold ret0 in E. destruct (mp_allow_collision m a b x) as [m1| | |] eqn:A; try discriminate. cbn in E. injection E as <- <-.
    destruct (allow_collision_inv _ Sc _ _ _ _ _ _ I A) as (_ & ? & ? & ? & ? & ? & ? & _). auto.
  - destruct (set_goal_inv _ Sc _ _ _ _ _ I E) as (_ & _ & _ & _ & ? & ? & ? & ? & ? & _). auto.
  - unfold ret0, mp_set_wsgoal in E. match type of E with bind (if ?b then _ else _) _ = _ => destruct b end; [discriminate|].
    cbn in E. injection E as <- <-. auto.
  - injection E as <- <-. auto.
  - injection E as <- <-. auto.
Qed.
Definition phase1 (h : list mop) (cs : list Z) (m : mp) : Prop := base h cs m /\ m_starts m = [] /\ m_sols m = [].
Lemma phase1_step h cs m o c m' : ~ is_start o /\ ~ is_plan o -> phase1 h cs m -> mstep sc m o = Ok (c, m') -> phase1 (h ++ [o]) (cs ++ [c]) m'.
Proof.
  intros [Ns Np] (B & S1 & S2) E. split; [eapply base_step; eauto|]. pose proof (proj1 B) as I.
  destruct o as [q|q|a b x|st|f Es|x|x|o]; try (cbn in Ns, Np; tauto);
    try solve [destruct (quiet_step _ _ _ _ _ I E) as [[-> _] ->]; cbn; auto].
  cbn in E. unfold ret0 in E. destruct (mp_allow_config sc m q) as [m1| | |] eqn:A; try discriminate. cbn in E. injection E as <- <-.
  destruct (allow_config_inv _ Sc _ _ _ _ I A) as (_ & _ & -> & _ & -> & _). auto.
Qed.

Section Started.
Variables (q0 st0 : list R).
Definition gst (P : permits) (st : list R) : Prop := length st = length (sc_ids sc) /\
  (forall k b x, nth_error (sc_lim sc) k = Some b -> nth_error st k = Some x -> within EPS (bounds_of b) x) /\
  forall w, config_set (sc_ids sc) st q0 = Ok w -> collision_free sc P w.
Definition glast (g : goal) (t : list R) : Prop := forall w, config_set (sc_ids sc) t q0 = Ok w -> meets near sc g w.
Definition gpath (P : permits) (g : goal) (p : list (list R)) : Prop :=
  hd_error p = Some st0 /\ glast g (last p []) /\ Forall (gst P) p.
Definition phase2 (h : list mop) (cs : list Z) (m : mp) : Prop :=
  base h cs m /\ length q0 = sc_nq sc /\ config_get (sc_ids sc) q0 = Ok st0 /\ m_starts m = [st0] /\ m_config m = Some q0 /\ m_qall m = Some q0.
Definition phase3 (h : list mop) (cs : list Z) (m : mp) : Prop :=
  phase2 h cs m /\ Forall (gpath (permitted sc h) (last_goal sc h cs)) (m_sols m).
Lemma start_step h cs m c m' : phase1 h cs m -> mstep sc m (MStart q0) = Ok (c, m') -> config_get (sc_ids sc) q0 = Ok st0 ->
  phase2 (h ++ [MStart q0]) (cs ++ [c]) m' /\ m_sols m' = [].
Proof.
  intros (B & S1 & S2) E G. pose proof (base_step _ _ _ _ _ _ B E) as B'. pose proof (proj1 B) as I.
  cbn in E. unfold ret0, mp_set_start in E. destruct (mp_allow_config sc m q0) as [m1| | |] eqn:A; try discriminate. cbn [bind] in E.
  rewrite G in E. cbn [bind] in E. injection E as <- <-.
  destruct (allow_config_inv _ Sc _ _ _ _ I A) as (_ & L & Es & _ & So & _ & _ & Q & _).
  split; [|cbn; congruence]. split; auto. do 2 (split; [auto|]). cbn. rewrite Es, S1. auto.
Qed.
Lemma phase2_step h cs m o c m' : ~ is_config o /\ ~ is_plan o -> phase2 h cs m /\ m_sols m = [] -> mstep sc m o = Ok (c, m') ->
  phase2 (h ++ [o]) (cs ++ [c]) m' /\ m_sols m' = [].
Proof.
  intros [Nc Np] ((B & L & G & S1 & C1 & Q1) & S2) E. destruct (quiet_step _ _ _ _ _ (proj1 B) E Nc Np) as [(E1 & E2 & E3) E4].
  split; [|congruence]. split; [eapply base_step; eauto|]. rewrite E1, E2, E3. auto.
Qed.
Lemma gst_of h cs m st : phase2 h cs m -> state_ok sc m st -> gst (permitted sc h) st.
Proof.
  intros ((I & _) & L & G & S1 & C1 & Q1) (Ls & Bd & s & V). split; auto. split; auto. intros w E.
  rewrite (allow_id _ _ _ I) in V.
  assert (W : wf n (m_cl m)) by (rewrite (i_cl _ _ _ I); apply I).
  rewrite (valid_none sc _ _ _ _ W Q1 E) in V. injection V as V _. apply negb_true_iff in V. rewrite (i_cl _ _ _ I) in V.
  apply (coll_free sc Sc h m w I). exact V.
Qed.
Lemma glast_of h cs m t : phase2 h cs m -> length t = length (sc_ids sc) -> hits near sc m t -> glast (last_goal sc h cs) t.
Proof.
  intros ((I & _ & Gr) & L & G & S1 & C1 & Q1) Lt H w E. unfold hits in H.
  destruct (m_goal m) as [|g|k fs Es], (last_goal sc h cs) as [|g'|k' fs' Es']; cbn in Gr; try tauto.
  - destruct Gr as [<- Lg]. cbn. intros j z x y Z X Y. destruct (set_replaced _ _ _ L Lt E) as (_ & H1 & _).
    destruct (nth_error t j) as [y'|] eqn:T.
    + rewrite (H1 _ _ _ Z T) in Y. injection Y as <-. eapply H; eauto.
    + apply nth_error_None in T. rewrite Lt in T. apply nth_error_None in T. congruence.
  - destruct Gr as (<- & Ne & Le & ->). destruct Es as [|e Es]; [easy|]. destruct fs' as [|f fs']; [cbn in Le; lia|]. cbn in H. cbn.
    eapply H; eauto.
Qed.
Lemma hd_nonnil {A} (p : list A) x : hd_error p = Some x -> p <> [].
Proof. destruct p; discriminate. Qed.
Lemma gpath_of h cs m p : phase2 h cs m -> path_ok near sc m p -> gpath (permitted sc h) (last_goal sc h cs) p.
Proof.
  intros Ph ((s & t & Hs & Is & Ht & Hit) & F). pose proof Ph as (_ & _ & _ & S1 & _). rewrite S1 in Is. destruct Is as [<-|[]].
  split; auto. split; [|eapply Forall_impl; [|exact F]; intros; eapply gst_of; eauto].
  rewrite Ht. eapply glast_of; eauto. rewrite <- Ht.
  assert (In (last p []) p) as X by (apply last_in; eapply hd_nonnil; eauto).
  rewrite Forall_forall in F. exact (proj1 (F _ X)).
Qed.
Lemma set_at_in {A} (l : list A) k x y : In y (set_at l k x) -> y = x \/ In y l.
Proof. revert k. induction l as [|a l IH]; intros [|k]; cbn; auto; intros [H|H]; auto. destruct (IH _ H); auto. Qed.
Lemma phase3_plan h cs m o c l m' : phase3 h cs m -> honest near sc m o -> mp_plan sc m o = Ok (c, l, m') ->
  Forall (gpath (permitted sc h) (last_goal sc h cs)) (m_sols m') /\
  (c = 0 -> exists p, gpath (permitted sc h) (last_goal sc h cs) p /\ path_all sc (Some q0) p = Ok l).
Proof.
  intros (Ph & Fs) (H1 & H2) E. pose proof Ph as ((I & _) & _ & _ & S1 & C1 & Q1).
  set (P := permitted sc h) in *. set (g := last_goal sc h cs) in *.
  assert (All : Forall (gpath P g) (m_sols m ++ o_paths o)).
  { apply Forall_app. split; auto. eapply Forall_impl; [|exact H1]. intros p Hp. eapply gpath_of; eauto. }
  destruct (plan_inv _ Sc _ _ _ _ _ _ I E) as (_ & _ & _ & _ & _ & _ & _ & _ & _ & Z & NZ & _).
  destruct (Z.eq_dec c 0) as [->|Nz].
  - destruct (Z eq_refl) as (_ & p & Np & Pa & So). cbn in Pa, So. rewrite C1 in Pa.
    assert (Gp : gpath P g (if m_simplify m then o_simple o else p)).
    { pose proof (proj1 (Forall_forall _ _) All _ (nth_error_In _ _ Np)) as Gp. destruct (m_simplify m) eqn:Sm; auto.
      destruct H2 as [H2|(p' & Np' & H2)]; [rewrite H2 in Np; destruct (o_best o); discriminate|].
      rewrite Np in Np'. injection Np' as <-. destruct (H2 eq_refl) as (_ & Hd & La & Fo). destruct Gp as (A & B & _).
      split; [congruence|]. split; [now rewrite La|]. eapply Forall_impl; [|exact Fo]. intros st. eapply gst_of; eauto. }
    split; [|eauto]. rewrite So. apply Forall_forall. intros y Y. apply set_at_in in Y as [->|Y]; auto.
    rewrite Forall_forall in All. auto.
  - destruct (NZ Nz) as (-> & _). split; auto. tauto.
Qed.
Lemma phase3_step h cs m o c m' : is_mode o -> phase3 h cs m -> match o with MPlan p => honest near sc m p | _ => True end ->
  mstep sc m o = Ok (c, m') -> phase3 (h ++ [o]) (cs ++ [c]) m'.
Proof.
  intros K Ph Ho E. pose proof Ph as ((B & L & G & S1 & C1 & Q1) & Fs). pose proof (base_step _ _ _ _ _ _ B E) as B'.
  destruct B as (I & Lc & Gr). unfold phase3, phase2. rewrite last_goal_app by auto.
  assert (Pe : permitted sc (h ++ [o]) = permitted sc h) by (unfold permitted; rewrite fold_left_app; now destruct o).
  rewrite Pe. destruct o as [q|q|a b x|st|f Es|x|x|o]; try (cbn in K; tauto); cbn in E.
  - injection E as <- <-. cbn. auto 10.
  - injection E as <- <-. cbn. auto 10.
  - destruct (mp_plan sc m o) as [[[c1 l1] m1]| | |] eqn:A; try discriminate. cbn in E. injection E as <- <-.
    destruct (phase3_plan _ _ _ _ _ _ _ Ph Ho A) as [F _].
    destruct (plan_inv _ Sc _ _ _ _ _ _ I A) as (_ & E1 & _ & _ & E2 & E3 & _). rewrite E1, E2, E3. auto 10.
Qed.
Lemma path_all_spec p : forall l, path_all sc (Some q0) p = Ok l -> Forall2 (fun st w => config_set (sc_ids sc) st q0 = Ok w) p l.
Proof.
  induction p as [|st p IH]; intros l E; cbn in E; [injection E as <-; constructor|].
  destruct (config_set (sc_ids sc) st q0) as [w| | |] eqn:C; try discriminate. cbn [bind] in E.
  destruct (path_all sc (Some q0) p) as [r| | |] eqn:P; try discriminate. cbn in E. injection E as <-. constructor; auto.
Qed.
Lemma good_of P g p l : length q0 = sc_nq sc -> config_get (sc_ids sc) q0 = Ok st0 -> gpath P g p -> path_all sc (Some q0) p = Ok l ->
  good_path near sc q0 g P l.
Proof.
  intros L G (Hd & La & F) E. apply path_all_spec in E. split; [|split].
  - destruct E as [|st w p l C E]; [discriminate|]. cbn in Hd. injection Hd as ->. cbn. f_equal. eapply set_back; eauto.
  - exists (last l []). split; auto. apply La. eapply Forall2_last with (d := []) in E; [exact E|]. eapply hd_nonnil; eauto.
  - clear Hd La. induction E as [|st w p l C E IH]; [constructor|]. inversion_clear F as [|? ? Fs Fp]. constructor; auto.
    destruct Fs as (Ls & Bd & Cf). destruct (set_replaced _ _ _ L Ls C) as (Lw & H1 & H2). split; [congruence|]. split; auto. split; auto.
    intros k z b y Z B Y. destruct (nth_error st k) as [x|] eqn:X.
    + rewrite (H1 _ _ _ Z X) in Y. injection Y as <-. eauto.
    + apply nth_error_None in X. rewrite Ls in X. apply nth_error_None in X. congruence.
Qed.
End Started.

Lemma c96_path h1 q0 h2 h3 o cs m l m' : Forall (fun x => ~ is_start x /\ ~ is_plan x) h1 -> Forall (fun x => ~ is_config x /\ ~ is_plan x) h2 ->
  Forall is_mode h3 -> mrun sc (mp_new sc) (h1 ++ [MStart q0] ++ h2 ++ h3) = Ok (cs, m) ->
  all_honest near sc (mp_new sc) ((h1 ++ [MStart q0] ++ h2 ++ h3) ++ [MPlan o]) -> mp_plan sc m o = Ok (0, l, m') ->
  good_path near sc q0 (last_goal sc (h1 ++ [MStart q0] ++ h2 ++ h3) cs) (permitted sc (h1 ++ [MStart q0] ++ h2 ++ h3)) l.
Proof.
  intros K1 K2 K3 E Hon Pl. destruct (honest_split _ _ _ _ _ Hon E) as [Hh [Ho _]]. cbn in Ho.
  destruct (mrun_app _ _ _ _ _ E) as (c1 & m1 & c' & E1 & E' & ->). destruct (honest_split _ _ _ _ _ Hh E1) as [Hh1 Hh'].
  destruct (mrun_app _ _ _ _ _ E') as (cS & m2 & c'' & E2 & E'' & ->). destruct (honest_split _ _ _ _ _ Hh' E2) as [_ Hh''].
  destruct (mrun_app _ _ _ _ _ E'') as (c2 & m3 & c3 & E3 & E4 & ->). destruct (honest_split _ _ _ _ _ Hh'' E3) as [Hh2 Hh3].
  assert (P0 : phase1 [] [] (mp_new sc)).
  { split; [|split; reflexivity]. split; [apply minv_new; auto|]. split; [reflexivity|exact I]. }
  pose proof (run_ind phase1 _ (fun h cs m o c m' K P _ S => phase1_step h cs m o c m' K P S) h1 [] [] _ _ _ K1 P0 Hh1 E1) as P1. cbn in P1.
  cbn [mrun] in E2. destruct (mstep sc m1 (MStart q0)) as [[c0 mS]| | |] eqn:ES; try discriminate. cbn in E2. injection E2 as <- <-.
  destruct (config_get (sc_ids sc) q0) as [st0| | |] eqn:G.
  2,3,4: exfalso; cbn in ES; unfold ret0, mp_set_start in ES; destruct (mp_allow_config sc m1 q0); cbn in ES; try discriminate; rewrite G in ES; discriminate.
  pose proof (start_step q0 st0 _ _ _ _ _ P1 ES G) as P2.
  pose proof (run_ind (fun h cs m => phase2 q0 st0 h cs m /\ m_sols m = []) _ (fun h cs m o c m' K P _ S => phase2_step q0 st0 h cs m o c m' K P S)
    h2 _ _ _ _ _ K2 P2 Hh2 E3) as P3.
  assert (P3' : phase3 q0 st0 ((h1 ++ [MStart q0]) ++ h2) ((c1 ++ [c0]) ++ c2) m3).
  { destruct P3 as [A B]. split; auto. rewrite B. constructor. }
  pose proof (run_ind (phase3 q0 st0) _ (phase3_step q0 st0) h3 _ _ _ _ _ K3 P3' Hh3 E4) as P4.
  rewrite <- !app_assoc in P4.
  destruct (phase3_plan _ _ _ _ _ _ _ _ _ P4 Ho Pl) as [_ Z]. destruct (Z eq_refl) as (p & Gp & Pa).
  eapply good_of; eauto; apply P4.
Qed.

(** ** Goals, start states, tracked collisions, codes *)
Lemma c96_goal h cs m q st w : mrun sc (mp_new sc) h = Ok (cs, m) -> last_config h = Some q -> length st = length (sc_ids sc) ->
  replaced (sc_ids sc) st q w ->
  exists c m', mp_set_goal sc m st = Ok (c, m') /\ (c = 0 \/ c = 32) /\
    (c = 0 -> collision_free sc (permitted sc h) w) /\
    (no_withdrawal sc h -> collision_free sc (permitted sc h) w -> c = 0).
Proof.
  intros E Q Ls Rw. destruct (run_inv _ Sc _ _ _ E) as [I _].
  assert (Qa : m_qall m = Some q) by (rewrite (i_qall _ _ _ I); auto). pose proof (i_len _ _ _ I _ Qa) as L.
  destruct (set_ok st q L Ls) as (w' & Ew & Rw').
  assert (w' = w) as ->.
  { destruct Rw as (Lw & H1 & H2), Rw' as (Lw' & H1' & H2'). apply list_ext. intros i.
    destruct (in_dec Z.eq_dec (Z.of_nat i) (sc_ids sc)) as [J|N]; [|rewrite H2, H2'; auto].
    apply In_nth_error in J as [k K]. destruct (nth_error st k) as [x|] eqn:X.
    - pose proof (H1 _ _ _ K X) as A. pose proof (H1' _ _ _ K X) as B. rewrite Nat2Z.id in A, B. congruence.
    - apply nth_error_None in X. rewrite Ls in X. apply nth_error_None in X. congruence. }
  assert (Wc : wf n (m_cl m)) by (rewrite (i_cl _ _ _ I); apply I).
  destruct (mp_set_goal sc m st) as [[c m']| | |] eqn:Eg.
  - exists c, m'. split; auto. destruct (set_goal_inv _ Sc _ _ _ _ _ I Eg) as (_ & _ & C & (w' & Fw & Iff) & _).
    rewrite Qa in Fw. cbn in Fw. rewrite Ew in Fw. injection Fw as <-. destruct (coll_free sc Sc h m w I) as [A B].
    split; [tauto|]. split; [tauto|]. intros N Cf. apply Iff. auto.
  - exfalso. unfold mp_set_goal in Eg. rewrite Ls, Nat.eqb_refl, (allow_id _ _ _ I) in Eg. cbn [negb] in Eg.
    destruct (valid_total sc m st (m_coll m) Wc (i_coll _ _ _ I)) as [[v s] V]; [rewrite Qa; cbn; eauto|].
    rewrite V in Eg. cbn in Eg. destruct v; discriminate.
  - exfalso. unfold mp_set_goal in Eg. rewrite Ls, Nat.eqb_refl, (allow_id _ _ _ I) in Eg. cbn [negb] in Eg.
    destruct (valid_total sc m st (m_coll m) Wc (i_coll _ _ _ I)) as [[v s] V]; [rewrite Qa; cbn; eauto|].
    rewrite V in Eg. cbn in Eg. destruct v; discriminate.
  - exfalso. unfold mp_set_goal in Eg. rewrite Ls, Nat.eqb_refl, (allow_id _ _ _ I) in Eg. cbn [negb] in Eg.
    destruct (valid_total sc m st (m_coll m) Wc (i_coll _ _ _ I)) as [[v s] V]; [rewrite Qa; cbn; eauto|].
    rewrite V in Eg. cbn in Eg. destruct v; discriminate.
Qed.
(** the start itself is accepted as a goal *)
Lemma permitted_start h q a b : sc_touch sc q a b = true -> permitted sc (h ++ [MStart q]) a b = true.
Proof. intros T. rewrite permitted_app. cbn. now rewrite T, orb_true_r. Qed.
Lemma c96_start h cs m q st m1 : mrun sc (mp_new sc) h = Ok (cs, m) -> no_withdrawal sc h -> mp_set_start sc m q = Ok m1 ->
  config_get (sc_ids sc) q = Ok st -> exists m2, mp_set_goal sc m1 st = Ok (0, m2).
Proof.
  intros E N S1 G.
  assert (E1 : mrun sc (mp_new sc) (h ++ [MStart q]) = Ok (cs ++ [0], m1)).
  { clear N. revert cs E. generalize (mp_new sc) as m0. induction h as [|o h IH]; intros m0 cs E; cbn in E |- *.
    - injection E as <- <-. cbn. rewrite S1. reflexivity.
    - destruct (mstep sc m0 o) as [[c m3]| | |]; try discriminate. cbn [bind] in *.
      destruct (mrun sc m3 h) as [[cs1 m4]| | |] eqn:S2; try discriminate. cbn in E. injection E as <- <-.
      rewrite (IH _ _ S2). reflexivity. }
  assert (L : length q = sc_nq sc).
  { unfold mp_set_start in S1. destruct (run_inv _ Sc _ _ _ E) as [I _].
    destruct (mp_allow_config sc m q) as [mA| | |] eqn:A; try discriminate. now destruct (allow_config_inv _ Sc _ _ _ _ I A) as (_ & ? & _). }
  destruct (config_get_ok (sc_ids sc) q) as (st' & G' & Ls & H); [now apply ids_in|]. rewrite G in G'. injection G' as <-.
  destruct (set_ok st q L Ls) as (w & Ew & Rw). pose proof (set_back _ _ _ L G Ew) as ->.
  destruct (c96_goal _ _ _ q st q E1) as (c & m2 & Eg & _ & _ & Ac); auto.
  { rewrite last_config_app. reflexivity. }
  exists m2. rewrite Ac in Eg; auto.
  - intros a b K. apply in_app_or in K as [K|[K|[]]]; [now apply N|discriminate].
  - intros a b _ _ _ T. now apply permitted_start.
Qed.
Lemma c96_track h cs m o c l m' : mrun sc (mp_new sc) h = Ok (cs, m) -> tracking h = true -> no_withdrawal sc h ->
  mp_plan sc m o = Ok (c, l, m') -> forall q, last_config h = Some q -> Forall (fun st => length st = length (sc_ids sc)) (o_asked o) ->
  exists s, m_coll m' = Some s /\ forall a b, valid n a -> valid n b -> a <> b ->
    (cl_get s a b = Ok true <-> exists st w, In st (o_asked o) /\ replaced (sc_ids sc) st q w /\
       sc_touch sc w a b = true /\ permitted sc h a b = false).
Proof.
  intros E T N Pl q Q Fa. destruct (run_inv _ Sc _ _ _ E) as [I _].
  assert (Qa : m_qall m = Some q) by (rewrite (i_qall _ _ _ I); auto). pose proof (i_len _ _ _ I _ Qa) as L.
  destruct (plan_inv _ Sc _ _ _ _ _ _ I Pl) as (I' & _ & _ & _ & _ & _ & _ & _ & K & _).
  pose proof (proj2 (i_track _ _ _ I')) as Tr. rewrite tracking_app in Tr. specialize (Tr T).
  destruct (m_coll m') as [s|] eqn:Cm; [|congruence]. exists s. split; auto. intros a b A B Ne.
  pose proof (i_coll _ _ _ I') as Wsm. rewrite Cm in Wsm. cbn in Wsm.
  rewrite (look_ok n) by auto. transitivity (look s a b = true); [split; congruence|]. rewrite (K a b A B Ne).
  assert (Pe : look (m_allowed m) a b = false <-> permitted sc h a b = false).
  { rewrite <- !not_true_iff_false. split; intros H X; apply H.
    - apply (i_exact _ _ _ I); auto.
    - apply (i_sound _ _ _ I); auto. }
  split.
  - intros (st & w & Is & Fw & Tw & Lw). rewrite Qa in Fw. cbn in Fw. exists st, w. split; auto. split; [|tauto].
    rewrite Forall_forall in Fa. apply set_replaced; auto.
  - intros (st & w & Is & Rw & Tw & Pw). rewrite Forall_forall in Fa. destruct (set_ok st q L (Fa _ Is)) as (w' & Ew & Rw').
    assert (w' = w) as ->.
    { destruct Rw as (Lw & H1 & H2), Rw' as (Lw' & H1' & H2'). apply list_ext. intros i.
      destruct (in_dec Z.eq_dec (Z.of_nat i) (sc_ids sc)) as [J|Nj]; [|rewrite H2, H2'; auto].
      apply In_nth_error in J as [k Kk]. destruct (nth_error st k) as [x|] eqn:X.
      - pose proof (H1 _ _ _ Kk X) as A1. pose proof (H1' _ _ _ Kk X) as B1. rewrite Nat2Z.id in A1, B1. congruence.
      - apply nth_error_None in X. rewrite (Fa _ Is) in X. apply nth_error_None in X. congruence. }
    exists st, w. split; auto. rewrite Qa. split; [exact Ew|]. tauto.
Qed.
End Claims.

(** ** Building honest histories *)
Lemma honest_app near sc h1 : forall m h2, all_honest near sc m h1 ->
  (forall cs m', mrun sc m h1 = Ok (cs, m') -> all_honest near sc m' h2) -> all_honest near sc m (h1 ++ h2).
Proof.
  induction h1 as [|o h1 IH]; intros m h2 H1 H2; cbn.
  - apply (H2 [] m eq_refl).
  - destruct H1 as [A B]. split; auto. intros c m' S1. apply IH; eauto. intros cs m'' R1. apply (H2 (c :: cs) m'').
    cbn. rewrite S1. cbn. now rewrite R1.
Qed.
Lemma honest_quiet near sc h : Forall (fun o => ~ is_plan o) h -> forall m, all_honest near sc m h.
Proof.
  induction 1 as [|o h N F IH]; intros m; cbn; auto. split; auto. destruct o; cbn in N; tauto.
Qed.
Lemma planned_by near sc h cs m o l m' : mrun sc (mp_new sc) h = Ok (cs, m) -> all_honest near sc (mp_new sc) h -> honest near sc m o ->
  mp_plan sc m o = Ok (0, l, m') -> planned near sc h cs o l.
Proof.
  intros E H Ho P. exists m, m'. split; auto. split; auto. apply honest_app; auto. intros cs' m'' E'. rewrite E in E'. injection E' as <- <-.
  cbn. auto.
Qed.

(** ** Misuse *)
Lemma c96_dangling sc h cs m f E m1 st m2 o : scene_ok sc -> mrun sc (mp_new sc) h = Ok (cs, m) -> mp_set_wsgoal sc m f E = Ok m1 ->
  mp_set_goal sc m1 st = Ok (0, m2) -> mp_plan sc m2 o = UB.
Proof.
  intros Sc R W G. destruct (run_inv _ Sc _ _ _ R) as [I _].
  assert (I1 : minv sc (h ++ [MWsGoal f E]) m1).
  { eapply minv_step; eauto. cbn. rewrite W. reflexivity. }
  assert (L1 : m_lazy m1 = Some (m_next m)).
  { unfold mp_set_wsgoal in W. match type of W with (if ?b then _ else _) = _ => destruct b end; [discriminate|]. now injection W as <-. }
  destruct (set_goal_inv _ Sc _ _ _ _ _ I1 G) as (I2 & _ & [[_ Eg]|[X _]] & _ & _ & _ & El & _); [|discriminate].
  unfold mp_plan. rewrite (allow_id _ _ _ I2). pose proof (i_coll _ _ _ I2) as Wc.
  assert (Ss : start_sampling sc m2 = UB) by (unfold start_sampling; now rewrite El, L1, Eg).
  destruct (m_coll m2) as [c|].
  - destruct (clear_get _ _ Wc) as (c' & -> & _). cbn [bind]. now rewrite Ss.
  - cbn [bind]. now rewrite Ss.
Qed.
Lemma c96_unset_goal sc st k : (k < sc_nq sc)%nat -> ~ In (Z.of_nat k) (sc_ids sc) -> length st = length (sc_ids sc) ->
  mp_set_goal sc (mp_new sc) st = UB.
Proof.
  intros K N L. unfold mp_set_goal. rewrite L, Nat.eqb_refl. cbn [negb]. unfold is_valid, full_config. cbn.
  assert (C : covers sc = false); [|now rewrite C].
  apply not_true_iff_false. intros C. unfold covers in C. rewrite forallb_forall in C.
  specialize (C k). rewrite in_seq in C. specialize (C ltac:(lia)). apply existsb_exists in C as (z & Z1 & Z2). apply Z.eqb_eq in Z2. subst. auto.
Qed.
Lemma c96_unset_plan sc f E m o : mp_set_wsgoal sc (mp_new sc) f E = Ok m -> mp_plan sc m o = UB.
Proof.
  intros W. unfold mp_set_wsgoal in W. match type of W with (if ?b then _ else _) = _ => destruct b end; [discriminate|]. injection W as <-.
  unfold mp_plan. cbn. reflexivity.
Qed.
