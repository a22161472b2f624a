(** Proofs for C96. *)
From Coq Require Import ZArith List Bool Reals Arith Lia.
From Verif Require Import TfModel SgModel SgSpec SgClaims3 ClModel ClSpec ClProofs FcModel FcAllow MpModel MpSpec.
Import ListNotations.
Open Scope Z_scope.

Definition look (c : clset) (a b : Z) : bool := match cl_get c a b with Ok x => x | _ => false end.
Lemma look_ok n c a b : wf n c -> valid n a -> valid n b -> cl_get c a b = Ok (look c a b).
Proof. intros W A B. unfold look. now rewrite (cl_get_valid n) by auto. Qed.
Lemma look_sym n c a b : wf n c -> valid n a -> valid n b -> look c a b = look c b a.
Proof. intros W A B. unfold look. rewrite !(cl_get_valid n) by auto. now rewrite pos_sym. Qed.
Lemma zpair_same a b c d : zpair_eq a b c d = true <-> same_pair a b c d.
Proof. unfold zpair_eq, same_pair. rewrite orb_true_iff, !andb_true_iff, !Z.eqb_eq. reflexivity. Qed.
Lemma look_set n c i j x c' : wf n c -> cl_set c i j x = Ok c' -> wf n c' /\ valid n i /\ valid n j /\
  forall a b, valid n a -> valid n b -> look c' a b = if zpair_eq i j a b then x else look c a b.
Proof.
  intros W E. destruct (set_get _ _ _ _ _ _ W E) as (W' & I & J & H). do 3 (split; [auto|]).
  intros a b A B. destruct (H a b A B) as [H1 H2]. unfold look. destruct (zpair_eq i j a b) eqn:Z.
  - apply zpair_same in Z. now rewrite H1.
  - rewrite H2; auto. intros K. apply zpair_same in K. congruence.
Qed.
Lemma set_total n c i j x : wf n c -> valid n i -> valid n j -> exists c', cl_set c i j x = Ok c'.
Proof. intros W I J. unfold cl_set. rewrite (cl_i_valid n) by auto. cbn. eauto. Qed.
Lemma fill_eq n c d : wf n c -> wf n d -> cl_fill c d = d.
Proof. intros [A B] [A' B']. destruct d; unfold cl_fill; cbn in *; congruence. Qed.

(** ** The collision check *)
Section Check.
Variables (touch : Z -> Z -> bool) (n : nat) (al : clset).
Hypothesis W : wf n al.
Definition bad (p : nat * nat) : bool :=
  negb (look al (Z.of_nat (fst p)) (Z.of_nat (snd p))) && touch (Z.of_nat (fst p)) (Z.of_nat (snd p)).
Definition within_n (l : list (nat * nat)) : Prop := forall i j, In (i, j) l -> (i < n)%nat /\ (j < n)%nat.
Lemma within_tl p l : within_n (p :: l) -> within_n l.
Proof. intros H i j K. apply H. now right. Qed.
Lemma valid_nat i : (i < n)%nat -> valid n (Z.of_nat i).
Proof. unfold valid. lia. Qed.
Lemma check_none l : within_n l -> forall r, check_pairs touch al l r None = Ok (r || existsb bad l, None).
Proof.
  induction l as [|[i j] l IH]; intros Wn r; cbn [check_pairs existsb]; [now rewrite orb_false_r|].
  destruct (Wn i j (or_introl eq_refl)) as [Hi Hj].
  rewrite (look_ok n) by auto using valid_nat. cbn [bind]. fold (bad (i, j)).
  change (negb (look al (Z.of_nat i) (Z.of_nat j)) && touch (Z.of_nat i) (Z.of_nat j)) with (bad (i, j)).
  destruct (bad (i, j)); cbn [bind]; rewrite IH by eauto using within_tl.
  - cbn. now rewrite orb_true_r.
  - reflexivity.
Qed.
Lemma check_some l : within_n l -> forall r c, wf n c -> exists c', check_pairs touch al l r (Some c) = Ok (r || existsb bad l, Some c') /\
  wf n c' /\ forall a b, valid n a -> valid n b -> look c' a b =
    look c a b || existsb (fun p => zpair_eq (Z.of_nat (fst p)) (Z.of_nat (snd p)) a b && bad p) l.
Proof.
  induction l as [|[i j] l IH]; intros Wn r c Wc; cbn [check_pairs existsb].
  - exists c. rewrite orb_false_r. split; auto. split; auto. intros. now rewrite orb_false_r.
  - destruct (Wn i j (or_introl eq_refl)) as [Hi Hj].
    rewrite (look_ok n) by auto using valid_nat. cbn [bind].
    change (negb (look al (Z.of_nat i) (Z.of_nat j)) && touch (Z.of_nat i) (Z.of_nat j)) with (bad (i, j)).
    destruct (bad (i, j)); cbn [bind].
    + destruct (set_total n c (Z.of_nat i) (Z.of_nat j) true) as [c1 E1]; auto using valid_nat.
      rewrite E1. cbn [bind]. destruct (look_set _ _ _ _ _ _ Wc E1) as (W1 & _ & _ & L1).
      destruct (IH (within_tl _ _ Wn) true c1 W1) as (c' & E & W' & L). exists c'. rewrite E. cbn [orb].
      rewrite orb_true_r. split; auto. split; auto. intros a b A B. rewrite L, L1 by auto. cbn [fst snd].
      rewrite andb_true_r. destruct (zpair_eq (Z.of_nat i) (Z.of_nat j) a b), (look c a b); reflexivity.
    + destruct (IH (within_tl _ _ Wn) r c Wc) as (c' & E & W' & L). exists c'. rewrite E. cbn [orb].
      split; auto. split; auto. intros a b A B. rewrite L by auto. now rewrite andb_false_r.
Qed.
Hypothesis Sy : forall a b, touch a b = touch b a.
Lemma pairs_within : within_n (pairs_below n).
Proof. intros i j H. apply in_below in H. lia. Qed.
Lemma bad_pairs : existsb bad (pairs_below n) = true <->
  exists a b, valid n a /\ valid n b /\ a <> b /\ touch a b = true /\ look al a b = false.
Proof.
  rewrite existsb_exists. split.
  - intros ([i j] & I & B). apply in_below in I. unfold bad in B. cbn in B. apply andb_true_iff in B as [B1 B2].
    apply negb_true_iff in B1. exists (Z.of_nat i), (Z.of_nat j).
    do 2 (split; [apply valid_nat; lia|]). split; [lia|]. auto.
  - intros (a & b & A & B & Ne & T & L). unfold valid in A, B.
    destruct (Z.lt_ge_cases b a) as [Lt|Ge].
    + exists (Z.to_nat a, Z.to_nat b). split; [apply in_below; lia|]. unfold bad. cbn. rewrite !Z2Nat.id by lia.
      now rewrite L, T.
    + exists (Z.to_nat b, Z.to_nat a). split; [apply in_below; lia|]. unfold bad. cbn. rewrite !Z2Nat.id by lia.
      rewrite (look_sym n) by auto. now rewrite L, Sy, T.
Qed.
Lemma found_pairs a b : valid n a -> valid n b -> a <> b ->
  existsb (fun p => zpair_eq (Z.of_nat (fst p)) (Z.of_nat (snd p)) a b && bad p) (pairs_below n) = negb (look al a b) && touch a b.
Proof.
  intros A B Ne. apply eq_true_iff_eq. rewrite existsb_exists. split.
  - intros ([i j] & I & H). cbn [fst snd] in H. apply andb_true_iff in H as [Z H]. apply zpair_same in Z.
    unfold bad in H. cbn in H. destruct Z as [[<- <-]|[<- <-]]; auto.
    rewrite (look_sym n) by auto. now rewrite Sy.
  - intros H. unfold valid in A, B. destruct (Z.lt_ge_cases b a) as [Lt|Ge].
    + exists (Z.to_nat a, Z.to_nat b). split; [apply in_below; lia|]. unfold bad. cbn [fst snd]. rewrite !Z2Nat.id by lia.
      rewrite H, andb_true_r. apply zpair_same. left; auto.
    + exists (Z.to_nat b, Z.to_nat a). split; [apply in_below; lia|]. unfold bad. cbn [fst snd]. rewrite !Z2Nat.id by lia.
      rewrite (look_sym n), Sy by auto. rewrite H, andb_true_r. apply zpair_same. right; auto.
Qed.
End Check.

(** ** Reachable contexts *)
Section Inv.
Variable sc : scene.
Hypothesis Sc : scene_ok sc.
Let n := sc_nf sc.
Definition coll_wf (s : option clset) : Prop := match s with Some c => wf n c | None => True end.
Record minv (h : list mop) (m : mp) : Prop := mkInv {
  i_al : wf n (m_allowed m); i_cl : m_cl m = m_allowed m; i_coll : coll_wf (m_coll m);
  i_track : (m_coll m <> None <-> tracking h = true);
  i_qall : m_qall m = last_config h; i_len : forall q, m_qall m = Some q -> length q = sc_nq sc;
  i_sound : forall a b, valid n a -> valid n b -> a <> b -> look (m_allowed m) a b = true -> permitted sc h a b = true;
  i_graph : no_withdrawal sc h -> forall a b, valid n a -> valid n b -> graph_permits sc a b = true -> look (m_allowed m) a b = true;
  i_exact : no_withdrawal sc h -> forall a b, valid n a -> valid n b -> a <> b -> permitted sc h a b = true -> look (m_allowed m) a b = true }.

Lemma graph_wf : wf n (sc_allowed sc).
Proof. apply made_wf. apply Sc. Qed.
Lemma touch_sym q a b : sc_touch sc q a b = sc_touch sc q b a.
Proof. apply Sc. Qed.
Lemma minv_new : minv [] (mp_new sc).
Proof.
  pose proof graph_wf as W. unfold mp_new. constructor; cbn; auto.
  - apply (fill_eq n); auto. apply wf_create.
  - split; [congruence|discriminate].
  - discriminate.
Qed.
Lemma allow_id h m : minv h m -> allow m = m.
Proof.
  intros I. unfold allow. pose proof (i_cl _ _ I) as E. pose proof (i_al _ _ I) as W. rewrite E, (fill_eq n) by auto.
  destruct m; cbn in *. congruence.
Qed.
Lemma permitted_app h o a b : permitted sc (h ++ [o]) a b = perm_step sc (permitted sc h) o a b.
Proof. unfold permitted. now rewrite fold_left_app. Qed.
Lemma nw_app h o : no_withdrawal sc (h ++ [o]) -> no_withdrawal sc h.
Proof. intros H a b K. apply H. apply in_or_app. auto. Qed.
Lemma last_config_app h o : last_config (h ++ [o]) = match o with MStart q | MAllowConfig q => Some q | _ => last_config h end.
Proof. unfold last_config. rewrite fold_left_app. reflexivity. Qed.
Lemma tracking_app h o : tracking (h ++ [o]) = match o with MTrack x => x | _ => tracking h end.
Proof. unfold tracking. rewrite fold_left_app. reflexivity. Qed.

Lemma collisions_spec q set : wf n set -> exists c, collisions_at sc q set = Ok c /\ wf n c /\
  forall a b, valid n a -> valid n b -> a <> b ->
    look c a b = look set a b || (negb (graph_permits sc a b) && sc_touch sc q a b).
Proof.
  intros Ws. unfold collisions_at. fold n.
  destruct (check_some (sc_touch sc q) n _ graph_wf (pairs_below n) (pairs_within n) false set Ws) as (c & E & W & L).
  rewrite E. exists c. split; auto. split; auto. intros a b A B Ne. rewrite L by auto.
  rewrite (found_pairs _ n _ graph_wf) by auto using touch_sym. reflexivity.
Qed.
Lemma collisions_more q set c : wf n set -> collisions_at sc q set = Ok c -> forall a b, valid n a -> valid n b ->
  look set a b = true -> look c a b = true.
Proof.
  intros Ws E. unfold collisions_at in E. fold n in E.
  destruct (check_some (sc_touch sc q) n _ graph_wf (pairs_below n) (pairs_within n) false set Ws) as (c' & E' & W & L).
  rewrite E' in E. injection E as <-. intros a b A B H. rewrite L, H by auto. reflexivity.
Qed.

(** calls that leave the sets, the fixed joints and the tracking alone *)
Lemma minv_same h m o m' : minv h m -> m_allowed m' = m_allowed m -> m_cl m' = m_cl m -> coll_wf (m_coll m') ->
  (m_coll m' <> None <-> tracking (h ++ [o]) = true) -> m_qall m' = m_qall m ->
  match o with MStart _ | MAllowConfig _ | MAllow _ _ _ => False | _ => True end -> minv (h ++ [o]) m'.
Proof.
  intros [A B C D E F G H K] Ea Ec Wc T Eq O.
  assert (P : forall a b, permitted sc (h ++ [o]) a b = permitted sc h a b) by (intros; rewrite permitted_app; now destruct o).
  constructor.
  - now rewrite Ea.
  - congruence.
  - auto.
  - auto.
  - rewrite Eq, E, last_config_app. now destruct o.
  - intros q. rewrite Eq. auto.
  - intros a b. rewrite Ea, P. auto.
  - intros N a b. rewrite Ea. apply H. eauto using nw_app.
  - intros N a b. rewrite Ea, P. apply K. eauto using nw_app.
Qed.

Lemma allow_config_inv h m q m' : minv h m -> mp_allow_config sc m q = Ok m' ->
  (forall o, o = MStart q \/ o = MAllowConfig q -> minv (h ++ [o]) m') /\ length q = sc_nq sc /\
  m_starts m' = m_starts m /\ m_goal m' = m_goal m /\ m_sols m' = m_sols m /\ m_lazy m' = m_lazy m /\ m_config m' = m_config m /\
  m_qall m' = Some q /\ m_coll m' = m_coll m /\ m_simplify m' = m_simplify m /\ m_next m' = m_next m /\
  (no_withdrawal sc h -> forall a b, valid n a -> valid n b -> a <> b -> sc_touch sc q a b = true -> look (m_allowed m') a b = true).
Proof.
  intros I E. pose proof I as [A B C D F G H K L]. unfold mp_allow_config in E.
  destruct (Nat.ltb_spec (length q) (sc_nq sc)) as [|Le]; [discriminate|].
  destruct (collisions_at sc (firstn (sc_nq sc) q) (m_allowed m)) as [al| | |] eqn:Eal; try discriminate. cbn [bind] in E.
  destruct (Nat.eqb_spec (length q) (sc_nq sc)) as [Lq|]; [|discriminate]. cbn [negb] in E. injection E as <-.
  rewrite firstn_all2 in Eal by lia.
  destruct (collisions_spec q (m_allowed m) A) as (al' & E1 & W1 & L1). rewrite Eal in E1. injection E1 as <-.
  pose proof (collisions_more _ _ _ A Eal) as Mo.
  assert (T : no_withdrawal sc h -> forall a b, valid n a -> valid n b -> a <> b -> sc_touch sc q a b = true -> look al a b = true).
  { intros N a b Va Vb Ne T. rewrite L1, T, andb_true_r by auto. destruct (graph_permits sc a b) eqn:Gp.
    - rewrite (K N a b); auto.
    - now rewrite orb_true_r. }
  split; [|cbn; auto 12].
  intros o Ho. unfold allow. cbn. constructor; cbn.
  - auto.
  - apply (fill_eq n); auto. now rewrite B.
  - auto.
  - rewrite tracking_app. now destruct Ho as [-> | ->].
  - rewrite last_config_app. now destruct Ho as [-> | ->].
  - intros q' [= <-]. auto.
  - intros a b Va Vb Ne X. rewrite permitted_app. assert (Z : permitted sc h a b || sc_touch sc q a b = true); [|now destruct Ho as [-> | ->]].
    rewrite L1 in X by auto. apply orb_true_iff in X as [X|X].
    + rewrite (H a b); auto.
    + apply andb_true_iff in X as [_ ->]. now rewrite orb_true_r.
  - intros N a b Va Vb X. apply Mo; auto. apply K; eauto using nw_app.
  - intros N a b Va Vb Ne X. rewrite permitted_app in X. assert (Z : permitted sc h a b || sc_touch sc q a b = true) by (now destruct Ho as [-> | ->]).
    apply orb_true_iff in Z as [Z|Z].
    + apply Mo; auto. apply L; eauto using nw_app.
    + apply T; eauto using nw_app.
Qed.

Lemma graph_sym a b : valid n a -> valid n b -> graph_permits sc a b = graph_permits sc b a.
Proof. intros. apply (look_sym n); auto using graph_wf. Qed.
Lemma allow_collision_inv h m a b x m' : minv h m -> mp_allow_collision m a b x = Ok m' -> minv (h ++ [MAllow a b x]) m' /\
  m_starts m' = m_starts m /\ m_goal m' = m_goal m /\ m_sols m' = m_sols m /\ m_lazy m' = m_lazy m /\ m_config m' = m_config m /\
  m_qall m' = m_qall m /\ m_coll m' = m_coll m /\ m_simplify m' = m_simplify m /\ m_next m' = m_next m.
Proof.
  intros I E. pose proof I as [A B C D F G H K L]. unfold mp_allow_collision in E.
  destruct (cl_set (m_allowed m) a b x) as [al| | |] eqn:Es; try discriminate. cbn [bind] in E. injection E as <-.
  destruct (look_set _ _ _ _ _ _ A Es) as (W & Va & Vb & Lk).
  split; [|cbn; auto 12]. unfold allow. cbn. constructor; cbn.
  - auto.
  - apply (fill_eq n); auto. now rewrite B.
  - auto.
  - now rewrite tracking_app.
  - now rewrite last_config_app.
  - auto.
  - intros c d Vc Vd Ne. rewrite Lk, permitted_app by auto. cbn. destruct (zpair_eq a b c d); auto.
  - intros N c d Vc Vd X. rewrite Lk by auto. destruct (zpair_eq a b c d) eqn:Z; [|apply K; eauto using nw_app].
    destruct x; auto. apply zpair_same in Z. assert (Q : graph_permits sc a b = false).
    { apply N. apply in_or_app. right. now left. }
    destruct Z as [[-> ->]|[-> ->]]; [congruence|]. rewrite graph_sym in Q by auto. congruence.
  - intros N c d Vc Vd Ne. rewrite Lk, permitted_app by auto. cbn. destruct (zpair_eq a b c d); auto. apply L; eauto using nw_app.
Qed.

(** is_valid of a full configuration *)
Lemma valid_none m q w st : wf n (m_cl m) -> m_qall m = Some q -> config_set (sc_ids sc) st q = Ok w ->
  is_valid sc m st None = Ok (negb (existsb (bad (sc_touch sc w) (m_cl m)) (pairs_below n)), None).
Proof.
  intros W Q E. unfold is_valid, full_config. rewrite Q, E. cbn [bind]. fold n. rewrite (check_none _ n) by (auto using pairs_within).
  reflexivity.
Qed.
Lemma valid_any m st set r : wf n (m_cl m) -> coll_wf set -> is_valid sc m st set = Ok r ->
  exists w, full_config sc (m_qall m) st = Ok w /\
    fst r = negb (existsb (bad (sc_touch sc w) (m_cl m)) (pairs_below n)) /\ coll_wf (snd r) /\
    (snd r <> None <-> set <> None) /\
    match set, snd r with
    | Some c, Some c' => forall a b, valid n a -> valid n b -> a <> b ->
        look c' a b = look c a b || (negb (look (m_cl m) a b) && sc_touch sc w a b)
    | _, _ => True
    end.
Proof.
  intros W Ws E. unfold is_valid in E. destruct (full_config sc (m_qall m) st) as [w| | |]; try discriminate.
  cbn [bind] in E. exists w. split; auto. fold n in E. destruct set as [c|].
  - destruct (check_some (sc_touch sc w) n _ W (pairs_below n) (pairs_within n) false c Ws) as (c' & E' & W' & L).
    rewrite E' in E. cbn [bind] in E. injection E as <-. cbn [fst snd orb]. split; auto. split; auto. split; [split; discriminate|].
    intros a b A B Ne. rewrite L by auto. rewrite (found_pairs _ n _ W) by auto using touch_sym. reflexivity.
  - rewrite (check_none _ n) in E by auto using pairs_within. cbn [bind] in E. injection E as <-. cbn [fst snd orb].
    split; auto. split; [exact I|]. split; [tauto|auto].
Qed.
Lemma valid_total m st set : wf n (m_cl m) -> coll_wf set -> (exists w, full_config sc (m_qall m) st = Ok w) ->
  exists r, is_valid sc m st set = Ok r.
Proof.
  intros W Ws [w E]. unfold is_valid. rewrite E. cbn [bind]. fold n. destruct set as [c|].
  - destruct (check_some (sc_touch sc w) n _ W (pairs_below n) (pairs_within n) false c Ws) as (c' & E' & W' & L).
    rewrite E'. cbn. eauto.
  - rewrite (check_none _ n) by auto using pairs_within. cbn. eauto.
Qed.
Lemma not_bad al q : wf n al -> existsb (bad (sc_touch sc q) al) (pairs_below n) = false <->
  forall a b, valid n a -> valid n b -> a <> b -> sc_touch sc q a b = true -> look al a b = true.
Proof.
  intros W. rewrite <- not_true_iff_false, (bad_pairs _ n _ W) by auto using touch_sym. split.
  - intros H a b A B Ne T. destruct (look al a b) eqn:L; auto. exfalso. apply H. exists a, b. auto.
  - intros H (a & b & A & B & Ne & T & L). rewrite (H a b) in L by auto. discriminate.
Qed.
Lemma coll_free h m q : minv h m ->
  (existsb (bad (sc_touch sc q) (m_allowed m)) (pairs_below n) = false -> collision_free sc (permitted sc h) q) /\
  (no_withdrawal sc h -> collision_free sc (permitted sc h) q -> existsb (bad (sc_touch sc q) (m_allowed m)) (pairs_below n) = false).
Proof.
  intros I. rewrite not_bad by apply I. split.
  - intros H a b A B Ne T. apply (i_sound _ _ I); auto.
  - intros N H a b A B Ne T. apply (i_exact _ _ I); auto.
Qed.

Lemma set_goal_inv h m st c m' : minv h m -> mp_set_goal sc m st = Ok (c, m') -> minv (h ++ [MGoal st]) m' /\
  length st = length (sc_ids sc) /\
  (c = 0 /\ m_goal m' = GState st \/ c = 32 /\ m_goal m' = m_goal m) /\
  (exists w, full_config sc (m_qall m) st = Ok w /\ (c = 0 <-> existsb (bad (sc_touch sc w) (m_allowed m)) (pairs_below n) = false)) /\
  m_starts m' = m_starts m /\ m_sols m' = m_sols m /\ m_lazy m' = m_lazy m /\ m_config m' = m_config m /\
  m_qall m' = m_qall m /\ m_simplify m' = m_simplify m /\ m_next m' = m_next m.
Proof.
  intros I E. unfold mp_set_goal in E. destruct (Nat.eqb_spec (length st) (length (sc_ids sc))) as [Ls|]; [|discriminate].
  cbn [negb] in E. rewrite (allow_id _ _ I) in E.
  destruct (is_valid sc m st (m_coll m)) as [[v coll]| | |] eqn:V; try discriminate. cbn [bind] in E.
  assert (Wc : wf n (m_cl m)) by (rewrite (i_cl _ _ I); apply I).
  destruct (valid_any _ _ _ _ Wc (i_coll _ _ I) V) as (w & Fw & Ev & Wv & Nv & _). cbn [fst snd] in *.
  rewrite (i_cl _ _ I) in Ev.
  assert (T : coll <> None <-> tracking (h ++ [MGoal st]) = true) by (rewrite tracking_app; rewrite Nv; apply I).
  destruct v; injection E as <- <-; (split; [eapply minv_same; eauto|]); (split; [auto|]); (split; [cbn; auto|]);
    (split; [exists w; split; [auto|]|cbn; auto 12]).
  - symmetry in Ev. apply negb_true_iff in Ev. tauto.
  - symmetry in Ev. apply negb_false_iff in Ev. rewrite Ev. split; discriminate.
Qed.
Lemma ask_inv m l : wf n (m_cl m) -> forall set set', coll_wf set -> ask_all sc m l set = Ok set' -> coll_wf set' /\
  (set' <> None <-> set <> None) /\ (forall st, In st l -> exists w, full_config sc (m_qall m) st = Ok w) /\
  match set, set' with
  | Some c, Some c' => forall a b, valid n a -> valid n b -> a <> b ->
      (look c' a b = true <-> look c a b = true \/ exists st w, In st l /\ full_config sc (m_qall m) st = Ok w /\
         sc_touch sc w a b = true /\ look (m_cl m) a b = false)
  | _, _ => True
  end.
Proof.
  intros W. induction l as [|st l IH]; intros set set' Ws E; cbn in E.
  - injection E as <-. split; auto. split; [tauto|]. split; [easy|]. destruct set; auto. intros a b _ _ _. split; auto.
    intros [H|(st & w & [] & _)]; auto.
  - destruct (is_valid sc m st set) as [[v s1]| | |] eqn:V; try discriminate. cbn [bind] in E.
    destruct (valid_any _ _ _ _ W Ws V) as (w & Fw & _ & W1 & N1 & L1). cbn [fst snd] in *.
    destruct (IH _ _ W1 E) as (W2 & N2 & F2 & L2). split; auto. split; [tauto|]. split.
    { intros x [<-|H]; eauto. }
    destruct set as [c|], set' as [c'|]; auto. destruct s1 as [c1|]; [|exfalso; apply (proj2 N1); [discriminate|auto]].
    intros a b A B Ne. rewrite (L2 a b A B Ne), (L1 a b A B Ne), orb_true_iff, andb_true_iff, negb_true_iff. split.
    + intros [[H|[H1 H2]]|(x & y & X & Y & Z)]; auto.
      * right. exists st, w. split; [now left|]. auto.
      * right. exists x, y. split; [now right|]. auto.
    + intros [H|(x & y & [<-|X] & Y & Z & U)]; auto.
      * left. right. rewrite Fw in Y. injection Y as <-. auto.
      * right. exists x, y. auto.
Qed.
Lemma plan_inv h m o c l m' : minv h m -> mp_plan sc m o = Ok (c, l, m') -> minv (h ++ [MPlan o]) m' /\
  m_starts m' = m_starts m /\ m_goal m' = m_goal m /\ m_lazy m' = m_lazy m /\ m_config m' = m_config m /\
  m_qall m' = m_qall m /\ m_simplify m' = m_simplify m /\ m_next m' = m_next m /\
  match m_coll m' with
  | Some s => forall a b, valid n a -> valid n b -> a <> b ->
      (look s a b = true <-> exists st w, In st (o_asked o) /\ full_config sc (m_qall m) st = Ok w /\
         sc_touch sc w a b = true /\ look (m_allowed m) a b = false)
  | None => True
  end /\
  (c = 0 -> o_throw o = false /\ exists p, nth_error (m_sols m ++ o_paths o) (o_best o) = Some p /\
     let p' := if m_simplify m then o_simple o else p in
     path_all sc (m_config m) p' = Ok l /\ m_sols m' = set_at (m_sols m ++ o_paths o) (o_best o) p') /\
  (c <> 0 -> m_sols m' = m_sols m ++ o_paths o /\ l = [] /\ (o_throw o = true /\ c = 1 \/ o_throw o = false /\ m_sols m' = [] /\ c = 5)) /\
  (o_throw o = true -> c = 1) /\ (o_throw o = false -> m_sols m ++ o_paths o = [] -> c = 5).
Proof.
  intros I E. unfold mp_plan in E. rewrite (allow_id _ _ I) in E.
  assert (Wc : wf n (m_cl m)) by (rewrite (i_cl _ _ I); apply I).
  destruct (match m_coll m with Some c => bind (cl_clear c) (fun c => Ok (Some c)) | None => Ok None end) as [c0| | |] eqn:Cl; try discriminate.
  cbn [bind] in E.
  assert (C0 : coll_wf c0 /\ (c0 <> None <-> m_coll m <> None) /\
    match c0 with Some s => forall a b, valid n a -> valid n b -> look s a b = false | None => True end).
  { pose proof (i_coll _ _ I) as Wm. destruct (m_coll m) as [s|].
    - destruct (clear_get n s Wm) as (s' & Es & Ws & Gs). rewrite Es in Cl. cbn in Cl. injection Cl as <-.
      split; auto. split; [split; discriminate|]. intros a b A B. unfold look. now rewrite Gs.
    - injection Cl as <-. repeat split; auto. }
  destruct C0 as (W0 & N0 & L0).
  destruct (start_sampling sc m) as [[]| | |]; try discriminate. cbn [bind] in E.
  destruct (ask_all sc m (o_asked o) c0) as [c1| | |] eqn:As; try discriminate. cbn [bind] in E.
  destruct (ask_inv _ _ Wc _ _ W0 As) as (W1 & N1 & _ & L1). rewrite (i_cl _ _ I) in L1.
  assert (T : c1 <> None <-> tracking (h ++ [MPlan o]) = true).
  { rewrite tracking_app, N1, N0. apply I. }
  assert (K : match c1 with
     | Some s => forall a b, valid n a -> valid n b -> a <> b -> (look s a b = true <-> exists st w, In st (o_asked o) /\ full_config sc (m_qall m) st = Ok w /\
         sc_touch sc w a b = true /\ look (m_allowed m) a b = false)
     | None => True end).
  { destruct c1 as [s1|]; auto. destruct c0 as [s0|]; [|exfalso; apply (proj1 N1); [discriminate|auto]].
    intros a b A B Ne. rewrite (L1 a b A B Ne), (L0 a b A B). split; auto. intros [|]; [discriminate|auto]. }
  destruct (o_throw o) eqn:Th.
  - injection E as <- <- <-. split; [eapply minv_same; eauto|]. do 7 (split; [reflexivity|]). split; [exact K|].
    split; [discriminate|]. split; [|auto; split; auto; discriminate]. intros _. cbn. auto.
  - destruct (m_sols m ++ o_paths o) as [|p0 ps] eqn:So.
    + injection E as <- <- <-. split; [eapply minv_same; eauto|]. do 7 (split; [reflexivity|]). split; [exact K|].
      split; [discriminate|]. split; [intros _; cbn; auto 6|split; auto; discriminate].
    + destruct (nth_error (p0 :: ps) (o_best o)) as [p|] eqn:Np; [|discriminate]. cbn [from bind] in E.
      destruct (path_all sc (m_config m) (if m_simplify m then o_simple o else p)) as [l'| | |] eqn:Pa; try discriminate.
      cbn [bind] in E. injection E as <- <- <-. split; [eapply minv_same; eauto|]. do 7 (split; [reflexivity|]). split; [exact K|].
      split; [|split; [lia|split; discriminate]]. intros _. split; auto. exists p. auto.
Qed.
Lemma minv_step h m o c m' : minv h m -> mstep sc m o = Ok (c, m') -> minv (h ++ [o]) m'.
Proof.
  intros I E. destruct o as [q|q|a b x|st|f Es|x|x|o]; cbn in E.
  - unfold ret0, mp_set_start in E. destruct (mp_allow_config sc m q) as [m1| | |] eqn:A; try discriminate. cbn [bind] in E.
    destruct (config_get (sc_ids sc) q) as [st| | |]; try discriminate. cbn [bind] in E. injection E as <- <-.
    destruct (allow_config_inv _ _ _ _ I A) as [H _]. destruct (H _ (or_introl eq_refl)). constructor; auto.
  - unfold ret0 in E. destruct (mp_allow_config sc m q) as [m1| | |] eqn:A; try discriminate. cbn in E. injection E as <- <-.
    destruct (allow_config_inv _ _ _ _ I A) as [H _]. auto.
  - unfold ret0 in E. destruct (mp_allow_collision m a b x) as [m1| | |] eqn:A; try discriminate. cbn in E. injection E as <- <-.
    now destruct (allow_collision_inv _ _ _ _ _ _ I A).
  - now destruct (set_goal_inv _ _ _ _ _ I E).
  - unfold ret0, mp_set_wsgoal in E.
    destruct (Nat.eqb (length Es) 0 || Nat.ltb (length match f with Some f => f | None => repeat (sc_last sc) (length Es) end) (length Es));
      [discriminate|]. cbn in E. injection E as <- <-. eapply minv_same; eauto; cbn; auto. apply I. rewrite tracking_app; apply I.
  - injection E as <- <-. eapply minv_same; eauto; cbn; auto. apply I. rewrite tracking_app; apply I.
  - injection E as <- <-. eapply minv_same; eauto; cbn; auto.
    + destruct x; cbn; auto. apply wf_create.
    + rewrite tracking_app. destruct x; split; congruence.
  - destruct (mp_plan sc m o) as [[[c1 l1] m1]| | |] eqn:A; try discriminate. cbn in E. injection E as <- <-.
    now destruct (plan_inv _ _ _ _ _ _ I A).
Qed.
Lemma minv_run h2 : forall h m cs m', minv h m -> mrun sc m h2 = Ok (cs, m') -> minv (h ++ h2) m' /\ length cs = length h2.
Proof.
  induction h2 as [|o h2 IH]; intros h m cs m' I E; cbn in E.
  - injection E as <- <-. now rewrite app_nil_r.
  - destruct (mstep sc m o) as [[c m1]| | |] eqn:S1; try discriminate. cbn [bind] in E.
    destruct (mrun sc m1 h2) as [[cs1 m2]| | |] eqn:S2; try discriminate. cbn in E. injection E as <- <-.
    destruct (IH (h ++ [o]) m1 cs1 m2) as [I2 L2]; auto.
    + eapply minv_step; eauto.
    + rewrite <- app_assoc in I2. cbn in *. auto.
Qed.
Lemma run_inv h cs m : mrun sc (mp_new sc) h = Ok (cs, m) -> minv h m /\ length cs = length h.
Proof. intros E. exact (minv_run h [] _ _ _ minv_new E). Qed.
End Inv.
