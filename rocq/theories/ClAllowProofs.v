(** Allowed collisions: the stored pairs follow the calls. *)
From Coq Require Import ZArith String List Bool Reals Lia Arith.
From Verif Require Import TfModel SgModel SgSpec SgMapProofs SgIndexProofs SgNumberProofs SgInvProofs SgQueryProofs SgClaims1 SgClaims2
  ClModel ClSpec ClProofs.
Import ListNotations.
Open Scope Z_scope.

(** the order in which a pair is stored *)
Definition ordp (a b : string) : string * string := match String.compare a b with Lt => (a, b) | _ => (b, a) end.
Definition stored (s : sg) (a b : nat) (n0 n1 : string) : Prop :=
  exists f0 f1, mfind n0 (s_map s) = Some f0 /\ mfind n1 (s_map s) = Some f1 /\ f_addr f0 = a /\ f_addr f1 = b.
Record al_inv (A : string -> string -> bool) (s : sg) : Prop := {
  al_sym : forall a b, A a b = A b a;
  al_live : forall n m, A n m = true -> exists a b, stored s a b (fst (ordp n m)) (snd (ordp n m)) /\ In (a, b) (s_allowed s);
  al_all : forall a b, In (a, b) (s_allowed s) -> exists n m, stored s a b (fst (ordp n m)) (snd (ordp n m)) /\ A n m = true }.

Lemma scompare_anti a b : String.compare a b = CompOpp (String.compare b a).
Proof. apply String.compare_antisym. Qed.
Lemma ordp_sym a b : ordp a b = ordp b a.
Proof.
  unfold ordp. rewrite (scompare_anti a b). destruct (String.compare b a) eqn:E; cbn; auto.
  apply String.compare_eq_iff in E. now subst.
Qed.
Lemma ordp_cases a b : ordp a b = (a, b) \/ ordp a b = (b, a).
Proof. unfold ordp. destruct (String.compare a b); auto. Qed.
Lemma ordp_inj a b c d : ordp a b = ordp c d -> same_pair a b c d.
Proof.
  destruct (ordp_cases a b) as [-> | ->], (ordp_cases c d) as [-> | ->]; intros [= -> ->]; unfold same_pair; auto.
Qed.
Lemma pair_eq_same a b m n : pair_eq a b m n = true <-> same_pair a b m n.
Proof.
  unfold pair_eq, same_pair. rewrite orb_true_iff, !andb_true_iff, !String.eqb_eq. tauto.
Qed.
Lemma pair_eq_ord a b m n : pair_eq a b m n = true <-> ordp a b = ordp m n.
Proof.
  rewrite pair_eq_same. split.
  - intros [[-> ->]|[-> ->]]; auto. apply ordp_sym.
  - apply ordp_inj.
Qed.
Lemma pair_eq_swap a b m n : pair_eq a b m n = pair_eq a b n m.
Proof. unfold pair_eq. destruct (String.eqb a m), (String.eqb b n), (String.eqb a n), (String.eqb b m); reflexivity. Qed.

Lemma stored_fun g lim s a b n m n' m' : inv g lim s -> stored s a b n m -> stored s a b n' m' -> n = n' /\ m = m'.
Proof.
  intros I (f0 & f1 & F0 & F1 & A0 & A1) (f0' & f1' & F0' & F1' & A0' & A1').
  split; eapply (in_addr_inj _ _ _ I); eauto; congruence.
Qed.
Lemma stored_uniq s a b a' b' n m : stored s a b n m -> stored s a' b' n m -> a = a' /\ b = b'.
Proof. intros (f0 & f1 & F0 & F1 & A0 & A1) (f0' & f1' & F0' & F1' & A0' & A1'). split; congruence. Qed.

(** maps with the same addresses *)
Lemma al_keep A s s' : al_inv A s -> s_allowed s' = s_allowed s ->
  (forall n m f, A n m = true -> mfind n (s_map s) = Some f -> exists f', mfind n (s_map s') = Some f' /\ f_addr f' = f_addr f) ->
  al_inv A s'.
Proof.
  intros [Sy L H] E K.
  assert (St : forall n m a b, A n m = true -> stored s a b (fst (ordp n m)) (snd (ordp n m)) -> stored s' a b (fst (ordp n m)) (snd (ordp n m))).
  { intros n m a b An (f0 & f1 & F0 & F1 & A0 & A1).
    assert (exists m', A (fst (ordp n m)) m' = true) as [m0 B0].
    { destruct (ordp_cases n m) as [-> | ->]; cbn; [exists m|exists n; rewrite Sy]; auto. }
    assert (exists m', A (snd (ordp n m)) m' = true) as [m1 B1].
    { destruct (ordp_cases n m) as [-> | ->]; cbn; [exists n; rewrite Sy|exists m]; auto. }
    destruct (K _ _ _ B0 F0) as (f0' & F0' & A0'). destruct (K _ _ _ B1 F1) as (f1' & F1' & A1').
    exists f0', f1'. repeat split; congruence. }
  constructor; auto.
  - intros n m An. destruct (L n m An) as (a & b & S1 & Hin). exists a, b. rewrite E. auto.
  - intros a b Hin. rewrite E in Hin. destruct (H a b Hin) as (n & m & S1 & An). exists n, m. auto.
Qed.
Lemma in_set_ins p l x : In x (set_ins p l) <-> x = p \/ In x l.
Proof.
  unfold set_ins. destruct (existsb (pair_eqb p) l) eqn:E.
  - apply existsb_exists in E as (y & Hy & E). unfold pair_eqb in E. apply andb_true_iff in E as [E1 E2].
    apply Nat.eqb_eq in E1, E2. assert (y = p) by (destruct y, p; cbn in *; congruence). subst. intuition congruence.
  - cbn. intuition congruence.
Qed.
Lemma in_set_del p l x : In x (set_del p l) <-> x <> p /\ In x l.
Proof.
  unfold set_del. rewrite filter_In, negb_true_iff. unfold pair_eqb. split.
  - intros [A B]. split; auto. intros ->. now rewrite !Nat.eqb_refl in B.
  - intros [A B]. split; auto. apply not_true_is_false. intros E. apply andb_true_iff in E as [E1 E2].
    apply Nat.eqb_eq in E1, E2. apply A. destruct x, p; cbn in *; congruence.
Qed.
Lemma al_allow g lim A s n0 n1 x c s' : inv g lim s -> al_inv A s -> step s (OAllow n0 n1 x) = Ok (c, s') ->
  al_inv (allow_step A (OAllow n0 n1 x)) s'.
Proof.
  intros I [Sy L H] E. cbn [step] in E. unfold sg_allow in E.
  destruct (mfind n0 (s_map s)) as [f0|] eqn:F0; [|discriminate].
  destruct (mfind n1 (s_map s)) as [f1|] eqn:F1; [|discriminate]. cbn [from bind] in E. injection E as _ <-.
  set (p := if match String.compare n0 n1 with Lt => true | _ => false end then (f_addr f0, f_addr f1) else (f_addr f1, f_addr f0)).
  assert (Sp : stored s (fst p) (snd p) (fst (ordp n0 n1)) (snd (ordp n0 n1))).
  { unfold p, ordp, stored. destruct (String.compare n0 n1); cbn; eauto 8. }
  assert (Q : forall n m a b, stored s a b (fst (ordp n m)) (snd (ordp n m)) -> (pair_eq n0 n1 n m = true <-> (a, b) = p)).
  { intros n m a b S1. rewrite pair_eq_ord. split; intros E.
    - rewrite <- E in S1. destruct (stored_uniq _ _ _ _ _ _ _ Sp S1). destruct p; cbn in *; congruence.
    - subst p. assert (a = fst (a, b) /\ b = snd (a, b)) as [Ea Eb] by auto. rewrite E in Ea, Eb. rewrite <- Ea, <- Eb in Sp.
      destruct (stored_fun _ _ _ _ _ _ _ _ _ I Sp S1). destruct (ordp n0 n1), (ordp n m); cbn in *; congruence. }
  constructor; cbn [allow_step].
  - intros a b. rewrite pair_eq_swap, Sy. reflexivity.
  - intros n m An. cbn [with_allowed s_allowed].
    destruct (pair_eq n0 n1 n m) eqn:Pe.
    + subst x. exists (fst p), (snd p). apply pair_eq_ord in Pe. rewrite <- Pe. split; [exact Sp|].
      apply in_set_ins. left. now destruct p.
    + destruct (L n m An) as (a & b & S1 & Hin). exists a, b. split; [exact S1|].
      assert ((a, b) <> p) by (intros E; apply (Q _ _ _ _ S1) in E; congruence).
      destruct x; [apply in_set_ins|apply in_set_del]; auto.
  - intros a b. cbn [with_allowed s_allowed]. intros Hin.
    assert (D : ((a, b) = p /\ x = true) \/ ((a, b) <> p /\ In (a, b) (s_allowed s))).
    { destruct x; [apply in_set_ins in Hin as [Hin|Hin]|apply in_set_del in Hin as [Hn Hin]]; auto.
      destruct (Nat.eq_dec a (fst p)) as [->|Na]; [destruct (Nat.eq_dec b (snd p)) as [->|Nb]|].
      - left. destruct p; auto.
      - right. split; auto. intros E. apply Nb. now rewrite <- E.
      - right. split; auto. intros E. apply Na. now rewrite <- E. }
    destruct D as [[E ->]|[N Hin']].
    + exists n0, n1. split.
      * assert (a = fst p /\ b = snd p) as [-> ->] by (rewrite <- E; auto). exact Sp.
      * now rewrite (proj2 (pair_eq_ord n0 n1 n0 n1) eq_refl).
    + destruct (H a b Hin') as (n & m & S1 & An). exists n, m. split; [exact S1|].
      destruct (pair_eq n0 n1 n m) eqn:Pe; auto. apply (Q _ _ _ _ S1) in Pe. congruence.
Qed.

Lemma step_al g lim A s o c s' : inv g lim s -> al_inv A s -> (forall n m, A n m = true -> ~ destroys o n) ->
  step s o = Ok (c, s') -> al_inv (allow_step A o) s'.
Proof.
  intros I Al K E. destruct o as [t p n q v cf off ax|n|p n E0| |k cn a b|n mass J|n ge|n0 n1 al]; [..|eapply al_allow; eauto]; cbn [step] in E; cbn [allow_step].
  - destruct q as [q|]; [|discriminate]. destruct v as [v|]; [|discriminate]. cbn in E. injection E as _ <-.
    apply (al_keep _ _ _ Al); auto. intros n' m' f An F. exists f. split; auto. cbn. rewrite mfind_mset_other; auto.
    intros ->. exact (K _ _ An eq_refl).
  - cbn in E. injection E as _ <-. apply (al_keep _ _ _ Al); auto. intros n' m' f An F. exists f. split; auto. cbn.
    rewrite mfind_mdel_other; auto. intros ->. exact (K _ _ An eq_refl).
  - unfold sg_reparent in E. destruct (mfind n (s_map s)) as [f|] eqn:F; [|discriminate]. cbn in E. injection E as _ <-.
    apply (al_keep _ _ _ Al); auto. intros n' m' f' An F'. cbn [with_map s_map]. rewrite mfind_mset.
    destruct (String.eqb_spec n' n) as [->|]; [|eauto]. eexists. split; [reflexivity|]. cbn. congruence.
  - destruct (s_dirty s) eqn:D.
    2:{ unfold sg_init in E. rewrite D in E. cbn in E. injection E as _ <-. exact Al. }
    destruct (init_ok g lim s I D) as [[_ E1]|[_ (l & _ & _ & [[_ E1]|[_ (s1 & E1 & D1 & X & _ & _ & Sm & Co & _ & _ & Ea & _)]])]];
      rewrite E1 in E; try discriminate; injection E as _ <-; auto.
    apply (al_keep _ _ _ Al); auto. intros n' m' f An F. specialize (Co n'). rewrite F in Co.
    destruct (mfind n' (s_map s1)) as [f'|]; [|discriminate]. exists f'. split; auto. apply some_inj in Co. now apply core_eq in Co.
  - cbn in E. injection E as _ <-. apply (al_keep _ _ _ Al); auto. intros. eauto.
  - unfold sg_set_inertial in E. destruct (mfind n (s_map s)) as [f|] eqn:F; [|discriminate]. cbn in E. injection E as _ <-.
    apply (al_keep _ _ _ Al); auto. intros n' m' f' An F'. cbn [with_map s_map]. rewrite mfind_mset.
    destruct (String.eqb_spec n' n) as [->|]; [|eauto]. eexists. split; [reflexivity|]. cbn. congruence.
  - unfold sg_add_geom in E. destruct (mfind n (s_map s)) as [f|] eqn:F; [|discriminate]. cbn in E. injection E as _ <-.
    apply (al_keep _ _ _ Al); auto. intros n' m' f' An F'. cbn [with_map s_map]. rewrite mfind_mset.
    destruct (String.eqb_spec n' n) as [->|]; [|eauto]. eexists. split; [reflexivity|]. cbn. congruence.
Qed.
Lemma al_create : al_inv (fun _ _ => false) sg_create.
Proof. constructor; auto; try discriminate. intros a b []. Qed.
Lemma allowed_snoc h o : allowed_of (h ++ [o]) = allow_step (allowed_of h) o.
Proof. unfold allowed_of. now rewrite fold_left_app. Qed.
Lemma run_al h : forall s, run sg_create h = Ok s -> kept h -> al_inv (allowed_of h) s.
Proof.
  induction h as [|o h IH] using rev_ind; intros s E K.
  - cbn in E. injection E as <-. apply al_create.
  - rewrite run_app in E. destruct (run sg_create h) as [s0| | |] eqn:E0; try discriminate. cbn in E.
    destruct (step s0 o) as [[c s1]| | |] eqn:E1; try discriminate. cbn in E. injection E as <-.
    rewrite allowed_snoc. eapply step_al; [eapply run_created; eauto| | |exact E1].
    + apply IH; auto. intros h1 o' h2 Eh. apply (K h1 o' (h2 ++ [o])). now rewrite Eh, <- app_assoc.
    + intros n m. exact (K h o [] eq_refl n m).
Qed.

(** ** Ids of the pairs *)
Lemma name_at_ok g lim s n f : inv g lim s -> mfind n (s_map s) = Some f -> name_at (f_addr f) (s_map s) = Ok n.
Proof.
  intros I F.
  assert (H : forall m, (forall k f', In (k, f') m -> mfind k (s_map s) = Some f') -> In (n, f) m -> name_at (f_addr f) m = Ok n).
  { induction m as [|[k f'] r IH]; intros Hm Hin; [destruct Hin|]. cbn.
    pose proof (Hm k f' (or_introl eq_refl)) as F'.
    destruct (Nat.eqb_spec (f_addr f') (f_addr f)) as [Ea|Na].
    - assert (k = n) by (eapply (in_addr_inj _ _ _ I); eauto). subst k. f_equal. now apply (in_names _ _ _ I).
    - destruct Hin as [[= -> ->]|Hin]; [congruence|]. apply IH; auto. intros. apply Hm. now right. }
  apply H.
  - intros k f' Hk. apply in_mfind; auto. apply I.
  - now apply mfind_in.
Qed.
Lemma allowed_ids_ok g lim s lst A : inv g lim s -> indexed s lst -> named g -> al_inv A s ->
  exists ids, allowed_ids s (s_allowed s) = Ok ids /\
    (forall i j, In (i, j) ids -> exists i' j' ni nj, i = Z.of_nat i' /\ j = Z.of_nat j' /\
       nth_error lst i' = Some ni /\ nth_error lst j' = Some nj /\ A ni nj = true) /\
    (forall i j ni nj, nth_error lst i = Some ni -> nth_error lst j = Some nj -> A ni nj = true ->
       In (Z.of_nat i, Z.of_nat j) ids \/ In (Z.of_nat j, Z.of_nat i) ids).
Proof.
  intros I X Nm [Sy L H].
  assert (G : forall l, (forall a b, In (a, b) l -> exists n m, stored s a b (fst (ordp n m)) (snd (ordp n m)) /\ A n m = true) ->
    exists ids, allowed_ids s l = Ok ids /\
    (forall i j, In (i, j) ids -> exists i' j' ni nj, i = Z.of_nat i' /\ j = Z.of_nat j' /\
       nth_error lst i' = Some ni /\ nth_error lst j' = Some nj /\ A ni nj = true) /\
    (forall a b i j ni nj, In (a, b) l -> stored s a b ni nj -> nth_error lst i = Some ni -> nth_error lst j = Some nj ->
       In (Z.of_nat i, Z.of_nat j) ids)).
  { induction l as [|[a b] r IH]; intros Hl.
    - exists []. split; auto. split; [intros i j []|intros a b i j ni nj []].
    - destruct (Hl a b (or_introl eq_refl)) as (n & m & S1 & An).
      destruct S1 as (f0 & f1 & F0 & F1 & <- & <-).
      destruct IH as (ids & E & I1 & I2); [intros; apply Hl; now right|].
      assert (Jn : forall k f, mfind k (s_map s) = Some f -> exists j, nth_error lst j = Some k).
      { intros k f F. apply In_nth_error. apply (in_l _ _ _ I _ X). split.
        - intros ->. pose proof (find_decl _ _ _ I _ _ F). unfold named in Nm. congruence.
        - exists (decl_of f). now apply (find_decl _ _ _ I). }
      destruct (Jn _ _ F0) as [j0 J0], (Jn _ _ F1) as [j1 J1].
      exists ((Z.of_nat j0, Z.of_nat j1) :: ids). split; [|split].
      + cbn. rewrite (name_at_ok _ _ _ _ _ I F0), (name_at_ok _ _ _ _ _ I F1). cbn.
        rewrite (frame_id_ok _ _ _ I _ X _ _ J0), (frame_id_ok _ _ _ I _ X _ _ J1). cbn. now rewrite E.
      + intros i j [[= <- <-]|Hin]; [|auto]. exists j0, j1, (fst (ordp n m)), (snd (ordp n m)). repeat split; auto.
        destruct (ordp_cases n m) as [-> | ->]; cbn; [auto|now rewrite Sy].
      + intros a b i j ni nj [[= <- <-]|Hin] S1 Ji Jj; [|right; eauto].
        destruct (stored_fun _ _ _ _ _ _ _ _ _ I S1 (ex_intro _ f0 (ex_intro _ f1 (conj F0 (conj F1 (conj eq_refl eq_refl)))))) as [-> ->].
        left. assert (ND : NoDup lst) by apply (id_list _ _ X).
        f_equal; f_equal; eapply (proj1 (NoDup_nth_error lst) ND); try congruence; apply nth_error_Some; congruence. }
  destruct (G _ H) as (ids & E & I1 & I2). exists ids. split; auto. split; auto.
  intros i j ni nj Ji Jj An. destruct (L ni nj An) as (a & b & S1 & Hin).
  destruct (ordp_cases ni nj) as [Eo|Eo]; rewrite Eo in S1; cbn in S1; [left|right]; eapply I2; eauto.
Qed.
Lemma set_copy_ok n l : forall c, wf n c -> (forall i j, In (i, j) l -> valid n i /\ valid n j) ->
  exists c', set_copy_loop l c = Ok c' /\ wf n c' /\
    forall i j, valid n i -> valid n j ->
      (In (i, j) l \/ In (j, i) l -> cl_get c' i j = Ok true) /\
      (~ In (i, j) l -> ~ In (j, i) l -> cl_get c' i j = cl_get c i j).
Proof.
  induction l as [|[i j] r IH]; intros c W V; cbn.
  - exists c. split; auto. split; auto. intros. tauto.
  - destruct (V i j (or_introl eq_refl)) as [Vi Vj].
    assert (exists c1, cl_set c i j true = Ok c1) as [c1 E1] by (unfold cl_set; rewrite (cl_i_valid n) by auto; cbn; eauto).
    rewrite E1. cbn. destruct (set_get n c i j true c1 W E1) as (W1 & _ & _ & G).
    destruct (IH c1 W1) as (c' & E & W' & G'); [intros; apply V; now right|].
    exists c'. split; auto. split; auto. intros k l Vk Vl. destruct (G k l Vk Vl) as [Ga Gb], (G' k l Vk Vl) as [Gc Gd].
    assert (Dec : In (k, l) r \/ In (l, k) r \/ (~ In (k, l) r /\ ~ In (l, k) r)).
    { assert (Dp : forall x y : Z * Z, {x = y} + {x <> y}) by (repeat decide equality).
      destruct (in_dec Dp (k, l) r), (in_dec Dp (l, k) r); tauto. }
    split.
    + intros Hin. destruct Dec as [D|[D|[D1 D2]]]; auto. rewrite Gd by auto. apply Ga.
      destruct Hin as [[[= -> ->]|Hin]|[[= -> ->]|Hin]]; try tauto; unfold same_pair; auto.
    + intros N1 N2. rewrite Gd by tauto. apply Gb. intros [[-> ->]|[-> ->]]; tauto.
Qed.

(** ** The whole: C64 *)
Lemma crun_sg h : forall k k', crun k h = Ok k' -> run (k_sg k) (sg_calls h) = Ok (k_sg k').
Proof.
  induction h as [|o r IH]; intros k k' E; cbn in E.
  - now injection E as <-.
  - destruct (cstep k o) as [k1| | |] eqn:E1; try discriminate. cbn in E. apply IH in E.
    destruct o as [o|]; cbn in *.
    + destruct (step (k_sg k) o) as [[z s1]| | |]; try discriminate. cbn in *. injection E1 as <-. exact E.
    + unfold cl_init in E1. destruct (k_dirty k) as [[|]|]; cbn in E1; try discriminate.
      * destruct (map_geom (k_sg k)); try discriminate. cbn in E1. destruct (allowed_ids _ _); try discriminate.
        cbn in E1. injection E1 as <-. exact E.
      * now injection E1 as <-.
Qed.
Lemma crun_app h1 : forall k h2, crun k (h1 ++ h2) = bind (crun k h1) (fun k' => crun k' h2).
Proof. induction h1 as [|o r IH]; intros k h2; cbn; auto. destruct (cstep k o); cbn; auto. Qed.
Lemma dirty_after h2 : ~ In CInit h2 -> forall k k', k_dirty k = Some true -> crun k h2 = Ok k' -> k_dirty k' = Some true.
Proof.
  induction h2 as [|o r IH]; intros N k k' D E; cbn in E.
  - now injection E as <-.
  - destruct (cstep k o) as [k1| | |] eqn:E1; try discriminate. cbn in E.
    apply (IH (fun H => N (or_intror H)) k1); auto. destruct o as [o|]; [|exfalso; apply N; now left].
    cbn in E1. destruct (step (k_sg k) o) as [[z s1]| | |]; try discriminate. cbn in E1. injection E1 as <-. cbn. now destruct o.
Qed.
Lemma map_geom_total g lim s l : inv g lim s -> indexed s l -> named g -> s_dirty s = false -> exists r, map_geom s = Ok r.
Proof.
  intros I X Nm D. unfold map_geom, clean. rewrite D, (frames_l _ _ _ I _ X Nm), map_length.
  assert (H : forall ids, (forall i, In i ids -> (i < length l)%nat) -> exists r, map_geom_loop s ids = Ok r).
  { induction ids as [|i r IH]; intros Hi; [eexists; reflexivity|]. cbn.
    destruct (nth_error l i) as [n|] eqn:J; [|apply nth_error_None in J; specialize (Hi i (or_introl eq_refl)); lia].
    destruct (frame_at_ok _ _ _ I _ X _ _ J) as (f & F & -> & _). cbn.
    destruct IH as [rr ->]; [intros; apply Hi; now right|].
    destruct (id_done _ _ X _ _ _ J F) as (-> & _). destruct (f_geoms f); cbn; eauto. }
  apply H. intros i Hi. apply in_seq in Hi. lia.
Qed.
Lemma allowed_get s A g lim l : inv g lim s -> indexed s l -> named g -> s_dirty s = false -> al_inv A s ->
  exists k c, cl_init (mkCS s (Some true) []) = Ok k /\ cl_allowed k = Ok c /\
    forall i j ni nj, nth_error l i = Some ni -> nth_error l j = Some nj -> cl_get c (Z.of_nat i) (Z.of_nat j) = Ok (A ni nj).
Proof.
  intros I X Nm D Al.
  destruct (map_geom_total _ _ _ _ I X Nm D) as [r Er].
  destruct (allowed_ids_ok _ _ _ _ _ I X Nm Al) as (ids & Ei & I1 & I2).
  unfold cl_init. cbn [k_dirty k_sg from bind negb]. rewrite Er. cbn [bind]. rewrite Ei. cbn [bind].
  exists (mkCS s (Some false) ids). unfold cl_allowed, cl_set_copy. cbn [k_dirty k_sg k_ids from bind].
  rewrite (frames_l _ _ _ I _ X Nm), map_length.
  assert (Vl : forall i n, nth_error l i = Some n -> valid (length l) (Z.of_nat i)).
  { intros i n J. assert (i < length l)%nat by (apply nth_error_Some; congruence). unfold valid. lia. }
  destruct (set_copy_ok (length l) ids (cl_create (length l)) (wf_create _)) as (c & Ec & Wc & Gc).
  { intros i j Hin. destruct (I1 i j Hin) as (i' & j' & ni & nj & -> & -> & Ji & Jj & _). eauto. }
  exists c. split; [reflexivity|]. split; [exact Ec|].
  intros i j ni nj Ji Jj. destruct (Gc (Z.of_nat i) (Z.of_nat j)) as [G1 G2]; eauto.
  assert (Hin : forall i j ni nj, nth_error l i = Some ni -> nth_error l j = Some nj -> In (Z.of_nat i, Z.of_nat j) ids -> A ni nj = true).
  { intros a b na nb Ja Jb Hab. destruct (I1 _ _ Hab) as (a' & b' & na' & nb' & Ea & Eb & Ja' & Jb' & An).
    apply Nat2Z.inj in Ea, Eb. subst a' b'. congruence. }
  destruct (A ni nj) eqn:An.
  - apply G1. eapply I2; eauto.
  - rewrite G2; [eapply create_get; eauto|..]; intros H.
    + rewrite (Hin _ _ _ _ Ji Jj H) in An. discriminate.
    + rewrite (al_sym _ _ Al) in An. rewrite (Hin _ _ _ _ Jj Ji H) in An. discriminate.
Qed.
Lemma c64 h1 o h2 k : (match o with OAllow _ _ _ | OGeom _ _ => True | _ => False end) -> ~ In CInit h2 ->
  let h := sg_calls (h1 ++ CSg o :: h2) in
  crun clsg_create (h1 ++ CSg o :: h2) = Ok k -> s_dirty (k_sg k) = false -> named (declared h) -> kept h ->
  exists k' c, cl_init k = Ok k' /\ k_sg k' = k_sg k /\ cl_allowed k' = Ok c /\
    forall i j ni nj, frame_no (k_sg k) ni i -> frame_no (k_sg k) nj j -> cl_get c (Z.of_nat i) (Z.of_nat j) = Ok (allowed_of h ni nj).
Proof.
  intros Ho Nh h E D Nm K.
  pose proof (crun_sg _ _ _ E) as Er. cbn in Er. fold h in Er.
  assert (Dk : k_dirty k = Some true).
  { rewrite crun_app in E. destruct (crun clsg_create h1) as [k1| | |]; try discriminate. cbn in E.
    destruct (step (k_sg k1) o) as [[z s1]| | |]; try discriminate. cbn in E.
    eapply dirty_after; [exact Nh| |exact E]. cbn. destruct o; tauto. }
  destruct (ready_inv h (k_sg k) (conj Er D)) as [I [l X]].
  destruct (allowed_get _ _ _ _ _ I X Nm D (run_al _ _ Er K)) as (k' & c & E1 & E2 & G).
  exists k', c. unfold cl_init in *. rewrite Dk. cbn [from bind negb k_dirty k_sg] in *. split; [exact E1|]. split; [|split; [exact E2|]].
  - destruct (map_geom (k_sg k)); try discriminate. cbn in E1. destruct (allowed_ids _ _); try discriminate. cbn in E1. now injection E1 as <-.
  - intros i j ni nj Hi Hj. apply G; eapply frame_no_nth; eauto.
Qed.
