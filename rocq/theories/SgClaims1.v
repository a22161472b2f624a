(** Proofs of the claims on numbering, cycles, configuration variables and limits. *)
From Coq Require Import ZArith String List Bool Reals Lia Lra.
From Verif Require Import TfModel SgModel SgSpec SgMapProofs SgIndexProofs SgNumberProofs SgInvProofs SgQueryProofs.
Import ListNotations.
Open Scope Z_scope.

(** ** C44 *)
Lemma c44_orphan h s : run sg_create h = Ok s -> orphan (declared h) -> sg_init s = Ok (INVALID_FRAME, s).
Proof. intros E O. eapply init_orphan; eauto. now apply run_created. Qed.

Lemma c44_init h s : run sg_create h = Ok s -> forest (declared h) ->
  exists s', sg_init s = Ok (0, s') /\ ready (h ++ [OInit]) s'.
Proof.
  intros E Fo. pose proof (run_created _ _ E) as I.
  destruct (init_success _ _ _ I) as (s' & Es & Ds).
  - eapply forest_not_orphan; eauto.
  - eapply forest_no_self; eauto.
  - exists s'. split; auto. split; auto. rewrite run_app, E. cbn. now rewrite Es.
Qed.

Lemma c44_ids h s : ready h s -> named (declared h) ->
  (forall i, 0 <= i < frame_count s ->
     exists n d, declared h n = Some d /\ frame_name s i = Ok n /\ frame_id s n = Ok i) /\
  (forall n d, declared h n = Some d ->
     exists i, 0 <= i < frame_count s /\ frame_id s n = Ok i /\ frame_name s i = Ok n /\
               frame_type s i = Ok (d_type d)) /\
  (forall n, n <> ""%string -> declared h n = None -> frame_id s n = Ok FRAME_NONE).
Proof.
  intros Rd Nm. destruct (ready_inv _ _ Rd) as [I [l X]]. destruct Rd as [_ D].
  repeat split.
  - intros i Hi. rewrite (count_eq _ _ _ I _ X Nm) in Hi.
    destruct (nth_error l (Z.to_nat i)) as [n|] eqn:J; [|apply nth_error_None in J; lia].
    destruct (frame_at_ok _ _ _ I _ X _ _ J) as (f & F & _).
    exists n, (decl_of f). split; [eapply find_decl; eauto|].
    pose proof (frame_name_ok _ _ _ I _ X D _ _ J) as A. pose proof (frame_id_ok _ _ _ I _ X _ _ J) as B.
    rewrite Z2Nat.id in A, B by lia. auto.
  - intros n d G. assert (Ne : n <> ""%string) by (intros ->; unfold named in Nm; congruence).
    destruct (nth_of_decl _ _ _ I _ X n d Ne G) as (j & f & J & F & ->).
    exists (Z.of_nat j). rewrite (count_eq _ _ _ I _ X Nm).
    assert (j < length l)%nat by (apply nth_error_Some; congruence). split; [lia|].
    repeat split; [eapply frame_id_ok|eapply frame_name_ok|eapply frame_type_ok]; eauto.
  - intros n Ne G. unfold frame_id. destruct (String.eqb_spec n ""); [congruence|].
    apply (decl_none _ _ _ I) in G. now rewrite G.
Qed.

Lemma c44_parent h s : ready h s -> forest (declared h) ->
  forall n d i, declared h n = Some d -> frame_id s n = Ok i ->
  (d_parent d = ""%string /\ frame_parent s i = Ok FRAME_ROOT) \/
  (exists p, frame_id s (d_parent d) = Ok p /\ frame_parent s i = Ok p /\ 0 <= p < i).
Proof.
  intros Rd Fo n d i G Fi. destruct (ready_inv _ _ Rd) as [I [l X]]. destruct Rd as [_ D].
  assert (Ne : n <> ""%string) by (intros ->; destruct Fo as [Nm _]; unfold named in Nm; congruence).
  destruct (nth_of_decl _ _ _ I _ X n d Ne G) as (j & f & J & F & ->).
  rewrite (frame_id_ok _ _ _ I _ X _ _ J) in Fi. injection Fi as <-.
  pose proof (frame_parent_ok _ _ _ I _ X D _ _ _ J F) as P. cbn [decl_of d_parent].
  destruct (String.string_dec (f_parent f) "") as [E|E].
  - left. split; auto. rewrite P. unfold pid_of. now rewrite E.
  - right. destruct (parent_first _ _ _ I _ X Fo _ _ _ J F E) as (p & Jp & Lt & Ep).
    exists (Z.of_nat p). split; [eapply frame_id_ok; eauto|]. rewrite P, Ep. split; auto. lia.
Qed.

(** ** C45 *)
Lemma above_named' g a n : above g a n -> named g -> n <> ""%string.
Proof. intros A N. unfold named in N. destruct A; congruence. Qed.

Lemma fk_cyclic h s l j n f : inv (declared h) (limit_of h) s -> indexed s l -> s_dirty s = false ->
  nth_error l j = Some n -> mfind n (s_map s) = Some f ->
  f_parent f <> ""%string -> ~ In (f_parent f) (firstn j l) ->
  forall q k i r a, (i + k = j)%nat -> length q = length (s_crmap s) -> length a = i ->
  fk_loop qutr_mul (fun _ f => tf_rel f q) s (seq i (S k)) r a = UB.
Proof.
  intros I X D J F P K q k. induction k as [|k IH]; intros i r a E Lq La.
  - replace i with j by lia. cbn [seq fk_loop].
    destruct (frame_at_ok _ _ _ I _ X _ _ J) as (f' & F' & A & _). rewrite F in F'. apply some_inj in F'. subst f'.
    rewrite A. cbn [bind].
    destruct (tf_rel f q) as [Er| | |] eqn:T; auto.
    + cbn [bind]. unfold in_global. destruct (String.eqb_spec (f_parent f) ""); [congruence|].
      destruct (id_done _ _ X _ _ _ J F) as (_ & Pid & _). rewrite Pid. cbn [from bind].
      rewrite (bad_pid l j f P K). unfold FRAME_NONE.
      destruct (Z.ltb_spec (-2) (Z.of_nat j)); [|lia]. reflexivity.
    + unfold tf_rel, joint_value in T.
      destruct (f_type f); try discriminate; (destruct (f_cidx f) as [ci|]; [|discriminate]); cbn in T;
      destruct (nth_error q ci); discriminate.
    + unfold tf_rel, joint_value in T.
      destruct (f_type f); try discriminate; (destruct (f_cidx f) as [ci|]; [|discriminate]); cbn in T;
      destruct (nth_error q ci); discriminate.
  - change (seq i (S (S k))) with (i :: seq (S i) (S k)). cbn [fk_loop].
    destruct (nth_error l i) as [m|] eqn:Ji.
    2:{ apply nth_error_None in Ji. assert (j < length l)%nat by (apply nth_error_Some; congruence). lia. }
    destruct (frame_at_ok _ _ _ I _ X _ _ Ji) as (fi & Fi & A & _). rewrite A. cbn [bind].
    destruct (id_done _ _ X _ _ _ Ji Fi) as (_ & Pid & Ci).
    assert (T : exists Er, tf_rel fi q = Ok Er).
    { unfold tf_rel, joint_value. destruct (f_type fi) eqn:Ty; cbn in Ci; eauto;
      destruct (Ci eq_refl) as (c & Ic & ->); cbn [from bind]; apply index_of_lt in Ic;
      (destruct (nth_error q c) eqn:Q; [cbn; eauto|apply nth_error_None in Q; lia]). }
    destruct T as [Er T]. rewrite T. cbn [bind].
    destruct (in_global fi) eqn:Gl.
    + cbn [bind]. apply IH; try lia. rewrite app_length. cbn. lia.
    + rewrite Pid. cbn [from bind]. destruct (Z.ltb_spec (pid_of l i fi) (Z.of_nat i)) as [Lt|Ge].
      * cbn [negb]. destruct (Z.ltb_spec (pid_of l i fi) 0); auto.
        destruct (nth_error a (Z.to_nat (pid_of l i fi))) eqn:N.
        -- cbn [from bind]. apply IH; try lia. rewrite app_length. cbn. lia.
        -- apply nth_error_None in N. lia.
      * exfalso. unfold pid_of in Ge. unfold FRAME_ROOT, FRAME_NONE in Ge.
        destruct (String.eqb (f_parent fi) ""); [lia|].
        destruct (index_of (f_parent fi) (firstn i l)) eqn:Ix; [|lia].
        destruct (in_firstn_index l _ _ _ Ix). lia.
Qed.
Lemma fk_loop_app {A} mul (rel : nat -> frame -> res A) s ids1 ids2 r a :
  fk_loop mul rel s (ids1 ++ ids2) r a =
  bind (fk_loop mul rel s ids1 r a) (fun '(r', a') => fk_loop mul rel s ids2 r' a').
Proof.
  revert r a. induction ids1 as [|i t IH]; intros r a; cbn [app fk_loop bind]; auto.
  destruct (frame_at s (Z.of_nat i)) as [f| | |]; cbn [bind]; auto.
  destruct (rel i f) as [e| | |]; cbn [bind]; auto.
  match goal with |- bind ?X _ = _ => destruct X end; cbn [bind]; auto.
Qed.

Lemma c45_cycle h s : run sg_create h = Ok s -> named (declared h) -> ~ orphan (declared h) ->
  cyclic (declared h) -> ~ self_parent (declared h) ->
  exists s', sg_init s = Ok (0, s') /\
    (exists n d i, declared h n = Some d /\ d_parent d <> ""%string /\
       frame_id s' n = Ok i /\ frame_parent s' i = Ok FRAME_NONE) /\
    (forall q n_tf, config_count s' = Ok (length q) -> frame_count s' <= Z.of_nat n_tf ->
       sg_tf s' q n_tf = UB).
Proof.
  intros E Nm O Cy Sp. pose proof (run_created _ _ E) as I0.
  destruct (init_success _ _ _ I0 O Sp) as (s' & Es & D). exists s'. split; auto.
  assert (Rd : ready (h ++ [OInit]) s').
  { split; auto. rewrite run_app, E. cbn. now rewrite Es. }
  destruct (ready_inv _ _ Rd) as [I [l X]].
  assert (G : declared (h ++ [OInit]) = declared h) by (unfold declared; now rewrite fold_left_app).
  assert (G2 : limit_of (h ++ [OInit]) = limit_of h) by (unfold limit_of; now rewrite fold_left_app).
  rewrite G, G2 in I.
  destruct (cyclic_bad _ _ _ I _ X Nm Cy) as (j & n & f & J & F & P & K).
  split.
  - exists n, (decl_of f), (Z.of_nat j). repeat split; auto.
    + eapply find_decl; eauto.
    + eapply frame_id_ok; eauto.
    + rewrite (frame_parent_ok _ _ _ I _ X D _ _ _ J F). now rewrite (bad_pid l j f P K).
  - intros q n_tf Cq Fc. unfold sg_tf, fk_run, clean. unfold config_count, clean in Cq. rewrite D in *.
    destruct (s_csize s') as [c|] eqn:Cs; [|discriminate]. cbn in Cq. injection Cq as ->. cbn [from bind].
    rewrite Nat.eqb_refl. cbn [negb].
    assert (Jl : (j < length l)%nat) by (apply nth_error_Some; congruence).
    rewrite (count_eq _ _ _ I _ X Nm) in Fc.
    rewrite (frames_l _ _ _ I _ X Nm), map_length. rewrite Nat.min_r by lia.
    replace (length l) with (S j + (length l - S j))%nat by lia. rewrite seq_app, fk_loop_app.
    rewrite (fk_cyclic h s' l j n f I X D J F P K q j 0 [] []); auto.
    destruct (id_csize _ _ X) as [H|[H _]]; rewrite Cs in H; [now injection H|discriminate].
Qed.
Lemma c45_self h s : run sg_create h = Ok s -> ~ orphan (declared h) -> self_parent (declared h) -> sg_init s = Abort.
Proof. intros E. apply init_self with (lim := limit_of h). now apply run_created. Qed.

(** ** C46 *)
Lemma in_add_cfg m acc n c : In c (add_cfg m acc n) <->
  In c acc \/ exists f, mfind n m = Some f /\ is_joint (f_type f) = true /\ f_cfg f = c.
Proof.
  unfold add_cfg. destruct (mfind n m) as [f|].
  2:{ split; auto. intros [|(f & H & _)]; [auto|discriminate]. }
  destruct (is_joint (f_type f)) eqn:T; cbn [andb].
  2:{ split; auto. intros [|(f' & H & J & _)]; auto. apply some_inj in H. subst. congruence. }
  destruct (existsb (String.eqb (f_cfg f)) acc) eqn:Ex; cbn [negb].
  - apply existsb_in in Ex. split; auto. intros [|(f' & H & J & <-)]; auto. apply some_inj in H. now subst.
  - rewrite in_app_iff. cbn. split.
    + intros [|[|[]]]; auto. right. eauto.
    + intros [|(f' & H & J & <-)]; auto. apply some_inj in H. subst. auto.
Qed.
Lemma in_cfg_list m l c : In c (cfg_list m l) <->
  exists n f, In n l /\ mfind n m = Some f /\ is_joint (f_type f) = true /\ f_cfg f = c.
Proof.
  unfold cfg_list.
  assert (H : forall acc, In c (fold_left (add_cfg m) l acc) <->
     In c acc \/ exists n f, In n l /\ mfind n m = Some f /\ is_joint (f_type f) = true /\ f_cfg f = c).
  { induction l as [|n r IH]; intros acc; cbn [fold_left].
    - split; auto. intros [|(n & f & [] & _)]. auto.
    - rewrite IH, in_add_cfg. split.
      + intros [[|(f & H)]|(k & f & K & H)]; auto; right; [exists n, f|exists k, f]; cbn; auto.
      + intros [|(k & f & [<-|K] & H)]; auto; [left; right|right]; eauto. }
  rewrite H. cbn. intuition.
Qed.
Lemma add_cfg_len m acc n : (length (add_cfg m acc n) <= S (length acc))%nat.
Proof.
  unfold add_cfg. destruct (mfind n m); [|lia]. destruct (_ && _); [rewrite app_length; cbn; lia|lia].
Qed.
Lemma cfg_list_len m l : (length (cfg_list m l) <= length l)%nat.
Proof.
  unfold cfg_list.
  assert (H : forall acc, (length (fold_left (add_cfg m) l acc) <= length acc + length l)%nat).
  { induction l as [|n r IH]; intros acc; cbn [fold_left]; [cbn; lia|].
    specialize (IH (add_cfg m acc n)). pose proof (add_cfg_len m acc n). cbn. lia. }
  specialize (H []). cbn in H. exact H.
Qed.
Lemma uses_crmap g lim s l : inv g lim s -> indexed s l -> named g ->
  forall c, uses_config g c <-> In c (s_crmap s).
Proof.
  intros I X Nm c. rewrite (id_crmap _ _ X), in_cfg_list. split.
  - intros (n & d & G & J & C). assert (Ne : n <> ""%string) by (intros ->; unfold named in Nm; congruence).
    destruct (nth_of_decl _ _ _ I _ X n d Ne G) as (j & f & Jn & F & ->). exists n, f. repeat split; auto.
    eapply nth_error_In; eauto.
  - intros (n & f & K & F & J & C). exists n, (decl_of f). repeat split; auto. eapply find_decl; eauto.
Qed.
Lemma config_id_ok s l c i : indexed s l -> s_dirty s = false -> nth_error (s_crmap s) i = Some c ->
  config_id s c = Ok (Z.of_nat i).
Proof.
  intros X D E. unfold config_id, clean. rewrite D, (id_cmap _ _ X).
  now rewrite (nth_index_of _ _ _ (id_crnd _ _ X) E).
Qed.
Lemma config_id_inv s l c i : indexed s l -> config_id s c = Ok (Z.of_nat i) ->
  nth_error (s_crmap s) i = Some c.
Proof.
  intros X. unfold config_id, clean. destruct (s_dirty s); [discriminate|]. rewrite (id_cmap _ _ X).
  destruct (index_of c (s_crmap s)) as [k|] eqn:K; intros [= E].
  - apply Nat2Z.inj in E. subst. now apply index_of_nth.
  - unfold CONFIG_NONE in E. lia.
Qed.
Lemma config_name_ok g lim s l c i : inv g lim s -> indexed s l -> s_dirty s = false ->
  nth_error (s_crmap s) i = Some c -> config_name s (Z.of_nat i) = Ok c.
Proof.
  intros I X D E. unfold config_name, clean. rewrite D. unfold CONFIG_NONE, CONFIG_MULTI.
  destruct (Z.eqb_spec (Z.of_nat i) (-1)); [lia|]. destruct (Z.eqb_spec (Z.of_nat i) (-2)); [lia|].
  destruct (Z.ltb_spec (Z.of_nat i) 0); [lia|]. cbn [orb].
  assert (Hc : (i < length (s_crmap s))%nat) by (apply nth_error_Some; congruence).
  rewrite (id_crmap _ _ X) in Hc. pose proof (cfg_list_len (s_map s) l). pose proof (count_ge s l X).
  destruct (Z.leb_spec (frame_count s) (Z.of_nat i)); [lia|]. now rewrite Nat2Z.id, E.
Qed.
Lemma frame_config_ok g lim s l j n f : inv g lim s -> indexed s l -> s_dirty s = false ->
  nth_error l j = Some n -> mfind n (s_map s) = Some f ->
  frame_config s (Z.of_nat j) = config_id s (f_cfg f) /\ is_joint (f_type f) = true \/
  frame_config s (Z.of_nat j) = Ok CONFIG_NONE /\ f_type f = Fixed.
Proof.
  intros I X D J F. destruct (frame_at_ok _ _ _ I _ X _ _ J) as (f' & F' & A & _).
  rewrite F in F'. apply some_inj in F'. subst f'.
  unfold frame_config. rewrite D, A. cbn [bind].
  destruct (id_done _ _ X _ _ _ J F) as (_ & _ & C).
  destruct (is_joint (f_type f)) eqn:T.
  - left. split; auto. destruct (C eq_refl) as (c & Ic & ->). cbn.
    unfold config_id, clean. now rewrite D, (id_cmap _ _ X), Ic.
  - right. split; auto. destruct (f_type f); auto; discriminate.
Qed.

Lemma c46 h s : ready h s -> named (declared h) -> (exists n d, declared h n = Some d) ->
  exists m, config_count s = Ok m /\
  (forall i, (i < m)%nat -> exists c, uses_config (declared h) c /\
     config_name s (Z.of_nat i) = Ok c /\ config_id s c = Ok (Z.of_nat i)) /\
  (forall c, uses_config (declared h) c -> exists i, (i < m)%nat /\
     config_id s c = Ok (Z.of_nat i) /\ config_name s (Z.of_nat i) = Ok c) /\
  (forall c, ~ uses_config (declared h) c -> config_id s c = Ok CONFIG_NONE) /\
  (forall n d i, declared h n = Some d -> frame_id s n = Ok i ->
     frame_config s i = if is_joint (d_type d) then config_id s (d_cfg d) else Ok CONFIG_NONE).
Proof.
  intros Rd Nm [n0 [d0 G0]]. destruct (ready_inv _ _ Rd) as [I [l X]]. destruct Rd as [_ D].
  pose proof (uses_crmap _ _ _ _ I X Nm) as U.
  exists (length (s_crmap s)). split; [|split; [|split; [|split]]].
  - unfold config_count, clean. rewrite D. destruct (id_csize _ _ X) as [->|[_ E]]; auto.
    destruct (decl_find _ _ _ I _ _ G0) as (f & F & _). rewrite E in F. discriminate.
  - intros i Hi. destruct (nth_error (s_crmap s) i) as [c|] eqn:E; [|apply nth_error_None in E; lia].
    exists c. repeat split; [apply U; eapply nth_error_In; eauto|eapply config_name_ok; eauto|eapply config_id_ok; eauto].
  - intros c Uc. apply U, In_nth_error in Uc as [i Ei]. exists i. split; [apply nth_error_Some; congruence|].
    split; [eapply config_id_ok; eauto|eapply config_name_ok; eauto].
  - intros c Nc. rewrite U in Nc. unfold config_id, clean. rewrite D, (id_cmap _ _ X).
    apply index_of_nin in Nc. now rewrite Nc.
  - intros n d i G Fi. assert (Ne : n <> ""%string) by (intros ->; unfold named in Nm; congruence).
    destruct (nth_of_decl _ _ _ I _ X n d Ne G) as (j & f & J & F & ->).
    rewrite (frame_id_ok _ _ _ I _ X _ _ J) in Fi. injection Fi as <-. cbn [decl_of d_type d_cfg].
    destruct (frame_config_ok _ _ _ _ _ _ _ I X D J F) as [[A ->]|[A ->]]; auto.
Qed.

(** ** C54 *)
Lemma c54_sound h s k c i : ready h s -> config_id s c = Ok i -> i <> CONFIG_NONE ->
  sg_get_limit s k i = Ok (limit_of h k c) \/ sg_get_limit s k i = Ok None.
Proof.
  intros Rd Ci Ni. destruct (ready_inv _ _ Rd) as [I [l X]]. destruct Rd as [_ D].
  assert (exists j, i = Z.of_nat j) as [j ->].
  { unfold config_id, clean in Ci. rewrite D in Ci. destruct (mfind c (s_cmap s)); injection Ci as <-; eauto. congruence. }
  pose proof (config_id_inv _ _ _ _ X Ci) as E. destruct (id_lim _ _ X _ _ E) as (o & Eo & Ho).
  unfold sg_get_limit. destruct (Z.ltb_spec (Z.of_nat j) 0); [lia|]. rewrite Nat2Z.id, Eo. cbn [from bind].
  destruct Ho as [->|[-> Nn]]; auto. left.
  rewrite (in_lim _ _ _ I). unfold lim_of. destruct (mfind c (s_lmap s)) as [[x|]|]; cbn in *; congruence.
Qed.

Lemma ptr_kept s0 h2 : forallb (fun o => negb (edits o)) h2 = true -> s_dirty s0 = false ->
  forall s, run s0 h2 = Ok s -> s_limits s = s_limits s0 /\ s_crmap s = s_crmap s0 /\ s_cmap s = s_cmap s0 /\ s_dirty s = false.
Proof.
  revert s0. induction h2 as [|o r IH]; intros s0 H D s E; cbn in *.
  - injection E as <-. auto.
  - apply andb_true_iff in H as [Ho H]. destruct (step s0 o) as [[z s1]| | |] eqn:E1; try discriminate. cbn in E.
    assert (s_limits s1 = s_limits s0 /\ s_crmap s1 = s_crmap s0 /\ s_cmap s1 = s_cmap s0 /\ s_dirty s1 = false) as (A1 & A2 & A3 & A4).
    { destruct o; cbn in Ho; try discriminate; cbn in E1.
      - unfold sg_init in E1. rewrite D in E1. injection E1 as _ <-. auto.
      - injection E1 as _ <-. auto.
      - unfold sg_set_inertial in E1. destruct (mfind name (s_map s0)); [|discriminate]. injection E1 as _ <-. auto.
      - unfold sg_add_geom in E1. destruct (mfind name (s_map s0)); [|discriminate]. injection E1 as _ <-. auto.
      - unfold sg_allow in E1. destruct (mfind n0 (s_map s0)); [|discriminate].
        destruct (mfind n1 (s_map s0)); [|discriminate]. injection E1 as _ <-. auto. }
    destruct (IH s1 H A4 s E) as (B1 & B2 & B3 & B4). repeat split; congruence.
Qed.

Lemma c54_set h1 h2 s0 s1 s k c i :
  run sg_create h1 = Ok s0 -> s_dirty s0 = true -> sg_init s0 = Ok (0, s1) -> run s1 h2 = Ok s ->
  forallb (fun o => negb (edits o)) h2 = true ->
  (exists k0, limit_of h1 k0 c <> None) ->
  config_id s c = Ok i -> i <> CONFIG_NONE ->
  sg_get_limit s k i = Ok (limit_of (h1 ++ OInit :: h2) k c).
Proof.
  intros E0 D0 E1 E2 Ne [k0 L0] Ci Ni. pose proof (run_created _ _ E0) as I0.
  destruct (init_ok _ _ _ I0 D0) as [[_ E]|[_ (l & _ & _ & [[_ E]|[_ (s1' & E & D1 & X & _ & Lm & _ & _ & Lj & _)]])]];
    rewrite E1 in E; try discriminate. injection E as <-.
  destruct (ptr_kept _ _ Ne D1 _ E2) as (B1 & B2 & B3 & B4).
  assert (Rd : ready (h1 ++ OInit :: h2) s).
  { split; auto. rewrite run_app, E0. cbn. now rewrite E1. }
  destruct (ready_inv _ _ Rd) as [I [l' X']].
  assert (exists j, i = Z.of_nat j) as [j ->].
  { unfold config_id, clean in Ci. rewrite B4 in Ci. destruct (mfind c (s_cmap s)); injection Ci as <-; eauto. congruence. }
  pose proof (config_id_inv _ _ _ _ X' Ci) as Ec.
  unfold sg_get_limit. destruct (Z.ltb_spec (Z.of_nat j) 0); [lia|]. rewrite Nat2Z.id.
  rewrite B1, Lm, nth_error_map. rewrite B2 in Ec. rewrite Ec. cbn [option_map from bind].
  assert (Nn : ojoin (mfind c (s_lmap s0)) <> None).
  { rewrite (in_lim _ _ _ I0) in L0. unfold lim_of in L0. destruct (ojoin (mfind c (s_lmap s0))); congruence. }
  rewrite lptr_join. destruct (ojoin (mfind c (s_lmap s0))) as [x0|] eqn:Ej; [|congruence].
  destruct (id_lim _ _ X' j c) as (o & Eo & Ho); [now rewrite B2|].
  rewrite B1, Lm, nth_error_map, Ec in Eo. cbn in Eo. rewrite lptr_join, Ej in Eo. injection Eo as <-.
  destruct Ho as [|[_ Hn]]; [discriminate|].
  rewrite (in_lim _ _ _ I). unfold lim_of. destruct (mfind c (s_lmap s)) as [[x|]|]; cbn in *; congruence.
Qed.

Lemma c54_center s k a b : sg_get_limit s LPos k = Ok (Some (a, b)) -> sg_config_center s k = Ok ((a + b) / 2)%R.
Proof. unfold sg_config_center. intros ->. cbn. f_equal. lra. Qed.
