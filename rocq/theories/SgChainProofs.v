(** Kinematic chains and forward kinematics of sub-scene-graphs. *)
From Coq Require Import ZArith String List Bool Reals Lia Lra.
From Verif Require Import TfModel TfSpec TfProofs TfRotmatProofs TfRepProofs TfCalcProofs TfConvProofs TfFrameProofs
  SgModel SgSpec SgMapProofs SgIndexProofs SgNumberProofs SgInvProofs SgQueryProofs SgClaims1 SgFkProofs SgFkProofs2 SgClaims2.
Import ListNotations.
Open Scope Z_scope.

Lemma path_in g r n l : path g r n l -> forall m, In m l -> exists d, g m = Some d /\ m <> ""%string /\ m <> r.
Proof.
  induction 1 as [|n d l Nr Ne G P IH]; intros m M; [destruct M|].
  apply in_app_iff in M as [M|[<-|[]]]; auto. exists d. auto.
Qed.
Lemma path_fun g r n l1 l2 : path g r n l1 -> path g r n l2 -> l1 = l2.
Proof.
  intros H. revert l2. induction H as [|n d l Nr Ne G P IH]; intros l2 H2; inversion H2; subst; try congruence.
  assert (d0 = d) by congruence. subst. f_equal. auto.
Qed.

Lemma nth_set_at {A} (a : list A) i j x : nth_error (set_at a i x) j =
  if Nat.eqb i j then (if Nat.ltb i (length a) then Some x else None) else nth_error a j.
Proof.
  revert i j. induction a as [|y r IH]; intros [|i] [|j]; cbn; auto.
  - now destruct (Nat.eqb i j).
  - rewrite IH. now destruct (Nat.eqb i j).
Qed.
Lemma set_at_len {A} (a : list A) i x : length (set_at a i x) = length a.
Proof. revert i. induction a as [|y r IH]; intros [|i]; cbn; auto. Qed.
Lemma set_at_split {A} (a : list A) i x : (i < length a)%nat -> set_at a i x = firstn i a ++ x :: skipn (S i) a.
Proof.
  revert i. induction a as [|y r IH]; intros [|i] H; cbn in *; try lia; auto. f_equal. apply IH. lia.
Qed.

Section Chain.
  Variables (g : graph) (lim : lkind -> string -> option (R * R)) (s : sg) (l : list string).
  Hypothesis I : inv g lim s.
  Hypothesis X : indexed s l.
  Hypothesis D : s_dirty s = false.
  Hypothesis Fo : forest g.

  (** the id of a frame or of the root *)
  Definition zid (n : string) (i : Z) : Prop := frame_id s n = Ok i /\ i <> FRAME_NONE.
  Lemma zid_root : zid ""%string FRAME_ROOT.
  Proof. split; [reflexivity|discriminate]. Qed.
  Lemma zid_nth n i : zid n i -> n <> ""%string -> exists j, i = Z.of_nat j /\ nth_error l j = Some n.
  Proof.
    intros [E N] Ne. destruct (frame_no_nonneg _ _ _ _ _ _ I X (proj1 Fo) Ne E N) as (j & -> & _ & J). eauto.
  Qed.
  Lemma nth_zid n j : nth_error l j = Some n -> zid n (Z.of_nat j).
  Proof. intros J. split; [eapply frame_id_ok; eauto|unfold FRAME_NONE; lia]. Qed.
  Lemma zid_fun n i j : zid n i -> zid n j -> i = j.
  Proof. intros [A _] [B _]. congruence. Qed.
  Lemma zid_inj n m i : zid n i -> zid m i -> n = m.
  Proof.
    intros A B. destruct (String.string_dec n "") as [->|Nn], (String.string_dec m "") as [->|Nm]; auto.
    - rewrite (zid_fun _ _ _ A zid_root) in B. destruct (zid_nth _ _ B Nm) as (j & E & _). unfold FRAME_ROOT in E. lia.
    - rewrite (zid_fun _ _ _ B zid_root) in A. destruct (zid_nth _ _ A Nn) as (j & E & _). unfold FRAME_ROOT in E. lia.
    - destruct (zid_nth _ _ A Nn) as (j & -> & J). destruct (zid_nth _ _ B Nm) as (k & E & K).
      apply Nat2Z.inj in E. subst. congruence.
  Qed.
  Lemma zid_exists n d : g n = Some d -> n <> ""%string -> exists j, zid n (Z.of_nat j) /\ nth_error l j = Some n.
  Proof.
    intros G Ne. destruct (nth_of_decl _ _ _ I _ X n d Ne G) as (j & f & J & _). exists j. split; auto. now apply nth_zid.
  Qed.
  (** one step up *)
  Lemma zid_up n d i : g n = Some d -> n <> ""%string -> zid n i ->
    exists j p, i = Z.of_nat j /\ (j < length l)%nat /\ frame_type s i = Ok (d_type d) /\
      frame_parent s i = Ok p /\ zid (d_parent d) p /\ -1 <= p < i.
  Proof.
    intros G Ne Z. destruct (zid_nth _ _ Z Ne) as (j & -> & J). destruct (decl_find _ _ _ I _ _ G) as (f & F & ->).
    exists j. rewrite (frame_type_ok _ _ _ I _ X D _ _ _ J F), (frame_parent_ok _ _ _ I _ X D _ _ _ J F).
    cbn [decl_of d_parent d_type]. assert (Lj : (j < length l)%nat) by (apply nth_error_Some; congruence).
    destruct (String.string_dec (f_parent f) "") as [E|E].
    - exists FRAME_ROOT. unfold pid_of. rewrite E. repeat split; auto; try discriminate; unfold FRAME_ROOT; lia.
    - destruct (parent_first _ _ _ I _ X Fo _ _ _ J F E) as (p & Jp & Lt & ->). exists (Z.of_nat p).
      repeat split; auto; try lia. + now apply nth_zid. + unfold FRAME_NONE. lia.
  Qed.

  Variables (root : string) (rz : Z).
  Hypothesis Zr : zid root rz.
  (** the walk stops at [r]: the requested root or the global root *)
  Variable r : string.
  Hypothesis Hr : r = root \/ r = ""%string.

  Lemma stop_at i : zid r i -> negb (i =? rz) && negb (i =? FRAME_ROOT) = false.
  Proof.
    intros Z. destruct Hr as [->| ->].
    - rewrite (zid_fun _ _ _ Z Zr), Z.eqb_refl. reflexivity.
    - rewrite (zid_fun _ _ _ Z zid_root), Z.eqb_refl. apply andb_false_r.
  Qed.
  Lemma go_on n i : zid n i -> n <> root -> n <> ""%string -> negb (i =? rz) && negb (i =? FRAME_ROOT) = true.
  Proof.
    intros Z N1 N2. apply andb_true_iff. split; apply negb_true_iff, Z.eqb_neq; intros ->.
    - apply N1. eapply zid_inj; eauto.
    - apply N2. eapply zid_inj; [exact Z|exact zid_root].
  Qed.

  Lemma chain_count_ok n ls : path g r n ls -> ~ In root ls -> forall i, zid n i -> forall k a, i + 1 < Z.of_nat k ->
    chain_count_loop k s rz i a = Ok (a + length ls)%nat.
  Proof.
    induction 1 as [|n d ls Nr Ne G P IH]; intros Nin i Z k a Hk; destruct k as [|k]; try (destruct (zid_nth)); cbn [chain_count_loop].
    - exfalso. destruct (String.string_dec r "") as [E|E].
      + subst. rewrite (zid_fun _ _ _ Z zid_root) in Hk. cbn in Hk. lia.
      + destruct (zid_nth _ _ Z E) as (j & -> & _). lia.
    - rewrite (stop_at i Z). f_equal. cbn. lia.
    - exfalso. destruct (zid_nth _ _ Z Ne) as (j & -> & _). lia.
    - rewrite (go_on n i Z); auto; [|intros ->; apply Nin; apply in_or_app; right; now left].
      destruct (zid_up n d i G Ne Z) as (j & p & -> & Lj & Ty & Pa & Zp & Bp). rewrite Ty, Pa. cbn [bind].
      rewrite IH; auto; [|intros H; apply Nin, in_or_app; now left|lia]. rewrite app_length. cbn. f_equal. lia.
  Qed.
  Definition ids (ls : list string) (zs : list Z) : Prop := Forall2 zid ls zs.
  Lemma chain_fill_ok n ls : path g r n ls -> ~ In root ls -> forall i, zid n i -> forall out, (length ls <= length out)%nat ->
    exists zs, ids ls zs /\ chain_fill_loop (length ls) s rz i out = Ok (zs ++ skipn (length ls) out).
  Proof.
    induction 1 as [|n d ls Nr Ne G P IH]; intros Nin i Z out Lo.
    - exists []. split; [constructor|]. cbn [chain_fill_loop length]. now rewrite (stop_at i Z).
    - rewrite app_length in *. cbn [length] in *. replace (length ls + 1)%nat with (S (length ls)) in * by lia.
      cbn [chain_fill_loop].
      rewrite (go_on n i Z); auto; [|intros ->; apply Nin; apply in_or_app; right; now left].
      destruct (zid_up n d i G Ne Z) as (j & p & -> & Lj & Ty & Pa & Zp & Bp). rewrite Ty, Pa. cbn [bind].
      destruct (IH ltac:(intros H; apply Nin, in_or_app; now left) p Zp (set_at out (length ls) (Z.of_nat j))) as (zs & Hz & E).
      { rewrite set_at_len. lia. }
      rewrite E. exists (zs ++ [Z.of_nat j]). split.
      + apply Forall2_app; auto.
      + f_equal. rewrite set_at_split by lia. rewrite skipn_app, firstn_length, Nat.min_l by lia.
        rewrite Nat.sub_diag. cbn [skipn]. rewrite skipn_firstn_comm, Nat.sub_diag. cbn [firstn app].
        now rewrite <- app_assoc.
  Qed.
  Lemma ids_len ls zs : ids ls zs -> length zs = length ls.
  Proof. induction 1; cbn; auto. Qed.
  Lemma fill_short n ls : path g r n ls -> ~ In root ls -> forall i, zid n i -> forall out, length out = length ls ->
    exists zs, ids ls zs /\ chain_frames s rz i out = Ok zs.
  Proof.
    intros P Nin i Z out Lo. destruct (chain_fill_ok n ls P Nin i Z out) as (zs & Hz & E); [lia|].
    exists zs. split; auto. unfold chain_frames. rewrite Lo, E. rewrite <- Lo, skipn_all. now rewrite app_nil_r.
  Qed.

  Lemma config_count_ok ls zs : ids ls zs -> (forall n, In n ls -> g n <> None /\ n <> ""%string) ->
    chain_config_count s zs = Ok (length (joint_decls g ls)).
  Proof.
    intros H. induction H as [|n z ls zs Z H IH]; intros G; auto. cbn [chain_config_count joint_decls flat_map].
    destruct (G n) as [Gn Ne]; [now left|]. destruct (g n) as [d|] eqn:Gd; [|congruence].
    destruct (zid_up n d z Gd Ne Z) as (j & p & _ & _ & Ty & _). rewrite Ty. cbn [bind].
    rewrite IH by (intros m M; apply G; now right). cbn [bind]. now destruct (is_joint (d_type d)).
  Qed.
  Definition cids (ds : list decl) (cs : list Z) : Prop := Forall2 (fun d c => config_id s (d_cfg d) = Ok c /\ 0 <= c) ds cs.
  Lemma joint_config n d z : g n = Some d -> n <> ""%string -> zid n z -> is_joint (d_type d) = true ->
    exists c, frame_config s z = Ok (Z.of_nat c) /\ config_id s (d_cfg d) = Ok (Z.of_nat c) /\
      nth_error (s_crmap s) c = Some (d_cfg d).
  Proof.
    intros G Ne Z T. destruct (zid_nth _ _ Z Ne) as (j & -> & J). destruct (decl_find _ _ _ I _ _ G) as (f & F & ->).
    cbn [decl_of d_type d_cfg] in *. destruct (id_done _ _ X _ _ _ J F) as (_ & _ & C). destruct (C T) as (c & Ic & Ec).
    exists c. pose proof (index_of_nth _ _ _ Ic) as Nc. pose proof (config_id_ok s l _ c X D Nc) as Ci. split; auto.
    destruct (frame_config_ok _ _ _ _ _ _ _ I X D J F) as [[-> _]|[_ E]]; auto. rewrite E in T. discriminate.
  Qed.
  Lemma configs_ok ls zs : ids ls zs -> (forall n, In n ls -> g n <> None /\ n <> ""%string) ->
    exists cs, cids (joint_decls g ls) cs /\ chain_configs s zs (length (joint_decls g ls)) = Ok cs.
  Proof.
    intros H. induction H as [|n z ls zs Z H IH]; intros G.
    - exists []. split; [constructor|reflexivity].
    - destruct (G n) as [Gn Ne]; [now left|]. destruct (g n) as [d|] eqn:Gd; [|congruence].
      destruct IH as (cs & Hc & E); [intros m M; apply G; now right|].
      destruct (zid_up n d z Gd Ne Z) as (j & p & _ & _ & Ty & _).
      cbn [joint_decls flat_map]. rewrite Gd. fold (joint_decls g ls).
      destruct (is_joint (d_type d)) eqn:T.
      + destruct (joint_config n d z Gd Ne Z T) as (c & Fc & Ci & _). exists (Z.of_nat c :: cs). split.
        * constructor; auto. split; auto. lia.
        * cbn [app length chain_configs]. rewrite Ty. cbn [bind]. rewrite T, Fc. cbn [bind].
          rewrite E. reflexivity.
      + exists cs. split; auto. cbn [app]. destruct (length (joint_decls g ls)) as [|k] eqn:Lk.
        * cbn. destruct (joint_decls g ls); [|discriminate]. inversion Hc. reflexivity.
        * cbn [chain_configs]. rewrite Ty. cbn [bind]. rewrite T. exact E.
  Qed.

  Lemma chain_create_ok n ls i junk : path g r n ls -> ~ In root ls -> zid n i ->
    exists zs cs, chain_create s rz i junk = Ok (mkSS zs cs (Some [i])) /\ ids ls zs /\ cids (joint_decls g ls) cs.
  Proof.
    intros P Nin Z. unfold chain_create, chain_frame_count.
    rewrite (chain_count_ok n ls P Nin i Z) by
      (rewrite (frames_len _ _ _ _ I X Fo); destruct (String.string_dec n "") as [->|Ne];
       [rewrite (zid_fun _ _ _ Z zid_root); unfold FRAME_ROOT; lia|
        destruct (zid_nth _ _ Z Ne) as (j & -> & J); assert (j < length l)%nat by (apply nth_error_Some; congruence); lia]).
    cbn [bind plus].
    destruct (fill_short n ls P Nin i Z (map junk (seq 0 (length ls)))) as (zs & Hz & E).
    { now rewrite map_length, seq_length. }
    rewrite E. cbn [bind].
    assert (G : forall m, In m ls -> g m <> None /\ m <> ""%string).
    { intros m M. destruct (path_in _ _ _ _ P m M) as (d & Gd & Ne & _). split; congruence. }
    rewrite (config_count_ok ls zs Hz G). cbn [bind].
    destruct (configs_ok ls zs Hz G) as (cs & Hc & Ec). rewrite Ec. cbn [bind].
    exists zs, cs. auto.
  Qed.
End Chain.

(** ** Forward kinematics of a chain *)
Section FkSub.
  Variables (g : graph) (lim : lkind -> string -> option (R * R)) (s : sg) (l : list string).
  Hypothesis I : inv g lim s.
  Hypothesis X : indexed s l.
  Hypothesis D : s_dirty s = false.
  Hypothesis Fo : forest g.
  Hypothesis Pr : proper g.
  Variable cfg : string -> R.

  Definition lpos (n : string) (E : QV) : Prop := unit_qutr E /\ forall p, located g cfg n p (place (TfModel.eq E) (ev E) p).
  Lemma lpos_child n d Ep Er : g n = Some d -> n <> ""%string -> lpos (d_parent d) Ep -> unit_qutr Er ->
    (forall p, place (TfModel.eq Er) (ev Er) p = rel_motion d cfg p) -> lpos n (qutr_mul Ep Er).
  Proof.
    intros G Ne [UE Lo] Ur M. assert (U : unit_qutr (qutr_mul Ep Er)) by now apply qutr_mul_unit.
    split; auto. intros p. rewrite place_E, qutr_mul_acts by assumption. rewrite <- !place_E by assumption.
    rewrite M. apply loc_frame with (d := d); auto.
  Qed.
  Lemma lpos_top n d Er : g n = Some d -> n <> ""%string -> d_parent d = ""%string -> unit_qutr Er ->
    (forall p, place (TfModel.eq Er) (ev Er) p = rel_motion d cfg p) -> lpos n Er.
  Proof.
    intros G Ne P Ur M. split; auto. intros p. rewrite M. apply loc_frame with (d := d); auto. rewrite P. constructor.
  Qed.

  (** the full configuration *)
  Definition qall : list R := map cfg (s_crmap s).
  Lemma config_qall n d : g n = Some d -> n <> ""%string -> is_joint (d_type d) = true -> config_of s qall (d_cfg d) = cfg (d_cfg d).
  Proof.
    intros G Ne T. destruct (zid_exists _ _ _ _ I X n d G Ne) as (j & Z & J).
    destruct (joint_config _ _ _ _ I X D Fo n d _ G Ne Z T) as (c & _ & Ci & Nc).
    unfold config_of. rewrite Ci, Nat2Z.id. apply nth_error_nth. unfold qall. rewrite nth_error_map, Nc. reflexivity.
  Qed.
  Lemma rel_cfg n f : mfind n (s_map s) = Some f -> n <> ""%string ->
    unit_qutr (relq qall f) /\
    forall p, place (TfModel.eq (relq qall f)) (ev (relq qall f)) p = rel_motion (decl_of f) cfg p.
  Proof.
    intros F Ne. destruct (in_l_of _ _ _ _ I X Fo n f F) as [j J]. pose proof (find_decl _ _ _ I _ _ F) as G.
    assert (Lq : (length (s_crmap s) <= length qall)%nat) by (unfold qall; rewrite map_length; lia).
    destruct (rel_place _ _ X D qall Lq j n f J F (Pr _ _ G)) as [U M]. split; auto. intros p. rewrite M.
    unfold rel_motion. destruct (d_type (decl_of f)) eqn:T; auto; rewrite (config_qall n _ G Ne); auto; now rewrite T.
  Qed.

  Definition agree (qo : list (option R)) (ds : list decl) : Prop :=
    forall d c, In d ds -> config_id s (d_cfg d) = Ok (Z.of_nat c) -> nth_error qo c = Some (Some (cfg (d_cfg d))).
  Lemma tf_rel_o_ok n f qo ds : mfind n (s_map s) = Some f -> n <> ""%string ->
    (is_joint (f_type f) = true -> In (decl_of f) ds) -> agree qo ds ->
    tf_rel_o f qo = Ok (relq qall f).
  Proof.
    intros F Ne Hin Ag. destruct (in_l_of _ _ _ _ I X Fo n f F) as [j J].
    assert (Lq : (length (s_crmap s) <= length qall)%nat) by (unfold qall; rewrite map_length; lia).
    unfold tf_rel_o. destruct (f_type f) eqn:T.
    - unfold relq, tf_rel. now rewrite T.
    - destruct (cidx_val _ _ X D qall Lq _ _ _ J F) as (c & x & Ec & N & Cx & Nc); [now rewrite T|].
      assert (Ci : config_id s (d_cfg (decl_of f)) = Ok (Z.of_nat c)) by (eapply config_id_ok; eauto).
      pose proof (Ag (decl_of f) c (Hin eq_refl) Ci) as Nq. rewrite Ec. cbn [from bind]. rewrite Nq. cbn [from bind].
      unfold relq, tf_rel, joint_value. cbn [set_cidx f_type f_cidx f_off f_E f_axis]. rewrite T. cbn [from bind nth_error].
      rewrite Ec. cbn [from bind]. rewrite N. cbn [from bind].
      assert (cfg (d_cfg (decl_of f)) = x) as ->; auto.
      unfold qall in N. rewrite nth_error_map, Nc in N. cbn in N. injection N as <-. reflexivity.
    - destruct (cidx_val _ _ X D qall Lq _ _ _ J F) as (c & x & Ec & N & Cx & Nc); [now rewrite T|].
      assert (Ci : config_id s (d_cfg (decl_of f)) = Ok (Z.of_nat c)) by (eapply config_id_ok; eauto).
      pose proof (Ag (decl_of f) c (Hin eq_refl) Ci) as Nq. rewrite Ec. cbn [from bind]. rewrite Nq. cbn [from bind].
      unfold relq, tf_rel, joint_value. cbn [set_cidx f_type f_cidx f_off f_E f_axis]. rewrite T. cbn [from bind nth_error].
      rewrite Ec. cbn [from bind]. rewrite N. cbn [from bind].
      assert (cfg (d_cfg (decl_of f)) = x) as ->; auto.
      unfold qall in N. rewrite nth_error_map, Nc in N. cbn in N. injection N as <-. reflexivity.
  Qed.

  Lemma joint_in ls n d : In n ls -> g n = Some d -> is_joint (d_type d) = true -> In d (joint_decls g ls).
  Proof. intros H G T. unfold joint_decls. apply in_flat_map. exists n. split; auto. rewrite G, T. now left. Qed.

  (** entry of a frame in the array; the global root needs none *)
  Definition entry (abs : list QV) (n : string) : Prop :=
    n = ""%string \/ exists i E, zid s n (Z.of_nat i) /\ nth_error abs i = Some E /\ lpos n E.

  Lemma fk_sub_path r qo n ls : path g r n ls -> forall zs, ids s ls zs -> forall ds,
    (forall d, In d (joint_decls g ls) -> In d ds) -> agree qo ds ->
    forall abs, length abs = length l -> entry abs r ->
    exists abs', fk_sub_loop s qo zs abs = Ok abs' /\ length abs' = length l /\
      entry abs' n /\ (forall m, In m ls -> entry abs' m) /\
      (forall i, ~ In (Z.of_nat i) zs -> nth_error abs' i = nth_error abs i).
  Proof.
    induction 1 as [|n d ls Nr Ne G P IH]; intros zs Hz ds Hd Ag abs La Er.
    - inversion Hz; subst. exists abs. cbn. repeat split; auto. intros m [].
    - apply Forall2_app_inv_l in Hz as (zs1 & zs2 & Hz1 & Hz2 & ->).
      inversion Hz2 as [|n0 z l0 zs0 Z Hn E1 E2]; subst. inversion Hn; subst.
      destruct (IH zs1 Hz1 ds) with (abs := abs) as (a1 & E1 & L1 & En & Hall & Hoth); auto.
      { intros d' Hin. apply Hd. unfold joint_decls in *. rewrite flat_map_app. apply in_or_app. now left. }
      assert (App : forall zs2 a, fk_sub_loop s qo (zs1 ++ zs2) a = bind (fk_sub_loop s qo zs1 a) (fk_sub_loop s qo zs2)).
      { clear. intros zs2. induction zs1 as [|z r IH]; intros a; cbn [app fk_sub_loop bind]; auto.
        destruct (frame_at s z); cbn [bind]; auto. destruct (tf_rel_o a0 qo); cbn [bind]; auto.
        destruct (fk_set_rel s a z a1); cbn [bind]; auto. }
      rewrite App, E1. cbn [bind fk_sub_loop].
      destruct (zid_nth _ _ _ _ I X Fo _ _ Z Ne) as (j & -> & J).
      destruct (frame_at_ok _ _ _ I _ X _ _ J) as (f & F & At & _). rewrite At. cbn [bind].
      pose proof (find_decl _ _ _ I _ _ F) as Gf. rewrite G in Gf. apply some_inj in Gf. subst d.
      assert (Lj : (j < length l)%nat) by (apply nth_error_Some; congruence).
      rewrite (tf_rel_o_ok n f qo ds F Ne); auto.
      2:{ intros T. apply Hd. apply joint_in with (n := n); auto. apply in_or_app. right. now left. }
      cbn [bind]. destruct (rel_cfg n f F Ne) as [Ur Mr].
      assert (S1 : exists E, fk_set_rel s a1 (Z.of_nat j) (relq qall f) = Ok (set_at a1 j E) /\ lpos n E).
      { unfold fk_set_rel. rewrite (frame_parent_ok _ _ _ I _ X D _ _ _ J F). cbn [bind].
        assert (W : forall E, fk_write a1 (Z.of_nat j) E = Ok (set_at a1 j E)).
        { intros E. unfold fk_write. destruct (Z.ltb_spec (Z.of_nat j) 0); [lia|]. rewrite Nat2Z.id.
          destruct (Nat.ltb_spec j (length a1)); [reflexivity|lia]. }
        destruct (String.string_dec (f_parent f) "") as [Pe|Pe].
        - unfold pid_of. rewrite Pe. cbn [String.eqb]. change (FRAME_ROOT =? FRAME_ROOT) with true. cbv iota.
          exists (relq qall f). split; [apply W|]. apply lpos_top with (d := decl_of f); auto.
        - destruct (parent_first _ _ _ I _ X Fo _ _ _ J F Pe) as (p & Jp & Lt & Ep). rewrite Ep.
          destruct (Z.eqb_spec (Z.of_nat p) FRAME_ROOT) as [E|_]; [unfold FRAME_ROOT in E; lia|].
          destruct En as [En|(i & Ea & Zi & Ni & Lo)]; [cbn in En; congruence|]. cbn [decl_of d_parent] in *.
          assert (i = p) as ->.
          { apply Nat2Z.inj. eapply zid_fun; [exact Zi|]. eapply nth_zid; eauto. }
          unfold fk_read. destruct (Z.ltb_spec (Z.of_nat p) 0); [lia|]. rewrite Nat2Z.id, Ni. cbn [from bind].
          exists (qutr_mul Ea (relq qall f)). split; [apply W|].
          apply lpos_child with (d := decl_of f); auto. }
      destruct S1 as (E & -> & Lo). cbn [bind].
      assert (Keep : forall m, entry a1 m -> entry (set_at a1 j E) m).
      { intros m [Hm|(i & Em & Zi & Ni & Lm)]; [now left|]. right.
        destruct (Nat.eq_dec i j) as [->|Nij].
        - assert (m = n) as -> by (eapply zid_inj; [exact I|exact X|exact Fo|exact Zi|exact Z]).
          exists j, E. split; auto. split; auto. rewrite nth_set_at, Nat.eqb_refl.
          destruct (Nat.ltb_spec j (length a1)); [auto|lia].
        - exists i, Em. split; auto. split; auto. rewrite nth_set_at. destruct (Nat.eqb_spec j i); [congruence|auto]. }
      assert (New : entry (set_at a1 j E) n).
      { right. exists j, E. split; auto. split; auto. rewrite nth_set_at, Nat.eqb_refl.
        destruct (Nat.ltb_spec j (length a1)); [auto|lia]. }
      exists (set_at a1 j E). split; [reflexivity|]. split; [now rewrite set_at_len|]. split; [exact New|]. split.
      + intros m M. apply in_app_iff in M as [M|[<-|[]]]; auto.
      + intros i Ni. rewrite nth_set_at. destruct (Nat.eqb_spec j i) as [->|].
        * exfalso. apply Ni, in_or_app. right. now left.
        * apply Hoth. intros H. apply Ni, in_or_app. now left.
  Qed.

  (** scattering values that agree with [cfg] *)
  Lemma scatter_ok v : forall ds cs k all,
    cids s ds cs -> (forall d c, In d ds -> config_id s (d_cfg d) = Ok (Z.of_nat c) -> (c < length all)%nat) ->
    (forall j d, nth_error ds j = Some d -> dv_get v (k + j) = Some (cfg (d_cfg d))) ->
    exists all', scatter cs v k all = Ok all' /\ length all' = length all /\ agree all' ds /\
      (forall c x, nth_error all c = Some (Some x) -> (exists d, In d ds /\ config_id s (d_cfg d) = Ok (Z.of_nat c)) \/ nth_error all' c = Some (Some x)) /\
      (forall c d, config_id s (d_cfg d) = Ok (Z.of_nat c) -> nth_error all c = Some (Some (cfg (d_cfg d))) -> nth_error all' c = Some (Some (cfg (d_cfg d)))).
  Proof.
    intros ds cs k all H. revert k all. induction H as [|d c ds cs [Hc Pc] H IH]; intros k all Lall Hv.
    - exists all. cbn. split; auto. split; auto. split; [intros d c []|]. split; auto.
    - cbn [scatter]. pose proof (Hv 0%nat d eq_refl) as V0. rewrite Nat.add_0_r in V0. rewrite V0. cbn [from bind].
      destruct (Z.ltb_spec c 0); [lia|]. cbn [orb].
      assert (Ec : c = Z.of_nat (Z.to_nat c)) by lia. rewrite Ec in Hc.
      pose proof (Lall d (Z.to_nat c) (or_introl eq_refl) Hc) as Lc.
      destruct (Nat.ltb_spec (Z.to_nat c) (length all)); [|lia]. cbn [negb].
      set (all1 := set_at all (Z.to_nat c) (Some (cfg (d_cfg d)))).
      destruct (IH (S k) all1) as (all' & E & L' & Ag & Keep & Same).
      { intros d' c' Hin Hc'. unfold all1. rewrite set_at_len. apply (Lall d' c'); auto. now right. }
      { intros j d' Hj. replace (S k + j)%nat with (k + S j)%nat by lia. apply Hv. exact Hj. }
      exists all'. split; auto. unfold all1 in L'. rewrite set_at_len in L'. split; auto.
      (* names with the same id are equal *)
      assert (Same1 : forall d', config_id s (d_cfg d') = Ok (Z.of_nat (Z.to_nat c)) -> d_cfg d' = d_cfg d).
      { intros d' Hd'. apply (config_id_inv _ _ _ _ X) in Hd'. apply (config_id_inv _ _ _ _ X) in Hc. congruence. }
      assert (N1 : nth_error all1 (Z.to_nat c) = Some (Some (cfg (d_cfg d)))).
      { unfold all1. rewrite nth_set_at, Nat.eqb_refl. destruct (Nat.ltb_spec (Z.to_nat c) (length all)); [auto|lia]. }
      split; [|split].
      + intros d' c' [<-|Hin] Hc'.
        * assert (c' = Z.to_nat c) as -> by (apply Nat2Z.inj; congruence).
          apply Same; auto.
        * apply Ag; auto.
      + intros c' x Hx. destruct (Nat.eq_dec c' (Z.to_nat c)) as [->|Nc].
        * left. exists d. split; [now left|auto].
        * destruct (Keep c' x) as [(d' & Hin & Hd')|Hx']; auto.
          -- unfold all1. rewrite nth_set_at. destruct (Nat.eqb_spec (Z.to_nat c) c'); [congruence|auto].
          -- left. exists d'. split; [now right|auto].
      + intros c' d' Hd' Hx. apply Same; auto. unfold all1. rewrite nth_set_at.
        destruct (Nat.eqb_spec (Z.to_nat c) c') as [<-|]; auto.
        rewrite (Same1 d' Hd'). destruct (Nat.ltb_spec (Z.to_nat c) (length all)); [auto|lia].
  Qed.
End FkSub.
