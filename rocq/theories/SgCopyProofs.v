(** Copying a scene graph. *)
From Coq Require Import ZArith String List Bool Reals Lia Arith.
From Verif Require Import TfModel SgModel SgSpec SgMapProofs SgIndexProofs SgNumberProofs SgInvProofs SgQueryProofs SgClaims1 SgClaims2
  ClModel ClSpec ClProofs ClAllowProofs.
Import ListNotations.
Open Scope Z_scope.

(** ** Two graphs with the same declarations have the same indices *)
Lemma inv_ext g g' lim lim' s : (forall n, g n = g' n) -> (forall k c, lim k c = lim' k c) -> inv g lim s -> inv g' lim' s.
Proof.
  intros Eg El [A1 A2 A3 A4 A5 A6 A7 A8]. constructor; auto.
  - intros n. now rewrite <- Eg. - intros k c. now rewrite <- El.
Qed.
Section Same.
  Variables (g : graph) (lim lim' : lkind -> string -> option (R * R)) (s d : sg) (l l' : list string).
  Hypothesis I : inv g lim s. Hypothesis I' : inv g lim' d.
  Hypothesis X : indexed s l. Hypothesis X' : indexed d l'.
  Hypothesis D : s_dirty s = false. Hypothesis D' : s_dirty d = false.

  Lemma same_find n : option_map decl_of (mfind n (s_map s)) = option_map decl_of (mfind n (s_map d)).
  Proof. now rewrite <- (in_decl _ _ _ I), <- (in_decl _ _ _ I'). Qed.
  Lemma find_both n f : mfind n (s_map s) = Some f -> exists f', mfind n (s_map d) = Some f' /\ decl_of f = decl_of f' /\ f_name f = f_name f'.
  Proof.
    intros F. pose proof (same_find n) as E. rewrite F in E. destruct (mfind n (s_map d)) as [f'|] eqn:F'; [|discriminate].
    apply some_inj in E. exists f'. repeat split; auto. now rewrite (in_names _ _ _ I _ _ F), (in_names _ _ _ I' _ _ F').
  Qed.
  Lemma same_skel : skel (s_map s) = skel (s_map d).
  Proof.
    apply sorted_ext; [apply sorted_skel, I|apply sorted_skel, I'|]. intros k. rewrite !mfind_skel. pose proof (same_find k) as E.
    destruct (mfind k (s_map s)) as [f|] eqn:F.
    - destruct (find_both _ _ F) as (f' & -> & Ed & En). cbn. rewrite En. pose proof (f_equal d_parent Ed) as P. cbn in P. now rewrite P.
    - destruct (mfind k (s_map d)); [discriminate|reflexivity].
  Qed.
  Lemma same_list : l = l'.
  Proof.
    pose proof (id_sort _ _ X) as A. pose proof (id_sort _ _ X') as B. rewrite (sort_all_skel _ _ same_skel) in A. congruence.
  Qed.
  Lemma same_crmap : s_crmap s = s_crmap d.
  Proof.
    rewrite (id_crmap _ _ X), (id_crmap _ _ X'), <- same_list. unfold cfg_list. generalize (@nil string).
    induction l as [|n r IH] in |- *; intros acc; cbn; auto. rewrite IH. f_equal. unfold add_cfg.
    destruct (mfind n (s_map s)) as [f|] eqn:F.
    - destruct (find_both _ _ F) as (f' & -> & Ed & En). pose proof (f_equal d_type Ed) as P. pose proof (f_equal d_cfg Ed) as Q. cbn in P, Q. now rewrite P, Q.
    - pose proof (same_find n) as E. rewrite F in E. destruct (mfind n (s_map d)); [discriminate|reflexivity].
  Qed.
  Lemma same_frames : s_frames s = s_frames d.
  Proof.
    rewrite (id_frames _ _ X), (id_frames _ _ X'), <- same_list. f_equal. f_equal. f_equal.
    pose proof (f_equal (@length _) same_skel) as H. unfold skel in H. now rewrite !map_length in H.
  Qed.
  Lemma frame_both j n : nth_error l j = Some n -> exists f f',
    mfind n (s_map s) = Some f /\ mfind n (s_map d) = Some f' /\ decl_of f = decl_of f' /\ f_name f = f_name f' /\
    f_fid f = f_fid f' /\ f_pid f = f_pid f' /\ (is_joint (f_type f) = true -> f_cidx f = f_cidx f') /\
    frame_at s (Z.of_nat j) = Ok f /\ frame_at d (Z.of_nat j) = Ok f'.
  Proof.
    intros J. destruct (frame_at_ok _ _ _ I _ X _ _ J) as (f & F & A & _).
    assert (J' : nth_error l' j = Some n) by now rewrite <- same_list.
    destruct (frame_at_ok _ _ _ I' _ X' _ _ J') as (f' & F' & A' & _).
    destruct (find_both _ _ F) as (f2 & F2 & Ed & En). rewrite F' in F2. apply some_inj in F2. subst f2.
    destruct (id_done _ _ X _ _ _ J F) as (B1 & B2 & B3). destruct (id_done _ _ X' _ _ _ J' F') as (C1 & C2 & C3).
    exists f, f'. repeat split; auto; try congruence.
    - rewrite B2, C2. f_equal. unfold pid_of. pose proof (f_equal d_parent Ed) as P. cbn in P. now rewrite P, same_list.
    - intros T. pose proof (f_equal d_type Ed) as P. pose proof (f_equal d_cfg Ed) as Q. cbn in P, Q.
      destruct (B3 T) as (c & Hc & ->). rewrite P in T. destruct (C3 T) as (c' & Hc' & ->).
      rewrite Q, same_crmap in Hc. congruence.
  Qed.
  Lemma frame_at_both z :
    (exists f f', frame_at s z = Ok f /\ frame_at d z = Ok f' /\ decl_of f = decl_of f' /\ f_name f = f_name f' /\
       f_fid f = f_fid f' /\ f_pid f = f_pid f' /\ (is_joint (f_type f) = true -> f_cidx f = f_cidx f')) \/
    (frame_at s z = UB /\ frame_at d z = UB).
  Proof.
    destruct (Z.ltb_spec z 0) as [Hz|Hz].
    - right. unfold frame_at. destruct (Z.ltb_spec z 0); [auto|lia].
    - destruct (nth_error l (Z.to_nat z)) as [n|] eqn:J.
      + left. destruct (frame_both _ _ J) as (f & f' & _ & _ & B). rewrite Z2Nat.id in B by lia. exists f, f'. tauto.
      + right. unfold frame_at. rewrite <- same_frames. destruct (Z.ltb_spec z 0); [lia|].
        rewrite (id_frames _ _ X). apply nth_error_None in J. rewrite nth_error_app2 by (now rewrite map_length).
        destruct (nth_error (repeat None _) _) as [o|] eqn:E; [|auto].
        apply nth_error_In, repeat_spec in E. subst o. auto.
  Qed.
  Lemma q_frame_count : frame_count d = frame_count s.
  Proof. unfold frame_count. now rewrite same_frames. Qed.
  Lemma q_frame_id n : named g -> frame_id d n = frame_id s n.
  Proof.
    intros Nm. unfold frame_id. destruct (String.eqb_spec n ""); auto.
    destruct (mfind n (s_map s)) as [f|] eqn:F.
    - assert (In n l) as J. { apply (proj2 (id_list _ _ X)). split; auto. congruence. }
      apply In_nth_error in J as [j J]. destruct (frame_both _ _ J) as (f1 & f2 & F1 & F2 & _ & _ & Ef & _).
      rewrite F2. assert (f1 = f) by congruence. subst. now rewrite Ef.
    - pose proof (same_find n) as E. rewrite F in E. destruct (mfind n (s_map d)); [discriminate|reflexivity].
  Qed.
  Ltac both z := destruct (frame_at_both z) as [(f & f' & -> & -> & Ed & En & Ef & Ep & Ec)|[-> ->]]; [cbn [bind]|reflexivity].
  Lemma q_frame_name z : frame_name d z = frame_name s z.
  Proof.
    unfold frame_name, clean. rewrite D, D', q_frame_count.
    destruct (z =? FRAME_ROOT); auto. destruct (z =? FRAME_NONE); auto. destruct ((frame_count s <=? z) || (z <? 0)); auto.
    both z. now rewrite En.
  Qed.
  Lemma q_frame_type z : frame_type d z = frame_type s z.
  Proof. unfold frame_type, clean. rewrite D, D'. both z. f_equal. symmetry. exact (f_equal d_type Ed). Qed.
  Lemma q_frame_parent z : frame_parent d z = frame_parent s z.
  Proof. unfold frame_parent, clean. rewrite D, D'. destruct ((z =? FRAME_NONE) || (z =? FRAME_ROOT)); auto. both z. now rewrite Ep. Qed.
  Lemma q_frame_config z : frame_config d z = frame_config s z.
  Proof.
    unfold frame_config. rewrite D, D'. both z. pose proof (f_equal d_type Ed) as T. cbn in T. rewrite <- T.
    destruct (is_joint (f_type f)) eqn:J; auto. now rewrite (Ec eq_refl).
  Qed.
  Lemma q_frame_axis z : frame_axis d z = frame_axis s z.
  Proof.
    unfold frame_axis. rewrite D, D'. both z. pose proof (f_equal d_type Ed) as T. pose proof (f_equal d_axis Ed) as A. cbn in T, A. now rewrite <- T, A.
  Qed.
  Lemma q_config_id c : config_id d c = config_id s c.
  Proof. unfold config_id, clean. now rewrite D, D', (id_cmap _ _ X), (id_cmap _ _ X'), same_crmap. Qed.
  Lemma q_config_name z : config_name d z = config_name s z.
  Proof. unfold config_name, clean. now rewrite D, D', q_frame_count, same_crmap. Qed.
  Lemma csize_both : (exists n x, g n = Some x) -> s_csize s = Some (length (s_crmap s)) /\ s_csize d = Some (length (s_crmap s)).
  Proof.
    intros (n & x & G). split.
    - destruct (id_csize _ _ X) as [->|[_ E]]; auto. destruct (decl_find _ _ _ I _ _ G) as (f & F & _). rewrite E in F. discriminate.
    - rewrite same_crmap. destruct (id_csize _ _ X') as [->|[_ E]]; auto. destruct (decl_find _ _ _ I' _ _ G) as (f & F & _). rewrite E in F. discriminate.
  Qed.
  Lemma q_config_count : (exists n x, g n = Some x) -> config_count d = config_count s.
  Proof. intros H. unfold config_count, clean. destruct (csize_both H) as [-> ->]. now rewrite D, D'. Qed.

  Lemma loop_both {A} (mul : A -> A -> A) (rel : nat -> frame -> res A) ids :
    (forall i f f', In i ids -> frame_at s (Z.of_nat i) = Ok f -> frame_at d (Z.of_nat i) = Ok f' -> rel i f = rel i f') ->
    forall r a, fk_loop mul rel d ids r a = fk_loop mul rel s ids r a.
  Proof.
    induction ids as [|i ids IH]; intros H r a; auto. cbn [fk_loop].
    destruct (frame_at_both (Z.of_nat i)) as [(f & f' & A1 & A2 & Ed & En & Ef & Ep & Ec)|[A1 A2]]; rewrite A1, A2; [cbn [bind]|reflexivity].
    rewrite <- (H i f f' (or_introl eq_refl) A1 A2). destruct (rel i f) as [E| | |]; cbn [bind]; auto.
    unfold in_global. pose proof (f_equal d_parent Ed) as P. cbn in P. rewrite <- P, <- Ep.
    match goal with |- bind ?x _ = bind ?x _ => destruct x; cbn [bind]; auto end.
    apply IH. intros i0 g0 g0' Hi. apply H. now right.
  Qed.
  Lemma jv_both f f' q : f_cidx f = f_cidx f' -> decl_of f = decl_of f' -> joint_value f q = joint_value f' q.
  Proof. intros Ec Ed. unfold joint_value. rewrite Ec. pose proof (f_equal d_off Ed) as P. cbn in P. now rewrite P. Qed.
  Lemma E_both f f' : decl_of f = decl_of f' -> f_E f = f_E f'.
  Proof.
    intros Ed. pose proof (f_equal d_q Ed) as P. pose proof (f_equal d_v Ed) as Q. cbn in P, Q.
    destruct (f_E f), (f_E f'). cbn in *. congruence.
  Qed.
  Lemma q_tf q n : (exists n x, g n = Some x) -> sg_tf d q n = sg_tf s q n.
  Proof.
    intros H. unfold sg_tf, fk_run, clean. destruct (csize_both H) as [-> ->]. rewrite D, D', same_frames. cbn [from bind].
    destruct (negb _); auto. apply loop_both. intros i f f' _ A1 A2.
    destruct (frame_at_both (Z.of_nat i)) as [(f1 & f1' & B1 & B2 & Ed & En & Ef & Ep & Ec)|[B1 B2]]; [|congruence].
    assert (f1 = f) by congruence. assert (f1' = f') by congruence. subst f1 f1'.
    unfold tf_rel. pose proof (f_equal d_type Ed) as T. pose proof (f_equal d_axis Ed) as Ax. cbn in T, Ax. rewrite <- T, <- Ax, <- (E_both _ _ Ed).
    destruct (f_type f); auto; rewrite (jv_both f f') by (auto; now apply Ec); reflexivity.
  Qed.
  Lemma at_find t z f : frame_at t z = Ok f -> exists n, mfind n (s_map t) = Some f.
  Proof.
    unfold frame_at. destruct (z <? 0); [discriminate|]. destruct (nth_error (s_frames t) (Z.to_nat z)) as [[n|]|]; try discriminate. cbn.
    destruct (mfind n (s_map t)) eqn:F; [|discriminate]. intros [= ->]. eauto.
  Qed.
  Lemma rep_both f f' z : synced (s_map s) -> synced (s_map d) -> frame_at s z = Ok f -> frame_at d z = Ok f' -> decl_of f = decl_of f' ->
    f_R f = f_R f' /\ f_S f = f_S f'.
  Proof.
    intros S1 S2 A1 A2 Ed. apply at_find in A1 as [n F]. apply at_find in A2 as [n' F'].
    destruct (S1 _ _ F) as [-> ->], (S2 _ _ F') as [-> ->]. now rewrite (E_both _ _ Ed).
  Qed.
  Lemma q_tfmat q n : (exists n x, g n = Some x) -> synced (s_map s) -> synced (s_map d) -> sg_tfmat d q n = sg_tfmat s q n.
  Proof.
    intros H S1 S2. unfold sg_tfmat, fk_run, clean. destruct (csize_both H) as [-> ->]. rewrite D, D', same_frames. cbn [from bind].
    destruct (negb _); auto. apply loop_both. intros i f f' _ A1 A2.
    destruct (frame_at_both (Z.of_nat i)) as [(f1 & f1' & B1 & B2 & Ed & En & Ef & Ep & Ec)|[B1 B2]]; [|congruence].
    assert (f1 = f) by congruence. assert (f1' = f') by congruence. subst f1 f1'.
    destruct (rep_both _ _ _ S1 S2 A1 A2 Ed) as [ER ES].
    unfold SgModel.tfmat_rel. pose proof (f_equal d_type Ed) as T. pose proof (f_equal d_axis Ed) as Ax. cbn in T, Ax. rewrite <- T, <- Ax, <- (E_both _ _ Ed), <- ER.
    destruct (f_type f); auto; rewrite (jv_both f f') by (auto; now apply Ec); reflexivity.
  Qed.
  Lemma q_duqu q n old : (exists n x, g n = Some x) -> synced (s_map s) -> synced (s_map d) -> sg_duqu d q n old = sg_duqu s q n old.
  Proof.
    intros H S1 S2. unfold sg_duqu, fk_run, clean. destruct (csize_both H) as [-> ->]. rewrite D, D', same_frames. cbn [from bind].
    destruct (negb _); auto. apply loop_both. intros i f f' _ A1 A2.
    destruct (frame_at_both (Z.of_nat i)) as [(f1 & f1' & B1 & B2 & Ed & En & Ef & Ep & Ec)|[B1 B2]]; [|congruence].
    assert (f1 = f) by congruence. assert (f1' = f') by congruence. subst f1 f1'.
    destruct (rep_both _ _ _ S1 S2 A1 A2 Ed) as [ER ES].
    unfold duqu_rel. pose proof (f_equal d_type Ed) as T. pose proof (f_equal d_axis Ed) as Ax. cbn in T, Ax. rewrite <- T, <- Ax, <- (E_both _ _ Ed), <- ES.
    destruct (f_type f); auto; rewrite (jv_both f f') by (auto; now apply Ec); reflexivity.
  Qed.
  Lemma q_map_geom : (forall n f f', mfind n (s_map s) = Some f -> mfind n (s_map d) = Some f' -> f_geoms f = f_geoms f') ->
    map_geom d = map_geom s.
  Proof.
    intros H. unfold map_geom, clean. rewrite D, D', same_frames. generalize (seq 0 (length (s_frames d))). induction l0 as [|i ids IH]; auto.
    cbn [map_geom_loop].
    destruct (frame_at_both (Z.of_nat i)) as [(f & f' & A1 & A2 & Ed & En & Ef & Ep & Ec)|[A1 A2]]; rewrite A1, A2; [cbn [bind]|reflexivity].
    apply at_find in A1 as [n F]. apply at_find in A2 as [n' F'].
    assert (n = n'). { rewrite <- (in_names _ _ _ I _ _ F), <- (in_names _ _ _ I' _ _ F'). exact En. }
    subst n'. rewrite <- (H _ _ _ F F'), <- Ef, IH. reflexivity.
  Qed.
End Same.

(** ** The copy *)
Definition add_of (f : frame) : op :=
  OAdd (f_type f) (f_parent f) (f_name f) (Some (TfModel.eq (f_E f))) (Some (ev (f_E f))) (Some (f_cfg f)) (f_off f) (f_axis f).
Lemma declare_add g f n : declare g (add_of f) n = if String.eqb n (f_name f) then Some (decl_of f) else g n.
Proof. reflexivity. Qed.

Section Copy.
  Variables (g : graph) (lim : lkind -> string -> option (R * R)) (s : sg) (l : list string).
  Hypothesis I : inv g lim s.
  Hypothesis X : indexed s l.
  Hypothesis D : s_dirty s = false.
  Hypothesis Nm : named g.

  (** frames *)
  Record fcopy (done : list string) (d : sg) : Prop := {
    fc_inv : inv (fun n => if existsb (String.eqb n) done then g n else None) (fun _ _ => None) d;
    fc_lmap : s_lmap d = [];
    fc_allowed : s_allowed d = [];
    fc_geoms : forall n f, mfind n (s_map d) = Some f -> f_geoms f = [];
    fc_dirty : done = [] \/ s_dirty d = true;
    fc_synced : synced (s_map d) }.
  Lemma copy_frames_ok k : forall done d, (length done + k = length l)%nat -> done = firstn (length done) l -> fcopy done d ->
    exists d', copy_frames s (seq (length done) k) d = Ok d' /\ fcopy l d'.
  Proof.
    induction k as [|k IH]; intros done d L E F.
    - exists d. split; auto. rewrite firstn_all2 in E by lia. now rewrite <- E.
    - cbn [seq copy_frames]. unfold copy_frame.
      destruct (nth_error l (length done)) as [n|] eqn:J; [|apply nth_error_None in J; lia].
      destruct (frame_at_ok _ _ _ I _ X _ _ J) as (f & Ff & -> & Nf). cbn [bind].
      set (d1 := with_next (with_map d (mset (f_name f) (new_frame (f_type f) (f_parent f) (f_name f) (TfModel.eq (f_E f)) (ev (f_E f)) (Some (f_cfg f)) (f_off f) (f_axis f) (s_next d)) (s_map d)) true) (S (s_next d))).
      change (exists d', copy_frames s (seq (S (length done)) k) d1 = Ok d' /\ fcopy l d').
      assert (E1 : step d (add_of f) = Ok (0, d1)) by reflexivity.
      assert (Ed : done ++ [n] = firstn (length (done ++ [n])) l).
      { rewrite app_length. cbn. rewrite (SgQueryProofs.nth_split _ _ _ _ J) at 1. rewrite firstn_app, firstn_length.
        replace (Nat.min (length done) (length l)) with (length done) by lia.
        replace (length done + 1 - length done)%nat with 1%nat by lia. cbn. rewrite firstn_firstn.
        replace (Nat.min (length done + 1) (length done)) with (length done) by lia. now rewrite <- E. }
      destruct F as [F1 F2 F3 F4 F5 F6].
      assert (F' : fcopy (done ++ [n]) d1).
      { constructor.
        - eapply inv_ext; [| |eapply step_inv; [exact F1|exact E1]].
          + intros m. rewrite declare_add, Nf, existsb_app. cbn. rewrite orb_false_r.
            destruct (String.eqb_spec m n) as [->|]; [|now rewrite orb_false_r].
            rewrite orb_true_r. symmetry. now apply (find_decl _ _ _ I).
          + reflexivity.
        - exact F2. - exact F3.
        - intros m f' Fm. cbn in Fm. rewrite mfind_mset in Fm. destruct (String.eqb m (f_name f)); [|eauto].
          apply some_inj in Fm. now subst f'.
        - now right.
        - cbn. apply synced_mset; auto. }
      destruct (IH (done ++ [n]) d1) as (d' & Ec & Fc); auto; [rewrite app_length; cbn; lia|].
      rewrite app_length, Nat.add_1_r in Ec. eauto.
  Qed.
  Lemma fcopy_create : fcopy [] sg_create.
  Proof. constructor; auto; try discriminate; try apply inv_create; intros ? ? [=]. Qed.

  (** limits *)
  Lemma fold_mset (m : smap (option limits)) : sorted m -> forall k, mfind k (fold_left (fun m p => mset (fst p) (snd p) m) m []) = mfind k m.
  Proof.
    intros Sm. assert (G : forall acc k, mfind k (fold_left (fun m p => mset (fst p) (snd p) m) m acc) = match mfind k m with Some x => Some x | None => mfind k acc end).
    { assert (Nd : NoDup (keys m)) by now apply sorted_nodup. clear Sm. induction m as [|[k0 v] r IH]; intros acc k; auto.
      cbn [fold_left fst snd]. inversion Nd as [|? ? N1 N2]; subst. rewrite IH by auto. cbn [mfind].
      rewrite mfind_mset. destruct (String.eqb_spec k k0) as [->|].
      - assert (mfind k0 r = None) as ->; auto. destruct (mfind k0 r) eqn:E; auto. exfalso. apply N1. apply mfind_keys. congruence.
      - reflexivity. }
    intros k. rewrite G. now destruct (mfind k m).
  Qed.
  Lemma fold_mset_sorted (m acc : smap (option limits)) : sorted acc -> sorted (fold_left (fun m p => mset (fst p) (snd p) m) m acc).
  Proof. revert acc. induction m as [|p r IH]; intros acc H; cbn; auto. apply IH. now apply sorted_mset. Qed.

  (** geometry *)
  Definition gcopied (done : list string) (d : sg) : Prop :=
    forall n f f', mfind n (s_map s) = Some f -> mfind n (s_map d) = Some f' ->
      f_geoms f' = if existsb (String.eqb n) done then f_geoms f else [].
  Lemma geom_list_ok n gs : forall d f', inv g lim d -> s_dirty d = true -> synced (s_map d) -> mfind n (s_map d) = Some f' ->
    exists d', copy_geom_list d n gs = Ok d' /\ inv g lim d' /\ s_dirty d' = true /\ synced (s_map d') /\ s_allowed d' = s_allowed d /\
      s_lmap d' = s_lmap d /\
      (exists f2, mfind n (s_map d') = Some f2 /\ f_geoms f2 = f_geoms f' ++ gs) /\
      (forall m, m <> n -> mfind m (s_map d') = mfind m (s_map d)).
  Proof.
    induction gs as [|x r IH]; intros d f' Id Dd Sy F.
    - exists d. rewrite app_nil_r. do 6 (split; [auto|]). split; [eauto|auto].
    - cbn [copy_geom_list].
      set (d1 := with_map d (mset n (set_geoms f' (f_geoms f' ++ [x])) (s_map d)) (s_dirty d)).
      assert (E1 : sg_add_geom d n x = Ok d1) by (unfold sg_add_geom; now rewrite F).
      rewrite E1. cbn [bind].
      assert (Es : step d (OGeom n x) = Ok (0, d1)) by (cbn [step]; now rewrite E1).
      assert (I1 : inv g lim d1) by exact (step_inv _ _ _ _ _ _ Id Es).
      assert (S1 : synced (s_map d1)).
      { eapply step_synced; [exact Id| |exact Es|exact Sy]. intros; discriminate. }
      destruct (IH d1 (set_geoms f' (f_geoms f' ++ [x])) I1) as (d' & E' & I' & Dd' & S' & Al & Lm & (f2 & F2 & G2) & O); auto.
      { cbn. now rewrite mfind_mset, String.eqb_refl. }
      exists d'. split; auto. split; auto. split; auto. split; auto. split; [exact Al|]. split; [exact Lm|]. split.
      + exists f2. split; auto. rewrite G2. cbn. now rewrite <- app_assoc.
      + intros m Nm'. rewrite O by auto. cbn. now rewrite mfind_mset_other.
  Qed.
  Lemma copy_geoms_ok k : forall done d, (length done + k = length l)%nat -> done = firstn (length done) l ->
    inv g lim d -> s_dirty d = true -> synced (s_map d) -> gcopied done d ->
    exists d', copy_geoms s (seq (length done) k) d = Ok d' /\ inv g lim d' /\ s_dirty d' = true /\ synced (s_map d') /\
      s_allowed d' = s_allowed d /\ s_lmap d' = s_lmap d /\ gcopied l d'.
  Proof.
    induction k as [|k IH]; intros done d L E Id Dd Sy G.
    - exists d. rewrite firstn_all2 in E by lia. rewrite <- E. do 6 (split; [auto|]). auto.
    - cbn [seq copy_geoms].
      destruct (nth_error l (length done)) as [n|] eqn:J; [|apply nth_error_None in J; lia].
      destruct (frame_at_ok _ _ _ I _ X _ _ J) as (f & Ff & -> & Nf). cbn [bind].
      rewrite (frame_name_ok _ _ _ I _ X D _ _ J). cbn [bind].
      destruct (find_both _ _ _ _ _ I Id _ _ Ff) as (f' & F' & _).
      destruct (geom_list_ok n (f_geoms f) d f' Id Dd Sy F') as (d1 & -> & I1 & D1 & S1 & A1 & L1 & (f2 & F2 & G2) & O). cbn [bind].
      assert (Nn : ~ In n done).
      { rewrite E. intros Hin. apply In_nth_error in Hin as [i Hi].
        assert (Hl : (i < length done)%nat). { rewrite E at 1. apply nth_error_Some. congruence. }
        assert (Hi' : nth_error l i = Some n).
        { rewrite <- (firstn_skipn (length done) l), nth_error_app1; auto. apply nth_error_Some. congruence. }
        assert (i = length done); [|lia]. eapply (proj1 (NoDup_nth_error l) (proj1 (id_list _ _ X))); [apply nth_error_Some|]; congruence. }
      assert (Ed : done ++ [n] = firstn (length (done ++ [n])) l).
      { rewrite app_length. cbn. rewrite (SgQueryProofs.nth_split _ _ _ _ J) at 1. rewrite firstn_app, firstn_length.
        replace (Nat.min (length done) (length l)) with (length done) by lia.
        replace (length done + 1 - length done)%nat with 1%nat by lia. cbn. rewrite firstn_firstn.
        replace (Nat.min (length done + 1) (length done)) with (length done) by lia. now rewrite <- E. }
      destruct (IH (done ++ [n]) d1) as (d' & Ec & I2 & D2 & S2 & A2 & L2 & Gl); auto.
      + rewrite app_length; cbn; lia.
      + intros m fm fm' M M'. rewrite existsb_app. cbn. rewrite orb_false_r. destruct (String.eqb_spec m n) as [->|Ne].
        * rewrite orb_true_r. assert (fm = f) by congruence. assert (fm' = f2) by congruence. subst. rewrite G2.
          rewrite (G _ _ _ Ff F'). apply existsb_nin in Nn. now rewrite Nn.
        * rewrite orb_false_r. rewrite O in M' by auto. exact (G _ _ _ M M').
      + rewrite app_length, Nat.add_1_r in Ec. exists d'. do 4 (split; [auto|]). split; [congruence|]. split; [congruence|auto].
  Qed.

  (** allowed pairs *)
  Lemma copy_allowed_ok A : al_inv A s -> forall prs d B, inv g lim d -> s_dirty d = true -> synced (s_map d) -> al_inv B d ->
    (forall a b, In (a, b) prs -> exists n m, stored s a b (fst (ordp n m)) (snd (ordp n m)) /\ A n m = true) ->
    exists d' B', copy_allowed s prs d = Ok d' /\ inv g lim d' /\ s_dirty d' = true /\ synced (s_map d') /\ s_lmap d' = s_lmap d /\ al_inv B' d' /\
      (forall n, mfind n (s_map d') = mfind n (s_map d)) /\
      forall n m, B' n m = true <-> B n m = true \/ exists a b, In (a, b) prs /\ stored s a b (fst (ordp n m)) (snd (ordp n m)).
  Proof.
    intros Al. induction prs as [|[a b] r IH]; intros d B Id Dd Sy Bl H.
    - exists d, B. do 7 (split; [auto|]). intros n m. split; [auto|]. intros [|(a & b & [] & _)]; auto.
    - cbn [copy_allowed]. destruct (H a b (or_introl eq_refl)) as (n & m & S1 & An).
      destruct S1 as (f0 & f1 & F0 & F1 & <- & <-).
      rewrite (name_at_ok _ _ _ _ _ I F0), (name_at_ok _ _ _ _ _ I F1). cbn [bind].
      destruct (find_both _ _ _ _ _ I Id _ _ F0) as (f0' & F0' & _). destruct (find_both _ _ _ _ _ I Id _ _ F1) as (f1' & F1' & _).
      assert (exists d1, sg_allow d (fst (ordp n m)) (snd (ordp n m)) true = Ok d1 /\ s_map d1 = s_map d /\ s_dirty d1 = s_dirty d /\ s_lmap d1 = s_lmap d)
        as (d1 & E1 & M1 & D1 & L1).
      { unfold sg_allow. rewrite F0', F1'. cbn. eauto. }
      rewrite E1. cbn [bind].
      assert (Es : step d (OAllow (fst (ordp n m)) (snd (ordp n m)) true) = Ok (0, d1)) by (cbn [step]; now rewrite E1).
      destruct (IH d1 (allow_step B (OAllow (fst (ordp n m)) (snd (ordp n m)) true))) as (d' & B' & E' & I' & Dd' & Sy' & L' & Bl' & Mp & HB).
      + exact (step_inv _ _ _ _ _ _ Id Es).
      + congruence. + now rewrite M1. + eapply al_allow; eauto. + intros; apply H; now right.
      + exists d', B'. split; auto. split; auto. split; auto. split; auto. split; [congruence|]. split; auto. split.
        { intros k. now rewrite Mp, M1. }
        intros n' m'. rewrite HB. cbn [allow_step].
        assert (Pe : pair_eq (fst (ordp n m)) (snd (ordp n m)) n' m' = true <-> ordp n m = ordp n' m').
        { assert (Eo : ordp (fst (ordp n m)) (snd (ordp n m)) = ordp n m).
          { destruct (ordp_cases n m) as [E|E]; rewrite E; cbn; rewrite <- E; auto. apply ordp_sym. }
          rewrite pair_eq_ord, Eo. reflexivity. }
        split.
        * intros [Hb|(a & b & Hin & S1)].
          -- destruct (pair_eq _ _ _ _) eqn:P; [|auto]. right. exists (f_addr f0), (f_addr f1). split; [now left|].
             pose proof (proj1 Pe eq_refl) as P'. rewrite <- P'. exists f0, f1. auto.
          -- right. exists a, b. split; [now right|auto].
        * intros [Hb|(a & b & [[= <- <-]|Hin] & S1)].
          -- left. destruct (pair_eq _ _ _ _); auto.
          -- left. assert (ordp n m = ordp n' m') as Eo.
             { destruct (stored_fun _ _ _ _ _ _ _ _ _ I S1 (ex_intro _ f0 (ex_intro _ f1 (conj F0 (conj F1 (conj eq_refl eq_refl)))))) as [A1 A2].
               destruct (ordp n m), (ordp n' m'). cbn in *. congruence. }
             apply Pe in Eo. now rewrite Eo.
          -- right. eauto.
  Qed.
End Copy.

Lemma copy_ok g lim s l A : inv g lim s -> indexed s l -> s_dirty s = false -> named g -> (exists n x, g n = Some x) -> al_inv A s ->
  exists d l', sg_copy s = Ok d /\ inv g lim d /\ indexed d l' /\ s_dirty d = false /\ synced (s_map d) /\
    s_limits d = map (fun c => lptr c (s_lmap d)) (s_crmap d) /\
    (forall n f f', mfind n (s_map s) = Some f -> mfind n (s_map d) = Some f' -> f_geoms f = f_geoms f') /\
    exists B, al_inv B d /\ forall n m, B n m = A n m.
Proof.
  intros I X D Nm Ne Al. unfold sg_copy, clean. rewrite D.
  rewrite (frames_l _ _ _ I _ X Nm), map_length.
  destruct (copy_frames_ok _ _ _ _ I X (length l) [] sg_create eq_refl eq_refl (fcopy_create g)) as (d1 & E1 & [F1 F2 F3 F4 F5 F6]).
  cbn [length] in E1. rewrite E1. cbn [bind].
  assert (Il : forall n, In n l <-> g n <> None).
  { intros n. rewrite (in_l _ _ _ I _ X). split.
    - intros [_ [x G]]. congruence.
    - intros G. destruct (g n) as [x|] eqn:E; [|congruence]. split; eauto. intros ->. unfold named in Nm. congruence. }
  assert (Ll : l <> []).
  { destruct Ne as (n & x & G). assert (In n l) by (apply Il; congruence). intros ->. auto. }
  destruct F5 as [|D1]; [congruence|].
  set (d2 := copy_limits s d1).
  assert (I2 : inv g lim d2).
  { destruct F1 as [A1 A2 A3 A4 A5 A6 A7 A8]. unfold d2, copy_limits. rewrite F2. constructor; auto.
    - intros n. cbn. rewrite <- A3. destruct (existsb (String.eqb n) l) eqn:E; auto. apply existsb_nin in E. rewrite Il in E.
      destruct (g n); auto. exfalso. apply E. discriminate.
    - cbn. apply fold_mset_sorted. constructor.
    - intros k c. cbn. unfold lim_of. rewrite fold_mset by apply I. apply (in_lim _ _ _ I).
    - cbn. intros H. congruence. }
  destruct (copy_geoms_ok _ _ _ _ I X D (length l) [] d2 eq_refl eq_refl I2 D1 F6) as (d3 & E3 & I3 & D3 & S3 & A3 & L3 & G3).
  { intros n f f' F F'. cbn. exact (F4 _ _ F'). }
  cbn [length] in E3. rewrite E3. cbn [bind].
  assert (Al3 : al_inv (fun _ _ => false) d3).
  { constructor; auto; try discriminate. rewrite A3. intros a b Hin. change (In (a, b) (s_allowed d1)) in Hin. rewrite F3 in Hin. destruct Hin. }
  destruct (copy_allowed_ok _ _ _ I A Al (s_allowed s) d3 _ I3 D3 S3 Al3) as (d4 & B & E4 & I4 & D4 & S4 & L4 & B4 & M4 & HB).
  { exact (al_all _ _ Al). }
  rewrite E4. cbn [bind].
  assert (No : ~ orphan g) by (apply (closed_orphan _ _ _ I); apply (id_closed _ _ X)).
  assert (Ns : ~ self_parent g).
  { intros Sp. destruct (proj2 (self_list _ _ _ I l (id_list _ _ X)) Sp) as (n & f & J & F & P). eapply (id_self _ _ X); eauto. }
  destruct (init_success _ _ _ I4 No Ns) as (d & Ed & Dd).
  rewrite Ed. cbn [bind].
  assert (Es : step d4 OInit = Ok (0, d)) by exact Ed.
  pose proof (step_inv _ _ _ _ _ _ I4 Es) as Id. cbn [declare limit_step] in Id.
  destruct (init_ok _ _ _ I4 D4) as [[_ E5]|[_ (l2 & _ & _ & [[_ E5]|[_ (d5 & E5 & D5 & X5 & _ & Lm & Sm & Co & Lj & _ & Ea & _)]])]];
    rewrite Ed in E5; try discriminate. injection E5 as <-.
  exists d, l2. split; auto. split; auto. split; auto. split; auto. split; [|split; [|split]].
  - eapply synced_core; eauto.
  - rewrite Lm. apply map_ext. intros c. now rewrite !lptr_join, Lj.
  - intros n f f' F F'. specialize (Co n). rewrite F', M4 in Co. destruct (mfind n (s_map d3)) as [f3|] eqn:F3'; [|discriminate].
    apply some_inj in Co. apply core_eq in Co as (_&_&_&_&_&_&_&_&_&_& Eg & _). rewrite Eg, (G3 _ _ _ F F3').
    assert (In n l) as Hin. { apply Il. rewrite (find_decl _ _ _ I _ _ F). discriminate. }
    apply existsb_in in Hin. now rewrite Hin.
  - exists B. split.
    + apply (al_keep _ _ _ B4); auto. intros n m f An F. specialize (Co n). rewrite F in Co.
      destruct (mfind n (s_map d)) as [f'|]; [|discriminate]. exists f'. split; auto. apply some_inj in Co. now apply core_eq in Co.
    + intros n m. destruct (B n m) eqn:Bn; symmetry.
      * apply HB in Bn as [|(a & b & Hin & S1)]; [discriminate|]. destruct (al_all _ _ Al _ _ Hin) as (n' & m' & S2 & An).
        destruct (stored_fun _ _ _ _ _ _ _ _ _ I S1 S2) as [Q1 Q2].
        assert (ordp n m = ordp n' m') as Q by (destruct (ordp n m), (ordp n' m'); cbn in *; congruence).
        apply ordp_inj in Q as [[-> ->]|[-> ->]]; auto. now rewrite (al_sym _ _ Al).
      * destruct (A n m) eqn:An; auto. destruct (al_live _ _ Al _ _ An) as (a & b & S1 & Hin).
        assert (B n m = true) by (apply HB; right; eauto). congruence.
Qed.

Lemma c55 h s : ready h s -> named (declared h) -> (exists n x, declared h n = Some x) -> kept h ->
  exists d, sg_copy s = Ok d /\ s_dirty d = false /\
    frame_count d = frame_count s /\ config_count d = config_count s /\
    (forall n, frame_id d n = frame_id s n) /\
    (forall i, frame_name d i = frame_name s i /\ frame_type d i = frame_type s i /\ frame_parent d i = frame_parent s i /\
               frame_config d i = frame_config s i /\ frame_axis d i = frame_axis s i) /\
    (forall c, config_id d c = config_id s c) /\ (forall i, config_name d i = config_name s i) /\
    (forall q n, sg_tf d q n = sg_tf s q n) /\
    (no_reparent h -> forall q n, sg_tfmat d q n = sg_tfmat s q n /\ forall old, sg_duqu d q n old = sg_duqu s q n old) /\
    (forall k c i, config_id s c = Ok i -> i <> CONFIG_NONE -> sg_get_limit d k i = Ok (limit_of h k c)) /\
    map_geom d = map_geom s /\
    exists k c, cl_init (mkCS d (Some true) []) = Ok k /\ cl_allowed k = Ok c /\
      forall i j ni nj, frame_no s ni i -> frame_no s nj j -> cl_get c (Z.of_nat i) (Z.of_nat j) = Ok (allowed_of h ni nj).
Proof.
  intros Rd Nm Ne K. destruct (ready_inv _ _ Rd) as [I [l X]]. destruct Rd as [Er D].
  pose proof (run_al _ _ Er K) as Al.
  destruct (copy_ok _ _ _ _ _ I X D Nm Ne Al) as (d & l' & E & Id & Xd & Dd & Sy & Lm & Ge & B & Bl & HB).
  exists d. split; auto. split; auto.
  split; [eapply q_frame_count; eauto|]. split; [eapply q_config_count; eauto|].
  split; [intros; eapply q_frame_id; eauto|].
  split. { intros i. split; [eapply q_frame_name; eauto|]. split; [eapply q_frame_type; eauto|].
    split; [eapply q_frame_parent; eauto|]. split; [eapply q_frame_config; eauto|eapply q_frame_axis; eauto]. }
  split; [intros; eapply q_config_id; eauto|]. split; [intros; eapply q_config_name; eauto|].
  split; [intros; eapply q_tf; eauto|].
  split. { intros Nr q n. assert (Ss : synced (s_map s)).
    { eapply run_synced; [apply inv_create|exact Nr|exact Er|]. intros m f F. discriminate. }
    split; [eapply q_tfmat; eauto|intros; eapply q_duqu; eauto]. }
  split. { intros k c i Ci Ni. assert (exists j, i = Z.of_nat j) as [j ->].
    { unfold config_id, clean in Ci. rewrite D in Ci. destruct (mfind c (s_cmap s)); injection Ci as <-; eauto. congruence. }
    pose proof (config_id_inv _ _ _ _ X Ci) as Ec. rewrite (same_crmap _ _ _ _ _ _ _ I Id X Xd) in Ec.
    unfold sg_get_limit. destruct (Z.ltb_spec (Z.of_nat j) 0); [lia|]. rewrite Nat2Z.id, Lm, nth_error_map, Ec. cbn [option_map from bind].
    rewrite lptr_join, (in_lim _ _ _ Id). unfold lim_of. destruct (mfind c (s_lmap d)) as [[x|]|] eqn:Em; cbn [ojoin]; rewrite ?Em; reflexivity. }
  split; [eapply q_map_geom; eauto|].
  destruct (allowed_get _ _ _ _ _ Id Xd Nm Dd Bl) as (k & c & E1 & E2 & G). exists k, c. split; auto. split; auto.
  intros i j ni nj Hi Hj. rewrite <- HB. apply G; rewrite <- (same_list _ _ _ _ _ _ _ I Id X Xd); eapply (frame_no_nth _ _ s); eauto.
Qed.
