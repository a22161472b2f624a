(** Consequences of the invariants for queries: frame and configuration numbering, cycles, limits. *)
From Coq Require Import ZArith String List Bool Reals Lia Sorted.
From Verif Require Import TfModel SgModel SgSpec SgMapProofs SgIndexProofs SgNumberProofs SgInvProofs.
Import ListNotations.
Open Scope Z_scope.

Lemma ready_inv h s : ready h s -> inv (declared h) (limit_of h) s /\ exists l, indexed s l.
Proof. intros [E D]. apply run_created in E. split; auto. now apply (in_idx _ _ _ E). Qed.
Lemma run_app h1 h2 s : run s (h1 ++ h2) = bind (run s h1) (fun s' => run s' h2).
Proof.
  revert s. induction h1 as [|o r IH]; intros s; cbn; auto.
  destruct (step s o) as [[c s1]| | |]; cbn; auto.
Qed.

Section Q.
  Variables (g : graph) (lim : lkind -> string -> option (R * R)) (s : sg).
  Hypothesis I : inv g lim s.

  Lemma decl_find n d : g n = Some d -> exists f, mfind n (s_map s) = Some f /\ d = decl_of f.
  Proof.
    intros G. rewrite (in_decl _ _ _ I) in G. destruct (mfind n (s_map s)) as [f|]; [|discriminate].
    apply some_inj in G. eauto.
  Qed.
  Lemma find_decl n f : mfind n (s_map s) = Some f -> g n = Some (decl_of f).
  Proof. intros F. now rewrite (in_decl _ _ _ I), F. Qed.
  Lemma decl_none n : g n = None <-> mfind n (s_map s) = None.
  Proof. rewrite (in_decl _ _ _ I). now destruct (mfind n (s_map s)). Qed.

  Lemma rooted_depth n : rooted g n -> exists d, depth (s_map s) n d.
  Proof.
    induction 1 as [n d G P|n d G P R [k IH]]; destruct (decl_find _ _ G) as (f & F & ->).
    - exists O. econstructor; eauto.
    - exists (S k). econstructor; eauto.
  Qed.
  Lemma forest_depth : forest g -> forall n f, mfind n (s_map s) = Some f -> exists d, depth (s_map s) n d.
  Proof. intros [_ H] n f F. apply rooted_depth. eapply H, find_decl, F. Qed.
  Lemma closed_orphan : closed (s_map s) <-> ~ orphan g.
  Proof.
    split.
    - intros C (n & d & G & P & N). destruct (decl_find _ _ G) as (f & F & ->). cbn in P, N.
      destruct (C _ _ F) as [|X]; [congruence|]. apply decl_none in N. congruence.
    - intros O n f F. destruct (String.string_dec (f_parent f) "") as [|P]; auto. right. intros N.
      apply O. exists n, (decl_of f). repeat split; auto.
      + now apply find_decl.
      + now apply decl_none.
  Qed.
  Lemma forest_not_orphan : forest g -> ~ orphan g.
  Proof.
    intros [_ F] (n & d & G & P & N). pose proof (F _ _ G) as X. inversion X; subst; try congruence.
    assert (d0 = d) by congruence. subst. inversion H1; congruence.
  Qed.
  Lemma forest_no_self : forest g -> ~ self_parent g.
  Proof.
    intros Fo (n & d & Ne & G & P). destruct (decl_find _ _ G) as (f & F & ->).
    destruct (forest_depth Fo _ _ F) as [k D]. revert k D.
    intros k. induction k as [k IH] using lt_wf_ind. intros D.
    cbn in P. inversion D as [n0 f0 F0 P0 E1 E2|n0 f0 k0 F0 P0 D0 E1 E2].
    - assert (f0 = f) by congruence. congruence.
    - assert (f0 = f) by congruence. subst f0. rewrite P in D0. apply (IH k0); [lia|auto].
  Qed.

  Lemma init_orphan : orphan g -> sg_init s = Ok (INVALID_FRAME, s).
  Proof.
    intros O. destruct (s_dirty s) eqn:D.
    - destruct (init_ok _ _ _ I D) as [[_ E]|[C _]]; auto. now apply closed_orphan in C.
    - exfalso. destruct (in_idx _ _ _ I D) as [l X]. apply (proj1 closed_orphan); auto. apply (id_closed _ _ X).
  Qed.
  Lemma self_list l : sorted_list (s_map s) l -> (self_in (s_map s) l <-> self_parent g).
  Proof.
    intros [_ H]. split.
    - intros (n & f & J & F & P). exists n, (decl_of f). apply H in J as [Ne _]. repeat split; auto. now apply find_decl.
    - intros (n & d & Ne & G & P). destruct (decl_find _ _ G) as (f & F & ->). exists n, f.
      repeat split; auto. apply H. split; auto. congruence.
  Qed.
  Lemma init_self : ~ orphan g -> self_parent g -> sg_init s = Abort.
  Proof.
    intros O Sp. destruct (s_dirty s) eqn:D.
    - destruct (init_ok _ _ _ I D) as [[C _]|[_ (l & _ & Sl & [[_ E]|[N _]])]]; auto.
      + exfalso. apply C. now apply closed_orphan.
      + exfalso. destruct (proj2 (self_list l Sl) Sp) as (n & f & J & F & P). eapply N; eauto.
    - exfalso. destruct (in_idx _ _ _ I D) as [l X].
      destruct (proj2 (self_list l (id_list _ _ X)) Sp) as (n & f & J & F & P). eapply (id_self _ _ X); eauto.
  Qed.
  Lemma init_success : ~ orphan g -> ~ self_parent g ->
    exists s', sg_init s = Ok (0, s') /\ s_dirty s' = false.
  Proof.
    intros O Sp. destruct (s_dirty s) eqn:D.
    - destruct (init_ok _ _ _ I D) as [[C _]|[_ (l & _ & Sl & [[F _]|[N (s' & E & D' & _)]])]].
      + exfalso. apply C. now apply closed_orphan.
      + exfalso. apply Sp. eapply self_list; eauto.
      + eauto.
    - exists s. unfold sg_init. now rewrite D.
  Qed.

  (** *** Clean graphs *)
  Variable l : list string.
  Hypothesis X : indexed s l.
  Hypothesis D : s_dirty s = false.

  Lemma in_l n : In n l <-> n <> ""%string /\ exists d, g n = Some d.
  Proof.
    rewrite (proj2 (id_list _ _ X)). split; intros [A B]; split; auto.
    - destruct (mfind n (s_map s)) as [f|] eqn:F; [|congruence]. exists (decl_of f). now apply find_decl.
    - destruct B as [d B]. destruct (decl_find _ _ B) as (f & F & _). congruence.
  Qed.
  Lemma len_l : named g -> length l = length (s_map s).
  Proof.
    intros N. apply decl_none in N.
    assert (NoDup (keys (s_map s))) as ND by (apply sorted_nodup, I).
    assert (P : forall n, In n l <-> In n (keys (s_map s))).
    { intros n. rewrite (proj2 (id_list _ _ X)), mfind_keys. split; [tauto|]. intros A. split; auto. intros ->. now apply A. }
    transitivity (length (keys (s_map s))); [|apply map_length].
    apply Nat.le_antisymm; apply NoDup_incl_length; auto; try apply (id_list _ _ X); intros n; apply P.
  Qed.
  Lemma frames_l : named g -> s_frames s = map Some l.
  Proof. intros N. rewrite (id_frames _ _ X), (len_l N), Nat.sub_diag. cbn. apply app_nil_r. Qed.
  Lemma count_ge : Z.of_nat (length l) <= frame_count s.
  Proof. unfold frame_count. rewrite (id_frames _ _ X), app_length, map_length. lia. Qed.
  Lemma count_eq : named g -> frame_count s = Z.of_nat (length l).
  Proof. intros N. unfold frame_count. rewrite (frames_l N). now rewrite map_length. Qed.
  Lemma frame_at_ok j n : nth_error l j = Some n ->
    exists f, mfind n (s_map s) = Some f /\ frame_at s (Z.of_nat j) = Ok f /\ f_name f = n.
  Proof.
    intros J. assert (In n l) as K by (eapply nth_error_In; eauto). apply (proj2 (id_list _ _ X)) in K as [_ K].
    destruct (mfind n (s_map s)) as [f|] eqn:F; [|congruence]. exists f. split; auto. split.
    - unfold frame_at. replace (Z.of_nat j <? 0) with false by (symmetry; apply Z.ltb_ge; lia).
      rewrite Nat2Z.id, (id_frames _ _ X), nth_error_app1 by (rewrite map_length; apply nth_error_Some; congruence).
      rewrite nth_error_map, J. cbn. now rewrite F.
    - eapply (in_names _ _ _ I); eauto.
  Qed.
  Lemma frame_id_ok j n : nth_error l j = Some n -> frame_id s n = Ok (Z.of_nat j).
  Proof.
    intros J. destruct (frame_at_ok _ _ J) as (f & F & _ & _). unfold frame_id.
    assert (n <> ""%string). { assert (In n l) as K by (eapply nth_error_In; eauto). now apply (proj2 (id_list _ _ X)) in K. }
    destruct (String.eqb_spec n ""); [congruence|]. rewrite F.
    now destruct (id_done _ _ X _ _ _ J F) as (-> & _).
  Qed.
  Lemma frame_name_ok j n : nth_error l j = Some n -> frame_name s (Z.of_nat j) = Ok n.
  Proof.
    intros J. destruct (frame_at_ok _ _ J) as (f & F & A & Nm). unfold frame_name, clean. rewrite D.
    assert (j < length l)%nat by (apply nth_error_Some; congruence). pose proof count_ge.
    unfold FRAME_ROOT, FRAME_NONE.
    destruct (Z.eqb_spec (Z.of_nat j) (-1)); [lia|]. destruct (Z.eqb_spec (Z.of_nat j) (-2)); [lia|].
    destruct (Z.leb_spec (frame_count s) (Z.of_nat j)); [lia|]. destruct (Z.ltb_spec (Z.of_nat j) 0); [lia|].
    cbn [orb]. now rewrite A, <- Nm.
  Qed.
  Lemma nth_of_decl n d : n <> ""%string -> g n = Some d ->
    exists j f, nth_error l j = Some n /\ mfind n (s_map s) = Some f /\ d = decl_of f.
  Proof.
    intros Ne G. assert (In n l) as J by (apply in_l; eauto). apply In_nth_error in J as [j J].
    destruct (decl_find _ _ G) as (f & F & E). exists j, f. auto.
  Qed.
  Lemma frame_type_ok j n f : nth_error l j = Some n -> mfind n (s_map s) = Some f ->
    frame_type s (Z.of_nat j) = Ok (f_type f).
  Proof.
    intros J F. destruct (frame_at_ok _ _ J) as (f' & F' & A & _). rewrite F in F'. apply some_inj in F'. subst f'.
    unfold frame_type, clean. now rewrite D, A.
  Qed.
  Lemma frame_parent_ok j n f : nth_error l j = Some n -> mfind n (s_map s) = Some f ->
    frame_parent s (Z.of_nat j) = Ok (pid_of l j f).
  Proof.
    intros J F. destruct (frame_at_ok _ _ J) as (f' & F' & A & _). rewrite F in F'. apply some_inj in F'. subst f'.
    unfold frame_parent, clean. rewrite D. unfold FRAME_ROOT, FRAME_NONE.
    destruct (Z.eqb_spec (Z.of_nat j) (-2)); [lia|]. destruct (Z.eqb_spec (Z.of_nat j) (-1)); [lia|].
    cbn [orb]. rewrite A. cbn [bind]. now destruct (id_done _ _ X _ _ _ J F) as (_ & -> & _).
  Qed.
  Lemma nth_split (A : Type) (j : nat) (x : A) (m : list A) : nth_error m j = Some x ->
    m = firstn j m ++ x :: skipn (S j) m.
  Proof.
    revert j. induction m as [|y r IH]; intros [|j] E; try discriminate; cbn in *.
    - now injection E as ->.
    - now rewrite <- IH.
  Qed.
  Lemma ordered_l : forest g -> ordered (s_map s) l.
  Proof.
    intros Fo. eapply sort_forest; try apply I; try apply (id_closed _ _ X); try apply (id_sort _ _ X).
    now apply forest_depth.
  Qed.
  Lemma in_firstn_index n j k : index_of n (firstn j l) = Some k ->
    nth_error l k = Some n /\ (k < j)%nat.
  Proof.
    intros E. pose proof (index_of_lt _ _ _ E) as Lt. rewrite firstn_length in Lt. apply index_of_nth in E.
    split; [|lia]. rewrite <- (firstn_skipn j l). rewrite nth_error_app1; auto. rewrite firstn_length. lia.
  Qed.
  Lemma parent_first : forest g -> forall j n f, nth_error l j = Some n -> mfind n (s_map s) = Some f ->
    f_parent f <> ""%string ->
    exists p, nth_error l p = Some (f_parent f) /\ (p < j)%nat /\ pid_of l j f = Z.of_nat p.
  Proof.
    intros Fo j n f J F P. pose proof (nth_split _ _ _ _ J) as E.
    destruct (ordered_l Fo _ _ _ f E F) as [|K]; [congruence|].
    apply index_of_in in K as [p K]. exists p. destruct (in_firstn_index _ _ _ K). repeat split; auto.
    unfold pid_of. destruct (String.eqb_spec (f_parent f) ""); [congruence|]. now rewrite K.
  Qed.

  (** *** Cycles *)
  Lemma good_or_bad :
    (forall j n f, nth_error l j = Some n -> mfind n (s_map s) = Some f ->
       f_parent f = ""%string \/ In (f_parent f) (firstn j l)) \/
    (exists j n f, nth_error l j = Some n /\ mfind n (s_map s) = Some f /\
       f_parent f <> ""%string /\ ~ In (f_parent f) (firstn j l)).
  Proof.
    assert (G : forall k, (k <= length l)%nat ->
      (forall j n f, (j < k)%nat -> nth_error l j = Some n -> mfind n (s_map s) = Some f ->
         f_parent f = ""%string \/ In (f_parent f) (firstn j l)) \/
      (exists j n f, nth_error l j = Some n /\ mfind n (s_map s) = Some f /\
         f_parent f <> ""%string /\ ~ In (f_parent f) (firstn j l))).
    { induction k as [|k IH]; intros Hk; [left; intros; lia|].
      destruct IH as [IH|IH]; [lia| |now right].
      destruct (nth_error l k) as [n|] eqn:J; [|apply nth_error_None in J; lia].
      destruct (frame_at_ok _ _ J) as (f & F & _).
      destruct (String.string_dec (f_parent f) "") as [P|P].
      - left. intros j n' f' Hj J' F'. destruct (Nat.eq_dec j k) as [->|]; [|apply (IH j n'); auto; lia].
        assert (n' = n) by congruence. subst. left. congruence.
      - destruct (in_dec String.string_dec (f_parent f) (firstn k l)) as [K|K].
        + left. intros j n' f' Hj J' F'. destruct (Nat.eq_dec j k) as [->|]; [|apply (IH j n'); auto; lia].
          assert (n' = n) by congruence. subst. right. congruence.
        + right. exists k, n, f. auto. }
    destruct (G (length l) (le_n _)) as [H|H]; auto. left. intros j n f J F. eapply H; eauto.
    apply nth_error_Some. congruence.
  Qed.
  Lemma good_rooted :
    (forall j n f, nth_error l j = Some n -> mfind n (s_map s) = Some f ->
       f_parent f = ""%string \/ In (f_parent f) (firstn j l)) ->
    forall j n, nth_error l j = Some n -> rooted g n.
  Proof.
    intros H j. induction j as [j IH] using lt_wf_ind. intros n J.
    destruct (frame_at_ok _ _ J) as (f & F & _). pose proof (find_decl _ _ F) as G.
    destruct (String.string_dec (f_parent f) "") as [P|P]; [eapply rooted_top; eauto|].
    destruct (H _ _ _ J F) as [|K]; [congruence|]. apply index_of_in in K as [p K].
    destruct (in_firstn_index _ _ _ K) as [Kp Lt].
    eapply rooted_child; eauto.
  Qed.
  Lemma above_depth a n : above g a n -> forall k, depth (s_map s) n k ->
    exists k', depth (s_map s) a k' /\ (k' < k)%nat.
  Proof.
    induction 1 as [n d G P Ne|n d G P A IH]; intros k Dk; destruct (decl_find _ _ G) as (f & F & Ed);
      assert (Ep : d_parent d = f_parent f) by (rewrite Ed; reflexivity).
    - inversion Dk as [n0 f0 F0 P0 E1 E2|n0 f0 k0 F0 P0 D0 E1 E2]; assert (f0 = f) by congruence; subst f0.
      + congruence.
      + exists k0. split; [|lia]. congruence.
    - inversion Dk as [n0 f0 F0 P0 E1 E2|n0 f0 k0 F0 P0 D0 E1 E2]; assert (f0 = f) by congruence; subst f0; [congruence|].
      destruct (IH k0) as (k' & A1 & A2); [congruence|]. exists k'. split; [auto|lia].
  Qed.
  Lemma above_named a n : above g a n -> named g -> n <> ""%string.
  Proof. intros A N. unfold named in N. destruct A; congruence. Qed.
  Lemma cyclic_bad : named g -> cyclic g ->
    exists j n f, nth_error l j = Some n /\ mfind n (s_map s) = Some f /\
       f_parent f <> ""%string /\ ~ In (f_parent f) (firstn j l).
  Proof.
    intros Nm [a A]. destruct good_or_bad as [H|H]; auto. exfalso.
    assert (G : exists d, g a = Some d) by (destruct A; eauto). destruct G as [d G].
    destruct (nth_of_decl a d (above_named _ _ A Nm) G) as (j & f & J & _).
    destruct (rooted_depth a (good_rooted H j a J)) as [k K].
    clear J G. revert K. induction k as [k IH] using lt_wf_ind. intros K.
    destruct (above_depth _ _ A _ K) as (k' & K' & Lt). eauto.
  Qed.
  Lemma bad_pid j f : f_parent f <> ""%string -> ~ In (f_parent f) (firstn j l) -> pid_of l j f = FRAME_NONE.
  Proof.
    intros P K. unfold pid_of. destruct (String.eqb_spec (f_parent f) ""); [congruence|].
    apply index_of_nin in K. now rewrite K.
  Qed.
End Q.
