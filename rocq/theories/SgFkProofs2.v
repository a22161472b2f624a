(** Forward kinematics: poses in space, incremental update, representations, relative poses. *)
From Coq Require Import ZArith String List Bool Reals Lia Lra.
From Verif Require Import TfModel TfSpec TfProofs TfRotmatProofs TfRepProofs TfCalcProofs TfConvProofs TfFrameProofs
  SgModel SgSpec SgMapProofs SgIndexProofs SgNumberProofs SgInvProofs SgQueryProofs SgClaims1 SgFkProofs.
Import ListNotations.
Open Scope Z_scope.

Lemma place_tf q v p : unitq q -> place q v p = qutr_tf (mkE q v) p.
Proof.
  intros U. rewrite qutr_tf_eq. cbn [ev TfModel.eq]. unfold place. rewrite <- qrot_sandwich by exact U.
  destruct (qrot q p). reflexivity.
Qed.
Lemma place_E E p : unit_qutr E -> place (TfModel.eq E) (ev E) p = qutr_tf E p.
Proof. intros U. rewrite place_tf by exact U. now destruct E. Qed.

Definition relq (q : list R) (f : frame) : QV := match tf_rel f q with Ok e => e | _ => ident_tf end.

Section Fk.
  Variables (g : graph) (lim : lkind -> string -> option (R * R)) (s : sg) (l : list string).
  Hypothesis I : inv g lim s.
  Hypothesis X : indexed s l.
  Hypothesis D : s_dirty s = false.
  Hypothesis Fo : forest g.
  Variable q : list R.
  Hypothesis Lq : (length (s_crmap s) <= length q)%nat.

  Lemma cidx_val j n f : nth_error l j = Some n -> mfind n (s_map s) = Some f -> is_joint (f_type f) = true ->
    exists c x, f_cidx f = Some c /\ nth_error q c = Some x /\ config_of s q (f_cfg f) = x /\
      nth_error (s_crmap s) c = Some (f_cfg f).
  Proof.
    intros J F T. destruct (id_done _ _ X _ _ _ J F) as (_ & _ & C). destruct (C T) as (c & Ic & Ec).
    pose proof (index_of_lt _ _ _ Ic) as Lt.
    destruct (nth_error q c) as [x|] eqn:N; [|apply nth_error_None in N; lia].
    exists c, x. repeat split; auto; [|now apply index_of_nth].
    unfold config_of. rewrite (config_id_ok s l _ c X D (index_of_nth _ _ _ Ic)).
    rewrite Nat2Z.id. now apply nth_error_nth.
  Qed.
  Lemma tf_rel_total j n f : nth_error l j = Some n -> mfind n (s_map s) = Some f -> tf_rel f q = Ok (relq q f).
  Proof.
    intros J F. unfold relq. unfold tf_rel, joint_value. destruct (f_type f) eqn:T; auto;
    destruct (cidx_val _ _ _ J F) as (c & x & -> & N & _); try (rewrite T; reflexivity);
    cbn [from bind]; rewrite N; reflexivity.
  Qed.
  Lemma rel_place j n f : nth_error l j = Some n -> mfind n (s_map s) = Some f -> proper_decl (decl_of f) ->
    unit_qutr (relq q f) /\
    forall p, place (TfModel.eq (relq q f)) (ev (relq q f)) p = rel_motion (decl_of f) (config_of s q) p.
  Proof.
    intros J F [U Ax]. cbn [decl_of d_q d_type d_axis] in U, Ax. unfold relq, tf_rel, joint_value, rel_motion.
    cbn [decl_of d_q d_v d_type d_axis d_cfg d_off].
    destruct (f_type f) eqn:T; cbn [joint_motion].
    - split; [exact U|]. reflexivity.
    - specialize (Ax eq_refl). destruct (cidx_val _ _ _ J F) as (c & x & -> & N & -> & _); [rewrite T; reflexivity|].
      cbn [from bind]. rewrite N. cbn [from bind ev TfModel.eq].
      destruct (axang_forms (f_axis f) (x + f_off f) zero3 Ax) as (_ & _ & _ & Ua & _).
      split; [now apply unitq_mul|]. intros p.
      destruct (axang_forms (f_axis f) (x + f_off f) p Ax) as (_ & _ & _ & _ & _ & Rr).
      rewrite !place_tf by (try exact U; now apply unitq_mul). rewrite !qutr_tf_eq. cbn [ev TfModel.eq].
      rewrite qrot_mul by assumption. now rewrite Rr.
    - destruct (cidx_val _ _ _ J F) as (c & x & -> & N & -> & _); [rewrite T; reflexivity|].
      cbn [from bind]. rewrite N. cbn [from bind].
      set (B := mkE (mkQ 0 0 0 1) (vscale (x + f_off f) (f_axis f))).
      assert (UB : unit_qutr B) by (unfold B; tfc; cbn; ring).
      assert (UA : unit_qutr (f_E f)) by exact U.
      split; [now apply qutr_mul_unit|]. intros p.
      rewrite place_E by (now apply qutr_mul_unit). rewrite qutr_mul_acts by assumption.
      rewrite place_tf by exact U. replace (mkE (TfModel.eq (f_E f)) (ev (f_E f))) with (f_E f) by now destruct (f_E f).
      f_equal. unfold B. rewrite qutr_tf_eq. cbn [ev TfModel.eq]. destruct p as [px py pz], (f_axis f) as [ax ay az].
      tfc. f_equal; ring.
  Qed.

  Lemma in_l_of n f : mfind n (s_map s) = Some f -> exists j, nth_error l j = Some n.
  Proof.
    intros F. apply In_nth_error. apply (proj2 (id_list _ _ X)). split; [|congruence].
    intros ->. destruct Fo as [Nm _]. apply (decl_none _ _ _ I) in Nm. congruence.
  Qed.
  Lemma pose_located : proper g -> forall n E, pose qutr_mul (s_map s) (relq q) n E ->
    unit_qutr E /\ forall p, located g (config_of s q) n p (place (TfModel.eq E) (ev E) p).
  Proof.
    intros Pr n E H. induction H as [n f F P|n f Ep F P H [UE IH]].
    - destruct (in_l_of n f F) as [j J]. pose proof (find_decl _ _ _ I _ _ F) as G.
      destruct (rel_place j n f J F (Pr _ _ G)) as [U M]. split; auto. intros p. rewrite M.
      apply loc_frame with (d := decl_of f); auto.
      + intros ->. destruct Fo as [Nm _]. unfold named in Nm. congruence.
      + cbn [decl_of d_parent]. rewrite P. constructor.
    - destruct (in_l_of n f F) as [j J]. pose proof (find_decl _ _ _ I _ _ F) as G.
      destruct (rel_place j n f J F (Pr _ _ G)) as [U M].
      split; [now apply qutr_mul_unit|]. intros p.
      rewrite place_E by (now apply qutr_mul_unit). rewrite qutr_mul_acts by assumption.
      rewrite <- !place_E by assumption. rewrite M.
      apply loc_frame with (d := decl_of f); auto.
      intros ->. destruct Fo as [Nm _]. unfold named in Nm. congruence.
  Qed.

  (** fk_set_rel, fk_all *)
  Lemma nth_set_at {A} (a : list A) i j x : nth_error (set_at a i x) j =
    if Nat.eqb i j then (if Nat.ltb i (length a) then Some x else None) else nth_error a j.
  Proof.
    revert i j. induction a as [|y r IH]; intros [|i] [|j]; cbn; auto.
    - now destruct (Nat.eqb i j).
    - rewrite IH. now destruct (Nat.eqb i j).
  Qed.
  Lemma set_at_len {A} (a : list A) i x : length (set_at a i x) = length a.
  Proof. revert i. induction a as [|y r IH]; intros [|i]; cbn; auto. Qed.

  Definition posed (abs : list QV) (j : nat) : Prop :=
    forall n, nth_error l j = Some n -> exists E, nth_error abs j = Some E /\ pose qutr_mul (s_map s) (relq q) n E.
  Lemma fk_set_rel_ok j n f abs : nth_error l j = Some n -> mfind n (s_map s) = Some f ->
    length abs = length l ->
    (forall p, nth_error l p = Some (f_parent f) -> posed abs p) ->
    exists E, fk_set_rel s abs (Z.of_nat j) (relq q f) = Ok (set_at abs j E) /\ pose qutr_mul (s_map s) (relq q) n E.
  Proof.
    intros J F La Hp. assert (Lj : (j < length l)%nat) by (apply nth_error_Some; congruence).
    unfold fk_set_rel. rewrite (frame_parent_ok _ _ _ I _ X D _ _ _ J F). cbn [bind].
    assert (W : forall E, fk_write abs (Z.of_nat j) E = Ok (set_at abs j E)).
    { intros E. unfold fk_write. destruct (Z.ltb_spec (Z.of_nat j) 0); [lia|]. rewrite Nat2Z.id.
      destruct (Nat.ltb_spec j (length abs)); [reflexivity|lia]. }
    destruct (String.string_dec (f_parent f) "") as [P|P].
    - unfold pid_of. rewrite P. cbn [String.eqb]. change (FRAME_ROOT =? FRAME_ROOT) with true. cbv iota.
      exists (relq q f). split; [apply W|now apply pose_top].
    - destruct (parent_first _ _ _ I _ X Fo _ _ _ J F P) as (p & Jp & Lt & Ep). rewrite Ep.
      destruct (Z.eqb_spec (Z.of_nat p) FRAME_ROOT) as [E|_]; [unfold FRAME_ROOT in E; lia|].
      destruct (Hp p Jp _ Jp) as (Ea & Na & Pa).
      unfold fk_read. destruct (Z.ltb_spec (Z.of_nat p) 0); [lia|]. rewrite Nat2Z.id, Na. cbn [from bind].
      exists (qutr_mul Ea (relq q f)). split; [apply W|now apply pose_child].
  Qed.
  Lemma posed_set abs j n E i : nth_error l j = Some n -> length abs = length l ->
    pose qutr_mul (s_map s) (relq q) n E -> posed abs i \/ i = j -> posed (set_at abs j E) i.
  Proof.
    intros J La P Hi m Jm. rewrite nth_set_at. assert (Lj : (j < length l)%nat) by (apply nth_error_Some; congruence).
    destruct (Nat.eqb_spec j i) as [->|Ne].
    - destruct (Nat.ltb_spec i (length abs)); [|lia]. exists E. split; auto. congruence.
    - destruct Hi as [Hi|]; [|congruence]. apply Hi, Jm.
  Qed.
  Lemma fk_all_loop_ok k : forall i abs, (i + k <= length l)%nat -> length abs = length l ->
    (forall j, (j < i)%nat -> posed abs j) ->
    exists abs', fk_all_loop s q (seq i k) abs = Ok abs' /\ length abs' = length l /\
      forall j, (j < i + k)%nat -> posed abs' j.
  Proof.
    induction k as [|k IH]; intros i abs Le La Hp.
    - exists abs. cbn. repeat split; auto. intros j Hj. apply Hp. lia.
    - cbn [seq fk_all_loop]. destruct (nth_f _ _ _ _ I X i) as (n & f & J & F & At & _); [lia|].
      rewrite At. cbn [bind]. rewrite (tf_rel_total _ _ _ J F). cbn [bind].
      destruct (fk_set_rel_ok i n f abs J F La) as (E & Es & Pe).
      { intros p Jp. destruct (String.string_dec (f_parent f) "") as [P|P].
        - exfalso. assert (In ""%string l) as B by (rewrite <- P; eapply nth_error_In; eauto).
          apply (proj2 (id_list _ _ X)) in B. tauto.
        - destruct (parent_first _ _ _ I _ X Fo _ _ _ J F P) as (p' & Jp' & Lt & _).
          assert (p = p') as -> by (apply (proj1 (NoDup_nth_error l)); [apply (id_list _ _ X)|apply nth_error_Some; congruence|congruence]).
          apply Hp; auto. }
      rewrite Es. cbn [bind].
      destruct (IH (S i) (set_at abs i E)) as (abs' & E' & L' & H'); try lia.
      + now rewrite set_at_len.
      + intros j Hj. apply posed_set with (n := n); auto.
        destruct (Nat.eq_dec j i) as [->|]; auto. left. apply Hp. lia.
      + exists abs'. split; auto. split; auto. intros j Hj. apply H'. lia.
  Qed.
End Fk.

Section Upd.
  Variables (g : graph) (lim : lkind -> string -> option (R * R)) (s : sg) (l : list string).
  Hypothesis I : inv g lim s.
  Hypothesis X : indexed s l.
  Hypothesis D : s_dirty s = false.
  Hypothesis Fo : forest g.
  Variable q0 q : list R.
  Hypothesis Lq0 : length (s_crmap s) = length q0.
  Hypothesis Lq : length (s_crmap s) = length q.
  Variable rel0 abs0 : list QV.
  Hypothesis G0 : good s l qutr_mul (relq q0) rel0 abs0.

  Definition upd_inv (a : list QV) (u : list bool) : Prop :=
    length u = length a /\
    forall j, nth_error u j = Some false -> nth_error a j = nth_error abs0 j.

  Lemma upd_snoc a u E b i : length a = i -> upd_inv a u -> (b = false -> nth_error abs0 i = Some E) ->
    upd_inv (a ++ [E]) (u ++ [b]).
  Proof.
    intros Li [Lu H] Hb. split; [rewrite !app_length; cbn; lia|]. intros j Hj.
    destruct (lt_dec j i) as [Lt|Ge].
    - rewrite nth_error_app1 in Hj by lia. rewrite nth_error_app1 by lia. auto.
    - destruct (Nat.eq_dec j i) as [->|Ne].
      + rewrite nth_error_app2 in Hj by lia. rewrite Lu, Li, Nat.sub_diag in Hj. cbn in Hj.
        rewrite nth_error_app2 by lia. rewrite Li, Nat.sub_diag. cbn. symmetry. apply Hb. congruence.
      + exfalso. assert (Y : nth_error (u ++ [b]) j = None) by (apply nth_error_None; rewrite app_length; cbn; lia). congruence.
  Qed.

  Lemma update_loop_ok k : forall i r a u, length a = i -> (i + k <= length abs0)%nat ->
    good s l qutr_mul (relq q) r a -> upd_inv a u ->
    exists r' a', update_loop s q0 q rel0 abs0 (seq i k) r a u = Ok (r', a') /\
      length a' = (i + k)%nat /\ good s l qutr_mul (relq q) r' a'.
  Proof.
    assert (La0 : (length abs0 <= length l)%nat) by apply G0.
    induction k as [|k IH]; intros i r a u La Le G U.
    - exists r, a. cbn. split; [reflexivity|]. split; [lia|exact G].
    - cbn [seq update_loop].
      destruct (nth_f _ _ _ _ I X i) as (n & f & J & F & At & _); [lia|]. rewrite At. cbn [bind].
      destruct (id_done _ _ X _ _ _ J F) as (_ & Pid & _).
      destruct (proj2 (proj2 G0) i n f) as (Nr0 & E0 & Na0 & P0); auto; [lia|].
      (* a helper for finishing *)
      assert (Fin : forall Ea b, pose qutr_mul (s_map s) (relq q) n Ea -> (b = false -> nth_error abs0 i = Some Ea) ->
        exists r' a', update_loop s q0 q rel0 abs0 (seq (S i) k) (r ++ [relq q f]) (a ++ [Ea]) (u ++ [b]) = Ok (r', a') /\
          length a' = (i + S k)%nat /\ good s l qutr_mul (relq q) r' a').
      { intros Ea b Pe Hb. destruct (IH (S i) (r ++ [relq q f]) (a ++ [Ea]) (u ++ [b])) as (r' & a' & E' & L' & G').
        - rewrite app_length. cbn. lia.
        - lia.
        - eapply good_snoc; eauto.
        - eapply upd_snoc; eauto.
        - exists r', a'. split; auto. split; auto. lia. }
      assert (Trel : tf_rel f q = Ok (relq q f)) by (eapply tf_rel_total; eauto; lia).
      assert (Trel0 : tf_rel f q0 = Ok (relq q0 f)) by (eapply tf_rel_total; eauto; lia).
      unfold in_global. destruct (String.eqb_spec (f_parent f) "") as [P|P].
      + (* top *)
        assert (E0r : E0 = relq q0 f).
        { eapply pose_fun; eauto. now apply pose_top. }
        assert (Pn : pose qutr_mul (s_map s) (relq q) n (relq q f)) by now apply pose_top.
        destruct (f_type f) eqn:T.
        * rewrite Trel. cbn [bind]. rewrite Na0. cbn [from bind].
          assert (Eq : relq q0 f = relq q f) by (unfold relq, tf_rel; now rewrite T).
          rewrite E0r, Eq. apply Fin; auto. intros _. rewrite Na0. congruence.
        * destruct (cidx_val _ _ X D q0 ltac:(lia) _ _ _ J F) as (c & x0 & Ec & N0 & _ & _); [now rewrite T|].
          destruct (cidx_val _ _ X D q ltac:(lia) _ _ _ J F) as (c' & x & Ec' & N & _ & _); [now rewrite T|].
          assert (c' = c) by congruence. subst c'. rewrite Ec. cbn [from bind]. rewrite N0, N. cbn [from bind].
          unfold Req_b. destruct (Req_EM_T x0 x) as [Ex|Nx].
          -- rewrite Nr0. cbn [from bind]. rewrite Na0. cbn [from bind].
             assert (Eq : relq q0 f = relq q f) by (unfold relq, tf_rel, joint_value; rewrite T, Ec; cbn [from bind]; now rewrite N0, N, Ex).
             rewrite E0r, Eq. apply Fin; auto. intros _. rewrite Na0. congruence.
          -- rewrite Trel. cbn [bind]. apply Fin; auto. discriminate.
        * destruct (cidx_val _ _ X D q0 ltac:(lia) _ _ _ J F) as (c & x0 & Ec & N0 & _ & _); [now rewrite T|].
          destruct (cidx_val _ _ X D q ltac:(lia) _ _ _ J F) as (c' & x & Ec' & N & _ & _); [now rewrite T|].
          assert (c' = c) by congruence. subst c'. rewrite Ec. cbn [from bind]. rewrite N0, N. cbn [from bind].
          unfold Req_b. destruct (Req_EM_T x0 x) as [Ex|Nx].
          -- rewrite Nr0. cbn [from bind]. rewrite Na0. cbn [from bind].
             assert (Eq : relq q0 f = relq q f) by (unfold relq, tf_rel, joint_value; rewrite T, Ec; cbn [from bind]; now rewrite N0, N, Ex).
             rewrite E0r, Eq. apply Fin; auto. intros _. rewrite Na0. congruence.
          -- rewrite Trel. cbn [bind]. apply Fin; auto. discriminate.
      + destruct (parent_first _ _ _ I _ X Fo _ _ _ J F P) as (p & Jp & Lt & Ep).
        destruct (nth_f _ _ _ _ I X p) as (n' & fp & J' & Fp & _); [lia|]. assert (n' = f_parent f) by congruence. subst n'.
        destruct (proj2 (proj2 G0) p (f_parent f) fp) as (_ & Ep0 & Nap0 & Pp0); auto; [lia|].
        destruct (proj2 (proj2 G) p (f_parent f) fp) as (_ & Epa & Napa & Ppa); auto; [lia|].
        assert (E0r : E0 = qutr_mul Ep0 (relq q0 f)).
        { eapply pose_fun; eauto. now apply pose_child. }
        assert (Pn : pose qutr_mul (s_map s) (relq q) n (qutr_mul Epa (relq q f))) by now apply pose_child.
        rewrite Pid, Ep. cbn [from bind].
        destruct (Z.ltb_spec (Z.of_nat p) 0); [lia|]. rewrite Nat2Z.id.
        destruct (Z.ltb_spec (Z.of_nat p) (Z.of_nat i)); [|lia]. cbn [negb].
        destruct (nth_error u p) as [up|] eqn:Up; [|apply nth_error_None in Up; destruct U as [Lu _]; lia].
        cbn [from bind]. rewrite Napa. cbn [from bind].
        assert (Keep : up = false -> relq q0 f = relq q f -> E0 = qutr_mul Epa (relq q f)).
        { intros -> Er. rewrite E0r, Er. f_equal. destruct U as [_ Hu]. specialize (Hu p Up). congruence. }
        destruct (f_type f) eqn:T.
        * rewrite Trel. cbn [bind].
          assert (Eq : relq q0 f = relq q f) by (unfold relq, tf_rel; now rewrite T).
          destruct up; cbn [bind].
          -- apply Fin; auto. discriminate.
          -- rewrite Na0. cbn [from bind]. rewrite (Keep eq_refl Eq). apply Fin; auto.
             intros _. rewrite Na0. f_equal. now apply Keep.
        * destruct (cidx_val _ _ X D q0 ltac:(lia) _ _ _ J F) as (c & x0 & Ec & N0 & _ & _); [now rewrite T|].
          destruct (cidx_val _ _ X D q ltac:(lia) _ _ _ J F) as (c' & x & Ec' & N & _ & _); [now rewrite T|].
          assert (c' = c) by congruence. subst c'. rewrite Ec. cbn [from bind]. rewrite N0, N. cbn [from bind].
          unfold Req_b. destruct (Req_EM_T x0 x) as [Ex|Nx].
          -- rewrite Nr0. cbn [from bind].
             assert (Eq : relq q0 f = relq q f) by (unfold relq, tf_rel, joint_value; rewrite T, Ec; cbn [from bind]; now rewrite N0, N, Ex).
             rewrite Eq. destruct up; cbn [bind].
             ++ apply Fin; auto. discriminate.
             ++ rewrite Na0. cbn [from bind]. rewrite (Keep eq_refl Eq). apply Fin; auto.
                intros _. rewrite Na0. f_equal. now apply Keep.
          -- rewrite Trel. cbn [bind]. apply Fin; auto. discriminate.
        * destruct (cidx_val _ _ X D q0 ltac:(lia) _ _ _ J F) as (c & x0 & Ec & N0 & _ & _); [now rewrite T|].
          destruct (cidx_val _ _ X D q ltac:(lia) _ _ _ J F) as (c' & x & Ec' & N & _ & _); [now rewrite T|].
          assert (c' = c) by congruence. subst c'. rewrite Ec. cbn [from bind]. rewrite N0, N. cbn [from bind].
          unfold Req_b. destruct (Req_EM_T x0 x) as [Ex|Nx].
          -- rewrite Nr0. cbn [from bind].
             assert (Eq : relq q0 f = relq q f) by (unfold relq, tf_rel, joint_value; rewrite T, Ec; cbn [from bind]; now rewrite N0, N, Ex).
             rewrite Eq. destruct up; cbn [bind].
             ++ apply Fin; auto. discriminate.
             ++ rewrite Na0. cbn [from bind]. rewrite (Keep eq_refl Eq). apply Fin; auto.
                intros _. rewrite Na0. f_equal. now apply Keep.
          -- rewrite Trel. cbn [bind]. apply Fin; auto. discriminate.
  Qed.
End Upd.
