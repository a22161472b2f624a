(** Proofs of the claims on forward kinematics. *)
From Coq Require Import ZArith String List Bool Reals Lia Lra.
From Verif Require Import TfModel TfSpec TfProofs TfRotmatProofs TfRepProofs TfCalcProofs TfConvProofs TfFrameProofs
  SgModel SgSpec SgKinSpec SgMapProofs SgIndexProofs SgNumberProofs SgInvProofs SgQueryProofs SgClaims1 SgFkProofs SgFkProofs2.
Import ListNotations.
Open Scope Z_scope.

Lemma located_fun g cfg n p x y : located g cfg n p x -> located g cfg n p y -> x = y.
Proof.
  intros H. revert y. induction H as [p|n d p x Ne G H IH]; intros y Hy; inversion Hy; subst; try congruence.
  apply IH. assert (d0 = d) by congruence. now subst d0.
Qed.

Lemma ready_count s l n : indexed s l -> config_count s = Ok n -> s_csize s = Some n /\ length (s_crmap s) = n.
Proof.
  intros X. unfold config_count, clean. destruct (s_dirty s); [discriminate|].
  destruct (id_csize _ _ X) as [E|[E _]]; rewrite E; cbn; intros [= H]; subst; auto.
Qed.
Lemma frame_no_nth g lim s l n i : inv g lim s -> indexed s l -> named g -> frame_no s n i -> nth_error l i = Some n.
Proof.
  intros I X Nm. unfold frame_no, frame_id. destruct (String.eqb_spec n "") as [->|Ne].
  { unfold FRAME_ROOT. intros [= H]. lia. }
  destruct (mfind n (s_map s)) as [f|] eqn:F.
  - intros H. assert (In n l) as K by (apply (proj2 (id_list _ _ X)); split; congruence).
    apply In_nth_error in K as [j J]. destruct (id_done _ _ X _ _ _ J F) as (E & _). rewrite E in H.
    cbn in H. injection H as H. apply Nat2Z.inj in H. congruence.
  - unfold FRAME_NONE. intros [= H]. lia.
Qed.

(** ** C47 *)
Lemma c47_tf h s q n_tf : ready h s -> forest (declared h) -> proper (declared h) -> config_count s = Ok (length q) ->
  exists rel abs, sg_tf s q n_tf = Ok (rel, abs) /\
    length rel = Nat.min n_tf (Z.to_nat (frame_count s)) /\
    length abs = Nat.min n_tf (Z.to_nat (frame_count s)) /\
    (forall n d i E, declared h n = Some d -> frame_no s n i -> nth_error rel i = Some E ->
       forall p, place (TfModel.eq E) (ev E) p = rel_motion d (config_of s q) p) /\
    (forall n i E, frame_no s n i -> nth_error abs i = Some E ->
       unitq (TfModel.eq E) /\
       forall p, located (declared h) (config_of s q) n p (place (TfModel.eq E) (ev E) p)).
Proof.
  intros Rd Fo Pr C. destruct (ready_inv _ _ Rd) as [I [l X]]. destruct Rd as [_ D].
  destruct (ready_count _ _ _ X C) as [Cs Lc].
  destruct (fk_run_good _ _ _ _ I X D Fo qutr_mul (fun _ f => tf_rel f q) (relq q)) with (q := q) (n_tf := n_tf)
    as (rel & abs & E & La & Lr & Lb & G); auto.
  { intros j n f J F. eapply tf_rel_total; eauto. lia. }
  exists rel, abs. split; [exact E|]. rewrite (count_eq _ _ _ I _ X (proj1 Fo)), Nat2Z.id.
  split; [lia|]. split; [lia|]. split.
  - intros n d i Er Gd Fn Nr p. pose proof (frame_no_nth _ _ _ _ _ _ I X (proj1 Fo) Fn) as J.
    destruct (decl_find _ _ _ I _ _ Gd) as (f & F & ->).
    assert (i < length rel)%nat by (apply nth_error_Some; congruence).
    destruct (G i n f) as (Nr' & _); auto; [lia|]. rewrite Nr in Nr'. apply some_inj in Nr'. subst Er.
    eapply rel_place; eauto. lia.
  - intros n i Ea Fn Na. pose proof (frame_no_nth _ _ _ _ _ _ I X (proj1 Fo) Fn) as J.
    destruct (frame_at_ok _ _ _ I _ X _ _ J) as (f & F & _).
    assert (i < length abs)%nat by (apply nth_error_Some; congruence).
    destruct (G i n f) as (_ & E' & Na' & Pe); auto. rewrite Na in Na'. apply some_inj in Na'. subst E'.
    eapply pose_located; eauto. lia.
Qed.

Lemma located_cfg g c1 c2 n p x : (forall m d, g m = Some d -> is_joint (d_type d) = true -> c1 (d_cfg d) = c2 (d_cfg d)) ->
  located g c1 n p x -> located g c2 n p x.
Proof.
  intros H L. induction L as [|n d p x Ne G L IH]; [constructor|].
  apply loc_frame with (d := d); auto.
  replace (rel_motion d c2 p) with (rel_motion d c1 p); auto.
  unfold rel_motion. destruct (d_type d) eqn:T; auto; rewrite (H n d G); auto; now rewrite T.
Qed.

Lemma c47_fk_all h s v abs0 : ready h s -> forest (declared h) -> proper (declared h) ->
  config_count s = Ok (dv_len v) -> fits v -> dv_inc v = 1%nat ->
  Z.of_nat (length abs0) = frame_count s ->
  exists abs, fk_all s v abs0 = Ok abs /\ Z.of_nat (length abs) = frame_count s /\
    forall n i E, frame_no s n i -> nth_error abs i = Some E ->
      unitq (TfModel.eq E) /\
      forall p, located (declared h) (config_view s v) n p (place (TfModel.eq E) (ev E) p).
Proof.
  intros Rd Fo Pr C Fv Inc L0. destruct (ready_inv _ _ Rd) as [I [l X]]. destruct Rd as [_ D].
  destruct (ready_count _ _ _ X C) as [Cs Lc].
  assert (Lq : (length (s_crmap s) <= length (dv_data v))%nat).
  { rewrite Lc. destruct (dv_len v) as [|k] eqn:Lv; [lia|]. specialize (Fv k). rewrite Lv in Fv.
    unfold dv_get in Fv. rewrite Inc, Nat.mul_1_r in Fv.
    assert (nth_error (dv_data v) k <> None) by (apply Fv; lia). apply nth_error_Some in H. lia. }
  rewrite (count_eq _ _ _ I _ X (proj1 Fo)) in *.
  destruct (fk_all_loop_ok _ _ _ _ I X D Fo (dv_data v) Lq (length l) 0 abs0) as (abs & E & La & H); try lia.
  exists abs. split; [|split; [lia|]].
  - unfold fk_all, clean. rewrite D, C. cbn [bind]. rewrite Nat.eqb_refl. cbn [negb].
    rewrite (frames_len _ _ _ _ I X Fo). exact E.
  - intros n i Ea Fn Na. pose proof (frame_no_nth _ _ _ _ _ _ I X (proj1 Fo) Fn) as J.
    assert (i < length l)%nat by (apply nth_error_Some; congruence).
    destruct (H i ltac:(lia) n J) as (E' & Na' & Pe). rewrite Na in Na'. apply some_inj in Na'. subst E'.
    destruct (pose_located _ _ _ _ I X D Fo (dv_data v) Lq Pr n Ea Pe) as [U Lo]. split; auto. intros p.
    eapply located_cfg; [|apply Lo]. intros m d Gd Jd. unfold config_of, config_view.
    assert (Ne : m <> ""%string). { intros ->. destruct Fo as [Nm _]. unfold named in Nm. congruence. }
    destruct (nth_of_decl _ _ _ I _ X m d Ne Gd) as (j & f & Jm & F & ->). cbn [decl_of d_cfg d_type] in *.
    destruct (cidx_val _ _ X D (dv_data v) Lq _ _ _ Jm F Jd) as (c & x & _ & Nx & _ & Nc).
    rewrite (config_id_ok s l _ c X D Nc), Nat2Z.id. unfold dv_get. rewrite Inc, Nat.mul_1_r, Nx.
    now apply nth_error_nth.
Qed.

(** ** C48 *)
Lemma c48 h s q0 q n_tf rel0 abs0 : ready h s -> forest (declared h) ->
  config_count s = Ok (length q0) -> config_count s = Ok (length q) ->
  sg_tf s q0 n_tf = Ok (rel0, abs0) ->
  sg_tf_update s q0 q n_tf rel0 abs0 = sg_tf s q n_tf.
Proof.
  intros Rd Fo C0 C E0. destruct (ready_inv _ _ Rd) as [I [l X]]. destruct Rd as [_ D].
  destruct (ready_count _ _ _ X C0) as [Cs0 Lc0]. destruct (ready_count _ _ _ X C) as [Cs Lc].
  destruct (fk_run_good _ _ _ _ I X D Fo qutr_mul (fun _ f => tf_rel f q0) (relq q0)) with (q := q0) (n_tf := n_tf)
    as (r0 & a0 & Er0 & La0 & G0); auto.
  { intros j n f J F. eapply tf_rel_total; eauto. lia. }
  destruct (fk_run_good _ _ _ _ I X D Fo qutr_mul (fun _ f => tf_rel f q) (relq q)) with (q := q) (n_tf := n_tf)
    as (r & a & Er & La & G); auto.
  { intros j n f J F. eapply tf_rel_total; eauto. lia. }
  unfold sg_tf in E0. rewrite E0 in Er0. injection Er0 as <- <-.
  unfold sg_tf. rewrite Er. unfold sg_tf_update, clean. rewrite D, Cs. cbn [from bind]. rewrite Nat.eqb_refl. cbn [negb].
  rewrite (frames_len _ _ _ _ I X Fo).
  destruct (update_loop_ok _ _ _ _ I X D Fo q0 q Lc0 Lc rel0 abs0 G0 (Nat.min n_tf (length l)) 0 [] [] [])
    as (r' & a' & E' & La' & G'); auto; try lia.
  - apply good_nil.
  - split; auto. intros [|j]; discriminate.
  - rewrite E'. destruct (good_ext _ _ _ _ I X qutr_mul (relq q) r' a' r a G' G) as [-> ->]; auto. lia.
Qed.

(** ** C49 *)
Definition synced (m : smap frame) : Prop := forall n f, mfind n m = Some f ->
  f_R f = quat2rotmat (TfModel.eq (f_E f)) /\ f_S f = qutr2duqu (f_E f).
Lemma synced_mset m n f : synced m -> f_R f = quat2rotmat (TfModel.eq (f_E f)) /\ f_S f = qutr2duqu (f_E f) ->
  synced (mset n f m).
Proof.
  intros S H k f' F. rewrite mfind_mset in F. destruct (String.eqb k n); [|eauto]. apply some_inj in F. now subst f'.
Qed.
Lemma synced_core m1 m2 : (forall n, option_map core (mfind n m1) = option_map core (mfind n m2)) -> synced m2 -> synced m1.
Proof.
  intros E S n f F. specialize (E n). rewrite F in E. destruct (mfind n m2) as [f2|] eqn:F2; [|discriminate].
  apply some_inj in E. apply core_eq in E as (_&_&_&_&_&_& EE & ER & ES & _). rewrite ER, EE, ES. eauto.
Qed.
Lemma step_synced g lim s o c s' : inv g lim s -> (forall p n E, o <> OReparent p n E) -> step s o = Ok (c, s') ->
  synced (s_map s) -> synced (s_map s').
Proof.
  intros I No E S. destruct o as [t p n q v cf off ax|n|p n E0| |k cn a b|n mass J|n ge|n0 n1 al]; cbn [step] in E.
  - destruct q as [q|]; [|discriminate]. destruct v as [v|]; [|discriminate]. cbn in E. injection E as _ <-.
    cbn. apply synced_mset; auto.
  - cbn in E. injection E as _ <-. cbn. intros k f F. apply (S k f).
    destruct (String.string_dec k n) as [->|Ne].
    + rewrite mfind_mdel_same in F; [discriminate|apply I].
    + now rewrite mfind_mdel_other in F.
  - exfalso; eapply No; reflexivity.
  - destruct (s_dirty s) eqn:D.
    2:{ unfold sg_init in E. rewrite D in E. cbn in E. injection E as _ <-. exact S. }
    destruct (init_ok g lim s I D) as [[_ E1]|[_ (l & _ & _ & [[_ E1]|[_ (s1 & E1 & D1 & X & _ & _ & Sm & Co & _)]])]];
      rewrite E1 in E; try discriminate; injection E as _ <-; auto. eapply synced_core; eauto.
  - cbn in E. injection E as _ <-. exact S.
  - unfold sg_set_inertial in E. destruct (mfind n (s_map s)) as [f|] eqn:F; [|discriminate].
    cbn in E. injection E as _ <-. cbn. apply synced_mset; auto. exact (S _ _ F).
  - unfold sg_add_geom in E. destruct (mfind n (s_map s)) as [f|] eqn:F; [|discriminate].
    cbn in E. injection E as _ <-. cbn. apply synced_mset; auto. exact (S _ _ F).
  - unfold sg_allow in E. destruct (mfind n0 (s_map s)) as [f0|]; [|discriminate].
    destruct (mfind n1 (s_map s)) as [f1|]; [|discriminate]. cbn in E. injection E as _ <-. exact S.
Qed.
Lemma run_synced h : forall g lim s s', inv g lim s -> no_reparent h -> run s h = Ok s' -> synced (s_map s) -> synced (s_map s').
Proof.
  induction h as [|o r IH]; intros g lim s s' I No E S; cbn in E.
  - injection E as <-. exact S.
  - destruct (step s o) as [[c s1]| | |] eqn:E1; try discriminate. cbn in E.
    eapply IH; [eapply step_inv; eauto| |eauto|].
    + intros p n E0 Hin. apply (No p n E0). now right.
    + eapply step_synced; eauto. intros p n E0 ->. apply (No p n E0). now left.
Qed.

Lemma mat_place_tf T p : mat_place T p = tfmat_tf T p.
Proof. destruct T as [[] []], p. unfold mat_place. tfc. cbn. f_equal; ring. Qed.
Lemma mat_place_E E p : unit_qutr E -> mat_place (qutr2tfmat E) p = place (TfModel.eq E) (ev E) p.
Proof. intros U. now rewrite mat_place_tf, qutr2tfmat_tf, place_E. Qed.
Lemma dq_place_tf S p : unitq (dreal S) -> dq_place S p = duqu_tf S p.
Proof.
  intros U. unfold dq_place. destruct S as [[x y z w] [a b c d]], p as [px py pz]. tfc. cbn [dreal ddual qx qy qz qw vx vy vz].
  f_equal; ring.
Qed.
Lemma dq_place_E E p : unit_qutr E -> dq_place (qutr2duqu E) p = place (TfModel.eq E) (ev E) p.
Proof. intros U. rewrite dq_place_tf by exact U. now rewrite duqu_tf_of_qutr, place_E. Qed.

Section Rep.
  Variables (g : graph) (lim : lkind -> string -> option (R * R)) (s : sg) (l : list string).
  Hypothesis I : inv g lim s.
  Hypothesis X : indexed s l.
  Hypothesis D : s_dirty s = false.
  Hypothesis Fo : forest g.
  Hypothesis Pr : proper g.
  Hypothesis Sy : synced (s_map s).
  Variable q : list R.
  Hypothesis Lq : (length (s_crmap s) <= length q)%nat.

  Lemma unit_rel n f : mfind n (s_map s) = Some f -> unit_qutr (relq q f).
  Proof.
    intros F. destruct (in_l_of _ _ _ _ I X Fo n f F) as [j J].
    eapply rel_place; eauto. eapply Pr, find_decl; eauto.
  Qed.
  Lemma unit_pose n E : pose qutr_mul (s_map s) (relq q) n E -> unit_qutr E.
  Proof. induction 1; [eapply unit_rel; eauto|]. apply qutr_mul_unit; auto. eapply unit_rel; eauto. Qed.

  Lemma tfmat_rel_eq j n f : nth_error l j = Some n -> mfind n (s_map s) = Some f ->
    (f_type f = Prismatic -> place (TfModel.eq (f_E f)) zero3 (f_axis f) = f_axis f) ->
    SgModel.tfmat_rel f q = Ok (qutr2tfmat (relq q f)).
  Proof.
    intros J F Pz. destruct (Sy _ _ F) as [HR _]. destruct (Pr _ _ (find_decl _ _ _ I _ _ F)) as [U Ax].
    cbn [decl_of d_q d_type d_axis] in U, Ax.
    unfold SgModel.tfmat_rel, relq, tf_rel, joint_value.
    destruct (f_type f) eqn:T.
    - now rewrite HR.
    - destruct (cidx_val _ _ X D q Lq _ _ _ J F) as (c & x & -> & N & _ & _); [now rewrite T|].
      cbn [from bind]. rewrite N. cbn [from bind]. rewrite HR. unfold qutr2tfmat. cbn [TfModel.eq ev].
      f_equal. f_equal. unfold axang2rotmat2. symmetry. apply quat2rotmat_mul; auto. apply axang2quat_unit. exact (Ax eq_refl).
    - destruct (cidx_val _ _ X D q Lq _ _ _ J F) as (c & x & -> & N & _ & _); [now rewrite T|].
      cbn [from bind]. rewrite N. cbn [from bind]. rewrite HR. f_equal. unfold qutr2tfmat.
      specialize (Pz eq_refl). rewrite place_tf, qutr_tf_eq in Pz by exact U. cbn [TfModel.eq ev] in Pz.
      set (t := (x + f_off f)%R).
      assert (Rt : qrot (TfModel.eq (f_E f)) (vscale t (f_axis f)) = vscale t (f_axis f)).
      { change (vscale t (f_axis f)) with (times3 t (f_axis f)). rewrite (rm_scale _ (qrot_rotation _ U)).
        f_equal. destruct (qrot (TfModel.eq (f_E f)) (f_axis f)) as [a b c0], (f_axis f) as [a' b' c0'].
        unfold plus3, zero3 in Pz. cbn in Pz. injection Pz as P1 P2 P3. f_equal; lra. }
      unfold qutr_mul. cbn [TfModel.eq ev].
      replace (tf_qv (TfModel.eq (f_E f)) (ev (f_E f)) (vscale t (f_axis f)))
        with (qutr_tf (f_E f) (vscale t (f_axis f))) by reflexivity.
      rewrite qutr_tf_eq, Rt. f_equal.
      + f_equal. symmetry. exact (qmul_ident_r (TfModel.eq (f_E f))).
  Qed.
  Lemma pose_mat : (forall n f, mfind n (s_map s) = Some f -> SgModel.tfmat_rel f q = Ok (qutr2tfmat (relq q f))) ->
    forall n T, pose tfmat_mul (s_map s) (fun f => qutr2tfmat (relq q f)) n T ->
    exists E, pose qutr_mul (s_map s) (relq q) n E /\ T = qutr2tfmat E.
  Proof.
    intros H n T P. induction P as [n f F P|n f Ep F P H0 (E & Pe & ->)].
    - exists (relq q f). split; auto. now apply pose_top.
    - exists (qutr_mul E (relq q f)). split; [now apply pose_child|].
      symmetry. apply qutr2tfmat_mul; [eapply unit_pose; eauto|eapply unit_rel; eauto].
  Qed.
  Lemma duqu_rel_eq j n f old : nth_error l j = Some n -> mfind n (s_map s) = Some f ->
    f_type f <> Prismatic -> duqu_rel f q old = Ok (qutr2duqu (relq q f)).
  Proof.
    intros J F Np. destruct (Sy _ _ F) as [_ HS].
    unfold duqu_rel, relq, tf_rel, joint_value.
    destruct (f_type f) eqn:T; [now rewrite HS| |congruence].
    destruct (cidx_val _ _ X D q Lq _ _ _ J F) as (c & x & -> & N & _ & _); [now rewrite T|].
    cbn [from bind]. rewrite N. cbn [from bind]. reflexivity.
  Qed.
  Lemma pose_dq n T : pose dmul (s_map s) (fun f => qutr2duqu (relq q f)) n T ->
    exists E, pose qutr_mul (s_map s) (relq q) n E /\ T = qutr2duqu E.
  Proof.
    intros P. induction P as [n f F P|n f Ep F P H0 (E & Pe & ->)].
    - exists (relq q f). split; auto. now apply pose_top.
    - exists (qutr_mul E (relq q f)). split; [now apply pose_child|].
      symmetry. apply qutr2duqu_mul; [eapply unit_pose; eauto|eapply unit_rel; eauto].
  Qed.
End Rep.

Lemma c49_tfmat h s q n_tf : ready h s -> forest (declared h) -> proper (declared h) -> no_reparent h ->
  (forall n d, declared h n = Some d -> d_type d = Prismatic -> place (d_q d) zero3 (d_axis d) = d_axis d) ->
  config_count s = Ok (length q) ->
  exists rel abs mrel mabs, sg_tf s q n_tf = Ok (rel, abs) /\ sg_tfmat s q n_tf = Ok (mrel, mabs) /\
    length mrel = length rel /\ length mabs = length abs /\
    forall i, (forall E T, nth_error rel i = Some E -> nth_error mrel i = Some T ->
                forall p, mat_place T p = place (TfModel.eq E) (ev E) p) /\
              (forall E T, nth_error abs i = Some E -> nth_error mabs i = Some T ->
                forall p, mat_place T p = place (TfModel.eq E) (ev E) p).
Proof.
  intros Rd Fo Pr Nr Pz C. destruct (ready_inv _ _ Rd) as [I [l X]]. destruct Rd as [Er0 D].
  destruct (ready_count _ _ _ X C) as [Cs Lc].
  assert (Sy : synced (s_map s)).
  { eapply run_synced; [apply inv_create|exact Nr|exact Er0|]. intros n f F. discriminate. }
  destruct (fk_run_good _ _ _ _ I X D Fo qutr_mul (fun _ f => tf_rel f q) (relq q)) with (q := q) (n_tf := n_tf)
    as (rel & abs & E & La & Lr & Lb & G); auto.
  { intros j n f J F. eapply tf_rel_total; eauto. lia. }
  assert (Hm : forall j n f, nth_error l j = Some n -> mfind n (s_map s) = Some f -> SgModel.tfmat_rel f q = Ok (qutr2tfmat (relq q f))).
  { intros j n f J F. eapply tfmat_rel_eq; eauto; [lia|]. intros T. apply (Pz n (decl_of f)); auto. eapply find_decl; eauto. }
  destruct (fk_run_good _ _ _ _ I X D Fo tfmat_mul (fun _ f => SgModel.tfmat_rel f q) (fun f => qutr2tfmat (relq q f))) with (q := q) (n_tf := n_tf)
    as (mrel & mabs & Em & Lma & Lmr & Lmb & Gm); auto.
  exists rel, abs, mrel, mabs. split; [exact E|]. split; [exact Em|]. split; [lia|]. split; [lia|].
  intros i. split.
  - intros E1 T1 N1 N2 p. assert (Hi : (i < length rel)%nat) by (apply nth_error_Some; congruence).
    destruct (nth_f _ _ _ _ I X i) as (n & f & J & F & _); [lia|].
    destruct (G i n f) as (A & _); auto; [lia|]. destruct (Gm i n f) as (B & _); auto; [lia|].
    rewrite N1 in A. rewrite N2 in B. apply some_inj in A. apply some_inj in B. subst.
    apply mat_place_E. eapply unit_rel; eauto. lia.
  - intros E1 T1 N1 N2 p. assert (Hi : (i < length abs)%nat) by (apply nth_error_Some; congruence).
    destruct (nth_f _ _ _ _ I X i) as (n & f & J & F & _); [lia|].
    destruct (G i n f) as (_ & E' & A & Pe); auto. destruct (Gm i n f) as (_ & T' & B & Pm); auto; [lia|].
    rewrite N1 in A. rewrite N2 in B. apply some_inj in A. apply some_inj in B. subst E' T'.
    destruct (pose_mat _ _ _ _ I X D Fo Pr q ltac:(lia)) with (n := n) (T := T1) as (E2 & Pe2 & ->); auto.
    { intros n' f' F'. destruct (in_l_of _ _ _ _ I X Fo n' f' F') as [j' J']. eauto. }
    assert (E2 = E1) as -> by (eapply pose_fun; eauto).
    apply mat_place_E. eapply unit_pose; eauto. lia.
Qed.
Lemma c49_duqu h s q n_tf old : ready h s -> forest (declared h) -> proper (declared h) -> no_reparent h ->
  (forall n d, declared h n = Some d -> d_type d <> Prismatic) ->
  config_count s = Ok (length q) ->
  exists rel abs drel dabs, sg_tf s q n_tf = Ok (rel, abs) /\ sg_duqu s q n_tf old = Ok (drel, dabs) /\
    length drel = length rel /\ length dabs = length abs /\
    forall i, (forall E S, nth_error rel i = Some E -> nth_error drel i = Some S ->
                forall p, dq_place S p = place (TfModel.eq E) (ev E) p) /\
              (forall E S, nth_error abs i = Some E -> nth_error dabs i = Some S ->
                forall p, dq_place S p = place (TfModel.eq E) (ev E) p).
Proof.
  intros Rd Fo Pr Nr Np C. destruct (ready_inv _ _ Rd) as [I [l X]]. destruct Rd as [Er0 D].
  destruct (ready_count _ _ _ X C) as [Cs Lc].
  assert (Sy : synced (s_map s)).
  { eapply run_synced; [apply inv_create|exact Nr|exact Er0|]. intros n f F. discriminate. }
  destruct (fk_run_good _ _ _ _ I X D Fo qutr_mul (fun _ f => tf_rel f q) (relq q)) with (q := q) (n_tf := n_tf)
    as (rel & abs & E & La & Lr & Lb & G); auto.
  { intros j n f J F. eapply tf_rel_total; eauto. lia. }
  assert (Hm : forall j n f, nth_error l j = Some n -> mfind n (s_map s) = Some f -> duqu_rel f q (old j) = Ok (qutr2duqu (relq q f))).
  { intros j n f J F. eapply duqu_rel_eq; eauto; [lia|]. apply (Np n (decl_of f)). eapply find_decl; eauto. }
  destruct (fk_run_good _ _ _ _ I X D Fo dmul (fun i f => duqu_rel f q (old i)) (fun f => qutr2duqu (relq q f))) with (q := q) (n_tf := n_tf)
    as (mrel & mabs & Em & Lma & Lmr & Lmb & Gm); auto.
  exists rel, abs, mrel, mabs. split; [exact E|]. split; [exact Em|]. split; [lia|]. split; [lia|].
  intros i. split.
  - intros E1 T1 N1 N2 p. assert (Hi : (i < length rel)%nat) by (apply nth_error_Some; congruence).
    destruct (nth_f _ _ _ _ I X i) as (n & f & J & F & _); [lia|].
    destruct (G i n f) as (A & _); auto; [lia|]. destruct (Gm i n f) as (B & _); auto; [lia|].
    rewrite N1 in A. rewrite N2 in B. apply some_inj in A. apply some_inj in B. subst.
    apply dq_place_E. eapply unit_rel; eauto. lia.
  - intros E1 T1 N1 N2 p. assert (Hi : (i < length abs)%nat) by (apply nth_error_Some; congruence).
    destruct (nth_f _ _ _ _ I X i) as (n & f & J & F & _); [lia|].
    destruct (G i n f) as (_ & E' & A & Pe); auto. destruct (Gm i n f) as (_ & T' & B & Pm); auto; [lia|].
    rewrite N1 in A. rewrite N2 in B. apply some_inj in A. apply some_inj in B. subst E' T'.
    destruct (pose_dq _ _ _ _ I X D Fo Pr q ltac:(lia)) with (n := n) (T := T1) as (E2 & Pe2 & ->); auto.
    assert (E2 = E1) as -> by (eapply pose_fun; eauto).
    apply dq_place_E. eapply unit_pose; eauto. lia.
Qed.

(** ** Relative poses *)
Lemma frame_no_root s i : frame_id s ""%string = Ok i -> i = FRAME_ROOT.
Proof. unfold frame_id. cbn. congruence. Qed.
Lemma frame_no_nonneg g lim s l n i : inv g lim s -> indexed s l -> named g -> n <> ""%string ->
  frame_id s n = Ok i -> i <> FRAME_NONE -> exists j, i = Z.of_nat j /\ frame_no s n j /\ nth_error l j = Some n.
Proof.
  intros I X Nm Ne E Ni. unfold frame_id in E. destruct (String.eqb_spec n ""); [congruence|].
  destruct (mfind n (s_map s)) as [f|] eqn:F; [|congruence].
  assert (In n l) as K by (apply (proj2 (id_list _ _ X)); split; congruence).
  apply In_nth_error in K as [j J]. exists j.
  pose proof (frame_id_ok _ _ _ I _ X _ _ J) as Fi. unfold frame_id in Fi.
  destruct (String.eqb_spec n ""); [congruence|]. rewrite F in Fi. rewrite Fi in E. injection E as <-.
  split; auto. split; auto. unfold frame_no, frame_id. destruct (String.eqb_spec n ""); [congruence|]. now rewrite F.
Qed.
Lemma located_root g cfg p x : named g -> located g cfg ""%string p x -> p = x.
Proof. intros N H. inversion H; subst; auto. congruence. Qed.
Lemma ident_place p : place (mkQ 0 0 0 1) (mkV 0 0 0) p = p.
Proof. destruct p. unfold place. tfc. f_equal; ring. Qed.

Lemma c65 h s cfg abs a b ia ib : ready h s -> named (declared h) -> poses (declared h) cfg s abs ->
  frame_id s a = Ok ia -> frame_id s b = Ok ib -> ia <> FRAME_NONE -> ib <> FRAME_NONE ->
  exists E, sg_rel_tf s ia ib abs = Ok E /\ fk_get_rel abs ia ib = Ok E /\ unitq (TfModel.eq E) /\
    forall p x, located (declared h) cfg b p x -> located (declared h) cfg a (place (TfModel.eq E) (ev E) p) x.
Proof.
  intros Rd Nm Po Fa Fb Na Nb. destruct (ready_inv _ _ Rd) as [I [l X]]. destruct Rd as [_ D].
  assert (Hid : unit_qutr ident_tf) by (unfold ident_tf; tfc; cbn; ring).
  (* the entry for a frame, or the identity for the root *)
  assert (K : forall n i, frame_id s n = Ok i -> i <> FRAME_NONE -> exists E, unit_qutr E /\
     (if i =? FRAME_ROOT then Ok ident_tf else fk_read abs i) = Ok E /\
     (i = FRAME_ROOT -> E = ident_tf) /\
     forall p, located (declared h) cfg n p (qutr_tf E p)).
  { intros n i Fi Ni. destruct (String.string_dec n "") as [->|Ne].
    - apply frame_no_root in Fi. subst i. exists ident_tf. repeat split; auto.
      intros p. replace (qutr_tf ident_tf p) with p; [constructor|].
      rewrite <- place_E by exact Hid. unfold ident_tf. cbn [TfModel.eq ev]. now rewrite ident_place.
    - destruct (frame_no_nonneg _ _ _ _ _ _ I X Nm Ne Fi Ni) as (j & -> & Fj & _).
      destruct (Po n j Fj) as (E & NE & UE & Lo). exists E. split; [exact UE|].
      assert (Ej : (Z.of_nat j =? FRAME_ROOT) = false) by (apply Z.eqb_neq; unfold FRAME_ROOT; lia).
      rewrite Ej. split.
      + unfold fk_read. destruct (Z.ltb_spec (Z.of_nat j) 0); [lia|]. now rewrite Nat2Z.id, NE.
      + split; [unfold FRAME_ROOT; lia|]. intros p. rewrite <- place_E by exact UE. apply Lo. }
  destruct (K _ _ Fa Na) as (Ea & Ua & Ra & Ia & La). destruct (K _ _ Fb Nb) as (Eb & Ub & Rb & Ib & Lb).
  assert (Uc : unit_qutr (qutr_cmul Ea Eb)) by (unfold qutr_cmul; apply qutr_mul_unit; auto; now apply qutr_conj_unit).
  exists (qutr_cmul Ea Eb). split; [|split; [|split; [exact Uc|]]].
  - unfold sg_rel_tf, clean. rewrite D.
    destruct (Z.eqb_spec ia FRAME_ROOT) as [Ha|Ha], (Z.eqb_spec ib FRAME_ROOT) as [Hb|Hb].
    + rewrite (Ia Ha), (Ib Hb). f_equal. unfold ident_tf. tfc. f_equal; f_equal; ring.
    + rewrite Rb, (Ia Ha). f_equal. destruct Eb as [[x y z w] [v1 v2 v3]]. unfold ident_tf. tfc. f_equal; f_equal; ring.
    + rewrite Ra, (Ib Hb). cbn [bind]. f_equal. destruct Ea as [[x y z w] [v1 v2 v3]]. unfold ident_tf. tfc. f_equal; f_equal; ring.
    + rewrite Ra, Rb. reflexivity.
  - unfold fk_get_rel. rewrite Ra. cbn [bind]. rewrite Rb. reflexivity.
  - intros p x Lx. rewrite place_E by exact Uc.
    pose proof (La (qutr_tf (qutr_cmul Ea Eb) p)) as L1. rewrite qutr_cmul_acts in L1 by assumption.
    rewrite (located_fun _ _ _ _ _ _ Lx (Lb p)). exact L1.
Qed.

Lemma c65_get_abs g lim s l abs : inv g lim s -> indexed s l -> Z.of_nat (length abs) = frame_count s ->
  fk_get_abs s abs (frame_count s) = UB /\
  forall i, 0 <= i < frame_count s -> exists E, fk_get_abs s abs i = Ok E /\ nth_error abs (Z.to_nat i) = Some E.
Proof.
  intros I X L. unfold fk_get_abs, fk_read. split.
  - assert (0 <= frame_count s) by (unfold frame_count; lia).
    destruct (Z.ltb_spec (frame_count s) 0); [lia|]. rewrite Z.ltb_irrefl. cbn [orb].
    rewrite (proj2 (nth_error_None abs _)); [reflexivity|]. lia.
  - intros i Hi. destruct (Z.ltb_spec i 0); [lia|]. destruct (Z.ltb_spec (frame_count s) i); [lia|]. cbn [orb].
    destruct (nth_error abs (Z.to_nat i)) as [E|] eqn:N; [exists E; auto|]. apply nth_error_None in N. lia.
Qed.
