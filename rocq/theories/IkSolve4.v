(** Inverse kinematics solvers: contexts, and aa_rx_ik_check. *)
From Coq Require Import ZArith String List Bool Reals Lia Lra.
From Verif Require Import TrModel TfModel TfSpec TfProofs TfRotmatProofs TfRepProofs TfExpModel TfExpSpec TfExpProofs TfCalcProofs SgModel SgSpec SgKinSpec
  SgMapProofs SgIndexProofs SgNumberProofs SgInvProofs SgQueryProofs SgFkProofs SgFkProofs2 SgClaims1 SgClaims2 SgClaims3 SgChainProofs RkModel IkModel IkProofs IkPose IkSpec IkObj
  WkModel WkRateModel IkSolveModel IkSolveSpec IkSolve IkSolve2 IkSolve3.
Import ListNotations.
Open Scope R_scope.

(** ** Contexts *)
Lemma joint_decls_app g a b : joint_decls g (a ++ b) = joint_decls g a ++ joint_decls g b.
Proof. apply flat_map_app. Qed.
Lemma located_above g c1 c2 n rs : path g ""%string n rs -> (forall d, In d (joint_decls g rs) -> c1 (d_cfg d) = c2 (d_cfg d)) ->
  forall p x, located g c1 n p x -> located g c2 n p x.
Proof.
  induction 1 as [|n d l Nr Ne G P IH]; intros H p x L.
  - inversion L; subst; [constructor|congruence].
  - rewrite joint_decls_app in H. inversion L as [|n' d' p' x' Ne' G' L']; subst; [congruence|]. assert (d' = d) as -> by congruence.
    eapply loc_frame; [exact Ne|exact G|]. replace (rel_motion d c2 p) with (rel_motion d c1 p).
    + apply IH; [|exact L']. intros d' I. apply H, in_app_iff. now left.
    + assert (J : is_joint (d_type d) = true -> c1 (d_cfg d) = c2 (d_cfg d)).
      { intros J. apply H, in_app_iff. right. unfold joint_decls. cbn [flat_map]. rewrite G, J. now left. }
      unfold rel_motion. destruct (d_type d); [reflexivity|rewrite J by reflexivity; reflexivity..].
Qed.
Lemma centers_in lims : ordered lims -> in_limits lims (centers lims).
Proof.
  induction lims as [|l lims IH]; intros O; cbn [centers map]; constructor; [|apply IH, (ordered_tl _ _ O)].
  destruct l as [[a b]|]; [|exact Logic.I]. assert (a <= b) by (apply O; now left). lra.
Qed.
Lemma fits_list n q : length q = n -> fits (mkDV n q 1).
Proof. intros <- i Hi. unfold dv_get. cbn [dv_data dv_inc dv_len] in *. rewrite Nat.mul_1_r. now apply nth_error_Some. Qed.

Lemma c83_context h s root tip tz ls ss lims p junk n q :
  chain_of h s root tip tz ls ss -> limits_seen (declared h) s ls lims -> ordered lims ->
  config_count s = Ok n -> length q = n -> Z.of_nat (length junk) = frame_count s ->
  exists c c', ik_cx_create s ss p junk = Ok c /\ ik_set_start s c q = Ok c' /\
    ic_ss c' = ss /\ ic_parm c' = p /\ ic_start c' = q /\ in_limits lims (ic_seed c') /\
    ic_frames c' = [if Z.eqb (ip_frame p) FRAME_NONE then tz else ip_frame p] /\
    exists B, forall rs cfg, path (declared h) ""%string root rs ->
      (forall d, In d (joint_decls (declared h) rs) -> cfg (d_cfg d) = config_of s q (d_cfg d)) ->
      base_at (declared h) s cfg root B (ic_fk c').
Proof.
  intros C Ls Od Cn Lq Lj. pose proof (chain_limits _ _ _ _ _ _ _ _ C Ls) as Sn. destruct C as [Rd Fo Pr Nn Zt Bt (rz & jk & n' & Zr & _ & Cc)].
  destruct (c50_chain h s root tip rz tz ls jk Rd Fo Zr Zt Bt) as (zs & cs & E & _ & _). rewrite E in Cc. injection Cc as Ess.
  destruct (c47_fk_all h s (mkDV n (repeat 0 n) 1) junk Rd Fo Pr Cn (fits_list _ _ (repeat_length _ _)) eq_refl Lj) as (fk0 & F0 & L0 & _).
  destruct (c47_fk_all h s (mkDV n q 1) fk0 Rd Fo Pr Cn (fits_list _ _ Lq) eq_refl L0) as (fk1 & F1 & L1 & P1).
  exists (mkIC ss p (repeat 0 n) (centers lims) fk0 [if Z.eqb (ip_frame p) FRAME_NONE then tz else ip_frame p]).
  exists (mkIC ss p q (centers lims) fk1 [if Z.eqb (ip_frame p) FRAME_NONE then tz else ip_frame p]).
  split; [|split].
  - assert (Fr : (if Z.eqb (ip_frame p) FRAME_NONE then from (ss_ees ss) else Ok [ip_frame p]) = Ok [if Z.eqb (ip_frame p) FRAME_NONE then tz else ip_frame p])
      by (rewrite <- Ess; cbn [ss_ees from]; destruct (Z.eqb (ip_frame p) FRAME_NONE); reflexivity).
    unfold ik_cx_create. rewrite Fr. cbn [bind]. rewrite Cn. cbn [bind]. rewrite (sub_center_ok _ _ _ Sn). cbn [bind]. rewrite F0. reflexivity.
  - unfold ik_set_start. cbn [ic_start ic_fk ic_ss ic_parm ic_seed ic_frames]. rewrite repeat_length, Lq, Nat.eqb_refl, F1. reflexivity.
  - cbn [ic_start ic_fk ic_ss ic_parm ic_seed ic_frames]. do 3 (split; [reflexivity|]). split; [now apply centers_in|]. split; [reflexivity|].
    destruct (String.string_dec root "") as [->|Ne].
    + exists (mkE (mkQ 0 0 0 1) (mkV 0 0 0)). intros rs cfg _ _. split; [exact L1|now left].
    + destruct (ready_inv _ _ Rd) as [I [l X]]. destruct Zr as [Zr Zn]. destruct (zid_nth _ _ _ _ I X Fo root rz (conj Zr Zn) Ne) as (j & -> & J).
      assert (Lj' : (j < length l)%nat) by (apply nth_error_Some; congruence). rewrite (count_eq _ _ _ I _ X (proj1 Fo)) in L1.
      destruct (nth_error fk1 j) as [B|] eqn:N1; [|apply nth_error_None in N1; lia]. destruct (P1 root j B Zr N1) as [U Lo].
      exists B. intros rs cfg P A. split; [now rewrite (count_eq _ _ _ I _ X (proj1 Fo))|]. right. exists j. split; [now split|]. split; [exact N1|]. split; [exact U|].
      intros x. apply (located_above _ (config_view s (mkDV n q 1)) cfg root rs P); [|apply Lo]. intros d Hd. rewrite (A d Hd).
      unfold config_view, config_of, dv_get. cbn [dv_data dv_inc]. destruct (config_id s (d_cfg d)) as [i| | |]; try reflexivity. rewrite Nat.mul_1_r.
      destruct (nth_error q (Z.to_nat i)) eqn:Q; [now apply nth_error_nth with (d := 0) in Q|]. apply nth_error_None in Q. now rewrite nth_overflow.
Qed.

(** ** aa_rx_ik_check on a chain that starts at the root of the scene graph *)
Lemma check_is s c Er q junk fs tz : ic_frames c = tz :: fs -> length q = length (ss_configs (ic_ss c)) ->
  ik_check s c Er q junk = bind (obj_pose s (ic_ss c) tz q junk) (fun x => Ok (s_check (ic_parm c) Er (snd x))).
Proof.
  intros Ef L. unfold ik_check, obj_pose. rewrite L, Ef. destruct (fk_sub _ _ _ _); cbn [bind hd_error from]; try reflexivity.
  destruct (fk_read _ _); reflexivity.
Qed.
Lemma c83_check h s tip tz ls ss c fs Er cfg junk :
  chain_of h s ""%string tip tz ls ss -> ic_ss c = ss -> ic_frames c = tz :: fs -> unit_qutr Er -> Z.of_nat (length junk) = frame_count s ->
  exists r, ik_check s c Er (chain_config (declared h) ls cfg) junk = Ok r /\ (r = 0%Z \/ r = 3%Z) /\
    (r = 0%Z <-> reaches (declared h) cfg tip Er (1 / 2) (ip_angle (ic_parm c)) (ip_trans (ic_parm c))).
Proof.
  intros C Es Ef U Lj. assert (Hb : base_at (declared h) s cfg ""%string (mkE (mkQ 0 0 0 1) (mkV 0 0 0)) junk) by (split; [exact Lj|now left]).
  destruct (obj_pose_ok h s _ tip tz ls ss C cfg _ junk Hb) as (f & E & O & _ & Ue & L & _).
  exists (s_check (ic_parm c) Er E). split; [|split].
  - rewrite (check_is s c Er _ junk fs tz Ef), Es, O; [reflexivity|]. rewrite Es. eapply config_len. exact C.
  - apply s_check_codes.
  - rewrite s_check_0. now apply within_reaches.
Qed.

(** ** and on any other chain: the pose of its base is whatever the memory held *)
Section Junk.
  Variables (g : graph) (lim : lkind -> string -> option (R * R)) (s : sg) (l : list string).
  Hypothesis I : inv g lim s.
  Hypothesis X : indexed s l.
  Hypothesis D : s_dirty s = false.
  Hypothesis Fo : forest g.
  Hypothesis Pr : proper g.
  Variable cfg : string -> R.
  Variables (r : string) (jr : nat) (qo : list (option R)).
  Hypothesis Nr : r <> ""%string.
  Hypothesis Jr : nth_error l jr = Some r.

  Lemma fk_sub_shift n ls : path g r n ls -> forall zs, ids s ls zs -> forall ds,
    (forall d, In d (joint_decls g ls) -> In d ds) -> agree s cfg qo ds ->
    exists jn X, nth_error l jn = Some n /\ unit_qutr X /\
      forall B abs, unit_qutr B -> length abs = length l -> nth_error abs jr = Some B ->
      exists abs', fk_sub_loop s qo zs abs = Ok abs' /\ length abs' = length l /\ nth_error abs' jn = Some (qutr_mul B X).
  Proof.
    induction 1 as [|n d ls Nn Ne G P IH]; intros zs Hz ds Hd Ag.
    - inversion Hz; subst. exists jr, ident_qutr. split; [exact Jr|]. split; [unfold unit_qutr, ident_qutr, unitq, norm2; cbn; ring|].
      intros B abs U La N. exists abs. split; [reflexivity|]. split; [exact La|]. now rewrite qutr_mul_ident_r.
    - apply Forall2_app_inv_l in Hz as (zs1 & zs2 & Hz1 & Hz2 & ->).
      inversion Hz2 as [|n0 z l0 zs0 Z Hn E1 E2]; subst. inversion Hn; subst.
      destruct (IH zs1 Hz1 ds) as (jp & Xp & Jp & Up & Hp); auto.
      { intros d' Hin. apply Hd. rewrite joint_decls_app. apply in_or_app. now left. }
      assert (App : forall zs2 a, fk_sub_loop s qo (zs1 ++ zs2) a = bind (fk_sub_loop s qo zs1 a) (fk_sub_loop s qo zs2)).
      { clear. intros zs2. induction zs1 as [|z r' IH]; intros a; cbn [app fk_sub_loop bind]; auto.
        destruct (frame_at s z) as [f| | |]; cbn [bind]; auto. destruct (tf_rel_o f qo) as [e| | |]; cbn [bind]; auto.
        destruct (fk_set_rel s a z e); cbn [bind]; auto. }
      destruct (zid_nth _ _ _ _ I X Fo _ _ Z Ne) as (j & -> & J).
      destruct (frame_at_ok _ _ _ I _ X _ _ J) as (f & F & At & _).
      pose proof (find_decl _ _ _ I _ _ F) as Gf. rewrite G in Gf. apply some_inj in Gf. subst d.
      assert (Lj : (j < length l)%nat) by (apply nth_error_Some; congruence).
      destruct (rel_cfg _ _ _ _ I X D Fo Pr cfg n f F Ne) as [Ur _].
      exists j, (qutr_mul Xp (relq (qall s cfg) f)). split; [exact J|]. split; [now apply qutr_mul_unit|].
      intros B abs U La N. destruct (Hp B abs U La N) as (a1 & E1 & L1 & N1). rewrite App, E1. cbn [bind fk_sub_loop]. rewrite At. cbn [bind].
      rewrite (tf_rel_o_ok _ _ _ _ I X D Fo cfg n f qo ds F Ne); auto.
      2:{ intros T. apply Hd. rewrite joint_decls_app. apply in_or_app. right. unfold joint_decls. cbn [flat_map]. rewrite G. cbn [decl_of d_type]. rewrite T. now left. }
      cbn [bind]. assert (Pe : f_parent f <> ""%string).
      { intros Pe. cbn [decl_of d_parent] in P. rewrite Pe in P. clear - P Nr. remember ""%string as e eqn:Ee. destruct P; congruence. }
      unfold fk_set_rel. rewrite (frame_parent_ok _ _ _ I _ X D _ _ _ J F). cbn [bind].
      destruct (parent_first _ _ _ I _ X Fo _ _ _ J F Pe) as (q & Jq & Lt & Ep). rewrite Ep.
      destruct (Z.eqb_spec (Z.of_nat q) FRAME_ROOT) as [E|_]; [unfold FRAME_ROOT in E; lia|].
      assert (q = jp) as ->.
      { apply Nat2Z.inj. eapply zid_fun; (eapply nth_zid; [exact I|exact X|]); [exact Jq|exact Jp]. }
      unfold fk_read. destruct (Z.ltb_spec (Z.of_nat jp) 0); [lia|]. rewrite Nat2Z.id, N1. cbn [from bind].
      unfold fk_write. destruct (Z.ltb_spec (Z.of_nat j) 0); [lia|]. rewrite Nat2Z.id. destruct (Nat.ltb_spec j (length a1)); [|lia]. cbn [orb negb bind].
      eexists. split; [reflexivity|]. split; [now rewrite SgChainProofs.set_at_len|].
      rewrite SgChainProofs.nth_set_at, Nat.eqb_refl. destruct (Nat.ltb_spec j (length a1)); [|lia]. f_equal. symmetry. now apply qutr_mul_assoc.
  Qed.
End Junk.

Lemma qutr_unmul a x : unit_qutr a -> unit_qutr x -> qutr_mul (qutr_mul a (qutr_conj x)) x = a.
Proof. intros A U. rewrite <- qutr_mul_assoc by (try apply qutr_conj_unit; assumption). rewrite qutr_conj_l by exact U. apply qutr_mul_ident_r. Qed.

Lemma c83_check_junk h s root tip tz ls ss c fs Er cfg :
  chain_of h s root tip tz ls ss -> root <> ""%string -> path (declared h) root tip ls ->
  ic_ss c = ss -> ic_frames c = tz :: fs -> unit_qutr Er -> 0 < ip_angle (ic_parm c) -> 0 < ip_trans (ic_parm c) ->
  exists junk junk', Z.of_nat (length junk) = frame_count s /\ Z.of_nat (length junk') = frame_count s /\
    ik_check s c Er (chain_config (declared h) ls cfg) junk = Ok 0%Z /\
    ik_check s c Er (chain_config (declared h) ls cfg) junk' = Ok 3%Z.
Proof.
  intros C Nr P Es Ef U Ta Tt. pose proof (config_len h s root tip tz ls ss C cfg) as Lc.
  destruct C as [Rd Fo Pr Nn Zt Bt (rz & jk & n & Zr & Cn & Cc)].
  destruct (c50_chain h s root tip rz tz ls jk Rd Fo Zr Zt Bt) as (zs & cs & E & H1 & H2). rewrite E in Cc. injection Cc as Ess.
  destruct (ready_inv _ _ Rd) as [I [l X]]. assert (D : s_dirty s = false) by apply Rd. destruct (ready_count _ _ _ X Cn) as [Cs Lcr].
  set (ds := joint_decls (declared h) ls) in *. set (q := chain_config (declared h) ls cfg) in *.
  destruct (scatter_ok s l X cfg (mkDV (length q) q 1) ds cs 0 (repeat None n) H2) as (qo & Sc & Lqo & Ag & _).
  { intros d k Hd Hc. rewrite repeat_length, <- Lcr. apply (config_id_inv _ _ _ _ X) in Hc. apply nth_error_Some. congruence. }
  { intros j d Hj. unfold dv_get. cbn [dv_data dv_inc]. rewrite Nat.mul_1_r. unfold q. now apply nth_chain_config. }
  destruct (zid_nth _ _ _ _ I X Fo root rz Zr Nr) as (jr & -> & Jr).
  destruct (fk_sub_shift _ _ _ _ I X D Fo Pr cfg root jr qo Nr Jr tip ls P zs H1 ds (fun d H => H) Ag) as (jt & Xc & Jt & Ux & Run).
  assert (Zj : tz = Z.of_nat jt). { eapply zid_fun; [exact Zt|]. eapply nth_zid; eauto. }
  assert (Ljr : (jr < length l)%nat) by (apply nth_error_Some; congruence).
  rewrite (count_eq _ _ _ I _ X (proj1 Fo)).
  assert (Go : forall B, unit_qutr B -> ik_check s c Er q (repeat B (length l)) = Ok (s_check (ic_parm c) Er (qutr_mul B Xc))).
  { intros B Ub. destruct (Run B (repeat B (length l)) Ub (repeat_length _ _)) as (a & Ra & _ & Na).
    { rewrite (nth_error_nth' _ B) by (now rewrite repeat_length). f_equal. apply nth_repeat. }
    unfold ik_check, fk_sub, clean. rewrite D, Cn. cbn [bind]. unfold sub_scatter. rewrite Cn, Es. cbn [bind dv_len]. rewrite Lc, repeat_length, !Nat.eqb_refl. cbn [negb orb].
    rewrite <- Ess. cbn [ss_configs ss_frames]. rewrite Lc, <- Ess in Sc. cbn [ss_configs] in Sc. rewrite Sc. cbn [bind]. rewrite Ra. cbn [bind]. rewrite Ef, Zj. cbn [hd_error from bind].
    unfold fk_read. destruct (Z.ltb_spec (Z.of_nat jt) 0); [lia|]. rewrite Nat2Z.id, Na. reflexivity. }
  assert (T0 : forall E', unit_qutr E' -> TfModel.eq E' = TfModel.eq Er -> snd (err2 E' Er) = IkSpec.dist (ev E') (ev Er) /\ fst (err2 E' Er) = 0).
  { intros E' U' Q. assert (T : turn_to (place (TfModel.eq E') (ev E')) (TfModel.eq Er) 0).
    { pose proof PI_RGT_0. split; [lra|]. exists (mkV 0 0 1). split; [unfold unit3, dot; cbn; ring|]. intros x.
      rewrite rod0, Q, place_zero, !place_rot by exact U. f_equal. generalize (qrot (TfModel.eq Er) x). intros []. unfold plus3, zero3. cbn. f_equal; ring. }
    rewrite (err2_ok E' Er 0 U' U T). cbn [fst snd]. split; [reflexivity|lra]. }
  set (B0 := qutr_mul Er (qutr_conj Xc)). assert (U0 : unit_qutr B0) by (apply qutr_mul_unit; [exact U|now apply qutr_conj_unit]).
  set (T := mkE (mkQ 0 0 0 1) (mkV (ip_trans (ic_parm c)) 0 0)). assert (Ut : unit_qutr T) by (unfold unit_qutr, unitq, norm2; cbn; ring).
  exists (repeat B0 (length l)), (repeat (qutr_mul T B0) (length l)). rewrite !repeat_length. split; [reflexivity|]. split; [reflexivity|].
  split; rewrite Go.
  - f_equal. apply s_check_0. unfold B0. rewrite qutr_unmul by assumption. destruct (T0 Er U eq_refl) as [Td Tn]. unfold within. rewrite Td, Tn. split; [exact Ta|].
    unfold IkSpec.dist. replace (dist2 (ev Er) (ev Er)) with 0; [rewrite sqrt_0; lra|]. unfold dist2, minus3, plus3, times3, dot. destruct (ev Er). cbn. ring.
  - exact U0.
  - f_equal. destruct (s_check_codes (ic_parm c) Er (qutr_mul (qutr_mul T B0) Xc)) as [H|H]; [exfalso|exact H]. apply s_check_0 in H as [_ H].
    rewrite <- qutr_mul_assoc in H by assumption. unfold B0 in H. rewrite qutr_unmul in H by assumption.
    assert (Q : TfModel.eq (qutr_mul T Er) = TfModel.eq Er) by (unfold T; clear; destruct Er as [[] ?]; tfc; f_equal; ring).
    destruct (T0 (qutr_mul T Er) (qutr_mul_unit _ _ Ut U) Q) as [Td _]. rewrite Td in H.
    assert (V : ev (qutr_mul T Er) = plus3 (mkV (ip_trans (ic_parm c)) 0 0) (ev Er)).
    { change (ev (qutr_mul T Er)) with (qutr_tf T (ev Er)). rewrite qutr_tf_eq. unfold T. cbn [TfModel.eq ev]. destruct (ev Er). tfc. f_equal; ring. }
    rewrite V in H. unfold IkSpec.dist in H. replace (dist2 (plus3 (mkV (ip_trans (ic_parm c)) 0 0) (ev Er)) (ev Er)) with (ip_trans (ic_parm c) * ip_trans (ic_parm c)) in H.
    + rewrite sqrt_square in H by lra. lra.
    + unfold dist2, minus3, plus3, times3, dot. destruct (ev Er). cbn. ring.
  - now apply qutr_mul_unit.
Qed.
