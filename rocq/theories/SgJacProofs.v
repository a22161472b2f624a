(** The manipulator Jacobian is the derivative of forward kinematics. *)
From Coq Require Import ZArith String List Bool Reals Lia Lra.
From Verif Require Import TfModel TfSpec TfProofs TfRotmatProofs TfRepProofs TfCalcProofs TfConvProofs TfFrameProofs TfScrewProofs
  SgModel SgSpec SgKinSpec SgMapProofs SgIndexProofs SgNumberProofs SgInvProofs SgQueryProofs SgClaims1 SgFkProofs SgFkProofs2 SgClaims2
  SgChainProofs SgClaims3.
Import ListNotations.
Open Scope R_scope.

(** ** Rigid maps and composite velocities *)

Definition rigid (F : V3 -> V3) : Prop := exists E, unit_qutr E /\ forall p, F p = qutr_tf E p.
Definition e1 := mkV 1 0 0. Definition e2 := mkV 0 1 0. Definition e3 := mkV 0 0 1.
Definition minus3 (a b : V3) := plus3 a (times3 (-1) b).
Lemma rigid_affine F p : rigid F ->
  F p = plus3 (F zero3) (plus3 (times3 (vx p) (minus3 (F e1) (F zero3)))
         (plus3 (times3 (vy p) (minus3 (F e2) (F zero3))) (times3 (vz p) (minus3 (F e3) (F zero3))))).
Proof.
  intros (E & U & H). rewrite !H. clear. unfold minus3, e1, e2, e3. destruct E as [[x y z w] [a b c]], p as [p1 p2 p3]. tfc. f_equal; ring.
Qed.

Lemma comp_vel F t v w m dm : (forall s, rigid (F s)) -> body_velocity F t v w -> vderiv m t dm ->
  vderiv (fun s => F s (m s)) t (plus3 (plus3 v (xprod w (minus3 (F t (m t)) (F t zero3)))) (minus3 (F t dm) (F t zero3))).
Proof.
  intros Rg B M. eapply vderiv_ext; [intros s; symmetry; apply rigid_affine, Rg|].
  rewrite (rigid_affine (F t) (m t) (Rg t)), (rigid_affine (F t) dm (Rg t)).
  pose proof (B zero3) as B0. pose proof (B e1) as B1. pose proof (B e2) as B2. pose proof (B e3) as B3.
  destruct B0 as (b01 & b02 & b03), B1 as (b11 & b12 & b13), B2 as (b21 & b22 & b23), B3 as (b31 & b32 & b33), M as (m1 & m2 & m3).
  split; [|split]; cbn [plus3 times3 minus3 vx vy vz]; (eapply dpl_eq; [|dpl]; cbv beta);
  destruct (F t zero3) as [f01 f02 f03], (F t e1) as [f11 f12 f13], (F t e2) as [f21 f22 f23], (F t e3) as [f31 f32 f33],
    (m t) as [x1 x2 x3], dm as [d1 d2 d3], v as [v1 v2 v3], w as [w1 w2 w3]; unfold minus3; tfc; cbn [vx vy vz]; ring.
Qed.

Lemma dpl_comp f g t a b : derivable_pt_lim f t a -> derivable_pt_lim g (f t) b -> derivable_pt_lim (fun s => g (f s)) t (b * a).
Proof. intros A B. exact (derivable_pt_lim_comp f g t a b A B). Qed.
Lemma rodrigues_deriv k th t dth p : unit3 k -> derivable_pt_lim th t dth ->
  vderiv (fun s => rodrigues k (th s) p) t (times3 dth (xprod k (rodrigues k (th t) p))).
Proof.
  intros U H.
  assert (C : derivable_pt_lim (fun s => cos (th s)) t (- sin (th t) * dth)) by (apply dpl_comp; auto; apply derivable_pt_lim_cos).
  assert (S : derivable_pt_lim (fun s => sin (th s)) t (cos (th t) * dth)) by (apply dpl_comp; auto; apply derivable_pt_lim_sin).
  destruct k as [k1 k2 k3], p as [p1 p2 p3]. unfold unit3, dot in U. cbn [vx vy vz] in U.
  unfold rodrigues, vderiv, plus3, times3, xprod, dot. cbn [vx vy vz].
  split; [|split]; (eapply dpl_eq; [|dpl]; cbv beta); [| |];
    set (c := cos (th t)); set (s := sin (th t)); clearbody c s; clear -U; apply Rminus_diag_uniq;
    [transitivity (p1 * s * dth * (k1 * k1 + k2 * k2 + k3 * k3 - 1))|transitivity (p2 * s * dth * (k1 * k1 + k2 * k2 + k3 * k3 - 1))
    |transitivity (p3 * s * dth * (k1 * k1 + k2 * k2 + k3 * k3 - 1))]; try ring; rewrite U; ring.
Qed.
Lemma rodrigues_axis k t : unit3 k -> rodrigues k t k = k.
Proof.
  intros U. destruct k as [k1 k2 k3]. unfold unit3, dot in U. cbn [vx vy vz] in U. unfold rodrigues, plus3, times3, xprod, dot. cbn [vx vy vz].
  rewrite U. f_equal; ring.
Qed.

(** ** One joint *)

Lemma place_rigid d : unitq (d_q d) -> rigid (place (d_q d) (d_v d)).
Proof. intros U. exists (mkE (d_q d) (d_v d)). split; [exact U|]. intros p. now apply place_tf. Qed.
Lemma joint_rigid t a x : (t = Revolute -> unit3 a) -> rigid (joint_motion t a x).
Proof.
  intros U. destruct t; unfold rigid, joint_motion.
  - exists ident_tf. split; [unfold ident_tf; tfc; cbn; ring|]. intros [p1 p2 p3]. unfold ident_tf. tfc. f_equal; ring.
  - specialize (U eq_refl). exists (mkE (axang2quat (mkA a x)) zero3).
    destruct (axang_forms a x zero3 U) as (_ & _ & _ & Uq & _). split; [exact Uq|]. intros p.
    destruct (axang_forms a x p U) as (_ & _ & _ & _ & _ & E). rewrite qutr_tf_eq. cbn [ev TfModel.eq]. rewrite E.
    destruct (rodrigues a x p). tfc. f_equal; ring.
  - exists (mkE (mkQ 0 0 0 1) (times3 x a)). split; [tfc; cbn; ring|]. intros [p1 p2 p3]. destruct a. tfc. f_equal; ring.
Qed.
Lemma rigid_comp F G : rigid F -> rigid G -> rigid (fun p => F (G p)).
Proof.
  intros (E & U & H) (E' & U' & H'). exists (qutr_mul E E'). split; [now apply qutr_mul_unit|].
  intros p. rewrite H, H'. now rewrite qutr_mul_acts.
Qed.
Lemma rel_rigid d c : proper_decl d -> rigid (rel_motion d c).
Proof.
  intros [U A]. unfold rel_motion. apply (rigid_comp (place (d_q d) (d_v d)) (joint_motion (d_type d) (d_axis d) (c (d_cfg d) + d_off d))).
  - now apply place_rigid. - now apply joint_rigid.
Qed.
Lemma rigid_cross F a b : rigid F -> minus3 (F (xprod a b)) (F zero3) = xprod (minus3 (F a) (F zero3)) (minus3 (F b) (F zero3)).
Proof.
  intros (E & U & H). rewrite !H, !qutr_tf_eq, (rm_cross _ (qrot_rotation _ U)), qrot_zero.
  destruct (qrot (TfModel.eq E) a), (qrot (TfModel.eq E) b), (ev E). unfold minus3. tfc. f_equal; ring.
Qed.
Lemma rigid_scale F k a : rigid F -> minus3 (F (times3 k a)) (F zero3) = times3 k (minus3 (F a) (F zero3)).
Proof.
  intros (E & U & H). rewrite !H, !qutr_tf_eq, (rm_scale _ (qrot_rotation _ U)), qrot_zero.
  destruct (qrot (TfModel.eq E) a), (ev E). unfold minus3. tfc. f_equal; ring.
Qed.
Lemma rigid_diff F a b : rigid F -> minus3 (F (plus3 a b)) (F a) = minus3 (F b) (F zero3).
Proof.
  intros (E & U & H). rewrite !H, !qutr_tf_eq, (rm_add _ (qrot_rotation _ U)), qrot_zero.
  destruct (qrot (TfModel.eq E) a), (qrot (TfModel.eq E) b), (ev E). unfold minus3. tfc. f_equal; ring.
Qed.

Definition vel_add (t : ftype) (x : R) (a v w : V3) : V3 * V3 :=
  match t with
  | Fixed => (v, w)
  | Revolute => (v, plus3 w (times3 x a))
  | Prismatic => (plus3 v (times3 x a), w)
  end.

Lemma step_vel F t v w d (c : R -> string -> R) dx : proper_decl d -> (forall s, rigid (F s)) -> body_velocity F t v w ->
  (is_joint (d_type d) = true -> derivable_pt_lim (fun s => c s (d_cfg d)) t dx) ->
  let G := fun s p => F s (rel_motion d (c s) p) in
  let a := minus3 (G t (d_axis d)) (G t zero3) in
  let '(v', w') := vel_add (d_type d) dx a (plus3 v (xprod w (minus3 (G t zero3) (F t zero3)))) w in
  body_velocity G t v' w'.
Proof.
  intros [Uq Ua] Rg B Hd G a.
  set (P := place (d_q d) (d_v d)). assert (RP : rigid P) by now apply place_rigid.
  assert (RF : rigid (fun p => F t (P p))) by (apply rigid_comp; auto).
  set (th := fun s => c s (d_cfg d) + d_off d).
  assert (Ht : is_joint (d_type d) = true -> derivable_pt_lim th t dx).
  { intros J. unfold th. eapply dpl_eq; [|apply dpl_plus; [apply Hd; exact J|apply dpl_const]]. ring. }
  assert (GP : forall s p, G s p = F s (P (joint_motion (d_type d) (d_axis d) (th s) p))) by reflexivity.
  (* derivative of the placed point from that of the point inside *)
  assert (DP : forall m dm, vderiv m t dm -> vderiv (fun s => P (m s)) t (minus3 (P dm) (P zero3))).
  { intros m dm Hm. pose proof (comp_vel (fun _ => P) t zero3 zero3 m dm (fun _ => RP)) as K.
    eapply vderiv_eq; [|apply K; auto].
    - destruct (P dm), (P zero3), (P (m t)). unfold minus3. tfc. f_equal; ring.
    - intros p. eapply vderiv_eq; [|apply vderiv_const]. destruct (P p), (P zero3). tfc. f_equal; ring. }
  assert (K : forall p m dm, (forall s, joint_motion (d_type d) (d_axis d) (th s) p = m s) -> vderiv m t dm ->
    vderiv (fun s => G s p) t (plus3 (plus3 v (xprod w (minus3 (G t p) (F t zero3)))) (minus3 (F t (P dm)) (F t (P zero3))))).
  { intros p m dm E Hm. pose proof (comp_vel F t v w _ _ Rg B (DP m dm Hm)) as Q. rewrite GP, E.
    apply (vderiv_ext (fun s => F s (P (m s)))); [intros s; rewrite GP, E; reflexivity|]. eapply vderiv_eq; [|exact Q]. f_equal.
    destruct (Rg t) as (E1 & U1 & H1). rewrite !H1, !qutr_tf_eq. destruct RP as (E2 & U2 & H2). rewrite !H2, !qutr_tf_eq, qrot_zero.
    assert (L : forall a b, plus3 b zero3 = b -> minus3 (plus3 b a) (plus3 b zero3) = a).
    { intros [] [] _. unfold minus3. tfc. f_equal; ring. }
    rewrite L by (destruct (ev E2); tfc; f_equal; ring).
    rewrite !(rm_add _ (qrot_rotation _ U1)), qrot_zero.
    destruct (qrot (TfModel.eq E1) (ev E2)), (qrot (TfModel.eq E1) (qrot (TfModel.eq E2) dm)), (ev E1). unfold minus3. tfc. f_equal; ring. }
  destruct (d_type d) eqn:T; cbn [vel_add]; intros p.
  - eapply vderiv_eq; [|apply (K p (fun _ => p) zero3); [reflexivity|apply vderiv_const]].
    unfold minus3. destruct (G t p), (G t zero3), (F t zero3), (F t (P zero3)), v, w. tfc. f_equal; ring.
  - specialize (Ua eq_refl). specialize (Ht eq_refl).
    eapply vderiv_eq; [|apply (K p (fun s => rodrigues (d_axis d) (th s) p) (times3 dx (xprod (d_axis d) (rodrigues (d_axis d) (th t) p))));
      [reflexivity|apply rodrigues_deriv; auto]].
    rewrite (rigid_scale (fun x => F t (P x))) by exact RF. rewrite (rigid_cross (fun x => F t (P x))) by exact RF. cbv beta.
    assert (Ea : F t (P (d_axis d)) = G t (d_axis d)) by (rewrite GP; cbn [joint_motion]; now rewrite rodrigues_axis).
    assert (E0 : F t (P zero3) = G t zero3).
    { rewrite GP. cbn [joint_motion]. do 2 f_equal. destruct (d_axis d). unfold rodrigues. tfc. f_equal; ring. }
    assert (Ep : F t (P (rodrigues (d_axis d) (th t) p)) = G t p) by (now rewrite GP).
    rewrite Ea, E0, Ep. fold a. destruct a, (G t p), (G t zero3), (F t zero3), v, w. unfold minus3. tfc. f_equal; ring.
  - specialize (Ht eq_refl).
    eapply vderiv_eq; [|apply (K p (fun s => plus3 (times3 (th s) (d_axis d)) p) (times3 dx (d_axis d))); [reflexivity|]].
    + rewrite (rigid_scale (fun x => F t (P x))) by exact RF. cbv beta.
      assert (Ea : minus3 (F t (P (d_axis d))) (F t (P zero3)) = a).
      { unfold a. rewrite !GP. cbn [joint_motion].
        assert (Z : plus3 (times3 (th t) (d_axis d)) zero3 = times3 (th t) (d_axis d)) by (destruct (d_axis d); tfc; f_equal; ring).
        rewrite Z. symmetry. apply (rigid_diff (fun x => F t (P x))). exact RF. }
      rewrite Ea. destruct a, (G t p), (G t zero3), (F t zero3), v, w. unfold minus3. tfc. f_equal; ring.
    + destruct (d_axis d) as [a1 a2 a3], p as [p1 p2 p3]. split; [|split]; cbn [plus3 times3 vx vy vz]; (eapply dpl_eq; [|dpl]); cbv beta; ring.
Qed.

(** ** Sums of columns *)
Lemma col_sum_app J1 dq1 J2 dq2 : length J1 = length dq1 ->
  col_sum (J1 ++ J2) (dq1 ++ dq2) =
  (plus3 (fst (col_sum J1 dq1)) (fst (col_sum J2 dq2)), plus3 (snd (col_sum J1 dq1)) (snd (col_sum J2 dq2))).
Proof.
  revert dq1. induction J1 as [|[r t] J IH]; intros [|x dq] L; try discriminate.
  - cbn. destruct (col_sum J2 dq2) as [[] []]. cbn. unfold plus3; cbn. f_equal; f_equal; ring.
  - cbn [app col_sum]. rewrite IH by (cbn in L; lia). destruct (col_sum J dq) as [[] []], (col_sum J2 dq2) as [[] []], r, t.
    cbn [fst snd]. unfold plus3, times3; cbn [TfModel.vx TfModel.vy TfModel.vz]. f_equal; f_equal; ring.
Qed.
Lemma vsub_minus a b : vsub a b = minus3 a b.
Proof. destruct a, b. unfold minus3. tfc. f_equal; ring. Qed.

Section Jac.
  Variables (g : graph) (lim : lkind -> string -> option (R * R)) (s : sg) (l : list string).
  Hypothesis I : inv g lim s.
  Hypothesis X : indexed s l.
  Hypothesis D : s_dirty s = false.
  Hypothesis Fo : forest g.
  Hypothesis Pr : proper g.
  Variable abs : list QV.

  (** the columns *)
  Definition entry_of (n : string) : QV :=
    match frame_id s n with Ok z => List.nth (Z.to_nat z) abs ident_tf | _ => ident_tf end.
  Definition cols (col : ftype -> V3 -> QV -> V3 * V3) (ls : list string) : list (V3 * V3) :=
    flat_map (fun n => match g n with
                       | Some d => if is_joint (d_type d) then [col (d_type d) (d_axis d) (entry_of n)] else []
                       | None => []
                       end) ls.
  Lemma cols_len col ls : length (cols col ls) = length (joint_decls g ls).
  Proof.
    unfold cols, joint_decls. induction ls as [|n r IH]; auto. cbn. rewrite !app_length, IH. f_equal.
    destruct (g n) as [d|]; auto. now destruct (is_joint (d_type d)).
  Qed.

  Lemma jac_loop_ok col ls zs : ids s ls zs -> (forall n, In n ls -> g n <> None /\ n <> ""%string) ->
    (forall n, In n ls -> exists i E, zid s n (Z.of_nat i) /\ nth_error abs i = Some E) ->
    jac_loop s col abs zs (length (joint_decls g ls)) = Ok (cols col ls).
  Proof.
    intros H. induction H as [|n z ls zs Zn H IH]; intros G En; auto.
    destruct (G n) as [Gn Ne]; [now left|]. destruct (g n) as [d|] eqn:Gd; [|congruence].
    destruct (zid_up _ _ _ _ I X D Fo n d z Gd Ne Zn) as (j & p & Ej & _ & Ty & _).
    specialize (IH (fun m M => G m (or_intror M)) (fun m M => En m (or_intror M))).
    cbn [joint_decls cols flat_map]. rewrite Gd. fold (joint_decls g ls). fold (cols col ls).
    destruct (is_joint (d_type d)) eqn:T.
    - cbn [app length jac_loop]. destruct (Z.ltb_spec z 0); [lia|]. rewrite Ty. cbn [bind]. rewrite T.
      destruct (zid_nth _ _ _ _ I X Fo _ _ Zn Ne) as (j' & Ej' & J). subst z. apply Nat2Z.inj in Ej'. subst j'.
      destruct (frame_at_ok _ _ _ I _ X _ _ J) as (f & F & At & _).
      pose proof (find_decl _ _ _ I _ _ F) as Gf. rewrite Gd in Gf. apply some_inj in Gf. subst d.
      unfold frame_axis. rewrite D, At. cbn [bind]. cbn [decl_of d_type d_axis] in *. rewrite T. cbn [bind].
      destruct (En n) as (i & E & Zi & Ni); [now left|].
      assert (i = j) by (apply Nat2Z.inj; eapply zid_fun; eauto). subst i.
      unfold fk_read. destruct (Z.ltb_spec (Z.of_nat j) 0); [lia|]. rewrite Nat2Z.id, Ni. cbn [from bind].
      rewrite IH. cbn [bind]. f_equal. f_equal. unfold entry_of. rewrite (proj1 Zi), Nat2Z.id.
      now rewrite (nth_error_nth _ _ _ Ni).
    - cbn [app]. destruct (length (joint_decls g ls)) as [|k] eqn:Lk.
      + cbn. assert (length (cols col ls) = 0%nat) by (rewrite cols_len; exact Lk). destruct (cols col ls); [reflexivity|discriminate].
      + cbn [jac_loop]. destruct (Z.ltb_spec z 0); [lia|]. rewrite Ty. cbn [bind]. rewrite T. exact IH.
  Qed.

  Variables (cfg : R -> string -> R) (t : R) (dcfg : string -> R).
  Definition dqs (ls : list string) : list R := map (fun d => dcfg (d_cfg d)) (joint_decls g ls).

  Lemma jac_path r posr n ls : path g r n ls ->
    (forall u p, located g (cfg u) r p (posr p)) -> rigid posr ->
    (forall d, In d (joint_decls g ls) -> derivable_pt_lim (fun u => cfg u (d_cfg d)) t (dcfg (d_cfg d))) ->
    (forall m, In m ls -> entry g s (cfg t) abs m) ->
    exists pos v w, (forall u p, located g (cfg u) n p (pos u p)) /\ (forall u, rigid (pos u)) /\
      body_velocity pos t v w /\
      forall x, col_sum (cols (fun ty a E => jac_vel_col ty a E x) ls) (dqs ls) =
                (w, plus3 v (xprod w (minus3 x (pos t zero3)))).
  Proof.
    induction 1 as [|n d ls Nr Ne G P IH]; intros Lr Rr Hd En.
    - exists (fun _ => posr), zero3, zero3. split; [auto|]. split; [auto|]. split.
      + intros p. eapply vderiv_eq; [|apply vderiv_const]. destruct (posr p), (posr zero3). tfc. f_equal; ring.
      + intros x. cbn. destruct x, (posr zero3). unfold minus3. tfc. f_equal; f_equal; ring.
    - destruct IH as (F & v & w & LF & RF & BF & SF); auto.
      { intros d' Hin. apply Hd. unfold joint_decls in *. rewrite flat_map_app. apply in_or_app. now left. }
      { intros m M. apply En. apply in_or_app. now left. }
      pose proof (Pr _ _ G) as Pd.
      assert (Hj : is_joint (d_type d) = true -> derivable_pt_lim (fun u => cfg u (d_cfg d)) t (dcfg (d_cfg d))).
      { intros J. apply Hd. apply joint_in with (n := n); auto. apply in_or_app. right. now left. }
      pose proof (step_vel F t v w d cfg (dcfg (d_cfg d)) Pd RF BF Hj) as St. cbv zeta in St.
      set (Gm := fun u p => F u (rel_motion d (cfg u) p)) in *.
      assert (LG : forall u p, located g (cfg u) n p (Gm u p)) by (intros u p; apply loc_frame with (d := d); auto; apply LF).
      assert (RG : forall u, rigid (Gm u)) by (intros u; apply (rigid_comp (F u)); auto; now apply rel_rigid).
      change (F t (rel_motion d (cfg t) (d_axis d))) with (Gm t (d_axis d)) in St.
      change (F t (rel_motion d (cfg t) zero3)) with (Gm t zero3) in St.
      (* the entry of n *)
      destruct (En n) as [|(i & E & Zi & Ni & Ue & Le)]; [apply in_or_app; right; now left|congruence|].
      assert (Et : forall p, Gm t p = qutr_tf E p).
      { intros p. rewrite <- place_E by exact Ue. eapply located_fun; [apply LG|apply Le]. }
      assert (Ea : minus3 (Gm t (d_axis d)) (Gm t zero3) = qrot (TfModel.eq E) (d_axis d)).
      { rewrite !Et, !qutr_tf_eq, qrot_zero. destruct (qrot (TfModel.eq E) (d_axis d)), (ev E). unfold minus3. tfc. f_equal; ring. }
      assert (Eo : ev E = Gm t zero3).
      { rewrite Et, qutr_tf_eq, qrot_zero. destruct (ev E). tfc. f_equal; ring. }
      rewrite Ea in St.
      assert (Eof : entry_of n = E).
      { unfold entry_of. rewrite (proj1 Zi), Nat2Z.id. now apply nth_error_nth. }
      assert (Cn : forall col, cols col (ls ++ [n]) = cols col ls ++ (if is_joint (d_type d) then [col (d_type d) (d_axis d) E] else [])).
      { intros col. unfold cols. rewrite flat_map_app. cbn [flat_map]. rewrite G, app_nil_r, Eof. reflexivity. }
      assert (Qn : dqs (ls ++ [n]) = dqs ls ++ (if is_joint (d_type d) then [dcfg (d_cfg d)] else [])).
      { unfold dqs, joint_decls. rewrite flat_map_app, map_app. cbn [flat_map]. rewrite G, app_nil_r.
        now destruct (is_joint (d_type d)). }
      assert (Ll : forall col, length (cols col ls) = length (dqs ls)).
      { intros col. unfold dqs. now rewrite map_length, cols_len. }
      destruct (vel_add (d_type d) (dcfg (d_cfg d)) (qrot (TfModel.eq E) (d_axis d))
        (plus3 v (xprod w (minus3 (Gm t zero3) (F t zero3)))) w) as [v' w'] eqn:VA.
      exists Gm, v', w'. split; [exact LG|]. split; [exact RG|]. split; [exact St|].
      intros x. rewrite Cn, Qn, col_sum_app by apply Ll. rewrite SF. cbn [fst snd].
      destruct (d_type d) eqn:T; cbn [is_joint vel_add col_sum jac_vel_col fst snd] in *; injection VA as <- <-.
      + destruct (Gm t zero3), (F t zero3), v, w, x. unfold minus3. tfc. f_equal; f_equal; ring.
      + rewrite vsub_minus, Eo. unfold cross. destruct (qrot (TfModel.eq E) (d_axis d)), (Gm t zero3), (F t zero3), v, w, x.
        unfold minus3. tfc. f_equal; f_equal; ring.
      + destruct (qrot (TfModel.eq E) (d_axis d)), (Gm t zero3), (F t zero3), v, w, x.
        unfold minus3. tfc. f_equal; f_equal; ring.
  Qed.

  Lemma path_rigid c r n ls F : path g r n ls -> (forall p, located g c r p (F p)) -> rigid F ->
    exists G, (forall p, located g c n p (G p)) /\ rigid G.
  Proof.
    induction 1 as [|n d ls Nr Ne G P IH]; intros L Rg; [exists F; auto|].
    destruct (IH L Rg) as (H & LH & RH). exists (fun p => H (rel_motion d c p)). split.
    - intros p. apply loc_frame with (d := d); auto.
    - apply (rigid_comp H); auto. apply rel_rigid. eapply Pr; eauto.
  Qed.
  Lemma ident_rigid : rigid (fun p => p).
  Proof. exact (joint_rigid Fixed zero3 0 ltac:(discriminate)). Qed.
End Jac.

Lemma twist_cols g s abs ls : cols g s abs jac_twist_col ls = cols g s abs (fun ty a E => jac_vel_col ty a E zero3) ls.
Proof.
  unfold cols. induction ls as [|n r IH]; cbn; auto. rewrite IH. f_equal. destruct (g n) as [d|]; auto.
  destruct (is_joint (d_type d)); auto. f_equal. unfold jac_twist_col, jac_vel_col. destruct (d_type d); auto. f_equal.
  destruct (qrot (TfModel.eq (entry_of s abs n)) (d_axis d)), (ev (entry_of s abs n)). unfold cross. tfc. f_equal; ring.
Qed.

Lemma c52 h s root tip rz tz ls junk ss abs cfg dcfg t pos posr :
  ready h s -> forest (declared h) -> proper (declared h) ->
  id_of s root rz -> id_of s tip tz -> ls <> [] ->
  (path (declared h) root tip ls /\ (forall u p, located (declared h) (cfg u) root p (posr p)) \/
   path (declared h) ""%string tip ls /\ ~ In root ls) ->
  chain_create s rz tz junk = Ok ss ->
  (forall d, In d (joint_decls (declared h) ls) -> derivable_pt_lim (fun u => cfg u (d_cfg d)) t (dcfg (d_cfg d))) ->
  (forall m, In m ls -> posed_at (declared h) s (cfg t) abs m) ->
  (forall u p, located (declared h) (cfg u) tip p (pos u p)) ->
  exists J K v w,
    chain_jacobian s abs ss = Ok J /\ jac_twist s abs ss = Ok K /\
    col_sum J (map (fun d => dcfg (d_cfg d)) (joint_decls (declared h) ls)) = (w, v) /\
    col_sum K (map (fun d => dcfg (d_cfg d)) (joint_decls (declared h) ls)) = (w, plus3 v (xprod (pos t zero3) w)) /\
    body_velocity pos t v w.
Proof.
  intros Rd Fo Pr Zr Zt Nn Bt Cc Hd En Lp.
  assert (B : between (declared h) root tip ls) by (destruct Bt as [[]|[]]; [left|right]; auto).
  destruct (c50_chain h s root tip rz tz ls junk Rd Fo Zr Zt B) as (zs & cs & E & H1 & H2).
  rewrite E in Cc. injection Cc as <-.
  destruct (ready_inv _ _ Rd) as [I [l X]]. destruct Rd as [_ D].
  assert (Lc : length cs = length (joint_decls (declared h) ls)) by (clear -H2; induction H2; cbn; auto).
  destruct (between_r _ _ _ _ B) as (r & P & Hr & Nin).
  assert (Gl : forall m, In m ls -> declared h m <> None /\ m <> ""%string).
  { intros m M. destruct (path_in _ _ _ _ P m M) as (d & Gd & Ne & _). split; congruence. }
  assert (En' : forall m, In m ls -> exists i E, zid s m (Z.of_nat i) /\ nth_error abs i = Some E).
  { intros m M. destruct (En m M) as [->|(i & Em & Zi & Ni & _)]; [destruct (Gl _ M); congruence|]. exists i, Em. auto. }
  (* the static base *)
  assert (Base : exists F0 r', path (declared h) r' tip ls /\ (forall u p, located (declared h) (cfg u) r' p (F0 p)) /\ rigid F0).
  { destruct Bt as [[P1 Hpos]|[P1 N1]].
    - exists posr, root. split; auto. split; auto.
      assert (T : root = ""%string \/ declared h root <> None).
      { destruct (String.string_dec root "") as [->|Ne]; [now left|]. right.
        destruct (zid_nth _ _ _ _ I X Fo _ _ Zr Ne) as (j & -> & J). destruct (frame_at_ok _ _ _ I _ X _ _ J) as (f & F & _).
        rewrite (find_decl _ _ _ I _ _ F). discriminate. }
      destruct (c50_exists _ ""%string root Fo T) as [l0 B0].
      assert (P0 : path (declared h) ""%string root l0) by (destruct B0 as [|[]]; auto).
      destruct (path_rigid _ Pr (cfg t) _ _ _ (fun p => p) P0) as (G & LG & (E0 & U0 & H0)); [constructor|apply ident_rigid|].
      exists E0. split; auto. intros p. rewrite <- H0. eapply located_fun; [apply Hpos|apply LG].
    - exists (fun p => p), ""%string. split; auto. split; [constructor|apply ident_rigid]. }
  destruct Base as (F0 & r' & P' & L0 & R0).
  destruct (jac_path _ s Pr abs cfg t dcfg r' F0 tip ls P' L0 R0 Hd) as (pos' & v & w & Lp' & _ & Bv & Sum).
  { intros m M. exact (proj2 (entry_posed _ _ _ _ _) (En m M)). }
  assert (Ep : forall u p, pos' u p = pos u p) by (intros u p; eapply located_fun; [apply Lp'|apply Lp]).
  (* the end effector *)
  assert (Last : exists ls' d, ls = ls' ++ [tip] /\ declared h tip = Some d /\ tip <> ""%string).
  { inversion P; subst; [congruence|eauto]. }
  destruct Last as (ls' & dt & El & Gt & Net).
  assert (Lz : last zs 0%Z = tz).
  { rewrite El in H1. apply Forall2_app_inv_l in H1 as (z1 & z2 & _ & Hz & ->).
    inversion Hz as [|? z ? z3 Zz Hn]; subst. inversion Hn; subst. rewrite last_last. eapply zid_fun; eauto. }
  destruct (En tip) as [|(i & Ee & Zi & Ni & Ue & Le)]; [rewrite El; apply in_or_app; right; now left|congruence|].
  assert (Etz : tz = Z.of_nat i) by (eapply zid_fun; eauto). rewrite Etz in Lz.
  assert (Oe : ev Ee = pos t zero3).
  { rewrite <- (located_fun _ _ _ _ _ _ (Le zero3) (Lp t zero3)), place_E, qutr_tf_eq, qrot_zero by exact Ue.
    destruct (ev Ee). tfc. f_equal; ring. }
  exists (cols (declared h) s abs (fun ty a E => jac_vel_col ty a E (ev Ee)) ls), (cols (declared h) s abs jac_twist_col ls), v, w.
  split; [|split; [|split; [|split]]].
  - unfold chain_jacobian. cbn [ss_frames ss_configs].
    assert (Mt : forall (x y : res (list (V3 * V3))), match zs with [] => x | _ => y end = y).
    { destruct zs as [|z0 zr]; auto. destruct ls; [congruence|inversion H1]. }
    rewrite Mt, Lz. unfold fk_read. destruct (Z.ltb_spec (Z.of_nat i) 0); [lia|]. rewrite Nat2Z.id, Ni. cbn [from bind].
    rewrite Lc. eapply jac_loop_ok; eauto.
  - unfold jac_twist. cbn [ss_frames ss_configs]. rewrite Lc.
    rewrite (jac_loop_ok _ _ _ _ I X D Fo abs _ _ _ H1 Gl En'). cbn [bind]. now rewrite cols_len, Nat.eqb_refl.
  - fold (dqs (declared h) dcfg ls). rewrite Sum, Ep, Oe. f_equal.
    destruct v, w, (pos t zero3). unfold minus3. tfc. f_equal; ring.
  - fold (dqs (declared h) dcfg ls). rewrite twist_cols, Sum, Ep. f_equal.
    destruct v, w, (pos t zero3). unfold minus3. tfc. f_equal; ring.
  - intros p. eapply vderiv_ext; [intros u; apply Ep|]. specialize (Bv p). rewrite !Ep in Bv. exact Bv.
Qed.
