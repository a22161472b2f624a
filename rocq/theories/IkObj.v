(** Objective functions on a chain: values and gradients. *)
From Coq Require Import ZArith String List Bool Reals Lia Lra.
From Verif Require Import TfModel TfSpec TfProofs TfRepProofs TfExpModel TfExpSpec TfCalcProofs PdeModel PdeProofs SgModel SgSpec SgKinSpec
  SgFkProofs2 SgClaims1 SgClaims2 SgClaims3 SgChainProofs SgJacProofs IkModel IkSpec IkProofs IkPose.
Import ListNotations.
Open Scope R_scope.

Lemma path_tip g r n l : path g r n l -> l <> [] -> In n l /\ n <> ""%string.
Proof. intros P N. destruct P; [congruence|]. split; [apply in_app_iff; right; left; reflexivity|assumption]. Qed.
Lemma between_tip g r n l : between g r n l -> l <> [] -> In n l /\ n <> ""%string.
Proof. intros [P|[P _]]; eapply path_tip; eauto. Qed.
Lemma base_posed g s cfg root B fk : base_at g s cfg root B fk -> posed_at g s cfg fk root.
Proof. intros [_ [H|(i & H1 & H2 & H3 & H4)]]; [now left|right; exists i, B; auto]. Qed.

Lemma nth_chain_config g ls cfg j d : nth_error (joint_decls g ls) j = Some d -> nth_error (chain_config g ls cfg) j = Some (cfg (d_cfg d)).
Proof. intros H. unfold chain_config. rewrite nth_error_map, H. reflexivity. Qed.

Section Chain.
  Variables (h : list op) (s : sg) (root tip : string) (tz : Z) (ls : list string) (ss : ssg).
  Hypothesis C : chain_of h s root tip tz ls ss.
  Let g := declared h.

  Lemma obj_pose_ok cfg B fk : base_at g s cfg root B fk ->
    exists fk' E, obj_pose s ss tz (chain_config g ls cfg) fk = Ok (fk', E) /\ others_kept s ls fk fk' /\
      unit_qutr E /\ (forall p, located g cfg tip p (place (TfModel.eq E) (ev E) p)) /\
      (forall m, In m ls -> posed_at g s cfg fk' m).
  Proof.
    intros Hb. destruct C as [Rd Fo Pr Nn Zt Bt (rz & junk & n & Zr & Cn & Cc)].
    destruct (c50_fk h s root tip rz tz ls junk ss cfg (mkDV (length (ss_configs ss)) (chain_config g ls cfg) 1) fk n Rd Fo Pr Cn Zr Zt Bt Cc)
      as (fk' & F & L & P & K).
    - reflexivity.
    - intros j d Hj. unfold dv_get. cbn [dv_data dv_inc]. rewrite Nat.mul_1_r. now apply nth_chain_config.
    - apply Hb.
    - eapply base_posed; eauto.
    - destruct (between_tip _ _ _ _ Bt Nn) as [It Nt]. pose proof (P _ It) as Pt. destruct Pt as [->|(i & E & Zi & Ni & U & Lo)]; [congruence|].
      assert (tz = Z.of_nat i) by (destruct Zt, Zi; congruence). subst tz.
      exists fk', E. unfold obj_pose. rewrite F. cbn [bind]. unfold fk_read.
      replace (Z.of_nat i <? 0)%Z with false by (symmetry; apply Z.ltb_ge; lia). rewrite Nat2Z.id, Ni. cbn [from bind].
      repeat split; auto.
  Qed.

  Lemma root_static cfg B (fk : R -> list QV) : (forall u : R, base_at g s (cfg u) root B (fk u)) ->
    exists posr, forall u p, located g (cfg u) root p (posr p).
  Proof.
    intros H. destruct (string_dec root "") as [->|N].
    - exists (fun p => p). intros u p. constructor.
    - exists (place (TfModel.eq B) (ev B)). intros u p. destruct (H u) as [_ [?|(i & _ & _ & _ & L)]]; [congruence|apply L].
  Qed.

  Lemma chain_motion cfg dcfg t B (fk : R -> list QV) : (forall u, base_at g s (cfg u) root B (fk u)) ->
    (forall d, In d (joint_decls g ls) -> derivable_pt_lim (fun u => cfg u (d_cfg d)) t (dcfg (d_cfg d))) ->
    exists FK E v w J K b,
      (forall u, obj_pose s ss tz (chain_config g ls (cfg u)) (fk u) = Ok (FK u, E u) /\ others_kept s ls (fk u) (FK u) /\
        unit_qutr (E u) /\ (forall p, located g (cfg u) tip p (place (TfModel.eq (E u)) (ev (E u)) p))) /\
      (forall u, chain_jacobian s (FK u) ss = Ok (J u) /\ jac_twist s (FK u) ss = Ok (K u)) /\
      let dq := chain_config g ls dcfg in
      col_sum (J t) dq = (w, v) /\ col_sum (K t) dq = (w, plus3 v (xprod (ev (E t)) w)) /\
      b t = false /\ ederiv (fun u => eflip (b u) (E u)) t (qutr_vel2diff (E t) (mkDX v w)).
  Proof.
    intros Hb Hd. destruct C as [Rd Fo Pr Nn Zt Bt (rz & junk & n & Zr & Cn & Cc)].
    destruct (root_static cfg B fk Hb) as [posr Hr].
    set (FK := fun u => match obj_pose s ss tz (chain_config g ls (cfg u)) (fk u) with Ok (f, _) => f | _ => [] end).
    set (E := fun u => match obj_pose s ss tz (chain_config g ls (cfg u)) (fk u) with Ok (_, e) => e | _ => ident_tf end).
    assert (H : forall u, obj_pose s ss tz (chain_config g ls (cfg u)) (fk u) = Ok (FK u, E u) /\ others_kept s ls (fk u) (FK u) /\
        unit_qutr (E u) /\ (forall p, located g (cfg u) tip p (place (TfModel.eq (E u)) (ev (E u)) p)) /\
        (forall m, In m ls -> posed_at g s (cfg u) (FK u) m)).
    { intros u. destruct (obj_pose_ok (cfg u) B (fk u) (Hb u)) as (f & e & O & rest). unfold FK, E. rewrite O. auto. }
    clearbody FK E.
    assert (Bt' : path g root tip ls /\ (forall u p, located g (cfg u) root p (posr p)) \/ path g ""%string tip ls /\ ~ In root ls).
    { destruct Bt as [P|P]; [left; split; assumption|right; assumption]. }
    assert (JJ : forall u, exists J K, chain_jacobian s (FK u) ss = Ok J /\ jac_twist s (FK u) ss = Ok K).
    { intros u. destruct (c52 h s root tip rz tz ls junk ss (FK u) (fun _ => cfg u) (fun _ => 0) 0 (fun _ => place (TfModel.eq (E u)) (ev (E u))) posr)
        as (J & K & ? & ? & HJ & HK & _); auto.
      - destruct Bt' as [[P Q]|P]; [left; split; [exact P|intros _ p; apply Q]|right; exact P].
      - intros d _. apply derivable_pt_lim_const.
      - apply H.
      - intros _ p. apply H.
      - exists J, K. auto. }
    destruct (c52 h s root tip rz tz ls junk ss (FK t) cfg dcfg t (fun u => place (TfModel.eq (E u)) (ev (E u))) posr)
      as (J & K & v & w & HJ & HK & SJ & SK & BV); auto.
    { apply H. }
    { intros u p. apply H. }
    assert (U : forall u, unit_qutr (E u)) by (intros u; apply H).
    assert (Rot : forall p, vderiv (fun u => qrot (TfModel.eq (E u)) p) t (xprod w (qrot (TfModel.eq (E t)) p))).
    { intros p. pose proof (BV p) as Dp. pose proof (BV zero3) as D0. cbv beta in Dp, D0.
      assert (Q : forall u, qrot (TfModel.eq (E u)) p = minus3 (place (TfModel.eq (E u)) (ev (E u)) p) (place (TfModel.eq (E u)) (ev (E u)) zero3)).
      { intros u. rewrite place_zero, place_rot by apply U. destruct (qrot (TfModel.eq (E u)) p), (ev (E u)). unfold minus3, plus3, times3. cbn. f_equal; ring. }
      assert (Qt : plus3 (place (TfModel.eq (E t)) (ev (E t)) p) (times3 (-1) (place (TfModel.eq (E t)) (ev (E t)) zero3)) = qrot (TfModel.eq (E t)) p).
      { rewrite Q. reflexivity. }
      rewrite Qt in Dp. assert (Z : plus3 (place (TfModel.eq (E t)) (ev (E t)) zero3) (times3 (-1) (place (TfModel.eq (E t)) (ev (E t)) zero3)) = zero3).
      { destruct (place (TfModel.eq (E t)) (ev (E t)) zero3). unfold plus3, times3, zero3. cbn. f_equal; ring. }
      rewrite Z in D0. clear Z Qt. destruct Dp as (A1 & A2 & A3), D0 as (B1 & B2 & B3).
      unfold vderiv. set (r := xprod w (qrot (TfModel.eq (E t)) p)) in *. clearbody r.
      assert (X : forall (F : V3 -> R) a b c, (forall x y, F (minus3 x y) = F x - F y) ->
        derivable_pt_lim (fun u => F (place (TfModel.eq (E u)) (ev (E u)) p)) t a ->
        derivable_pt_lim (fun u => F (place (TfModel.eq (E u)) (ev (E u)) zero3)) t b -> c = a - b ->
        derivable_pt_lim (fun u => F (qrot (TfModel.eq (E u)) p)) t c).
      { intros F a b c HF Da Db ->.
        apply (dpl_ext_loc (fun u => F (place (TfModel.eq (E u)) (ev (E u)) p) - F (place (TfModel.eq (E u)) (ev (E u)) zero3)) _ t _ 1 Rlt_0_1).
        - intros u _. rewrite Q, HF. reflexivity.
        - apply dpl_minus; assumption. }
      assert (L1 : forall x y, vx (minus3 x y) = vx x - vx y) by (intros [] []; unfold minus3, plus3, times3; cbn; ring).
      assert (L2 : forall x y, vy (minus3 x y) = vy x - vy y) by (intros [] []; unfold minus3, plus3, times3; cbn; ring).
      assert (L3 : forall x y, vz (minus3 x y) = vz x - vz y) by (intros [] []; unfold minus3, plus3, times3; cbn; ring).
      split; [|split]; [eapply X; [exact L1|exact A1|exact B1|]|eapply X; [exact L2|exact A2|exact B2|]|eapply X; [exact L3|exact A3|exact B3|]];
        destruct r, v, w; unfold plus3, xprod, zero3; cbn; ring. }
    destruct (lift_quat (fun u => TfModel.eq (E u)) t w U Rot) as (b & Bf & Dq).
    assert (Dv : vderiv (fun u => ev (E u)) t v).
    { pose proof (BV zero3) as D0. cbv beta in D0.
      assert (Z : plus3 (place (TfModel.eq (E t)) (ev (E t)) zero3) (times3 (-1) (place (TfModel.eq (E t)) (ev (E t)) zero3)) = zero3).
      { destruct (place (TfModel.eq (E t)) (ev (E t)) zero3). unfold plus3, times3, zero3. cbn. f_equal; ring. }
      rewrite Z in D0. replace (plus3 v (xprod w zero3)) with v in D0 by (destruct v, w; unfold plus3, xprod, zero3; cbn; f_equal; ring).
      destruct D0 as (B1 & B2 & B3).
      assert (X : forall (F : V3 -> R) a, derivable_pt_lim (fun u => F (place (TfModel.eq (E u)) (ev (E u)) zero3)) t a -> derivable_pt_lim (fun u => F (ev (E u))) t a).
      { intros F a Da. refine (dpl_ext_loc _ _ t _ 1 Rlt_0_1 _ Da). intros u _. cbv beta. rewrite place_zero by apply U. reflexivity. }
      split; [|split]; [exact (X vx _ B1)|exact (X vy _ B2)|exact (X vz _ B3)]. }
    set (JF := fun u => match chain_jacobian s (FK u) ss with Ok J => J | _ => [] end).
    set (KF := fun u => match jac_twist s (FK u) ss with Ok J => J | _ => [] end).
    assert (JK : forall u, chain_jacobian s (FK u) ss = Ok (JF u) /\ jac_twist s (FK u) ss = Ok (KF u)).
    { intros u. destruct (JJ u) as (j & k & E1 & E2). unfold JF, KF. rewrite E1, E2. auto. }
    clearbody JF KF.
    assert (EJ : JF t = J) by (destruct (JK t) as [X _]; congruence).
    assert (EK : KF t = K) by (destruct (JK t) as [_ X]; congruence).
    exists FK, E, v, w, JF, KF, b. split; [|split; [exact JK|]].
    - intros u. destruct (H u) as (H1 & H2 & H3 & H4 & _). auto.
    - cbv zeta. rewrite EJ, EK. split; [exact SJ|]. split.
      + rewrite place_zero in SK by apply U. exact SK.
      + split; [exact Bf|]. split; [exact Dq|exact Dv].
  Qed.
End Chain.

(** ** Weighted sums *)
Lemma wsum_trans J x : forall dq, wsum (scal_l 2 (jt_trans J x)) dq = 2 * dot (snd (col_sum J dq)) x.
Proof.
  induction J as [|[r c] J IH]; intros dq; [cbn; unfold dot; cbn; ring|]. destruct dq as [|a dq]; [cbn; unfold dot; cbn; ring|].
  cbn [scal_l jt_trans map wsum col_sum]. change (map (Rmult 2) (map (fun c0 => vdot (snd c0) x) J)) with (scal_l 2 (jt_trans J x)).
  rewrite IH. destruct (col_sum J dq) as [r' c']. cbn [snd]. destruct c, c', x. unfold vdot, dot, plus3, times3. cbn. ring.
Qed.
Lemma wsum_both J x y : forall dq, wsum (add_l (jt_rot J x) (scal_l 2 (jt_trans J y))) dq =
  dot x (fst (col_sum J dq)) + 2 * dot (snd (col_sum J dq)) y.
Proof.
  induction J as [|[r c] J IH]; intros dq; [cbn; unfold dot; cbn; ring|]. destruct dq as [|a dq]; [cbn; unfold dot; cbn; ring|].
  specialize (IH dq). cbn [scal_l jt_trans jt_rot map add_l combine wsum col_sum fst snd].
  unfold add_l, jt_rot, scal_l, jt_trans in IH. rewrite IH. destruct (col_sum J dq) as [r' c']. cbn [fst snd].
  destruct r, r', c, c', x, y. unfold vdot, dot, plus3, times3. cbn. ring.
Qed.
Lemma wsum_twist J x y : forall dq, wsum (add_l (jt_trans J y) (jt_rot J x)) dq =
  dot x (fst (col_sum J dq)) + dot y (snd (col_sum J dq)).
Proof.
  induction J as [|[r c] J IH]; intros dq; [cbn; unfold dot; cbn; ring|]. destruct dq as [|a dq]; [cbn; unfold dot; cbn; ring|].
  specialize (IH dq). cbn [jt_trans jt_rot map add_l combine wsum col_sum fst snd].
  unfold add_l, jt_rot, jt_trans in IH. rewrite IH. destruct (col_sum J dq) as [r' c']. cbn [fst snd].
  destruct r, r', c, c', x, y. unfold vdot, dot, plus3, times3. cbn. ring.
Qed.

Lemma turn_ext f f' q phi : (forall p, f p = f' p) -> turn_to f q phi -> turn_to f' q phi.
Proof. intros E [P (k & K & H)]. split; [exact P|]. exists k. split; [exact K|]. intros p. rewrite <- !E. apply H. Qed.

Lemma p_half n : / 2 ^ n = 2 * / 2 ^ S n.
Proof. cbn [pow]. field. apply pow_nonzero. lra. Qed.
Lemma derr_loc E t dx q : ederiv E t dx -> qw (qcmul (TfModel.eq (E t)) q) <> 0 ->
  exists del, 0 < del /\ forall u, Rabs (u - t) < del -> qw (qcmul (TfModel.eq (E u)) q) <> 0.
Proof.
  intros [D _] N. pose proof (qcmul_deriv _ _ _ q D) as De.
  destruct (sign_loc (fun s => qw (qcmul (TfModel.eq (E s)) q)) t _ (proj2 (proj2 (proj2 De))) N) as (b & del & P & K).
  exists del. split; [exact P|]. intros u Hu. specialize (K u Hu). cbv beta in K. destruct b; lra.
Qed.
Lemma eflip_w b e q : qw (qcmul (TfModel.eq (eflip b e)) q) <> 0 -> qw (qcmul (TfModel.eq e) q) <> 0.
Proof.
  destruct b; [|destruct e; auto]. destruct e as [[] ?], q. unfold eflip, flip, qneg. tfc. intros N Z. apply N. lra.
Qed.
Lemma eflip_unit b e : unit_qutr e -> unit_qutr (eflip b e).
Proof. unfold unit_qutr. cbn. apply flip_unit. Qed.
Lemma ederiv_ext E F t d : (forall u, E u = F u) -> ederiv E t d -> ederiv F t d.
Proof.
  intros X [(A1 & A2 & A3 & A4) (B1 & B2 & B3)].
  assert (Y : forall (f : QV -> R) a, derivable_pt_lim (fun u => f (E u)) t a -> derivable_pt_lim (fun u => f (F u)) t a).
  { intros f a Da. refine (dpl_ext_loc _ _ t _ 1 Rlt_0_1 _ Da). intros u _. cbv beta. now rewrite X. }
  split; [repeat split|repeat split];
  [exact (Y (fun e => qx (TfModel.eq e)) _ A1)|exact (Y (fun e => qy (TfModel.eq e)) _ A2)|exact (Y (fun e => qz (TfModel.eq e)) _ A3)
  |exact (Y (fun e => qw (TfModel.eq e)) _ A4)|exact (Y (fun e => vx (ev e)) _ B1)|exact (Y (fun e => vy (ev e)) _ B2)|exact (Y (fun e => vz (ev e)) _ B3)].
Qed.

(** ** The objectives *)
Section Obj.
  Variables (h : list op) (s : sg) (root tip : string) (tz : Z) (ls : list string) (ss : ssg).
  Hypothesis C : chain_of h s root tip tz ls ss.
  Let g := declared h.
  Variables (cfg : R -> string -> R) (dcfg : string -> R) (t : R) (B : QV) (fk : R -> list QV) (Er : QV).
  Hypothesis Hb : forall u, base_at g s (cfg u) root B (fk u).
  Hypothesis Hd : forall d, In d (joint_decls g ls) -> derivable_pt_lim (fun u => cfg u (d_cfg d)) t (dcfg (d_cfg d)).
  Let qs u := chain_config g ls (cfg u).
  Let dq := chain_config g ls dcfg.

  Lemma c80_trans : exists val grad fk',
    (forall u, obj_trans s ss tz Er true (qs u) (fk u) = Ok (val u, grad u, fk' u) /\
       obj_trans s ss tz Er false (qs u) (fk u) = Ok (val u, [], fk' u) /\ others_kept s ls (fk u) (fk' u)) /\
    (forall u x, located g (cfg u) tip zero3 x -> val u = dist2 x (ev Er)) /\
    derivable_pt_lim val t (wsum (grad t) dq).
  Proof.
    destruct (chain_motion h s root tip tz ls ss C cfg dcfg t B fk Hb Hd) as (FK & E & v & w & J & K & b & H & HJ & SJ & _ & Bf & D).
    exists (fun u => trans_val (E u) Er), (fun u => scal_l 2 (jt_trans (J u) (v_err (E u) Er))), FK. split; [|split].
    - intros u. destruct (H u) as (O & Ok & _). destruct (HJ u) as [Ju _].
      unfold obj_trans, qs, g. rewrite O. cbn [bind]. rewrite Ju. cbn [bind]. auto.
    - intros u x L. destruct (H u) as (_ & _ & U & Lo). specialize (Lo zero3). rewrite place_zero in Lo by exact U.
      rewrite (located_fun _ _ _ _ _ _ L Lo). apply trans_val_dist.
    - cbv beta. rewrite wsum_trans. unfold dq, g. rewrite SJ. cbn [snd].
      assert (Q : eflip (b t) (E t) = E t) by (rewrite Bf; destruct (E t); reflexivity).
      rewrite <- Q in D at 1. apply (trans_deriv (fun u => eflip (b u) (E u)) t (mkDX v w) Er) in D. cbv beta in D. rewrite Q in D. exact D.
  Qed.

  Hypothesis UEr : unitq (TfModel.eq Er).
  Lemma tip_turn u E f phi : unit_qutr E -> (forall p, located g (cfg u) tip p (place (TfModel.eq E) (ev E) p)) ->
    (forall p, located g (cfg u) tip p (f p)) -> turn_to f (TfModel.eq Er) phi ->
    f zero3 = ev E /\ turn_to (place (TfModel.eq E) (ev E)) (TfModel.eq Er) phi.
  Proof.
    intros U L1 L2 T. assert (X : forall p, f p = place (TfModel.eq E) (ev E) p) by (intros p; eapply located_fun; eauto).
    split; [rewrite X; now apply place_zero|]. eapply turn_ext; [exact X|exact T].
  Qed.

  Lemma c80_qlnpv : exists val grad fk',
    (forall u, obj_qlnpv s ss tz Er true (qs u) (fk u) = Ok (val u, grad u, fk' u) /\
       obj_qlnpv s ss tz Er false (qs u) (fk u) = Ok (val u, [], fk' u) /\ others_kept s ls (fk u) (fk' u)) /\
    (forall u f phi, (forall p, located g (cfg u) tip p (f p)) -> turn_to f (TfModel.eq Er) phi ->
       phi = 0 \/ / 2 ^ 12 <= phi -> val u = dist2 (f zero3) (ev Er) + (phi / 2) * (phi / 2)) /\
    (forall f phi, (forall p, located g (cfg t) tip p (f p)) -> turn_to f (TfModel.eq Er) phi ->
       phi = 0 \/ / 2 ^ 12 < phi < PI -> derivable_pt_lim val t (wsum (grad t) dq)).
  Proof.
    destruct (chain_motion h s root tip tz ls ss C cfg dcfg t B fk Hb Hd) as (FK & E & v & w & J & K & b & H & HJ & SJ & _ & Bf & D).
    exists (fun u => qlnpv_val (E u) Er), (fun u => add_l (jt_rot (J u) (qlnpv_cov (E u) Er)) (scal_l 2 (jt_trans (J u) (v_err (E u) Er)))), FK.
    split; [|split].
    - intros u. destruct (H u) as (O & Ok & _). destruct (HJ u) as [Ju _].
      unfold obj_qlnpv, qs, g. rewrite O. cbn [bind]. rewrite Ju. cbn [bind]. auto.
    - intros u f phi L T P. destruct (H u) as (_ & _ & U & Lo).
      destruct (tip_turn u (E u) f phi U Lo L T) as [Z T']. rewrite Z. apply qlnpv_val_ok; assumption.
    - intros f phi L T P. destruct (H t) as (_ & _ & U & Lo).
      destruct (tip_turn t (E t) f phi U Lo L T) as [_ T'].
      assert (N : qw (qcmul (TfModel.eq (E t)) (TfModel.eq Er)) <> 0) by (eapply err_w; eauto; pose proof PI_RGT_0; lra).
      assert (Lk : ln_ok (/ 2 ^ 13) (fst (qerr_of (E t) Er))).
      { destruct (err_min _ _ _ U UEr T') as (k & Uk & ->). rewrite (p_half 12) in P. apply polar_ln_ok; [exact Uk|apply Rinv_0_lt_compat, pow_lt; lra|lra]. }
      assert (Q : eflip (b t) (E t) = E t) by (rewrite Bf; destruct (E t); reflexivity).
      cbv beta. rewrite wsum_both. unfold dq, g. rewrite SJ. cbn [fst snd].
      rewrite <- Q in D at 1.
      destruct (derr_loc (fun u => eflip (b u) (E u)) t _ (TfModel.eq Er) D) as (del & Pd & Kd); [cbv beta; rewrite Q; exact N|].
      apply (qlnpv_deriv (fun u => eflip (b u) (E u)) t (mkDX v w) Er) in D; cbv beta in *; try (rewrite Q; assumption).
      rewrite Q in D. cbn [dxw dxv] in D. refine (dpl_ext_loc _ _ t _ del Pd _ D).
      intros u Hu. cbv beta. apply qlnpv_val_flip. eapply eflip_w. apply Kd. exact Hu.
  Qed.

  Lemma c80_dqln : exists val grad fk',
    (forall u, obj_dqln s ss tz Er true (qs u) (fk u) = Ok (val u, grad u, fk' u) /\
       obj_dqln s ss tz Er false (qs u) (fk u) = Ok (val u, [], fk' u) /\ others_kept s ls (fk u) (fk' u)) /\
    (forall u f phi, (forall p, located g (cfg u) tip p (f p)) -> turn_to f (TfModel.eq Er) phi ->
       phi = 0 \/ / 2 ^ 25 <= phi ->
       exists v w, val u = dot v v + dot w w /\ len3 w = phi / 2 /\
         forall F, screw_flow (times3 2 v) (times3 2 w) F -> forall p, f (F 1 p) = place (TfModel.eq Er) (ev Er) p) /\
    (forall f phi, (forall p, located g (cfg t) tip p (f p)) -> turn_to f (TfModel.eq Er) phi ->
       phi = 0 \/ 2 * eps < phi < PI -> derivable_pt_lim val t (wsum (grad t) dq)).
  Proof.
    destruct (chain_motion h s root tip tz ls ss C cfg dcfg t B fk Hb Hd) as (FK & E & v & w & J & K & b & H & HJ & _ & SK & Bf & D).
    exists (fun u => dqln_val (E u) Er), (fun u => add_l (jt_trans (K u) (dxv (dqln_cov (E u) Er))) (jt_rot (K u) (dxw (dqln_cov (E u) Er)))), FK.
    split; [|split].
    - intros u. destruct (H u) as (O & Ok & _). destruct (HJ u) as [_ Ku].
      unfold obj_dqln, qs, g. rewrite O. cbn [bind]. rewrite Ku. cbn [bind]. auto.
    - intros u f phi L T P. destruct (H u) as (_ & _ & U & Lo).
      destruct (tip_turn u (E u) f phi U Lo L T) as [_ T'].
      destruct (dqln_val_ok _ _ _ U UEr T' P) as (v' & w' & V1 & V2 & V3). exists v', w'. split; [exact V1|]. split; [exact V2|].
      intros F HF p. rewrite <- (V3 F HF). eapply located_fun; [apply L|apply Lo].
    - intros f phi L T P. destruct (H t) as (_ & _ & U & Lo).
      destruct (tip_turn t (E t) f phi U Lo L T) as [_ T'].
      assert (N : qw (qcmul (TfModel.eq (E t)) (TfModel.eq Er)) <> 0) by (eapply err_w; eauto; pose proof PI_RGT_0; lra).
      assert (Lk : ln_ok eps (fst (qerr_of (E t) Er))).
      { destruct (err_min _ _ _ U UEr T') as (k & Uk & ->). apply polar_ln_ok; [exact Uk|apply Rinv_0_lt_compat, pow_lt; lra|lra]. }
      assert (Q : eflip (b t) (E t) = E t) by (rewrite Bf; destruct (E t); reflexivity).
      cbv beta. rewrite wsum_twist. unfold dq, g. rewrite SK. cbn [fst snd].
      rewrite <- Q in D at 1.
      destruct (derr_loc (fun u => eflip (b u) (E u)) t _ (TfModel.eq Er) D) as (del & Pd & Kd); [cbv beta; rewrite Q; exact N|].
      apply (dqln_deriv (fun u => eflip (b u) (E u)) t (mkDX v w) Er) in D; cbv beta in *; try (rewrite Q; assumption).
      2:{ intros u. apply eflip_unit. apply H. }
      rewrite Q in D. cbn [dxw dxv] in D. refine (dpl_ext_loc _ _ t _ del Pd _ D).
      intros u Hu. cbv beta. apply dqln_val_flip. eapply eflip_w. apply Kd. exact Hu.
  Qed.
End Obj.

(** ** Reads past the buffer *)
Lemma c80_fd s ss fr Er q fk junk fk' Ea : obj_pose s ss fr q fk = Ok (fk', Ea) -> obj_qlnpv_fd s ss fr Er q fk junk = UB.
Proof. intros H. unfold obj_qlnpv_fd. rewrite H. reflexivity. Qed.
Lemma c80_fd_chain h s root tip tz ls ss cfg B fk Er junk : chain_of h s root tip tz ls ss ->
  base_at (declared h) s cfg root B fk ->
  obj_qlnpv_fd s ss tz Er (chain_config (declared h) ls cfg) fk junk = UB.
Proof. intros C Hb. destruct (obj_pose_ok h s root tip tz ls ss C cfg B fk Hb) as (fk' & E & O & _). eapply c80_fd; eauto. Qed.

(** ** Centre of the limits *)
Definition centers (lims : list (option (R * R))) : list R := map (fun l => match l with Some (a, b) => (b + a) / 2 | None => 0 end) lims.
Lemma chain_limits h s root tip tz ls ss lims : chain_of h s root tip tz ls ss -> limits_seen (declared h) s ls lims ->
  Forall2 (fun c l => sg_get_limit s LPos c = Ok l) (ss_configs ss) lims.
Proof.
  intros [Rd Fo Pr Nn Zt Bt (rz & junk & n & Zr & Cn & Cc)] L.
  destruct (c50_chain h s root tip rz tz ls junk Rd Fo Zr Zt Bt) as (zs & cs & E & _ & H2). rewrite E in Cc. injection Cc as <-.
  cbn [ss_configs]. unfold limits_seen in L. revert lims L. clear E. induction H2 as [|d c ds cs [Hc _] H IH]; intros lims L; inversion L as [|? l ? lims' (i & Hi & _ & Hl) L']; subst; constructor.
  - congruence.
  - apply IH. assumption.
Qed.
Lemma sub_center_ok s ids lims : Forall2 (fun c l => sg_get_limit s LPos c = Ok l) ids lims -> sub_center s ids = Ok (centers lims).
Proof.
  induction 1 as [|c l cs lims H _ IH]; [reflexivity|]. cbn [sub_center]. unfold sg_config_center. rewrite H. cbn [bind]. rewrite IH. reflexivity.
Qed.
Lemma sub_l_off q : forall lims, sub_l q (centers lims) = off_centers q lims.
Proof.
  induction q as [|x q IH]; intros [|l lims]; try reflexivity. cbn. f_equal; [|apply IH].
  destruct l as [[a b]|]; cbn; [field|ring].
Qed.
Lemma fold_wsum d : forall a, fold_left (fun a x => a + x * x) d a = a + wsum d d.
Proof. induction d as [|x d IH]; intros a; cbn; [ring|]. rewrite IH. ring. Qed.
Lemma off_deriv (l : list decl) (cfg : R -> string -> R) dcfg t : forall lims, length l = length lims ->
  (forall d, In d l -> derivable_pt_lim (fun u => cfg u (d_cfg d)) t (dcfg (d_cfg d))) ->
  let e u := off_centers (map (fun d => cfg u (d_cfg d)) l) lims in
  derivable_pt_lim (fun u => wsum (e u) (e u)) t (2 * wsum (e t) (map (fun d => dcfg (d_cfg d)) l)).
Proof.
  induction l as [|d l IH]; intros [|o lims] Len Hd; try discriminate; cbn zeta.
  - cbn. eapply dpl_eq; [|apply dpl_const]. ring.
  - cbn [map off_centers wsum].
    assert (D : derivable_pt_lim (fun u => off_center (cfg u (d_cfg d)) o) t (dcfg (d_cfg d))).
    { pose proof (Hd d (or_introl eq_refl)) as D. destruct o as [[a b]|]; cbn [off_center]; [|exact D].
      eapply dpl_eq; [|apply dpl_minus; [exact D|apply dpl_const]]. ring. }
    specialize (IH lims ltac:(cbn in Len; lia) (fun x Hx => Hd x (or_intror Hx))). cbv zeta in IH.
    eapply dpl_eq; [|apply dpl_plus; [apply dpl_mult; exact D|exact IH]]. cbv beta. ring.
Qed.
Lemma c80_center h s root tip tz ls ss lims cfg dcfg t : chain_of h s root tip tz ls ss ->
  limits_seen (declared h) s ls lims ->
  (forall d, In d (joint_decls (declared h) ls) -> derivable_pt_lim (fun u => cfg u (d_cfg d)) t (dcfg (d_cfg d))) ->
  let e (u : R) := off_centers (chain_config (declared h) ls (cfg u)) lims in
  (forall u, obj_jcenter s ss true (chain_config (declared h) ls (cfg u)) = Ok (wsum (e u) (e u) / 2, e u) /\
             obj_jcenter s ss false (chain_config (declared h) ls (cfg u)) = Ok (wsum (e u) (e u) / 2, [])) /\
  derivable_pt_lim (fun u => wsum (e u) (e u) / 2) t (wsum (e t) (chain_config (declared h) ls dcfg)).
Proof.
  intros C L Hd e. pose proof (sub_center_ok _ _ _ (chain_limits _ _ _ _ _ _ _ _ C L)) as S. split.
  - intros u. unfold obj_jcenter. rewrite S. cbn [bind]. rewrite sub_l_off, fold_wsum, Rplus_0_l. auto.
  - assert (Len : length (joint_decls (declared h) ls) = length lims) by (unfold limits_seen in L; clear - L; induction L; cbn; auto).
    pose proof (off_deriv (joint_decls (declared h) ls) cfg dcfg t lims Len Hd) as D. cbv zeta in D.
    unfold e, chain_config. apply (dpl_ext_loc (fun u => / 2 * wsum (off_centers (map (fun d => cfg u (d_cfg d)) (joint_decls (declared h) ls)) lims) (off_centers (map (fun d => cfg u (d_cfg d)) (joint_decls (declared h) ls)) lims)) _ t _ 1 Rlt_0_1).
    + intros u _. field.
    + eapply dpl_eq; [|apply dpl_mult; [apply dpl_const|exact D]]. cbv beta. field.
Qed.
Lemma limits_exist h s root tip tz ls ss : chain_of h s root tip tz ls ss -> exists lims, limits_seen (declared h) s ls lims.
Proof.
  intros [Rd Fo Pr Nn Zt Bt (rz & junk & n & Zr & Cn & Cc)].
  destruct (c50_chain h s root tip rz tz ls junk Rd Fo Zr Zt Bt) as (zs & cs & _ & _ & H2). unfold limits_seen.
  induction H2 as [|d c ds cs [Hc Pc] H [lims IH]]; [exists []; constructor|].
  assert (N : c <> CONFIG_NONE) by (unfold CONFIG_NONE; lia).
  destruct (c54_sound h s LPos (d_cfg d) c Rd Hc N) as [G|G]; eexists; constructor; eauto.
Qed.
