(** Proofs about the joint rates along a Cartesian trajectory. *)
From Coq Require Import ZArith String List Bool Reals Lra Lia.
From Verif Require Import TrModel TfModel TfSpec TfExpModel SgModel SgSpec SgKinSpec SgInvProofs SgQueryProofs SgClaims1 SgClaims2 SgClaims3 IkSpec IkModel IkObj
  MatModel MatSpec MatProofs LaModel LaSpec LaAlg LaProofs La2Proofs La3Proofs La4Proofs RkModel RkSpec RkProofs
  WkSpec WkModel WkServo WkLoop WkRateModel WkRateSpec WkRate WkRate2 WkRate3 WkRate4 IkSolveModel IkSolveSpec IkSolve IkSolve3
  TrCartModel TjxModel TjxSpec.
Import ListNotations.
Open Scope R_scope.

(** ** Joint rates *)
Lemma put_list_ok : forall l a M, (forall i, (i < length l)%nat -> put_list a l M (a + i)%nat = nth i l 0) /\
  (forall b, (b < a \/ a + length l <= b)%nat -> put_list a l M b = M b).
Proof.
  induction l as [|x l IH]; intros a M; cbn [put_list length]; split; intros; [lia|reflexivity| |].
  - destruct (IH (S a) (upd M a x)) as [V F]. destruct i as [|i].
    + rewrite Nat.add_0_r, F by lia. apply upd_same.
    + replace (a + S i)%nat with (S a + i)%nat by lia. rewrite V by lia. reflexivity.
  - destruct (IH (S a) (upd M a x)) as [V F]. rewrite F by lia. rewrite upd_other by lia. reflexivity.
Qed.
Lemma dqnull_nth n g qr q : (n <= length g)%nat -> (n <= length qr)%nat -> length q = n ->
  length (dqnull g qr q) = n /\ forall i, (i < n)%nat -> nth i (dqnull g qr q) 0 = - nth i g 0 * (nth i q 0 - nth i qr 0).
Proof.
  revert g qr q. induction n as [|n IH]; intros g qr q Hg Hr Hq.
  - destruct q; [|discriminate]. split; [|lia]. unfold dqnull. destruct g, qr; reflexivity.
  - destruct g as [|a g], qr as [|b qr], q as [|c q]; try (cbn in *; lia). destruct (IH g qr q) as [L V]; try (cbn in *; lia).
    unfold dqnull in *. cbn [combine map length fst snd]. split; [now rewrite L|]. intros [|i] Hi; [reflexivity|]. cbn [nth]. apply V. lia.
Qed.
Lemma dz_value s2 s : 0 < s2 -> s / Rmax (s * s) (sqrt s2 * sqrt s2) = dzd_value (sqrt s2) s \/ s < 0.
Proof.
  intros H. assert (Sq : sqrt s2 * sqrt s2 = s2) by (apply sqrt_sqrt; lra). assert (Sp : 0 < sqrt s2) by now apply sqrt_lt_R0.
  destruct (Rlt_le_dec s 0) as [N|N]; [now right|left]. unfold dzd_value. destruct (Rle_dec (sqrt s2) s) as [L|L].
  - rewrite Rmax_left by nra. field. lra.
  - rewrite Rmax_right by nra. reflexivity.
Qed.

Section Rates.
  Context (gesdd : nat -> nat -> (nat -> nat -> R) -> svdres) (M0 : mem) (p : ik_parm) (n : nat).
  Hypothesis S2 : 0 < wo_s2min (ip_wk p).
  Hypothesis Rg : ref_given p n.

  Lemma x2dq_ok q Ea Er dxr l : length q = n -> length l = n -> decomposes gesdd 6 n (colmat l) (gesdd 6%nat n (colmat l)) ->
    exists y, jac_x2dq gesdd M0 p n q Ea Er dxr l = Done y /\
      let o := ip_wk p in
      let c := wk_dx_pos (wo_angle o) (wo_trans o) Ea Er dxr in
      let b := stacked (dxv c) (dxw c) in
      match ip_qref p, ip_dqdt p with
      | None, _ => rates_for o n (colmat l) (gesdd 6%nat n (colmat l)) b y
      | Some qr, Some gain => regular o n (gesdd 6%nat n (colmat l)) ->
          nearest_solution n (colmat l) b (fun i => - nth i gain 0 * (nth i q 0 - nth i qr 0)) y
      | Some _, None => False
      end.
  Proof.
    intros Lq Ll [HS HG]. set (r := gesdd 6%nat n (colmat l)) in *. unfold jac_x2dq. cbv zeta.
    set (c := wk_dx_pos _ _ _ _ _). set (J := (6 + 2 * n)%nat). set (Js := (J + 6 * n)%nat). set (B := (Js + 6 * n)%nat).
    set (M := put3 3 (dxw c) (put3 0 (dxv c) (put_cols (J + 3) 6 J 6 l M0))).
    destruct (put_cols_ok 6 ltac:(lia) l J M0) as [PV _].
    assert (AJ : forall i j, (i < 6)%nat -> (j < n)%nat -> amat J 6 M i j = colmat l i j).
    { intros i j Hi Hj. unfold amat, M. rewrite !put3_other by (unfold J; lia). rewrite <- PV by lia. f_equal; lia. }
    assert (Ab : forall i, (i < 6)%nat -> arr 0 M i = stacked (dxv c) (dxw c) i).
    { intros i Hi. unfold arr, M. destruct i as [|[|[|[|[|[|i]]]]]]; try lia; reflexivity. }
    assert (G1 : gesdd 6%nat n (amat J 6 M) = r) by (apply HG; exact AJ).
    assert (SV : is_svd 6 n (amat J 6 M) r) by (apply (svd_ext 6 n (colmat l)); auto).
    unfold jac_dx2dq. set (s2 := wo_s2min (ip_wk p)) in *.
    assert (Sq : sqrt s2 * sqrt s2 = s2) by (apply sqrt_sqrt; lra).
    destruct (dz_thm gesdd 6 n (sqrt s2) J Js (B + n * n) M) as (M1 & D & V & _ & _ & K).
    { rewrite G1. exact SV. }
    { unfold clear_of, B. left. lia. }
    { now apply sqrt_lt_R0. }
    rewrite Sq in D. rewrite D. cbn [obind]. rewrite G1 in V.
    set (P := regularised 6 n r (dzd_value (sqrt s2))).
    assert (VP : forall i j, (i < n)%nat -> (j < 6)%nat -> amat Js n M1 i j = P i j).
    { intros i j Hi Hj. rewrite V by auto. unfold P, regularised. apply bsum_ext. intros k Hk. rewrite Sq.
      destruct (dz_value s2 (sS r k) S2) as [E|E]; [rewrite Sq in E; now rewrite E|]. exfalso.
      destruct SV as (_ & _ & _ & S0 & _). specialize (S0 k Hk). lra. }
    pose proof (dzd_inverse (ip_wk p) n (colmat l) r HS S2) as IO. fold s2 P in IO.
    assert (KJ : forall i j, (i < 6)%nat -> (j < n)%nat -> amat J 6 M1 i j = colmat l i j).
    { intros i j Hi Hj. rewrite <- AJ by auto. unfold amat. apply K.
      - left. unfold Js. nia.
      - left. unfold B, Js. nia. }
    assert (Kb : forall i, (i < 6)%nat -> arr 0 M1 i = stacked (dxv c) (dxw c) i).
    { intros i Hi. rewrite <- Ab by exact Hi. unfold arr. apply K; left; unfold B, Js, J; lia. }
    unfold ref_given in Rg. destruct (ip_qref p) as [qr|].
    - destruct (ip_dqdt p) as [gain|]; [|contradiction]. destruct Rg as [R1 R2].
      destruct (Nat.ltb_spec (length qr) n) as [X|_]; [lia|]. destruct (Nat.ltb_spec (length gain) n) as [X|_]; [lia|]. cbn [orb obind].
      destruct (dqnull_nth n gain qr q R2 R1 Lq) as [Ln Vn].
      destruct (put_list_ok (dqnull gain qr q) 6 M1) as [PlV PlF]. rewrite Ln in PlV, PlF.
      set (M2 := put_list 6 (dqnull gain qr q) M1) in *.
      destruct (la_xlsnp_ok 6 n J Js 0 6 (6 + n) B M2) as [XV _]; try (unfold clear_of, B, Js, J; lia).
      eexists. split; [reflexivity|]. intros R. pose proof (io_exact _ _ _ _ _ IO R) as MP.
      eapply nearest_ext; [|eapply (nearest_np n (colmat l) P _ _ MP)]. intros i Hi. cbv beta. change ((la_xlsnp 6 n J Js 0 6 (6 + n) B M2) (6 + n + i)%nat) with (arr (6 + n) (la_xlsnp 6 n J Js 0 6 (6 + n) B M2) i).
      rewrite XV by exact Hi.
      assert (E1 : forall k, (k < 6)%nat -> arr 0 M2 k = stacked (dxv c) (dxw c) k).
      { intros k Hk. rewrite <- Kb by exact Hk. unfold arr. apply PlF. lia. }
      assert (E2 : forall a b, (a < n)%nat -> (b < 6)%nat -> amat Js n M2 a b = P a b).
      { intros a b Ha Hb. rewrite <- VP by auto. unfold amat. apply PlF. unfold Js, J. lia. }
      assert (E3 : forall a b, (a < 6)%nat -> (b < n)%nat -> amat J 6 M2 a b = colmat l a b).
      { intros a b Ha Hb. rewrite <- KJ by auto. unfold amat. apply PlF. unfold J. lia. }
      assert (E4 : forall k, (k < n)%nat -> arr 6 M2 k = - nth k gain 0 * (nth k q 0 - nth k qr 0)).
      { intros k Hk. rewrite <- Vn by exact Hk. apply PlV. exact Hk. }
      unfold nullspace_solution. rewrite E4 by exact Hi. f_equal; [f_equal|].
      + unfold mulv. apply bsum_ext. intros k Hk. now rewrite E1, E2 by auto.
      + unfold mulv. apply bsum_ext. intros k Hk. rewrite E2 by auto. f_equal. apply bsum_ext. intros k' Hk'. now rewrite E3, E4 by auto.
    - destruct (mvmul_ok n 6 Js 0 (6 + n) M1) as [MV _].
      eexists. split; [reflexivity|]. apply (inverse_rates _ n (colmat l) r P); [exact IO|].
      intros i Hi. change ((la_mvmul n 6 Js 0 (6 + n) M1) (6 + n + i)%nat) with (arr (6 + n) (la_mvmul n 6 Js 0 (6 + n) M1) i). rewrite MV by exact Hi.
      unfold mulv. apply bsum_ext. intros k Hk. now rewrite VP, Kb by auto.
  Qed.
End Rates.

(** ** The system *)
Section Chain.
  Context (gesdd : nat -> nat -> (nat -> nat -> R) -> svdres) (M0 : mem).
  Context (h : list op) (s : sg) (root tip : string) (tz : Z) (ls : list string) (ss : ssg) (p : ik_parm) (q0 : list R).
  Hypothesis C : chain_of h s root tip tz ls ss.
  Let g := declared h.
  Let n := length (ss_configs ss).
  Hypothesis Nd : NoDup (map d_cfg (joint_decls g ls)).
  Hypothesis Cq : config_count s = Ok (length q0).
  Hypothesis S2 : 0 < wo_s2min (ip_wk p).
  Hypothesis Sv : svd_works gesdd s ss.
  Hypothesis Rg : ref_given p n.

  Lemma chain_ids : NoDup (ss_configs ss) /\ ids_ok (ss_configs ss) q0 /\
    Forall2 (fun d c => config_id s (d_cfg d) = Ok c /\ (0 <= c)%Z) (joint_decls g ls) (ss_configs ss).
  Proof.
    clear Sv Rg. subst n g. destruct C as [Rd Fo Pr Nn Zt Bt (rz & junk & m & Zr & Cn & Cc)]. rewrite Cq in Cn. injection Cn as <-.
    destruct (c53_chain_ids h s root tip rz tz ls junk ss (length q0) Rd Fo Cq Zr Zt Bt Cc) as [B N].
    destruct (c50_chain h s root tip rz tz ls junk Rd Fo Zr Zt Bt) as (zs & cs & E & _ & H2). rewrite E in Cc. injection Cc as <-.
    split; [auto|]. split; [exact B|exact H2].
  Qed.
  Lemma f2_nth {A B} (P : A -> B -> Prop) l l' : Forall2 P l l' -> forall i a, nth_error l i = Some a -> exists b, nth_error l' i = Some b /\ P a b.
  Proof. induction 1 as [|x y l l' H H' IH]; intros [|i] a E; try discriminate; cbn in *; [injection E as <-; eauto|auto]. Qed.
  Lemma id_inj c c' i : config_id s c = Ok i -> config_id s c' = Ok i -> (0 <= i)%Z -> c = c'.
  Proof.
    clear Sv Rg. subst n g. destruct C as [Rd _ _ _ _ _ _]. destruct (ready_inv _ _ Rd) as [I [l X]]. intros H1 H2 P. rewrite <- (Z2Nat.id i P) in H1, H2.
    apply (config_id_inv _ _ _ _ X) in H1. apply (config_id_inv _ _ _ _ X) in H2. congruence.
  Qed.

  (** the configuration that is written *)
  Lemma written q qa cfg : config_set (ss_configs ss) (to_list n q) q0 = Ok qa -> chain_at g s ls q0 q cfg ->
    forall m d, g m = Some d -> is_joint (d_type d) = true -> config_of s qa (d_cfg d) = cfg (d_cfg d).
  Proof.
    intros E [K1 K2] m d G J. destruct chain_ids as (Ni & Ok1 & F2).
    destruct (config_set_ok (ss_configs ss) (to_list n q) q0 Ni Ok1) as (a & E1 & La & R1 & R2); [rewrite to_list_len; unfold n; lia|].
    rewrite E in E1. injection E1 as <-.
    destruct (in_dec String.string_dec (d_cfg d) (map d_cfg (joint_decls g ls))) as [I|I].
    - apply in_map_iff in I as (d' & Ed & I'). apply In_nth_error in I' as (i & Hi). rewrite <- Ed, (K1 i d' Hi).
      destruct (f2_nth _ _ _ F2 i d' Hi) as (z & Hz & Cz & Pz). unfold config_of. rewrite Cz.
      assert (Li : (i < n)%nat) by (unfold n; apply nth_error_Some; congruence).
      assert (Xi : nth_error (to_list n q) i = Some (q i)).
      { unfold to_list. rewrite nth_error_map, (nth_error_nth' (seq 0 n) 0%nat) by (rewrite seq_length; exact Li). cbn [option_map]. f_equal. now rewrite seq_nth. }
      pose proof (R1 i z _ Hz Xi) as Hq. now apply nth_error_nth.
    - rewrite (K2 _ I). unfold config_of.
      assert (Cf : exists i, (i < length q0)%nat /\ config_id s (d_cfg d) = Ok (Z.of_nat i)).
      { clear E K1 K2 R1 R2 F2 Sv Rg. subst n. pose proof (ch_ready _ _ _ _ _ _ _ C) as Rd. pose proof (ch_forest _ _ _ _ _ _ _ C) as Fo.
        destruct (c46 h s Rd (proj1 Fo) (ex_intro _ m (ex_intro _ d G))) as (mm & Cm & _ & U & _). rewrite Cq in Cm. injection Cm as <-.
        destruct (U (d_cfg d)) as (i & Hi & Ci & _); [exists m, d; auto|]. eauto. }
      destruct Cf as (i & Hi & Ci). rewrite Ci, Nat2Z.id.
      assert (Nin : ~ In (Z.of_nat i) (ss_configs ss)).
      { intros Hin. apply In_nth_error in Hin as (k & Hk). apply I.
        assert (exists d', nth_error (joint_decls g ls) k = Some d').
        { destruct (nth_error (joint_decls g ls) k) eqn:Ek; [eauto|]. apply nth_error_None in Ek. rewrite (f2_length _ _ _ F2) in Ek.
          assert (k < length (ss_configs ss))%nat by (apply nth_error_Some; congruence). lia. }
        destruct H as (d' & Hd). destruct (f2_nth _ _ _ F2 k d' Hd) as (z & Hz & Cz & Pz). rewrite Hk in Hz. injection Hz as <-.
        apply in_map_iff. exists d'. split; [|eapply nth_error_In; eauto]. eapply id_inj; eauto. }
      specialize (R2 i Nin). destruct (nth_error q0 i) as [x|] eqn:Ex; [|apply nth_error_None in Ex; lia].
      transitivity x; [now apply nth_error_nth|symmetry; now apply nth_error_nth].
  Qed.

  Context (ev : R -> res (QV * DX)) (rel0 abs0 : list QV).
  Let nf := Z.to_nat (frame_count s).
  Hypothesis T0 : sg_tf s q0 nf = Ok (rel0, abs0).

  Lemma sys_ok t q X dX : ev t = Ok (X, dX) ->
    exists y, path_sys gesdd M0 ev s ss p tz q0 nf rel0 abs0 t q = Ok y /\
      forall cfg, chain_at g s ls q0 q cfg -> tracking_rates g root tip ls gesdd p n cfg q X dX y.
  Proof.
    intros Et. unfold path_sys. rewrite Et. cbn [bind]. fold n. destruct chain_ids as (Ni & Ok1 & F2).
    destruct (config_set_ok (ss_configs ss) (to_list n q) q0 Ni Ok1) as (qa & Eq & Rp); [rewrite to_list_len; unfold n; lia|].
    pose proof (written q qa) as Wr. rewrite Eq in Wr |- *. cbn [bind]. destruct Rp as (La & _).
    pose proof (ch_ready _ _ _ _ _ _ _ C) as Rd. pose proof (ch_forest _ _ _ _ _ _ _ C) as Fo. pose proof (ch_proper _ _ _ _ _ _ _ C) as Pr.
    rewrite (c48 h s q0 qa nf rel0 abs0 Rd Fo Cq) by (rewrite ?La; auto).
    assert (Ca : config_count s = Ok (length qa)) by (rewrite La; exact Cq).
    destruct (c47_tf h s qa nf Rd Fo Pr Ca) as (rel & abs & Ef & _ & Labs & _ & HA). rewrite Ef. cbn [bind].
    assert (Len : length abs = Z.to_nat (frame_count s)) by (rewrite Labs; unfold nf; apply Nat.min_id).
    (* every named frame has its entry *)
    assert (Ps : forall m z, id_of s m z -> posed_at g s (config_of s qa) abs m).
    { intros m z [Hz Nz]. destruct (String.string_dec m ""%string) as [Em|Nm]; [now left|]. destruct (ready_inv _ _ Rd) as [I [lf X']].
      destruct (frame_no_nonneg g (limit_of h) s lf m z I X' (proj1 Fo) Nm Hz Nz) as (j & -> & Fz & Nj).
      right. assert (Hl : (j < length abs)%nat).
      { rewrite Len. unfold frame_count. rewrite Nat2Z.id, (id_frames _ _ X'), app_length, map_length. assert (j < length lf)%nat by (apply nth_error_Some; congruence). lia. }
      destruct (nth_error abs j) as [E|] eqn:En; [|apply nth_error_None in En; lia].
      destruct (HA m j E Fz En) as [U L]. exists j, E. split; [split; [exact Fz|exact Nz]|auto]. }
    assert (Po : forall m, In m (root :: ls) -> posed_at g s (config_of s qa) abs m).
    { clear - C Ps. subst g. destruct C as [Rd Fo Pr Nn Zt Bt (rz & junk & m' & Zr & Cn & Cc)].
      destruct (c50_chain h s root tip rz tz ls junk Rd Fo Zr Zt Bt) as (zs & cs & _ & H1 & _).
      intros m [<-|I]; [eapply Ps; eauto|]. apply In_nth_error in I as (k & Hk). destruct (f2_nth _ _ _ H1 k m Hk) as (z & _ & Hz). eapply Ps; eauto. }
    destruct (jac_matrix h s root tip tz ls ss C (config_of s qa) abs Po) as (l & K & HJ & _ & HL & _ & _).
    destruct (between_tip _ _ _ _ (ch_between _ _ _ _ _ _ _ C) (ch_some _ _ _ _ _ _ _ C)) as [It Nt].
    destruct (Po tip (or_intror It)) as [Et0|(i & E & Zi & Ei & Ui & Li)]; [congruence|].
    assert (Ez : Z.of_nat i = tz) by (destruct Zi as [Zi _]; destruct (ch_tip _ _ _ _ _ _ _ C) as [Zi' _]; congruence).
    assert (Rd' : fk_read abs tz = Ok E).
    { unfold fk_read. rewrite <- Ez. destruct (Z.ltb_spec (Z.of_nat i) 0); [lia|]. now rewrite Nat2Z.id, Ei. }
    rewrite Rd'. cbn [bind]. rewrite HJ. cbn [bind].
    destruct (x2dq_ok gesdd M0 p n S2 Rg (to_list n q) E X dX l (to_list_len n q) HL (Sv qa nf rel abs l Ef HJ)) as (y & Ey & Hy).
    rewrite Ey. cbn [lower]. exists y. split; [reflexivity|]. intros cfg Hc.
    pose proof (Wr cfg eq_refl Hc) as W.
    assert (Tr : forall m a x, located g (config_of s qa) m a x -> located g cfg m a x) by (intros m a x; apply located_cfg; exact W).
    assert (Po' : forall m, In m (root :: ls) -> posed_at g s cfg abs m).
    { intros m I. destruct (Po m I) as [->|(i' & E' & Z' & N' & U' & L')]; [now left|right]. exists i', E'. repeat split; try apply Z'; auto. }
    destruct (jac_matrix h s root tip tz ls ss C cfg abs Po') as (l' & K' & HJ' & _ & _ & _ & HV').
    rewrite HJ in HJ'. injection HJ' as <-.
    exists (colmat l), E. split; [exact HV'|]. split; [exact Ui|]. split; [intros a; apply Tr, Li|].
    cbv zeta in Hy |- *. destruct (ip_qref p) as [qr|]; [|exact Hy]. destruct (ip_dqdt p) as [gain|]; [|exact Hy].
    intros R. specialize (Hy R). destruct Hy as [Ls Nr]. split; [exact Ls|]. intros z Hz. destruct (Nr z Hz) as [A1 A2].
    assert (Es : forall z', ssq n (fun i => z' i - - nth i gain 0 * (q i - nth i qr 0)) = ssq n (fun i => z' i - - nth i gain 0 * (nth i (to_list n q) 0 - nth i qr 0))).
    { intros z'. unfold ssq, dotp. apply bsum_ext. intros k Hk. now rewrite to_list_nth. }
    rewrite !Es. split; [exact A1|exact A2].
  Qed.
End Chain.
