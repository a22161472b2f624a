(** Inverse kinematics solvers: runs from given seeds. *)
From Coq Require Import ZArith String List Bool Reals Lia Lra.
From Verif Require Import TrModel TfModel TfSpec TfProofs TfRepProofs TfExpModel TfExpSpec TfExpProofs TfCalcProofs SgModel SgSpec SgKinSpec
  SgClaims1 SgClaims2 SgClaims3 SgChainProofs RkModel IkModel IkProofs IkPose IkSpec IkObj MatModel MatSpec MatProofs LaModel LaSpec LaAlg
  WkModel WkSpec WkServo WkLoop WkRateModel WkRateSpec WkRate2 WkRate4 IkSolveModel IkSolveSpec IkSolve IkSolve2.
Import ListNotations.
Open Scope R_scope.

Lemma scatter_any ids v : forall j all all' x, length all = length all' -> scatter ids v j all = Ok x -> exists y, scatter ids v j all' = Ok y.
Proof.
  induction ids as [|i r IH]; intros j all all' x L H; cbn [scatter] in *; [eauto|].
  destruct (from (dv_get v j)); cbn [bind] in *; try discriminate H. rewrite <- L. destruct (_ || _); [discriminate H|].
  eapply IH; [|exact H]. now rewrite !set_at_len.
Qed.

Section Chain.
  Variables (h : list op) (s : sg) (root tip : string) (tz : Z) (ls : list string) (ss : ssg) (lims : list (option (R * R))).
  Hypothesis C : chain_of h s root tip tz ls ss.
  Hypothesis Ls : limits_seen (declared h) s ls lims.
  Let g := declared h.
  Let Sn := chain_limits _ _ _ _ _ _ _ _ C Ls.

  Lemma config_len cfg : length (chain_config g ls cfg) = length (ss_configs ss).
  Proof.
    clear Sn. destruct C as [Rd Fo Pr Nn Zt Bt (rz & junk & n & Zr & Cn & Cc)].
    destruct (c50_chain h s root tip rz tz ls junk Rd Fo Zr Zt Bt) as (zs & cs & E & _ & H2). rewrite E in Cc. injection Cc as <-.
    unfold chain_config. rewrite map_length. cbn [ss_configs]. unfold g. clear - H2. induction H2; cbn; congruence.
  Qed.

  Lemma start_ok cfg B fk start : base_at g s cfg root B fk -> config_count s = Ok (length start) ->
    exists a, sub_scatter s ss (SgModel.mkDV (length (chain_config g ls cfg)) (chain_config g ls cfg) 1) (map Some start) = Ok a.
  Proof.
    intros Hb Cs. destruct (obj_pose_ok h s root tip tz ls ss C cfg B fk Hb) as (f & E & O & _). fold g in O. unfold obj_pose, fk_sub, clean in O.
    assert (D : s_dirty s = false) by exact (proj2 (ch_ready _ _ _ _ _ _ _ C)). rewrite D, Cs in O. cbn [bind] in O.
    rewrite config_len. unfold sub_scatter in *. rewrite Cs in *. cbn [bind dv_len] in *. rewrite repeat_length in O. rewrite map_length.
    destruct (negb _ || negb _); [discriminate O|].
    destruct (scatter (ss_configs ss) _ 0 (repeat None (length start))) eqn:Sc; cbn [bind] in O; try discriminate O.
    eapply scatter_any; [|exact Sc]. now rewrite repeat_length, map_length.
  Qed.

  Section Seed.
    Variables (c : ik_cx) (cfg : string -> R) (B : QV) (fs : list Z) (Er : QV).
    Hypothesis Es : ic_ss c = ss.
    Hypothesis Ef : ic_frames c = tz :: fs.
    Hypothesis Cs : config_count s = Ok (length (ic_start c)).
    Hypothesis Hb : base_at g s cfg root B (ic_fk c).
    Hypothesis Hs : ic_seed c = chain_config g ls cfg.
    Hypothesis Ur : unit_qutr Er.

    Lemma c83_leak gesdd junk M0 nlopt fuel cols rs : cols <> 1%nat ->
      ik_solve gesdd junk M0 nlopt fuel s c 7 cols Er (length (ss_configs ss)) rs = Ok (mkSol 16 None 0 false).
    Proof.
      intros N. destruct (start_ok cfg B _ (ic_start c) Hb Cs) as [a Sc]. unfold ik_solve. rewrite Es, Hs, Ef, Nat.eqb_refl. cbn [negb orb Nat.eqb hd_error from bind].
      rewrite Sc. cbn [bind]. destruct cols as [|[|]]; [reflexivity|congruence|reflexivity].
    Qed.
    (** SQP with an optimiser that leaves the seed where it is *)
    Lemma sqp_stays gesdd junk M0 nlopt fuel rs : ip_algo (ic_parm c) = SQP -> nlopt lims (ic_seed c) = ic_seed c ->
      reaches g cfg tip Er (1 / 2) (ip_angle (ic_parm c)) (ip_trans (ic_parm c)) ->
      ik_solve gesdd junk M0 nlopt fuel s c 7 1 Er (length (ss_configs ss)) rs = Ok (mkSol 0 (Some (ic_seed c)) 0 true).
    Proof.
      intros A St Rc. destruct (start_ok cfg B _ (ic_start c) Hb Cs) as [a Sc]. unfold ik_solve. rewrite Hs, Es, Ef, Nat.eqb_refl. cbn [negb orb Nat.eqb hd_error from bind].
      rewrite Sc, A. cbn [bind]. destruct (obj_pose_ok h s root tip tz ls ss C cfg B _ Hb) as (f & E & O & _). fold g in O.
      assert (N : ik_nlopt s ss (ic_parm c) tz Er (ic_fk c) nlopt (chain_config g ls cfg) = Ok (chain_config g ls cfg, 0%Z)).
      { unfold ik_nlopt. rewrite (bounds_ok _ _ _ Sn). cbn [bind]. rewrite <- Hs, St, Hs, O. cbn [bind]. do 2 f_equal. apply s_check_0.
        eapply good_reaches; eauto. }
      destruct rs; cbn [tries]; rewrite A, N; reflexivity.
    Qed.
    Lemma c83_sqp_seed gesdd junk M0 nlopt fuel rs : ip_algo (ic_parm c) = SQP -> refuses_start nlopt -> ~ in_limits lims (ic_seed c) ->
      reaches g cfg tip Er (1 / 2) (ip_angle (ic_parm c)) (ip_trans (ic_parm c)) ->
      ik_solve gesdd junk M0 nlopt fuel s c 7 1 Er (length (ss_configs ss)) rs = Ok (mkSol 0 (Some (ic_seed c)) 0 true).
    Proof.
      intros A Rf N Rc. apply sqp_stays; [exact A| |exact Rc]. apply Rf; [|exact N]. rewrite Hs, config_len. symmetry. eapply seen_len. exact Sn.
    Qed.
  End Seed.

  (** the angle that is compared is half the angle of the turn *)
  Lemma c83_angle c cfg B fs : ic_ss c = ss -> ic_frames c = tz :: fs -> config_count s = Ok (length (ic_start c)) ->
    base_at g s cfg root B (ic_fk c) -> ic_seed c = chain_config g ls cfg -> ip_algo (ic_parm c) = SQP ->
    0 < ip_angle (ic_parm c) <= PI / 2 -> 0 < ip_trans (ic_parm c) ->
    exists Er, unit_qutr Er /\ ~ reaches g cfg tip Er 1 (ip_angle (ic_parm c)) (ip_trans (ic_parm c)) /\
      forall gesdd junk M0 nlopt fuel rs, nlopt lims (ic_seed c) = ic_seed c ->
      ik_solve gesdd junk M0 nlopt fuel s c 7 1 Er (length (ss_configs ss)) rs = Ok (mkSol 0 (Some (ic_seed c)) 0 true).
  Proof.
    intros Es Ef Cs Hb Hs A Ta Tt. destruct (obj_pose_ok h s root tip tz ls ss C cfg B _ Hb) as (f & E & O & _ & U & L & _).
    set (phi := 3 / 2 * ip_angle (ic_parm c)). pose proof PI_RGT_0.
    assert (K : unit3 (mkV 0 0 1)) by (unfold unit3, dot; cbn; ring).
    set (Er := mkE (qmul (TfModel.eq E) (axang2quat (mkA (mkV 0 0 1) phi))) (ev E)).
    assert (Ur : unit_qutr Er) by (apply qmul_unit; [exact U|apply axang2quat_unit; exact K]).
    assert (T : turn_to (place (TfModel.eq E) (ev E)) (TfModel.eq Er) phi).
    { split; [unfold phi; lra|]. exists (mkV 0 0 1). split; [exact K|]. intros p. rewrite place_zero, !place_rot by assumption. cbn [Er TfModel.eq].
      rewrite qrot_mul, qrot_axang by (try exact U; try exact K; apply axang2quat_unit; exact K). apply (f_equal (plus3 (ev E))). generalize (qrot (TfModel.eq E) (rodrigues (mkV 0 0 1) phi p)). intros []. unfold plus3, zero3. cbn. f_equal; ring. }
    assert (W : within (ic_parm c) E Er).
    { unfold within. rewrite (err2_ok E Er phi U Ur T). cbn [fst snd Er ev]. split; [unfold phi; lra|]. unfold dist.
      replace (dist2 (ev E) (ev E)) with 0; [rewrite sqrt_0; lra|]. unfold dist2, minus3, plus3, times3, dot. destruct (ev E). cbn. ring. }
    exists Er. split; [exact Ur|]. split.
    - intros Rc. destruct (Rc _ L) as [_ Rt]. specialize (Rt phi T). unfold phi in Rt. lra.
    - intros gesdd junk M0 nlopt fuel rs St. apply (sqp_stays c cfg B fs Er); auto. eapply good_reaches; eauto.
  Qed.
End Chain.

(** ** A seed that is a solution *)
Lemma to_list_ext n x y : (forall i, (i < n)%nat -> x i = y i) -> to_list n x = to_list n y.
Proof. intros H. unfold to_list. apply map_ext_in. intros i I. apply in_seq in I. apply H. lia. Qed.
Lemma to_of n l : length l = n -> to_list n (of_list l) = l.
Proof.
  intros <-. unfold to_list, of_list. induction l as [|a l IH]; [reflexivity|]. cbn [length seq map nth]. f_equal.
  rewrite <- seq_shift, map_map. exact IH.
Qed.
Lemma to_list_nth n x i : (i < n)%nat -> nth i (to_list n x) 0 = x i.
Proof.
  intros H. unfold to_list. rewrite (nth_indep _ 0 (x 0%nat)) by (now rewrite map_length, seq_length). rewrite map_nth, seq_nth by exact H. reflexivity.
Qed.
Lemma norm_zero n x : (forall i, (i < n)%nat -> x i = 0) -> fold_right (fun a b => a * a + b) 0 (to_list n x) = 0.
Proof.
  intros H. rewrite (to_list_ext n x (fun _ => 0) H). unfold to_list. generalize (seq 0 n). intros l. induction l as [|a l IH]; [reflexivity|]. cbn [map fold_right]. rewrite IH. ring.
Qed.

Lemma rod0 k p : rodrigues k 0 p = p.
Proof. unfold rodrigues. rewrite sin_0, cos_0. destruct p, k. unfold plus3, times3, xprod, dot. cbn. f_equal; ring. Qed.
(** the servo asks for no velocity at the goal *)
Lemma servo_zero ga gt Ea Er : unit_qutr Ea -> unit_qutr Er -> (forall p, point Ea p = point Er p) ->
  wk_dx_pos ga gt Ea Er (mkDX (mkV 0 0 0) (mkV 0 0 0)) = mkDX (mkV 0 0 0) (mkV 0 0 0).
Proof.
  intros A B P. assert (T : turn_to (point Ea) (TfModel.eq Er) 0).
  { pose proof PI_RGT_0. split; [lra|]. exists (mkV 0 0 1). split; [unfold unit3, dot; cbn; ring|]. intros p.
    assert (R : rodrigues (mkV 0 0 1) 0 p = p) by apply rod0.
    rewrite R, !P. unfold point. rewrite place_zero, !place_rot by exact B. f_equal. generalize (qrot (TfModel.eq Er) p). intros []. unfold plus3, zero3. cbn. f_equal; ring. }
  destruct (servo_ok ga gt Ea Er (mkDX (mkV 0 0 0) (mkV 0 0 0)) 0 A B T (or_introl eq_refl)) as (V & W & E & Lw & F).
  assert (W0 : W = zero3) by (apply TfExpProofs.len3_zero; lra). subst W.
  assert (M : moved_by V zero3 (ev Ea) (fun t p => plus3 p (times3 t V))).
  { unfold moved_by. split.
    - intros p. destruct p, V. unfold plus3, times3. cbn. f_equal; ring.
    - intros t p. destruct p, V, (ev Ea). unfold vderiv, plus3, times3, xprod, minus3, zero3. cbn.
      repeat split; (eapply dpl_eq; [|apply dpl_plus; [apply dpl_const|apply dpl_mult; [apply derivable_pt_lim_id|apply dpl_const]]]); cbn; ring. }
  specialize (F _ M zero3). cbv beta in F. rewrite <- P in F.
  assert (V0 : V = zero3).
  { destruct (point Ea zero3) as [a b c], V as [x y z]. unfold plus3, times3 in F. cbn in F. injection F as F1 F2 F3. unfold zero3. f_equal; lra. }
  rewrite E, V0. unfold plus3, times3, zero3. cbn. f_equal; f_equal; ring.
Qed.

Section Solved.
  Variables (h : list op) (s : sg) (root tip : string) (tz : Z) (ls : list string) (ss : ssg) (lims : list (option (R * R))).
  Hypothesis C : chain_of h s root tip tz ls ss.
  Hypothesis Ls : limits_seen (declared h) s ls lims.
  Let g := declared h.
  Let Sn := chain_limits _ _ _ _ _ _ _ _ C Ls.
  Variables (gesdd : nat -> nat -> (nat -> nat -> R) -> svdres) (junk : nat -> R) (M0 : mem).
  Variables (p : ik_parm) (cfg : string -> R) (B : QV) (fk : list QV) (Er : QV).
  Hypothesis Hb : base_at g s cfg root B fk.
  Hypothesis Ur : unit_qutr Er.
  Hypothesis At : at_goal g cfg tip Er.
  Hypothesis Np : (0 < length (ss_configs ss))%nat.
  Hypothesis S2 : 0 < wo_s2min (ip_wk p).
  Hypothesis Nr : ip_qref p = None.
  Let seed := chain_config g ls cfg.
  Hypothesis Sv : forall fk' E l, obj_pose s ss tz seed fk = Ok (fk', E) -> chain_jacobian s fk' ss = Ok l ->
    exists r, decomposes gesdd 6 (length (ss_configs ss)) (colmat l) r.

  Lemma root_out : ~ In root ls.
  Proof.
    clear Sn. destruct C as [Rd Fo Pr Nn Zt Bt _]. destruct Bt as [P|[_ N]]; [|exact N]. clear - P.
    induction P as [|n d l Nr Ne G P IH]; [intros []|]. intros I. apply in_app_iff in I as [I|[I|[]]]; [auto|congruence].
  Qed.
  Lemma sys_zero x : to_list (nq ss) x = seed -> exists k, solve_sys gesdd junk M0 s ss p tz Er fk x = Ok k /\ forall i, (i < nq ss)%nat -> k i = 0.
  Proof.
    intros Hx. unfold solve_sys. rewrite Hx.
    destruct (obj_pose_ok h s root tip tz ls ss C cfg B fk Hb) as (f & E & O & Ok' & U & L & Ps). fold g seed in O. rewrite O. cbn [bind].
    rewrite servo_zero; [|exact U|exact Ur|intros q; eapply located_fun; [apply L|apply At]]. cbv zeta. cbn [dxv dxw]. rewrite Nr.
    assert (Pf : forall m, In m (root :: ls) -> posed_at (declared h) s cfg f m).
    { intros m [<-|I]; [|now apply Ps]. destruct Hb as [Lf [->|(i & Zi & Ni & Ui & Li)]]; [now left|]. right. exists i, B. split; [exact Zi|].
      split; [|auto]. destruct Ok' as [_ Kp]. rewrite (Kp root i root_out (proj1 Zi)). exact Ni. }
    destruct (c82_rates h s root tip tz ls ss cfg f C Pf Np) as (l & J & _ & Rt). destruct (Sv f E l O J) as (r & Dc).
    set (M := put3 3 (mkV 0 0 0) (put3 0 (mkV 0 0 0) M0)). set (n := length (ss_configs ss)) in *. change (nq ss) with n.
    destruct (Rt (ip_wk p) gesdd junk r (MatModel.mkDV 6 0 1) (MatModel.mkDV n (6 + n) 1) (6 + 2 * n)%nat M) as (M' & Rn & Rf & _); auto.
    - unfold good_vec. cbn [v_inc]. lia.
    - intros a (i & Hi & Ei) (j & Hj & Ej). unfold velem in *. cbn [v_data v_inc v_len] in *. lia.
    - intros i Hi. unfold outside, velem. cbn [v_data v_inc v_len] in *. left. lia.
    - intros i Hi. unfold outside, velem. cbn [v_data v_inc v_len] in *. left. lia.
    - rewrite Rn. cbn [lower bind]. eexists. split; [reflexivity|]. intros i Hi.
      assert (Z : ssq 6 (vget (MatModel.mkDV 6 0 1) M) = 0).
      { unfold ssq, dotp, vget, velem, M. cbn [bsum v_data v_inc]. cbn. ring. }
      pose proof (rf_bound _ _ _ _ _ _ Rf S2) as Bd. rewrite Z in Bd.
      assert (Q : ssq n (vget (MatModel.mkDV n (6 + n) 1) M') <= 0).
      { apply (Rmult_le_reg_l (wo_s2min (ip_wk p))); lra. }
      assert (Q0 : ssq n (vget (MatModel.mkDV n (6 + n) 1) M') = 0) by (pose proof (ssq_nonneg n (vget (MatModel.mkDV n (6 + n) 1) M')); lra).
      pose proof (ssq_zero _ _ Q0 i Hi) as V. unfold vget, velem in V. cbn [v_data v_inc] in V. now rewrite Nat.mul_1_r in V.
  Qed.

  Lemma seed_len : length seed = nq ss.
  Proof. exact (config_len h s root tip tz ls ss C cfg). Qed.
  Lemma bs23_zero dt x0 k : to_list (nq ss) x0 = seed -> (forall i, (i < nq ss)%nat -> k 0%nat i = 0) ->
    exists r, bs23 gesdd junk M0 s ss p tz Er fk dt x0 k = Ok r /\ to_list (nq ss) (x_hi r) = seed /\
      (forall i, (i < nq ss)%nat -> x_lo r i = x_hi r i) /\ (forall i, (i < nq ss)%nat -> k_of r 3%nat i = 0).
  Proof.
    intros Hx Hk. unfold bs23.
    destruct (sys_zero (fun r => x0 r + dt / 2 * k 0%nat r)) as (k1 & E1 & Z1).
    { rewrite <- Hx. apply to_list_ext. intros i Hi. rewrite Hk by exact Hi. ring. }
    rewrite E1. cbn [bind]. cbv zeta.
    destruct (sys_zero (fun r => x0 r + 3 * dt / 4 * setcol k 1 k1 1%nat r)) as (k2 & E2 & Z2).
    { rewrite <- Hx. apply to_list_ext. intros i Hi. unfold setcol. cbn [Nat.eqb]. rewrite Z1 by exact Hi. ring. }
    rewrite E2. cbn [bind]. 
    assert (G : forall i, (i < nq ss)%nat -> gemv 3 dt (setcol (setcol k 1 k1) 2 k2) [2 / 9; 1 / 3; 4 / 9] x0 i = x0 i).
    { intros i Hi. unfold gemv, setcol. cbn [bsum Nat.eqb nth]. rewrite Hk, Z1, Z2 by exact Hi. ring. }
    destruct (sys_zero (gemv 3 dt (setcol (setcol k 1 k1) 2 k2) [2 / 9; 1 / 3; 4 / 9] x0)) as (k3 & E3 & Z3).
    { rewrite <- Hx. apply to_list_ext. exact G. }
    rewrite E3. cbn [bind]. eexists. split; [reflexivity|]. unfold x_hi, x_lo, k_of. cbn [fst snd].
    assert (G' : forall i, (i < nq ss)%nat -> gemv 4 dt (setcol (setcol (setcol k 1 k1) 2 k2) 3 k3) [7 / 24; 1 / 4; 1 / 3; 1 / 8] x0 i = x0 i).
    { intros i Hi. unfold gemv, setcol. cbn [bsum Nat.eqb nth]. rewrite Hk, Z1, Z2, Z3 by exact Hi. ring. }
    split; [rewrite <- Hx; now apply to_list_ext|]. split; [intros i Hi; rewrite G, G' by exact Hi; reflexivity|]. intros i Hi. unfold setcol. cbn [Nat.eqb]. auto.
  Qed.

  Hypothesis Il : in_limits lims seed.
  Hypothesis Ta : 0 < ip_angle p.
  Hypothesis Tt : 0 < ip_trans p.
  Lemma check_zero it y : (forall i, (i < nq ss)%nat -> y i = 0) ->
    solve_check s ss p tz Er fk it seed (to_list (nq ss) y) =
    Ok (seed, S it, if Rlt_b 0 (ip_dq p) then 1%Z else if Nat.ltb (ip_max p) (S it) then (-1)%Z else 0%Z).
  Proof.
    intros Hy. unfold solve_check. rewrite (clamp_id _ _ _ _ Sn Il). cbn [bind].
    destruct (obj_pose_ok h s root tip tz ls ss C cfg B fk Hb) as (f & E & O & _ & U & L & _). fold g seed in O. rewrite O. cbn [bind].
    assert (W : within p E Er).
    { apply (good_reaches h s root tip tz ls ss C p Er fk seed cfg B Ur eq_refl Hb f E O). intros f' Lf.
      assert (F : forall q, f' q = place (TfModel.eq Er) (ev Er) q) by (intros q; eapply located_fun; [apply Lf|apply At]).
      split.
      - rewrite F, place_zero by exact Ur. unfold IkSpec.dist. replace (dist2 (ev Er) (ev Er)) with 0; [rewrite sqrt_0; lra|]. unfold dist2, minus3, plus3, times3, dot. destruct (ev Er). cbn. ring.
      - intros phi T. apply (turn_ext _ _ _ _ F) in T.
        assert (T0 : turn_to (place (TfModel.eq Er) (ev Er)) (TfModel.eq Er) 0).
        { pose proof PI_RGT_0. split; [lra|]. exists (mkV 0 0 1). split; [unfold unit3, dot; cbn; ring|]. intros q.
          assert (R : rodrigues (mkV 0 0 1) 0 q = q) by apply rod0.
          rewrite R, place_zero, !place_rot by exact Ur. f_equal. generalize (qrot (TfModel.eq Er) q). intros []. unfold plus3, zero3. cbn. f_equal; ring. }
        pose proof (err2_ok Er Er phi Ur Ur T) as Q. rewrite (err2_ok Er Er 0 Ur Ur T0) in Q. injection Q as Q. lra. }
    destruct W as [Wa Wt]. destruct (err2 E Er) as [a b]. cbn [fst snd] in *. apply Rlt_b_true in Wa, Wt. rewrite Wa, Wt. cbn [andb].
    rewrite norm_zero by exact Hy. reflexivity.
  Qed.

  Lemma jp_zero : 0 <= ip_dq p -> forall fuel dt x0 k it, to_list (nq ss) x0 = seed -> (forall i, (i < nq ss)%nat -> k 0%nat i = 0) ->
    (0 < fuel)%nat -> (ip_dq p = 0 -> (ip_max p < fuel + it)%nat) -> (ip_dq p = 0 -> (it <= ip_max p)%nat) ->
    jp_loop gesdd junk M0 s ss p tz Er fk fuel dt x0 k it =
    Ok (seed, if Rlt_b 0 (ip_dq p) then S it else S (ip_max p), if Rlt_b 0 (ip_dq p) then 1%Z else (-1)%Z).
  Proof.
    intros D. induction fuel as [|fuel IH]; intros dt x0 k it Hx Hk Hf Hm Hi; [lia|]. cbn [jp_loop].
    destruct (bs23_zero dt x0 k Hx Hk) as (r & -> & Xh & Xl & Kz). cbn [bind].
    assert (E0 : bsum (nq ss) (fun i => (x_lo r i - x_hi r i) * (x_lo r i - x_hi r i)) = 0).
    { rewrite (bsum_ext (nq ss) _ (fun _ => 0)); [apply bsum_0|]. intros i Hj. rewrite Xl by exact Hj. ring. }
    rewrite E0. assert (F : Rlt_b (ip_dq p / 16) 0 = false) by (apply Rlt_b_false; lra). rewrite F. cbv zeta. rewrite Xh, (check_zero it _ Kz). cbn [bind].
    destruct (Rlt_b 0 (ip_dq p)) eqn:P; [reflexivity|]. apply Rlt_b_false in P. assert (Z : ip_dq p = 0) by lra.
    destruct (Nat.ltb_spec (ip_max p) (S it)) as [Lm|Lm].
    - cbn [Z.eqb]. repeat f_equal. specialize (Hi Z). lia.
    - cbn [Z.eqb]. specialize (Hm Z). rewrite IH; [reflexivity|apply to_of; exact seed_len|intros i Hj; unfold setcol; cbn [Nat.eqb]; auto|lia|lia|lia].
  Qed.
  Lemma jpinv_zero fuel : 0 <= ip_dq p -> (0 < fuel)%nat -> (ip_dq p = 0 -> (ip_max p < fuel)%nat) ->
    ik_jpinv gesdd junk M0 s ss p tz Er fk fuel seed 0 =
    Ok (seed, if Rlt_b 0 (ip_dq p) then 1%nat else S (ip_max p), if Rlt_b 0 (ip_dq p) then 0%Z else 3%Z).
  Proof.
    intros D F Fm. unfold ik_jpinv. pose proof (to_of (nq ss) seed seed_len) as T.
    destruct (sys_zero (of_list seed) T) as (k0 & -> & Z). cbn [bind]. rewrite jp_zero; [|auto; try (intros Z0; specialize (Fm Z0)); lia..].
    destruct (Rlt_b 0 (ip_dq p)); reflexivity.
  Qed.
End Solved.

Lemma c83_solved_seed h s root tip tz ls ss lims gesdd junk M0 nlopt c cfg B fs Er fuel :
  chain_of h s root tip tz ls ss -> limits_seen (declared h) s ls lims ->
  ic_ss c = ss -> ic_frames c = tz :: fs -> config_count s = Ok (length (ic_start c)) ->
  base_at (declared h) s cfg root B (ic_fk c) -> ic_seed c = chain_config (declared h) ls cfg -> in_limits lims (ic_seed c) ->
  unit_qutr Er -> at_goal (declared h) cfg tip Er -> (0 < length (ss_configs ss))%nat ->
  let p := ic_parm c in
  ip_algo p = JPINV -> ip_qref p = None -> 0 < wo_s2min (ip_wk p) -> 0 < ip_angle p -> 0 < ip_trans p ->
  (forall fk' E l, obj_pose s ss tz (ic_seed c) (ic_fk c) = Ok (fk', E) -> chain_jacobian s fk' ss = Ok l ->
    exists r, decomposes gesdd 6 (length (ss_configs ss)) (colmat l) r) ->
  (ip_max p < fuel)%nat ->
  (0 < ip_dq p -> ik_solve gesdd junk M0 nlopt fuel s c 7 1 Er (length (ss_configs ss)) [] = Ok (mkSol 0 (Some (ic_seed c)) 1 true)) /\
  (ip_dq p = 0 -> ik_solve gesdd junk M0 nlopt fuel s c 7 1 Er (length (ss_configs ss)) [] = Ok (mkSol 3 (Some (ic_seed c)) (S (ip_max p)) true)).
Proof.
  intros C Ls Es Ef Cs Hb Hs Il Ur At Np p A Nr S2 Ta Tt Sv F. rewrite Hs in *.
  assert (G : 0 <= ip_dq p -> ik_solve gesdd junk M0 nlopt fuel s c 7 1 Er (length (ss_configs ss)) [] =
    Ok (mkSol (if Rlt_b 0 (ip_dq p) then 0%Z else 3%Z) (Some (chain_config (declared h) ls cfg)) (if Rlt_b 0 (ip_dq p) then 1%nat else S (ip_max p)) true)).
  { intros D. destruct (start_ok h s root tip tz ls ss C cfg B _ (ic_start c) Hb Cs) as [a Sc]. unfold ik_solve. rewrite Hs, Es, Ef, Nat.eqb_refl. cbn [negb orb Nat.eqb hd_error from bind].
    rewrite Sc. unfold p in *. rewrite A. cbn [bind tries]. rewrite A.
    rewrite (jpinv_zero h s root tip tz ls ss lims C Ls gesdd junk M0 (ic_parm c) cfg B (ic_fk c) Er); auto; try lia. }
  split; intros D; rewrite G by lra.
  - apply Rlt_b_true in D. now rewrite D.
  - assert (Rlt_b 0 (ip_dq p) = false) as -> by (apply Rlt_b_false; lra). reflexivity.
Qed.
