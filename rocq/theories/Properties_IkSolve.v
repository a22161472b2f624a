(** Theorems about inverse kinematics solutions: aa_rx_ik_cx_create, aa_rx_ik_set_start, aa_rx_ik_solve and aa_rx_ik_check. *)
From Coq Require Import ZArith String List Bool Reals Lra Lia.
From Verif Require Import TrModel TfModel TfSpec TfProofs TfRepProofs SgModel SgSpec SgKinSpec SgClaims2 SgClaims3 SgExamples IkModel IkPose IkSpec IkObj
  MatModel MatSpec LaModel LaSpec WkModel WkRateModel WkRateSpec WkRate2 Properties_Ik Properties_WkRate IkSolveModel IkSolveSpec IkSolve IkSolve2 IkSolve3 IkSolve4.
Import ListNotations.
Open Scope R_scope.

(** C83: what a returned configuration is.  [gesdd] is the singular value decomposition, [nlopt] the
    optimiser, and [rs] the numbers drawn for each restart. *)
Theorem C83_solution :
  forall h s root tip tz ls ss lims, chain_of h s root tip tz ls ss -> limits_seen (declared h) s ls lims -> ordered lims ->
  forall gesdd junk M0 nlopt fuel c fs rows cols Er len rs r,
  ic_ss c = ss -> ic_frames c = tz :: fs -> unit_qutr Er ->
  (ip_algo (ic_parm c) = SQP -> keeps_bounds nlopt /\ in_limits lims (ic_seed c)) ->
  Forall (Forall (fun u => 0 <= u <= 1)) rs ->
  ik_solve gesdd junk M0 nlopt fuel s c rows cols Er len rs = Ok r ->
  forall q, so_q r = Some q ->
  in_limits lims q /\ (so_code r = 0%Z \/ so_code r = 3%Z) /\
  (so_steps r <= S (ip_max (ic_parm c)) + length rs)%nat /\
  forall cfg B, chain_config (declared h) ls cfg = q -> base_at (declared h) s cfg root B (ic_fk c) ->
    (so_code r = 0%Z -> reaches (declared h) cfg tip Er (1 / 2) (ip_angle (ic_parm c)) (ip_trans (ic_parm c))) /\
    (ip_algo (ic_parm c) = SQP -> reaches (declared h) cfg tip Er (1 / 2) (ip_angle (ic_parm c)) (ip_trans (ic_parm c)) -> so_code r = 0%Z).
Proof. exact c83_solution. Qed.
Print Assumptions C83_solution.

(** C83: arguments of the wrong size, and the algorithm that is not implemented *)
Theorem C83_sizes :
  forall gesdd junk M0 nlopt fuel s c rows cols Er len rs,
  (len <> length (ss_configs (ic_ss c)) \/ rows <> 7%nat ->
    ik_solve gesdd junk M0 nlopt fuel s c rows cols Er len rs = Ok (mkSol 16 None 0 true)) /\
  (forall r, cols <> 1%nat -> ik_solve gesdd junk M0 nlopt fuel s c rows cols Er len rs = Ok r -> so_code r = 16%Z /\ so_q r = None) /\
  (forall r, ip_algo (ic_parm c) = LMA -> ik_solve gesdd junk M0 nlopt fuel s c rows cols Er len rs = Ok r -> so_code r <> 0%Z /\ so_q r = None).
Proof. exact c83_sizes. Qed.
Print Assumptions C83_sizes.

(** C83: several goals are refused without giving the temporary memory back. *)
Theorem C83_memory_refuted :
  forall h s root tip tz ls ss, chain_of h s root tip tz ls ss ->
  forall c cfg B fs Er, ic_ss c = ss -> ic_frames c = tz :: fs -> config_count s = Ok (length (ic_start c)) ->
  base_at (declared h) s cfg root B (ic_fk c) -> ic_seed c = chain_config (declared h) ls cfg ->
  forall gesdd junk M0 nlopt fuel cols rs, cols <> 1%nat ->
  ik_solve gesdd junk M0 nlopt fuel s c 7 cols Er (length (ss_configs ss)) rs = Ok (mkSol 16 None 0 false).
Proof. exact c83_leak. Qed.
Print Assumptions C83_memory_refuted.

(** C83: with the default tolerance for joint steps the Jacobian solver never succeeds. *)
Theorem C83_default_jacobian_refuted :
  forall h s root tip tz ls ss lims, chain_of h s root tip tz ls ss -> limits_seen (declared h) s ls lims -> ordered lims ->
  forall gesdd junk M0 nlopt fuel c fs rows cols Er len rs r,
  ic_ss c = ss -> ic_frames c = tz :: fs -> Forall (Forall (fun u => 0 <= u <= 1)) rs ->
  ic_parm c = with_algo parm_create JPINV ->
  ik_solve gesdd junk M0 nlopt fuel s c rows cols Er len rs = Ok r -> so_code r <> 0%Z.
Proof.
  intros h s root tip tz ls ss lims C Ls Od gesdd junk M0 nlopt fuel c fs rows cols Er len rs r Es Ef Rs P.
  apply (c83_tol_dq h s root tip tz ls ss lims C Ls Od gesdd junk M0 nlopt fuel c fs rows cols Er len rs r Es Ef Rs); rewrite P; [reflexivity|apply Rle_refl].
Qed.
Print Assumptions C83_default_jacobian_refuted.
Theorem C83_tol_dq_refuted :
  forall h s root tip tz ls ss lims, chain_of h s root tip tz ls ss -> limits_seen (declared h) s ls lims -> ordered lims ->
  forall gesdd junk M0 nlopt fuel c fs rows cols Er len rs r,
  ic_ss c = ss -> ic_frames c = tz :: fs -> Forall (Forall (fun u => 0 <= u <= 1)) rs ->
  ip_algo (ic_parm c) = JPINV -> ip_dq (ic_parm c) <= 0 ->
  ik_solve gesdd junk M0 nlopt fuel s c rows cols Er len rs = Ok r -> so_code r <> 0%Z.
Proof. exact c83_tol_dq. Qed.
Print Assumptions C83_tol_dq_refuted.

(** C83: the Jacobian solver started at a solution *)
Theorem C83_solved_seed :
  forall h s root tip tz ls ss lims gesdd junk M0 nlopt c cfg B fs Er fuel,
  chain_of h s root tip tz ls ss -> limits_seen (declared h) s ls lims ->
  ic_ss c = ss -> ic_frames c = tz :: fs -> config_count s = Ok (length (ic_start c)) ->
  base_at (declared h) s cfg root B (ic_fk c) -> ic_seed c = chain_config (declared h) ls cfg -> in_limits lims (ic_seed c) ->
  unit_qutr Er -> at_goal (declared h) cfg tip Er -> (0 < length (ss_configs ss))%nat ->
  let p := ic_parm c in
  ip_algo p = JPINV -> ip_qref p = None -> 0 < wo_s2min (ip_wk p) -> 0 < ip_angle p -> 0 < ip_trans p ->
  (forall fk' E l, obj_pose s ss tz (ic_seed c) (ic_fk c) = Ok (fk', E) -> chain_jacobian s fk' ss = Ok l ->
    exists r, decomposes gesdd 6 (length (ss_configs ss)) (colmat l) r) ->
  (ip_max p < fuel)%nat ->
  (0 < ip_dq p -> ik_solve gesdd junk M0 nlopt fuel s c 7 1 Er (length (ss_configs ss)) [] = Ok (mkSol 0 (Some (ic_seed c)) 1 true)) /\
  (ip_dq p = 0 -> ik_solve gesdd junk M0 nlopt fuel s c 7 1 Er (length (ss_configs ss)) [] = Ok (mkSol 3 (Some (ic_seed c)) (S (ip_max p)) true)).
Proof. exact c83_solved_seed. Qed.
Print Assumptions C83_solved_seed.

(** C83: a seed outside the joint limits, which the optimiser refuses, is returned as a solution. *)
Theorem C83_limits_refuted :
  forall h s root tip tz ls ss lims, chain_of h s root tip tz ls ss -> limits_seen (declared h) s ls lims ->
  forall c cfg B fs Er, ic_ss c = ss -> ic_frames c = tz :: fs -> config_count s = Ok (length (ic_start c)) ->
  base_at (declared h) s cfg root B (ic_fk c) -> ic_seed c = chain_config (declared h) ls cfg -> unit_qutr Er ->
  forall gesdd junk M0 nlopt fuel rs, ip_algo (ic_parm c) = SQP -> refuses_start nlopt -> ~ in_limits lims (ic_seed c) ->
  reaches (declared h) cfg tip Er (1 / 2) (ip_angle (ic_parm c)) (ip_trans (ic_parm c)) ->
  ik_solve gesdd junk M0 nlopt fuel s c 7 1 Er (length (ss_configs ss)) rs = Ok (mkSol 0 (Some (ic_seed c)) 0 true).
Proof. exact c83_sqp_seed. Qed.
Print Assumptions C83_limits_refuted.

(** C83: solutions may be off by more than the angle tolerance. *)
Theorem C83_angle_refuted :
  forall h s root tip tz ls ss lims, chain_of h s root tip tz ls ss -> limits_seen (declared h) s ls lims ->
  forall c cfg B fs, ic_ss c = ss -> ic_frames c = tz :: fs -> config_count s = Ok (length (ic_start c)) ->
  base_at (declared h) s cfg root B (ic_fk c) -> ic_seed c = chain_config (declared h) ls cfg -> ip_algo (ic_parm c) = SQP ->
  0 < ip_angle (ic_parm c) <= PI / 2 -> 0 < ip_trans (ic_parm c) ->
  exists Er, unit_qutr Er /\ ~ reaches (declared h) cfg tip Er 1 (ip_angle (ic_parm c)) (ip_trans (ic_parm c)) /\
    forall gesdd junk M0 nlopt fuel rs, nlopt lims (ic_seed c) = ic_seed c ->
    ik_solve gesdd junk M0 nlopt fuel s c 7 1 Er (length (ss_configs ss)) rs = Ok (mkSol 0 (Some (ic_seed c)) 0 true).
Proof. exact c83_angle. Qed.
Print Assumptions C83_angle_refuted.

(** C83: contexts.  The seed is inside the limits, and the pose of the base of the chain is that of the
    start configuration. *)
Theorem C83_context :
  forall h s root tip tz ls ss lims p junk n q,
  chain_of h s root tip tz ls ss -> limits_seen (declared h) s ls lims -> ordered lims ->
  config_count s = Ok n -> length q = n -> Z.of_nat (length junk) = frame_count s ->
  exists c c', ik_cx_create s ss p junk = Ok c /\ ik_set_start s c q = Ok c' /\
    ic_ss c' = ss /\ ic_parm c' = p /\ ic_start c' = q /\ in_limits lims (ic_seed c') /\
    ic_frames c' = [if Z.eqb (ip_frame p) FRAME_NONE then tz else ip_frame p] /\
    exists B, forall rs cfg, path (declared h) ""%string root rs ->
      (forall d, In d (joint_decls (declared h) rs) -> cfg (d_cfg d) = config_of s q (d_cfg d)) ->
      base_at (declared h) s cfg root B (ic_fk c').
Proof. exact c83_context. Qed.
Print Assumptions C83_context.

(** C83: aa_rx_ik_check on a chain from the root of the scene graph ... *)
Theorem C83_check :
  forall h s tip tz ls ss c fs Er cfg junk,
  chain_of h s ""%string tip tz ls ss -> ic_ss c = ss -> ic_frames c = tz :: fs -> unit_qutr Er -> Z.of_nat (length junk) = frame_count s ->
  exists r, ik_check s c Er (chain_config (declared h) ls cfg) junk = Ok r /\ (r = 0%Z \/ r = 3%Z) /\
    (r = 0%Z <-> reaches (declared h) cfg tip Er (1 / 2) (ip_angle (ic_parm c)) (ip_trans (ic_parm c))).
Proof. exact c83_check. Qed.
Print Assumptions C83_check.
(** ... and on any other chain: the verdict depends on uninitialised memory. *)
Theorem C83_check_refuted :
  forall h s root tip tz ls ss c fs Er cfg,
  chain_of h s root tip tz ls ss -> root <> ""%string -> path (declared h) root tip ls ->
  ic_ss c = ss -> ic_frames c = tz :: fs -> unit_qutr Er -> 0 < ip_angle (ic_parm c) -> 0 < ip_trans (ic_parm c) ->
  exists junk junk', Z.of_nat (length junk) = frame_count s /\ Z.of_nat (length junk') = frame_count s /\
    ik_check s c Er (chain_config (declared h) ls cfg) junk = Ok 0%Z /\
    ik_check s c Er (chain_config (declared h) ls cfg) junk' = Ok 3%Z.
Proof. exact c83_check_junk. Qed.
Print Assumptions C83_check_refuted.

Lemma goal_reached g cfg tip p Er : unit_qutr Er -> at_goal g cfg tip Er -> 0 < ip_angle p -> 0 < ip_trans p ->
  reaches g cfg tip Er (1 / 2) (ip_angle p) (ip_trans p).
Proof.
  intros U L A T. apply (within_reaches g cfg tip p Er Er U U L).
  assert (T0 : turn_to (place (TfModel.eq Er) (ev Er)) (TfModel.eq Er) 0).
  { pose proof PI_RGT_0. split; [lra|]. exists (mkV 0 0 1). split; [unfold unit3, dot; cbn; ring|]. intros q.
    rewrite rod0, place_zero, !place_rot by exact U. f_equal. generalize (qrot (TfModel.eq Er) q). intros []. unfold plus3, zero3. cbn. f_equal; ring. }
  unfold within. rewrite (err2_ok Er Er 0 U U T0). cbn [fst snd]. split; [lra|]. unfold IkSpec.dist.
  replace (dist2 (ev Er) (ev Er)) with 0; [rewrite sqrt_0; exact T|]. unfold dist2, minus3, plus3, times3, dot. destruct (ev Er). cbn. ring.
Qed.

(** The arm of SgExamples with one joint past its limit, and the pose it has there as the goal *)
Lemma arm_chain : exists ss, chain_of h_arm arm "base" "tool" 4 arm_path ss.
Proof.
  destruct arm_ids as (I0 & _ & _ & _ & I4).
  destruct (c50_chain h_arm arm "base" "tool" 0 4 arm_path (fun _ => 0%Z) arm_ready arm_forest I0 I4 (or_introl arm_is_path)) as (zs & cs & E & _).
  exists (mkSS zs cs (Some [4%Z])). constructor; auto using arm_ready, arm_forest, arm_proper.
  - discriminate.
  - left. exact arm_is_path.
  - exists 0%Z, (fun _ => 0%Z), 3%nat. split; [exact I0|]. split; [exact (arm_count 0)|exact E].
Qed.
Example C83_limits_nonvacuous : exists ss c cfg Er, let lims := [Some (-1, 1); None; None] in
  chain_of h_arm arm "base" "tool" 4 arm_path ss /\ limits_seen (declared h_arm) arm arm_path lims /\ ordered lims /\
  path (declared h_arm) "base" "tool" arm_path /\
  ic_ss c = ss /\ ic_frames c = [4%Z] /\ config_count arm = Ok (length (ic_start c)) /\
  base_at (declared h_arm) arm cfg "base" arm_B (ic_fk c) /\ ic_seed c = chain_config (declared h_arm) arm_path cfg /\
  unit_qutr Er /\ ip_algo (ic_parm c) = SQP /\ 0 < ip_angle (ic_parm c) <= PI / 2 /\ 0 < ip_trans (ic_parm c) /\ ~ in_limits lims (ic_seed c) /\
  reaches (declared h_arm) cfg "tool" Er (1 / 2) (ip_angle (ic_parm c)) (ip_trans (ic_parm c)) /\
  refuses_start (fun _ x => x) /\ keeps_bounds (fun _ x => x).
Proof.
  destruct arm_chain as (ss & C).
  assert (Hb : base_at (declared h_arm) arm (arm_cfg 2) "base" arm_B arm_fk).
  { split; [vm_compute; reflexivity|]. right. exists 0%nat. split; [exact (proj1 arm_ids)|]. split; [reflexivity|]. split; [exact unit_qz|]. apply arm_base. }
  destruct (obj_pose_ok _ _ _ _ _ _ _ C (arm_cfg 2) arm_B arm_fk Hb) as (fk' & Et & _ & _ & U & L & _).
  exists ss, (mkIC ss parm_create [0; 0; 0] (chain_config (declared h_arm) arm_path (arm_cfg 2)) arm_fk [4%Z]), (arm_cfg 2), Et.
  pose proof PI_RGT_0. destruct C82_center_nonvacuous as [Ls Rg]. cbn [ic_ss ic_frames ic_start ic_fk ic_seed ic_parm].
  split; [exact C|]. split; [exact Ls|]. split; [intros a b I; left; exact (Rg a b I)|]. split; [exact arm_is_path|].
  split; [reflexivity|]. split; [reflexivity|]. split; [exact (arm_count 0)|]. split; [exact Hb|]. split; [reflexivity|]. split; [exact U|]. split; [reflexivity|].
  split; [cbn; lra|]. split; [cbn; lra|]. split.
  - assert (D : map d_cfg (joint_decls (declared h_arm) arm_path) = ["q1"; "q2"; "q3"]%string) by reflexivity.
    unfold chain_config. rewrite <- map_map with (f := d_cfg), D. cbn [map]. intros I. remember (arm_cfg 2 "q1"%string) as x eqn:Ex. inversion I as [|? ? ? ? H1 _]. subst x.
    assert (Q : arm_cfg 2 "q1" = 2) by (unfold arm_cfg, config_of; assert (E1 : config_id arm "q1" = Ok 0%Z) by (vm_compute; reflexivity); rewrite E1; reflexivity).
    rewrite Q in H1. lra.
  - split; [|split; [intros ? ? _ _; reflexivity|intros ? ? I; exact I]].
    apply goal_reached; [exact U|exact L|cbn; lra|cbn; lra].
Qed.

(** C83: a random start is within the limits, or half a turn either way for a joint without them,
    and every such configuration can be drawn. *)
Theorem C83_random_start :
  forall h s root tip tz ls ss lims, chain_of h s root tip tz ls ss -> limits_seen (declared h) s ls lims -> ordered lims ->
  (forall us, Forall (fun u => 0 <= u <= 1) us -> exists x, rand_config s (ss_configs ss) us = Ok x /\ in_turns lims x) /\
  (forall x, in_turns lims x -> exists us, Forall (fun u => 0 <= u <= 1) us /\ rand_config s (ss_configs ss) us = Ok x).
Proof.
  intros h s root tip tz ls ss lims C Ls Od. assert (Sn := chain_limits _ _ _ _ _ _ _ _ C Ls).
  split; [intros us U; now apply rand_turns|intros x I; now apply (rand_onto s _ lims)].
Qed.
Print Assumptions C83_random_start.

(** The two sliders, seeded at the goal *)
Example C83_nonvacuous : exists ss c Er, let lims := [None; None] in let gesdd := fun _ _ _ => two_svd in
  chain_of h_two (get h_two) "" "b" 1 ["a"; "b"]%string ss /\ limits_seen (declared h_two) (get h_two) ["a"; "b"]%string lims /\ ordered lims /\
  ic_ss c = ss /\ ic_frames c = [1%Z] /\ config_count (get h_two) = Ok (length (ic_start c)) /\
  base_at (declared h_two) (get h_two) two_cfg "" ident_tf (ic_fk c) /\ ic_seed c = chain_config (declared h_two) ["a"; "b"]%string two_cfg /\ in_limits lims (ic_seed c) /\
  unit_qutr Er /\ at_goal (declared h_two) two_cfg "b" Er /\ (0 < length (ss_configs ss))%nat /\
  let p := ic_parm c in
  ip_algo p = JPINV /\ ip_qref p = None /\ 0 < wo_s2min (ip_wk p) /\ 0 < ip_angle p /\ 0 < ip_trans p /\ 0 < ip_dq p /\
  (forall fk' E l, obj_pose (get h_two) ss 1 (ic_seed c) (ic_fk c) = Ok (fk', E) -> chain_jacobian (get h_two) fk' ss = Ok l ->
    exists r, decomposes gesdd 6 (length (ss_configs ss)) (colmat l) r).
Proof.
  destruct two_chain as (ss & C & Ef & Ec).
  exists ss, (mkIC ss (with_tol_dq (with_algo parm_create JPINV) 1) [0; 0] [0; 5] two_abs [1%Z]), (mkE q1 (mkV 5 0 0)).
  assert (D : map d_cfg (joint_decls (declared h_two) ["a"; "b"]%string) = ["qa"; "qb"]%string) by reflexivity.
  cbn [ic_ss ic_frames ic_start ic_fk ic_seed ic_parm]. split; [exact C|]. split.
  { unfold limits_seen. destruct (joint_decls (declared h_two) ["a"; "b"]%string) as [|d1 [|d2 [|d3 l]]]; try discriminate D. injection D as D1 D2.
    repeat constructor; rewrite ?D1, ?D2; eexists; (split; [vm_compute; reflexivity|]); (split; [discriminate|]); vm_compute; reflexivity. }
  split; [intros a b [H|[H|[]]]; discriminate H|]. split; [reflexivity|]. split; [reflexivity|]. split; [vm_compute; reflexivity|].
  split; [split; [vm_compute; reflexivity|now left]|]. split.
  { unfold chain_config. rewrite <- map_map with (f := d_cfg), D. reflexivity. }
  split; [repeat constructor|]. split; [exact unit_q1|]. split.
  { destruct (two_posed "b") as [H|(i & E & I & N & _ & L)]; [cbn; auto|discriminate H|].
    destruct I as [I _]. assert (I' : frame_id (get h_two) "b" = Ok 1%Z) by (vm_compute; reflexivity).
    rewrite I' in I. assert (i = 1%nat) as -> by (injection I as I; lia). injection N as <-. exact L. }
  split; [rewrite Ec; cbn; lia|]. pose proof PI_RGT_0. split; [reflexivity|]. split; [reflexivity|]. do 4 (split; [cbn; lra|]).
  assert (O : obj_pose (get h_two) ss 1 [0; 5] two_abs = Ok (two_abs, mkE q1 (mkV 5 0 0))).
  { unfold obj_pose, fk_sub, sub_scatter. rewrite Ef, Ec. calc. }
  assert (J : chain_jacobian (get h_two) two_abs ss = Ok [(v0, ux); (v0, ux)]).
  { unfold chain_jacobian. rewrite Ef, Ec. calc. }
  intros fk' E l H1 H2. rewrite O in H1. injection H1 as <- <-. rewrite J in H2. injection H2 as <-. exists two_svd. rewrite Ec. split; [|reflexivity].
  apply two_is_svd. intros i j Hi Hj. cbn in Hj. destruct j as [|[|j]]; [| |lia]; do 6 (destruct i as [|i]; [reflexivity|]); lia.
Qed.
