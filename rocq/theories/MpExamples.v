(** A small scene for C96: two frames that touch according to [T], two joints of which the
    planner moves the first. *)
From Coq Require Import ZArith List Bool Reals Arith Lia Lra.
From Verif Require Import TfModel SgModel SgKinSpec ClModel ClSpec FcModel MpModel MpSpec MpProofs MpClaims.
Import ListNotations.
Open Scope R_scope.
Local Opaque IZR Rinv Rmult Rplus PI.

Definition arm (T : R -> R -> bool) (al : bool) : scene :=
  mkScene 2 2 [0%Z] [Some (-3, 3)]
    (mkC 2 [false; false; al; false]) (fun q a b => zpair_eq 0 1 a b && T (nth 0 q 0) (nth 1 q 0))
    (fun q f => mkE (mkQ 0 0 0 1) (mkV (nth 0 q 0) (if Z.eqb f 0 then 0 else 1) 0)) 1%Z.
Lemma zpair_swap a b c d : zpair_eq a b c d = zpair_eq a b d c.
Proof. unfold zpair_eq. apply orb_comm. Qed.
Lemma arm_ok T al : scene_ok (arm T al).
Proof.
  split; [apply NoDup_cons; [easy|apply NoDup_nil]|]. split; [intros z [<-|[]]; cbn; lia|]. split; [reflexivity|]. split.
  - cbn. destruct al.
    + eapply (made_set 2 (cl_create 2) 1 0 true); [constructor|reflexivity].
    + constructor.
  - intros q a b. cbn. now rewrite zpair_swap.
Qed.
Lemma bounds x : -3 <= x <= 3 -> within EPS (bounds_of (Some (-3, 3))) x.
Proof. intros H. assert (0 < EPS) by (unfold EPS; apply Rinv_0_lt_compat, pow_lt; lra). unfold within. cbn. lra. Qed.
Lemma arm_valid T al m a y x : m_qall m = Some [a; y] -> m_allowed m = mkC 2 [false; false; al; false] -> c_n (m_cl m) = 2%nat ->
  is_valid (arm T al) (allow m) [x] None = Ok (negb (negb al && T x y), None).
Proof.
  intros Q A N. unfold is_valid, full_config, allow. cbn. rewrite Q, A. unfold cl_fill. rewrite N. cbn. destruct al; cbn; [reflexivity|]. destruct (T x y); reflexivity.
Qed.
Lemma arm_state T al m a y x : m_qall m = Some [a; y] -> m_allowed m = mkC 2 [false; false; al; false] -> c_n (m_cl m) = 2%nat ->
  -3 <= x <= 3 -> negb al && T x y = false -> state_ok (arm T al) m [x].
Proof.
  intros Q A N B H. split; [reflexivity|]. split.
  - intros [|k] b x'; cbn; [|destruct k; discriminate]. intros [= <-] [= <-]. now apply bounds.
  - exists None. rewrite (arm_valid T al m a y x Q A N), H. reflexivity.
Qed.
Definition rle (x y : R) : bool := if Rle_dec x y then true else false.
Lemma rle_t x y : x <= y -> rle x y = true.
Proof. unfold rle. destruct (Rle_dec x y); auto; lra. Qed.
Lemma rle_f x y : y < x -> rle x y = false.
Proof. unfold rle. destruct (Rle_dec x y); auto; lra. Qed.
(** the planner's answer: one straight path *)
Definition go (a b : R) : outcome := mkOut false [[a]; [b]] [[[a]; [b]]] 0 [].
Definition stay : outcome := mkOut false [] [] 0 [].
Definition near0 : QV -> QV -> Prop := fun E F => E = F.
Lemma go_honest T al m a y x0 x1 : m_qall m = Some [a; y] -> m_allowed m = mkC 2 [false; false; al; false] -> c_n (m_cl m) = 2%nat ->
  In [x0] (m_starts m) -> hits near0 (arm T al) m [x1] -> -3 <= x0 <= 3 -> -3 <= x1 <= 3 ->
  negb al && T x0 y = false -> negb al && T x1 y = false -> m_sols m = [] -> m_simplify m = false ->
  honest near0 (arm T al) m (go x0 x1).
Proof.
  intros Q A N I H B0 B1 V0 V1 So Si. split.
  - apply Forall_cons; [|apply Forall_nil]. split.
    + exists [x0], [x1]. auto.
    + apply Forall_cons; [eapply arm_state; eauto|]. apply Forall_cons; [eapply arm_state; eauto|apply Forall_nil].
  - right. rewrite So. exists [[x0]; [x1]]. split; [reflexivity|]. congruence.
Qed.
Lemma hits_state sc m x : m_goal m = GState [x] -> hits near0 sc m [x].
Proof.
  intros G. unfold hits. rewrite G. intros [|k] a b; cbn; [|destruct k; discriminate]. intros [= <-] [= <-].
  replace (x - x) with 0 by ring. rewrite Rabs_R0. unfold EPS. apply Rlt_le, Rinv_0_lt_compat, pow_lt. lra.
Qed.

(** ** Changing the fixed joints *)
Definition T1 (x y : R) : bool := rle 1 x && rle y 1.
Lemma T1_00 : T1 0 0 = false. Proof. unfold T1. rewrite rle_f by lra. reflexivity. Qed.
Lemma T1_05 : T1 0 5 = false. Proof. unfold T1. rewrite rle_f by lra. reflexivity. Qed.
Lemma T1_15 : T1 1 5 = false. Proof. unfold T1. rewrite (rle_f 5) by lra. now rewrite andb_false_r. Qed.
Lemma T1_10 : T1 1 0 = true. Proof. unfold T1. rewrite !rle_t by lra. reflexivity. Qed.
Lemma T1_20 : T1 2 0 = true. Proof. unfold T1. rewrite !rle_t by lra. reflexivity. Qed.
Lemma T1_25 : T1 2 5 = false. Proof. unfold T1. rewrite (rle_f 5) by lra. now rewrite andb_false_r. Qed.
Local Opaque T1.
Ltac facts := rewrite ?T1_00, ?T1_05, ?T1_15, ?T1_10, ?T1_20, ?T1_25.
Ltac runs := lazy -[T1 IZR Ropp]; repeat (progress facts; lazy -[T1 IZR Ropp]).
Definition h_fixed : list mop := [MStart [0; 0]; MAllowConfig [0; 5]; MGoal [1]].
Lemma fixed_run : exists m, mrun (arm T1 false) (mp_new (arm T1 false)) h_fixed = Ok ([0; 0; 0]%Z, m) /\
  m_qall m = Some [0; 5] /\ m_allowed m = mkC 2 [false; false; false; false] /\ m_starts m = [[0]] /\ m_goal m = GState [1] /\
  m_sols m = [] /\ m_simplify m = false /\ m_config m = Some [0; 0] /\ c_n (m_cl m) = 2%nat.
Proof.
  eexists. split.
  - unfold h_fixed. runs. reflexivity.
  - cbn. repeat split.
Qed.
Ltac quiet := apply honest_quiet; repeat (apply Forall_cons; [cbn; tauto|]); apply Forall_nil.
Lemma fixed_planned : planned near0 (arm T1 false) h_fixed [0; 0; 0]%Z (go 0 1) [[0; 0]; [1; 0]].
Proof.
  destruct fixed_run as (m & E & Q & A & S & G & So & Si & C & N). eapply planned_by; [exact E|quiet| |].
  - eapply go_honest with (a := 0) (y := 5); eauto; try lra.
    + rewrite S. now left.
    + now apply hits_state.
    + cbn [negb andb]. apply T1_05.
    + cbn [negb andb]. apply T1_15.
  - assert (E' := E). unfold h_fixed in E'. revert E'. runs. intros [= <-]. runs. reflexivity.
Qed.
Lemma fixed_touch : ~ collision_free (arm T1 false) (permitted (arm T1 false) h_fixed) [1; 0].
Proof.
  intros H. specialize (H 0%Z 1%Z). assert (X : permitted (arm T1 false) h_fixed 0%Z 1%Z = true).
  { apply H; try (cbn; unfold valid; lia); try lia. cbn. apply T1_10. }
  revert X. unfold h_fixed. runs. discriminate.
Qed.

(** ** A second start *)
Lemma again_planned : planned near0 (arm T1 false) [MStart [0; 5]; MStart [1; 5]; MGoal [1]] [0; 0; 0]%Z (go 0 1) [[0; 5]; [1; 5]].
Proof.
  assert (E : exists m, mrun (arm T1 false) (mp_new (arm T1 false)) [MStart [0; 5]; MStart [1; 5]; MGoal [1]] = Ok ([0; 0; 0]%Z, m) /\
    m_qall m = Some [1; 5] /\ m_allowed m = mkC 2 [false; false; false; false] /\ m_starts m = [[0]; [1]] /\ m_goal m = GState [1] /\
    m_sols m = [] /\ m_simplify m = false /\ c_n (m_cl m) = 2%nat).
  { eexists. split; [runs; reflexivity|]. cbn. repeat split. }
  destruct E as (m & E & Q & A & S & G & So & Si & N). eapply planned_by; [exact E|quiet| |].
  - eapply go_honest with (a := 1) (y := 5); eauto; try lra.
    + rewrite S. now left.
    + now apply hits_state.
    + cbn [negb andb]. apply T1_05.
    + cbn [negb andb]. apply T1_15.
  - assert (E' := E). revert E'. runs. intros [= <-]. runs. reflexivity.
Qed.

(** ** Planning again for another goal *)
Definition h_replan : list mop := [MStart [0; 5]; MGoal [1]; MPlan (go 0 1); MGoal [0]].
Lemma replan_planned : planned near0 (arm T1 false) h_replan [0; 0; 0; 0]%Z stay [[0; 5]; [1; 5]].
Proof.
  assert (E : exists m, mrun (arm T1 false) (mp_new (arm T1 false)) [MStart [0; 5]; MGoal [1]] = Ok ([0; 0]%Z, m) /\
    m_qall m = Some [0; 5] /\ m_allowed m = mkC 2 [false; false; false; false] /\ m_starts m = [[0]] /\ m_goal m = GState [1] /\
    m_sols m = [] /\ m_simplify m = false /\ c_n (m_cl m) = 2%nat).
  { eexists. split; [runs; reflexivity|]. cbn. repeat split. }
  destruct E as (m & E & Q & A & S & G & So & Si & N).
  assert (Ho : honest near0 (arm T1 false) m (go 0 1)).
  { eapply go_honest with (a := 0) (y := 5); eauto; try lra.
    + rewrite S. now left.
    + now apply hits_state.
    + cbn [negb andb]. apply T1_05.
    + cbn [negb andb]. apply T1_15. }
  assert (E2 : exists m, mrun (arm T1 false) (mp_new (arm T1 false)) h_replan = Ok ([0; 0; 0; 0]%Z, m) /\ m_sols m = [[[0]; [1]]] /\ m_simplify m = false).
  { eexists. split; [unfold h_replan; runs; reflexivity|]. cbn. auto. }
  destruct E2 as (m2 & E2 & So2 & Si2). eapply planned_by; [exact E2| | |].
  - apply (honest_app near0 (arm T1 false) [MStart [0; 5]; MGoal [1]] _ [MPlan (go 0 1); MGoal [0]]); [quiet|].
    intros cs m' E'. rewrite E in E'. injection E' as <- <-. cbn [all_honest]. split; auto.
  - split; [constructor|]. right. rewrite So2. exists [[0]; [1]]. split; [reflexivity|]. congruence.
  - assert (E' := E2). revert E'. unfold h_replan. runs. intros [= <-]. runs. reflexivity.
Qed.
Lemma replan_wrong : ~ meets near0 (arm T1 false) (last_goal (arm T1 false) h_replan [0; 0; 0; 0]%Z) [1; 5].
Proof.
  cbn. intros H. specialize (H O 0%Z 0 1 eq_refl eq_refl eq_refl). replace (1 - 0) with 1 in H by lra. rewrite Rabs_R1 in H.
  assert (EPS < 1); [|lra]. unfold EPS. rewrite <- Rinv_1. apply Rinv_lt_contravar; [|apply Rlt_pow_R1; [lra|lia]].
  rewrite Rmult_1_l. apply pow_lt. lra.
Qed.

(** ** Several frames *)
Definition at1 : QV := mkE (mkQ 0 0 0 1) (mkV 1 0 0).
Definition at2 : QV := mkE (mkQ 0 0 0 1) (mkV 2 1 0).
Definition h_frames : list mop := [MStart [0; 5]; MWsGoal (Some [0; 1]%Z) [at1; at2]].
Lemma frames_planned : planned near0 (arm T1 false) h_frames [0; 0]%Z (go 0 1) [[0; 5]; [1; 5]].
Proof.
  assert (E : exists m, mrun (arm T1 false) (mp_new (arm T1 false)) h_frames = Ok ([0; 0]%Z, m) /\
    m_qall m = Some [0; 5] /\ m_allowed m = mkC 2 [false; false; false; false] /\ m_starts m = [[0]] /\ m_goal m = GWs 0 [0; 1]%Z [at1; at2] /\
    m_sols m = [] /\ m_simplify m = false /\ c_n (m_cl m) = 2%nat /\ m_config m = Some [0; 5]).
  { eexists. split; [unfold h_frames; runs; reflexivity|]. cbn. repeat split. }
  destruct E as (m & E & Q & A & S & G & So & Si & N & C). eapply planned_by; [exact E|quiet| |].
  - eapply go_honest with (a := 0) (y := 5); eauto; try lra.
    + rewrite S. now left.
    + unfold hits. rewrite G, C. intros q w [= <-] [= <-]. reflexivity.
    + cbn [negb andb]. apply T1_05.
    + cbn [negb andb]. apply T1_15.
  - assert (E' := E). revert E'. unfold h_frames. runs. intros [= <-]. runs. reflexivity.
Qed.
Lemma frames_wrong : ~ meets_all near0 (arm T1 false) (last_goal (arm T1 false) h_frames [0; 0]%Z) [1; 5].
Proof. cbn. intros H. specialize (H 1%nat 1%Z at2 eq_refl eq_refl). unfold near0, at2 in H. cbn in H. injection H as H. lra. Qed.

(** ** A start that is refused *)
Definition h_refused : list mop := [MAllow 0 1 false; MStart [1; 0]].
Lemma refused_run : exists m m', mrun (arm T1 true) (mp_new (arm T1 true)) h_refused = Ok ([0; 0]%Z, m) /\
  mp_set_goal (arm T1 true) m [1] = Ok (32%Z, m').
Proof.
  eexists. eexists. split; [unfold h_refused; runs; reflexivity|]. runs. reflexivity.
Qed.

(** ** Proper use: a refused goal, two plans of which the second is simplified *)
Definition simple : outcome := mkOut false [[1]] [] 0 [[0]; [1]; [2]].
Definition h_before : list mop := [MTrack true; MAllow 0 1 false].
Definition h_goals : list mop := [MGoal [2]].
Definition h_after : list mop := [MPlan (go 0 2); MSimplify true].
Definition h_good : list mop := h_before ++ [MStart [0; 5]] ++ h_goals ++ h_after.
Lemma good_planned : planned near0 (arm T1 false) h_good [0; 0; 0; 0; 0; 0]%Z simple [[0; 5]; [1; 5]; [2; 5]].
Proof.
  assert (E : exists m, mrun (arm T1 false) (mp_new (arm T1 false)) (h_before ++ [MStart [0; 5]] ++ h_goals) = Ok ([0; 0; 0; 0]%Z, m) /\
    m_qall m = Some [0; 5] /\ m_allowed m = mkC 2 [false; false; false; false] /\ m_starts m = [[0]] /\ m_goal m = GState [2] /\
    m_sols m = [] /\ m_simplify m = false /\ c_n (m_cl m) = 2%nat).
  { eexists. split; [runs; reflexivity|]. cbn. repeat split. }
  destruct E as (m & E & Q & A & S & G & So & Si & N).
  assert (Ho : honest near0 (arm T1 false) m (go 0 2)).
  { eapply go_honest with (a := 0) (y := 5); eauto; try lra.
    + rewrite S. now left.
    + now apply hits_state.
    + cbn [negb andb]. apply T1_05.
    + cbn [negb andb]. apply T1_25. }
  assert (E2 : exists m, mrun (arm T1 false) (mp_new (arm T1 false)) h_good = Ok ([0; 0; 0; 0; 0; 0]%Z, m) /\ m_sols m = [[[0]; [2]]] /\
    m_qall m = Some [0; 5] /\ m_allowed m = mkC 2 [false; false; false; false] /\ c_n (m_cl m) = 2%nat).
  { eexists. split; [unfold h_good; runs; reflexivity|]. cbn. repeat split. }
  destruct E2 as (m2 & E2 & So2 & Q2 & A2 & N2). eapply planned_by; [exact E2| | |].
  - unfold h_good. rewrite !app_assoc. rewrite <- (app_assoc h_before).
    apply honest_app; [quiet|]. intros cs m' E'. rewrite E in E'. injection E' as <- <-. cbn [all_honest h_after].
    split; auto.
  - split; [constructor|]. right. rewrite So2. exists [[0]; [2]]. split; [reflexivity|]. intros _. split; [discriminate|].
    split; [reflexivity|]. split; [reflexivity|]. cbn [o_simple simple].
    apply Forall_cons; [|apply Forall_cons; [|apply Forall_cons; [|apply Forall_nil]]];
      (eapply arm_state with (a := 0) (y := 5); [exact Q2|exact A2|exact N2|lra|cbn [negb andb]; first [apply T1_05|apply T1_15|apply T1_25]]).
  - assert (E' := E2). revert E'. unfold h_good. runs. intros [= <-]. runs. reflexivity.
Qed.
Lemma good_kinds : Forall (fun x => ~ is_start x /\ ~ is_plan x) h_before /\ Forall (fun x => ~ is_config x /\ ~ is_plan x) h_goals /\ Forall is_mode h_after.
Proof. split; [|split]; repeat (apply Forall_cons; [cbn; tauto|]); apply Forall_nil. Qed.
(** ** Tracking, a refused goal and an accepted one *)
Definition h_track : list mop := [MTrack true; MStart [0; 0]; MGoal [1]].
Definition asks : outcome := mkOut false [[0]; [1]] [] 0 [].
Lemma track_run : exists m c l m', mrun (arm T1 false) (mp_new (arm T1 false)) h_track = Ok ([0; 0; 32]%Z, m) /\
  mp_plan (arm T1 false) m asks = Ok (c, l, m') /\ c = 5%Z /\ l = [].
Proof. do 4 eexists. split; [unfold h_track; runs; reflexivity|]. split; [runs; reflexivity|]. auto. Qed.
