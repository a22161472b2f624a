(** C96, C97: motion planning.  [planned near sc h cs o l] (MpSpec) says that the calls [h] on a
    new context return the codes [cs] and that aa_rx_mp_plan then returns AA_RX_OK and the path
    [l], the planner keeping OMPL's contract ([honest]); [good_path] is what the user asked
    for. *)
From Coq Require Import ZArith List Bool Reals Arith Lia Lra.
From Verif Require Import TfModel SgModel SgKinSpec ClModel ClSpec FcModel MpModel MpSpec MpProofs MpClaims MpExamples MpThrModel MpThrSpec MpThrProofs.
Import ListNotations.

(** ** C96 *)

(** With one start, given before any plan, and with no configuration allowed after it, and
    nothing but modes changed since the first plan, a returned path starts at the start, ends
    at the last accepted goal, moves only the subset's joints, keeps their limits and has no
    waypoint in which frames touch that were not permitted to. *)
Theorem C96_path near sc h1 q0 h2 h3 cs o l :
  scene_ok sc ->
  Forall (fun x => ~ is_start x /\ ~ is_plan x) h1 -> Forall (fun x => ~ is_config x /\ ~ is_plan x) h2 -> Forall is_mode h3 ->
  let h := h1 ++ [MStart q0] ++ h2 ++ h3 in
  planned near sc h cs o l ->
  good_path near sc q0 (last_goal sc h cs) (permitted sc h) l.
Proof.
  intros Sc K1 K2 K3 h (m & m' & E & Ho & Pl). exact (c96_path near sc Sc h1 q0 h2 h3 o cs m l m' K1 K2 K3 E Ho Pl).
Qed.
Print Assumptions C96_path.
Example C96_path_nonvacuous :
  scene_ok (arm T1 false) /\ Forall (fun x => ~ is_start x /\ ~ is_plan x) h_before /\
  Forall (fun x => ~ is_config x /\ ~ is_plan x) h_goals /\ Forall is_mode h_after /\
  planned near0 (arm T1 false) (h_before ++ [MStart [0; 5]%R] ++ h_goals ++ h_after) [0; 0; 0; 0; 0; 0]%Z simple [[0; 5]; [1; 5]; [2; 5]]%R.
Proof. split; [apply arm_ok|]. destruct good_kinds as (A & B & C). do 3 (split; [assumption|]). exact good_planned. Qed.

(** A goal is accepted only if no forbidden pair touches in it, the other joints being where
    the last configuration put them; and always then, unless a collision that the graph
    allows was forbidden. *)
Theorem C96_goal sc h cs m q st w :
  scene_ok sc -> mrun sc (mp_new sc) h = Ok (cs, m) -> last_config h = Some q -> length st = length (sc_ids sc) ->
  replaced (sc_ids sc) st q w ->
  exists c m', mp_set_goal sc m st = Ok (c, m') /\ (c = 0 \/ c = 32)%Z /\
    (c = 0%Z -> collision_free sc (permitted sc h) w) /\
    (no_withdrawal sc h -> collision_free sc (permitted sc h) w -> c = 0%Z).
Proof. intros Sc. exact (c96_goal sc Sc h cs m q st w). Qed.
Print Assumptions C96_goal.
Example C96_goal_nonvacuous :
  scene_ok (arm T1 false) /\ (exists m, mrun (arm T1 false) (mp_new (arm T1 false)) h_track = Ok ([0; 0; 32]%Z, m)) /\
  last_config h_track = Some [0; 0]%R /\ replaced (sc_ids (arm T1 false)) [2%R] [0; 0]%R [2; 0]%R.
Proof.
  split; [apply arm_ok|]. split; [destruct track_run as (m & _ & _ & _ & E & _); eauto|]. split; [reflexivity|].
  split; [reflexivity|]. split.
  - intros [|k] z x; cbn; [|destruct k; discriminate]. intros [= <-] [= <-]. reflexivity.
  - intros [|[|i]] H; cbn; auto. exfalso. apply H. now left.
Qed.

(** The start state is always valid: it is accepted as a goal too, unless a collision that the
    graph allows was forbidden. *)
Theorem C96_start sc h cs m q st m1 :
  scene_ok sc -> mrun sc (mp_new sc) h = Ok (cs, m) -> no_withdrawal sc h -> mp_set_start sc m q = Ok m1 ->
  config_get (sc_ids sc) q = Ok st -> exists m2, mp_set_goal sc m1 st = Ok (0%Z, m2).
Proof. intros Sc. exact (c96_start sc Sc h cs m q st m1). Qed.
Print Assumptions C96_start.
(** Otherwise it need not be. *)
Theorem C96_start_refuted :
  exists sc q st m m', scene_ok sc /\ mrun sc (mp_new sc) [MAllow 0 1 false; MStart q] = Ok ([0; 0]%Z, m) /\
    config_get (sc_ids sc) q = Ok st /\ mp_set_goal sc m st = Ok (32%Z, m').
Proof.
  destruct refused_run as (m & m' & E & G). exists (arm T1 true), [1; 0]%R, [1%R], m, m'. split; [apply arm_ok|]. auto.
Qed.
Print Assumptions C96_start_refuted.

(** Tracked collisions are those of the states the planner asked about in the last plan that
    were not permitted. *)
Theorem C96_track sc h cs m o c l m' q :
  scene_ok sc -> mrun sc (mp_new sc) h = Ok (cs, m) -> tracking h = true -> no_withdrawal sc h -> mp_plan sc m o = Ok (c, l, m') ->
  last_config h = Some q -> Forall (fun st => length st = length (sc_ids sc)) (o_asked o) ->
  exists s, m_coll m' = Some s /\ forall a b, valid (sc_nf sc) a -> valid (sc_nf sc) b -> a <> b ->
    (cl_get s a b = Ok true <-> exists st w, In st (o_asked o) /\ replaced (sc_ids sc) st q w /\
       sc_touch sc w a b = true /\ permitted sc h a b = false).
Proof. intros Sc E T N P Q F. exact (c96_track sc Sc h cs m o c l m' E T N P q Q F). Qed.
Print Assumptions C96_track.
Example C96_track_nonvacuous :
  exists m c l m', scene_ok (arm T1 false) /\ mrun (arm T1 false) (mp_new (arm T1 false)) h_track = Ok ([0; 0; 32]%Z, m) /\
    tracking h_track = true /\ no_withdrawal (arm T1 false) h_track /\ mp_plan (arm T1 false) m asks = Ok (c, l, m') /\
    Forall (fun st => length st = length (sc_ids (arm T1 false))) (o_asked asks).
Proof.
  destruct track_run as (m & c & l & m' & E & P & _). exists m, c, l, m'. split; [apply arm_ok|]. split; [auto|]. split; [reflexivity|].
  split; [intros a b [H|[H|[H|[]]]]; discriminate|]. split; [auto|]. repeat (apply Forall_cons; [reflexivity|]). apply Forall_nil.
Qed.

(** No path, no success: planning returns AA_RX_NO_SOLUTION if the planner throws, and also
    AA_RX_NO_MP if there is no exact solution. *)
Theorem C96_codes sc h cs m o c l m' :
  scene_ok sc -> mrun sc (mp_new sc) h = Ok (cs, m) -> mp_plan sc m o = Ok (c, l, m') ->
  (o_throw o = true -> c = 1%Z /\ l = []) /\ (o_throw o = false -> m_sols m ++ o_paths o = [] -> c = 5%Z /\ l = []) /\
  (c = 0 \/ c = 1 \/ c = 5)%Z.
Proof.
  intros Sc E P. destruct (run_inv _ Sc _ _ _ E) as [I _].
  destruct (plan_inv _ Sc _ _ _ _ _ _ I P) as (_ & _ & _ & _ & _ & _ & _ & _ & _ & Z & NZ & T & F).
  split; [|split].
  - intros H. specialize (T H). split; auto. destruct NZ as (_ & Hl & _); [lia|auto].
  - intros H S. specialize (F H S). split; auto. destruct NZ as (_ & Hl & _); [lia|auto].
  - destruct (Z.eq_dec c 0) as [|N]; auto. destruct (NZ N) as (_ & _ & [[_ ->]|(_ & _ & ->)]); auto.
Qed.
Print Assumptions C96_codes.

(** A configuration allowed after the start replaces the fixed joints that the validity checks
    use, but not those of the path: a returned waypoint can be in a forbidden collision. *)
Theorem C96_fixed_refuted :
  exists near sc q0 q1 g cs o l w, scene_ok sc /\ planned near sc [MStart q0; MAllowConfig q1; MGoal g] cs o l /\ In w l /\
    ~ collision_free sc (permitted sc [MStart q0; MAllowConfig q1; MGoal g]) w.
Proof.
  exists near0, (arm T1 false), [0; 0]%R, [0; 5]%R, [1%R]. do 3 eexists. exists [1; 0]%R. split; [apply arm_ok|].
  split; [exact fixed_planned|]. split; [right; now left|]. exact fixed_touch.
Qed.
Print Assumptions C96_fixed_refuted.
(** A second start is added to the first: the path can begin at the old one. *)
Theorem C96_restart_refuted :
  exists near sc q0 q1 g cs o l, scene_ok sc /\ planned near sc [MStart q0; MStart q1; MGoal g] cs o l /\ hd_error l <> Some q1.
Proof.
  exists near0, (arm T1 false), [0; 5]%R, [1; 5]%R, [1%R]. do 3 eexists. split; [apply arm_ok|]. split; [exact again_planned|].
  cbn. intros [= H]. lra.
Qed.
Print Assumptions C96_restart_refuted.
(** After a new goal, a plan that finds nothing returns the path to the old goal as a success. *)
Theorem C96_replan_refuted :
  exists near sc q0 g1 o1 g2 cs o l, scene_ok sc /\ o_paths o = [] /\ planned near sc [MStart q0; MGoal g1; MPlan o1; MGoal g2] cs o l /\
    ~ meets near sc (last_goal sc [MStart q0; MGoal g1; MPlan o1; MGoal g2] cs) (last l []).
Proof.
  exists near0, (arm T1 false), [0; 5]%R, [1%R], (go 0 1), [0%R], [0; 0; 0; 0]%Z, stay, [[0; 5]; [1; 5]]%R. split; [apply arm_ok|].
  split; [reflexivity|]. split; [exact replan_planned|]. exact replan_wrong.
Qed.
Print Assumptions C96_replan_refuted.
(** Of a workspace goal for several frames only the first is reached. *)
Theorem C96_frames_refuted :
  exists near sc q0 fs Es cs o l, scene_ok sc /\ planned near sc [MStart q0; MWsGoal (Some fs) Es] cs o l /\
    ~ meets_all near sc (last_goal sc [MStart q0; MWsGoal (Some fs) Es] cs) (last l []).
Proof.
  exists near0, (arm T1 false), [0; 5]%R, [0; 1]%Z, [at1; at2], [0; 0]%Z, (go 0 1), [[0; 5]; [1; 5]]%R. split; [apply arm_ok|].
  split; [exact frames_planned|]. exact frames_wrong.
Qed.
Print Assumptions C96_frames_refuted.
(** After a workspace goal, every goal in configuration space that is accepted leaves a pointer
    to the freed goal, which planning uses. *)
Theorem C96_dangling_refuted sc h cs m f E m1 st m2 o :
  scene_ok sc -> mrun sc (mp_new sc) h = Ok (cs, m) -> mp_set_wsgoal sc m f E = Ok m1 -> mp_set_goal sc m1 st = Ok (0%Z, m2) ->
  mp_plan sc m2 o = UB.
Proof. exact (c96_dangling sc h cs m f E m1 st m2 o). Qed.
Print Assumptions C96_dangling_refuted.
(** Before any configuration is given, setting a goal for a proper subset of the joints reads
    uninitialised memory, and so does planning for a workspace goal through a null pointer. *)
Theorem C96_unset_refuted sc st k f E m o :
  ((k < sc_nq sc)%nat -> ~ In (Z.of_nat k) (sc_ids sc) -> length st = length (sc_ids sc) -> mp_set_goal sc (mp_new sc) st = UB) /\
  (mp_set_wsgoal sc (mp_new sc) f E = Ok m -> mp_plan sc m o = UB).
Proof. split; [exact (c96_unset_goal sc st k)|exact (c96_unset_plan sc f E m o)]. Qed.
Print Assumptions C96_unset_refuted.

(** ** C97 *)

(** Any number of threads may ask for the validity of states at the same time: under every
    schedule each call returns what it returns alone, no call is lost, the region ends as it
    began, and no thread is stuck while calls are left. *)
Theorem C97_validity (conf ans : Type) k (mem : nat -> option conf) (todo : nat -> list (call conf ans)) sched :
  (forall i c, In c (todo i) -> c_locks c = true) ->
  let y := srun (sys_new k mem todo) sched in
  answers_right y /\ calls_kept todo y /\
  ((forall i, t_todo (snd y i) = []) -> s_head (fst y) = k /\ s_lock (fst y) = None) /\
  ((exists i, t_todo (snd y i) <> []) -> exists i, can_step y i).
Proof. intros L. exact (c97 k todo L mem sched). Qed.
Print Assumptions C97_validity.
Example C97_nonvacuous : forall i c, In c (three i) -> c_locks c = true.
Proof. intros [|[|[|i]]] c; cbn; intuition (subst; reflexivity). Qed.
(** A thread that asks for the distance to a workspace goal does not take the mutex: another
    thread can then be told that a state in collision is valid. *)
Theorem C97_distance_refuted :
  exists sched, let y := srun (sys_new 0 (fun _ => None) two) sched in
    t_done (snd y 0%nat) = [(ask 0, true)] /\ is_ok (Some 0%nat) = false /\ ~ answers_right y.
Proof.
  exists clash. cbv zeta. pose proof c97_clash as E. split; [exact E|]. split; [reflexivity|]. intros H. specialize (H 0%nat (ask 0) true).
  rewrite E in H. specialize (H (or_introl eq_refl)). discriminate H.
Qed.
Print Assumptions C97_distance_refuted.
