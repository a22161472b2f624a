(** Model of the motion planning context: src/rx/mp/scene_ompl.cpp, scene_state_space.cpp,
    scene_state_validity_checker.cpp and workspace_goal.cpp.  OMPL's planner is a parameter:
    what a call of solve does is the argument [outcome].  Threads are not modelled here. *)
From Coq Require Import ZArith List Bool Reals Arith.
From Verif Require Import TfModel SgModel ClModel FcModel.
Import ListNotations.
Open Scope R_scope.

(** The sub-scenegraph the context is made for: numbers of configuration variables and of
    frames, the variables of the subset, their position limits, the collisions allowed in the
    graph (aa_rx_sg_cl_set_copy), which frames touch at a configuration (C94), the poses of the
    frames there (C39), and the subset's last frame. *)
Record scene := mkScene {
  sc_nq : nat; sc_nf : nat; sc_ids : list Z; sc_lim : list (option (R * R));
  sc_allowed : clset; sc_touch : list R -> Z -> Z -> bool; sc_fk : list R -> Z -> QV; sc_last : Z }.

(** sgStateSpace::sgStateSpace, the bounds: scene_state_space.cpp 61-80 *)
Definition bounds_of (l : option (R * R)) : R * R := match l with Some b => b | None => (- PI, PI) end.

(** Goals: ompl::base::GoalState, or sgWorkspaceGoal object k with its frames and poses
    (workspace_goal.cpp 97-139) *)
Inductive goal := GNone | GState (q : list R) | GWs (k : nat) (frames : list Z) (poses : list QV).

(** struct aa_rx_mp with the objects it owns: scene_ompl_internal.h 73-98, and the checker's
    fields, scene_state_validity_checker.h 69-77.  [m_qall] is [None] while the array of the
    validity checker is not initialised; [m_next] numbers the goal objects. *)
Record mp := mkMP {
  m_starts : list (list R); m_goal : goal; m_sols : list (list (list R));
  m_lazy : option nat; m_config : option (list R); m_qall : option (list R);
  m_allowed : clset; m_cl : clset; m_coll : option clset; m_simplify : bool; m_next : nat }.

(** aa_rx_mp::aa_rx_mp: scene_ompl.cpp 68-83; scene_state_space.cpp 87-88 and
    scene_state_validity_checker.cpp 52-60.  The checker's own set is filled from the space's. *)
Definition mp_new (sc : scene) : mp :=
  mkMP [] GNone [] None None None (sc_allowed sc) (cl_fill (cl_create (sc_nf sc)) (sc_allowed sc)) None false 0.

(** aa_rx_cl_check at a configuration, over all pairs of frames: amino_fcl.cpp 417-458 (C94) *)
Fixpoint check_pairs (touch : Z -> Z -> bool) (al : clset) (l : list (nat * nat)) (r : bool) (set : option clset)
  : res (bool * option clset) :=
  match l with
  | [] => Ok (r, set)
  | (i, j) :: t =>
      bind (cl_get al (Z.of_nat i) (Z.of_nat j)) (fun a =>
      if negb a && touch (Z.of_nat i) (Z.of_nat j)
      then bind (match set with
                 | Some c => bind (cl_set c (Z.of_nat i) (Z.of_nat j) true) (fun c => Ok (Some c))
                 | None => Ok None
                 end) (check_pairs touch al t true)
      else check_pairs touch al t r set)
  end.
(** aa_rx_sg_get_collision: amino_fcl.cpp 472-498; sgStateSpace::allow_config, scene_state_space.h 113-115: pairs not allowed in the graph *)
Definition collisions_at (sc : scene) (q : list R) (set : clset) : res clset :=
  bind (check_pairs (sc_touch sc q) (sc_allowed sc) (pairs_below (sc_nf sc)) false (Some set)) (fun '(_, s) => from s).

(** sgStateSpace::get_tf_abs, the configuration: scene_state_space.cpp 99-109.  An
    uninitialised array may only be used if all of it is overwritten. *)
Definition covers (sc : scene) : bool := forallb (fun k => existsb (Z.eqb (Z.of_nat k)) (sc_ids sc)) (seq 0 (sc_nq sc)).
Definition full_config (sc : scene) (base : option (list R)) (st : list R) : res (list R) :=
  match base with
  | Some q => config_set (sc_ids sc) st q
  | None => if covers sc then config_set (sc_ids sc) st (repeat 0 (sc_nq sc)) else UB
  end.
(** sgStateValidityChecker::isValid: scene_state_validity_checker.cpp 68-86, with the tracked
    collisions *)
Definition is_valid (sc : scene) (m : mp) (st : list R) (set : option clset) : res (bool * option clset) :=
  bind (full_config sc (m_qall m) st) (fun q =>
  bind (check_pairs (sc_touch sc q) (m_cl m) (pairs_below (sc_nf sc)) false set) (fun '(c, set') => Ok (negb c, set'))).

(** sgStateValidityChecker::allow: scene_state_validity_checker.cpp 96-99 *)
Definition allow (m : mp) : mp :=
  mkMP (m_starts m) (m_goal m) (m_sols m) (m_lazy m) (m_config m) (m_qall m) (m_allowed m)
       (cl_fill (m_cl m) (m_allowed m)) (m_coll m) (m_simplify m) (m_next m).
(** aa_rx_mp_allow_config: scene_ompl.cpp 128-138; sgStateValidityChecker::set_start:
    scene_state_validity_checker.cpp 89-94 *)
Definition mp_allow_config (sc : scene) (m : mp) (q : list R) : res mp :=
  if Nat.ltb (length q) (sc_nq sc) then UB else
  bind (collisions_at sc (firstn (sc_nq sc) q) (m_allowed m)) (fun al =>
  if negb (Nat.eqb (length q) (sc_nq sc)) then Abort else
  Ok (allow (mkMP (m_starts m) (m_goal m) (m_sols m) (m_lazy m) (m_config m) (Some q) al
                  (m_cl m) (m_coll m) (m_simplify m) (m_next m)))).
(** aa_rx_mp_set_start: scene_ompl.cpp 105-126 *)
Definition mp_set_start (sc : scene) (m : mp) (q : list R) : res mp :=
  bind (mp_allow_config sc m q) (fun m =>
  bind (config_get (sc_ids sc) q) (fun st =>
  Ok (mkMP (m_starts m ++ [st]) (m_goal m) (m_sols m) (m_lazy m) (Some q) (m_qall m) (m_allowed m)
           (m_cl m) (m_coll m) (m_simplify m) (m_next m)))).
(** aa_rx_mp_allow_collision: scene_ompl.cpp 141-149 *)
Definition mp_allow_collision (m : mp) (a b : Z) (x : bool) : res mp :=
  bind (cl_set (m_allowed m) a b x) (fun al =>
  Ok (allow (mkMP (m_starts m) (m_goal m) (m_sols m) (m_lazy m) (m_config m) (m_qall m) al
                  (m_cl m) (m_coll m) (m_simplify m) (m_next m)))).
(** aa_rx_mp_set_goal: scene_ompl.cpp 151-172; AA_RX_INVALID_STATE is 32 *)
Definition mp_set_goal (sc : scene) (m : mp) (st : list R) : res (Z * mp) :=
  if negb (Nat.eqb (length st) (length (sc_ids sc))) then Abort else
  let m := allow m in
  bind (is_valid sc m st (m_coll m)) (fun '(v, coll) =>
  let upd g := mkMP (m_starts m) g (m_sols m) (m_lazy m) (m_config m) (m_qall m) (m_allowed m)
                    (m_cl m) coll (m_simplify m) (m_next m) in
  if v then Ok (0%Z, upd (GState st)) else Ok (32%Z, upd (m_goal m))).
(** aa_rx_mp_set_wsgoal and the constructor of sgWorkspaceGoal: workspace_goal.cpp 97-137,
    196-206.  No frames: the subset's last frame for each pose. *)
Definition mp_set_wsgoal (sc : scene) (m : mp) (frames : option (list Z)) (poses : list QV) : res mp :=
  let n := length poses in
  let fs := match frames with Some f => f | None => repeat (sc_last sc) n end in
  if Nat.eqb n 0 || Nat.ltb (length fs) n then UB else
  Ok (mkMP (m_starts m) (GWs (m_next m) (firstn n fs) poses) (m_sols m) (Some (m_next m)) (m_config m) (m_qall m)
           (m_allowed m) (m_cl m) (m_coll m) (m_simplify m) (S (m_next m))).
(** aa_rx_mp_set_simplify: scene_ompl.cpp 265-270 *)
Definition mp_set_simplify (m : mp) (x : bool) : mp :=
  mkMP (m_starts m) (m_goal m) (m_sols m) (m_lazy m) (m_config m) (m_qall m)
       (m_allowed m) (m_cl m) (m_coll m) x (m_next m).
(** aa_rx_mp_set_track_collisions: scene_ompl.cpp 272-293 *)
Definition mp_track (sc : scene) (m : mp) (x : bool) : mp :=
  mkMP (m_starts m) (m_goal m) (m_sols m) (m_lazy m) (m_config m) (m_qall m)
       (m_allowed m) (m_cl m) (if x then Some (cl_create (sc_nf sc)) else None) (m_simplify m) (m_next m).

(** What the planner does in one call of solve: whether it throws, the states whose validity
    it asks for, the exact solution paths it adds to the problem definition, which of all the
    paths there comes first, and what PathSimplifier makes of that one. *)
Record outcome := mkOut {
  o_throw : bool; o_asked : list (list R); o_paths : list (list (list R)); o_best : nat; o_simple : list (list R) }.
Fixpoint ask_all (sc : scene) (m : mp) (l : list (list R)) (set : option clset) : res (option clset) :=
  match l with
  | [] => Ok set
  | st :: r => bind (is_valid sc m st set) (fun '(_, set) => ask_all sc m r set)
  end.
(** scene_ompl.cpp 250-258: the path in the caller's array, one waypoint after the other *)
Fixpoint path_all (sc : scene) (start : option (list R)) (p : list (list R)) : res (list (list R)) :=
  match p with
  | [] => Ok []
  | st :: r =>
      bind (from start) (fun q =>
      bind (config_set (sc_ids sc) st q) (fun w =>
      bind (path_all sc start r) (fun l => Ok (w :: l))))
  end.
(** 225-230: the goal the sampling thread works for *)
Definition start_sampling (sc : scene) (m : mp) : res unit :=
  match m_lazy m with
  | None => Ok tt
  | Some k =>
      match m_goal m with
      | GWs k' _ _ => if negb (Nat.eqb k k') then UB else match m_config m with Some _ => Ok tt | None => UB end
      | _ => UB
      end
  end.
(** aa_rx_mp_plan: scene_ompl.cpp 194-263 with path_cleanup, 174-192.  Solutions of earlier
    calls stay in the problem definition; simplifying changes the path there.
    AA_RX_NO_SOLUTION is 1, AA_RX_NO_MP 4. *)
Definition mp_plan (sc : scene) (m : mp) (o : outcome) : res (Z * list (list R) * mp) :=
  let m := allow m in
  bind (match m_coll m with Some c => bind (cl_clear c) (fun c => Ok (Some c)) | None => Ok None end) (fun coll =>
  bind (start_sampling sc m) (fun _ =>
  bind (ask_all sc m (o_asked o) coll) (fun coll =>
  let sols := m_sols m ++ o_paths o in
  let upd s := mkMP (m_starts m) (m_goal m) s (m_lazy m) (m_config m) (m_qall m)
                    (m_allowed m) (m_cl m) coll (m_simplify m) (m_next m) in
  if o_throw o then Ok (1%Z, [], upd sols)
  else match sols with
       | [] => Ok (5%Z, [], upd [])
       | _ =>
           bind (from (nth_error sols (o_best o))) (fun p =>
           let p := if m_simplify m then o_simple o else p in
           bind (path_all sc (m_config m) p) (fun l =>
           Ok (0%Z, l, upd (set_at sols (o_best o) p))))
       end))).

(** Calls on a context, with the codes they return *)
Inductive mop :=
| MStart (q : list R) | MAllowConfig (q : list R) | MAllow (a b : Z) (x : bool)
| MGoal (q : list R) | MWsGoal (frames : option (list Z)) (poses : list QV)
| MSimplify (x : bool) | MTrack (x : bool) | MPlan (o : outcome).
Definition ret0 (r : res mp) : res (Z * mp) := bind r (fun m => Ok (0%Z, m)).
Definition mstep (sc : scene) (m : mp) (o : mop) : res (Z * mp) :=
  match o with
  | MStart q => ret0 (mp_set_start sc m q)
  | MAllowConfig q => ret0 (mp_allow_config sc m q)
  | MAllow a b x => ret0 (mp_allow_collision m a b x)
  | MGoal q => mp_set_goal sc m q
  | MWsGoal f E => ret0 (mp_set_wsgoal sc m f E)
  | MSimplify x => Ok (0%Z, mp_set_simplify m x)
  | MTrack x => Ok (0%Z, mp_track sc m x)
  | MPlan o => bind (mp_plan sc m o) (fun '(c, _, m) => Ok (c, m))
  end.
Fixpoint mrun (sc : scene) (m : mp) (h : list mop) : res (list Z * mp) :=
  match h with
  | [] => Ok ([], m)
  | o :: r => bind (mstep sc m o) (fun '(c, m) => bind (mrun sc m r) (fun '(cs, m) => Ok (c :: cs, m)))
  end.
