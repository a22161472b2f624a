(** Specification vocabulary for the motion planner (C96). *)
From Coq Require Import ZArith List Bool Reals Arith.
From Verif Require Import TfModel SgModel ClModel ClSpec MpModel.
Import ListNotations.
Open Scope R_scope.

(** A scene as aa_rx_mp_create finds it. *)
Definition scene_ok (sc : scene) : Prop :=
  NoDup (sc_ids sc) /\ (forall z, In z (sc_ids sc) -> (0 <= z < Z.of_nat (sc_nq sc))%Z) /\
  length (sc_lim sc) = length (sc_ids sc) /\ made (sc_nf sc) (sc_allowed sc) /\
  forall q a b, sc_touch sc q a b = sc_touch sc q b a.

(** The pairs of frames the user permits to touch: those the graph allows, those that touch in
    a configuration given as start or as allowed, and the last word on a pair decides. *)
Definition permits := Z -> Z -> bool.
Definition zpair_eq (a b c d : Z) : bool := (Z.eqb a c && Z.eqb b d) || (Z.eqb a d && Z.eqb b c).
Definition perm_step (sc : scene) (P : permits) (o : mop) : permits :=
  match o with
  | MStart q | MAllowConfig q => fun a b => P a b || sc_touch sc q a b
  | MAllow i j x => fun a b => if zpair_eq i j a b then x else P a b
  | _ => P
  end.
Definition graph_permits (sc : scene) : permits :=
  fun a b => match cl_get (sc_allowed sc) a b with Ok x => x | _ => false end.
Definition permitted (sc : scene) (h : list mop) : permits := fold_left (perm_step sc) h (graph_permits sc).
(** no two different frames that touch at [q] are forbidden to *)
Definition collision_free (sc : scene) (P : permits) (q : list R) : Prop :=
  forall a b, valid (sc_nf sc) a -> valid (sc_nf sc) b -> a <> b -> sc_touch sc q a b = true -> P a b = true.

(** The goal the user set last: goals the call refused (a code other than 0) do not count. *)
Definition goal_step (sc : scene) (g : goal) (oc : mop * Z) : goal :=
  match oc with
  | (MGoal q, 0%Z) => GState q
  | (MWsGoal f E, 0%Z) => GWs 0 (match f with Some f => f | None => repeat (sc_last sc) (length E) end) E
  | _ => g
  end.
Definition last_goal (sc : scene) (h : list mop) (cs : list Z) : goal := fold_left (goal_step sc) (combine h cs) GNone.

(** OMPL's tolerance: the double precision epsilon *)
Definition EPS : R := / 2 ^ 52.
Definition within (eps : R) (b : R * R) (x : R) : Prop := fst b - eps <= x <= snd b + eps.

Section Near.
(** when inverse kinematics calls a pose reached *)
Variable near : QV -> QV -> Prop.

(** The full configuration [w] meets the goal: its variables of the subset are those asked for,
    or the first frame is at the first pose. *)
Definition meets (sc : scene) (g : goal) (w : list R) : Prop :=
  match g with
  | GNone => False
  | GState st => forall k z x y, nth_error (sc_ids sc) k = Some z -> nth_error st k = Some x ->
                                 nth_error w (Z.to_nat z) = Some y -> Rabs (y - x) <= EPS
  | GWs _ (f :: _) (E :: _) => near (sc_fk sc w f) E
  | GWs _ _ _ => False
  end.
(** The same with all the frames. *)
Definition meets_all (sc : scene) (g : goal) (w : list R) : Prop :=
  match g with
  | GWs _ fs Es => forall k f E, nth_error fs k = Some f -> nth_error Es k = Some E -> near (sc_fk sc w f) E
  | g => meets sc g w
  end.

(** Joint limits of the subset *)
Definition in_limits (sc : scene) (w : list R) : Prop :=
  forall k z b y, nth_error (sc_ids sc) k = Some z -> nth_error (sc_lim sc) k = Some b ->
    nth_error w (Z.to_nat z) = Some y -> within EPS (bounds_of b) y.

(** A path the user asked for: from [q0] to the goal, moving only the joints of the subset,
    within the limits and without forbidden collisions. *)
Definition good_path (sc : scene) (q0 : list R) (g : goal) (P : permits) (l : list (list R)) : Prop :=
  hd_error l = Some q0 /\ (exists w, last l [] = w /\ meets sc g w) /\
  Forall (fun w => length w = sc_nq sc /\ (forall i, ~ In (Z.of_nat i) (sc_ids sc) -> nth_error w i = nth_error q0 i) /\
                   in_limits sc w /\ collision_free sc P w) l.

(** ** What OMPL promises
    Each new exact path starts at a registered start and ends in the registered goal; all its
    states satisfy the bounds and passed the validity checker; a simplified path keeps both
    ends; the path that comes first exists. *)
Definition state_ok (sc : scene) (m : mp) (st : list R) : Prop :=
  length st = length (sc_ids sc) /\
  (forall k b x, nth_error (sc_lim sc) k = Some b -> nth_error st k = Some x -> within EPS (bounds_of b) x) /\
  exists set, is_valid sc (allow m) st None = Ok (true, set).
Definition hits (sc : scene) (m : mp) (st : list R) : Prop :=
  match m_goal m with
  | GNone => False
  | GState g => forall k x y, nth_error g k = Some x -> nth_error st k = Some y -> Rabs (y - x) <= EPS
  | GWs _ (f :: _) (E :: _) => forall q w, m_config m = Some q -> config_set (sc_ids sc) st q = Ok w -> near (sc_fk sc w f) E
  | GWs _ _ _ => False
  end.
Definition path_ok (sc : scene) (m : mp) (p : list (list R)) : Prop :=
  (exists s t, hd_error p = Some s /\ In s (m_starts m) /\ last p [] = t /\ hits sc m t) /\ Forall (state_ok sc m) p.
Definition honest (sc : scene) (m : mp) (o : outcome) : Prop :=
  Forall (path_ok sc m) (o_paths o) /\
  (m_sols m ++ o_paths o = [] \/ exists p, nth_error (m_sols m ++ o_paths o) (o_best o) = Some p /\
     (m_simplify m = true -> o_simple o <> [] /\ hd_error (o_simple o) = hd_error p /\ last (o_simple o) [] = last p [] /\
        Forall (state_ok sc m) (o_simple o))).
Fixpoint all_honest (sc : scene) (m : mp) (h : list mop) : Prop :=
  match h with
  | [] => True
  | o :: r => match o with MPlan p => honest sc m p | _ => True end /\
              forall c m', mstep sc m o = Ok (c, m') -> all_honest sc m' r
  end.
End Near.

(** Kinds of calls *)
Definition is_start (o : mop) : Prop := match o with MStart _ => True | _ => False end.
Definition is_config (o : mop) : Prop := match o with MStart _ | MAllowConfig _ => True | _ => False end.
Definition is_plan (o : mop) : Prop := match o with MPlan _ => True | _ => False end.
Definition is_mode (o : mop) : Prop := match o with MPlan _ | MSimplify _ | MTrack _ => True | _ => False end.

(** No call forbids a pair that the graph itself allows. *)
Definition no_withdrawal (sc : scene) (h : list mop) : Prop :=
  forall a b, In (MAllow a b false) h -> graph_permits sc a b = false.
(** the configuration last given as start or as allowed *)
Definition last_config (h : list mop) : option (list R) :=
  fold_left (fun c o => match o with MStart q | MAllowConfig q => Some q | _ => c end) h None.
(** collisions are being tracked *)
Definition tracking (h : list mop) : bool :=
  fold_left (fun t o => match o with MTrack x => x | _ => t end) h false.
(** With an honest planner the calls [h] return the codes [cs], and planning then succeeds with
    the path [l]. *)
Definition planned (near : QV -> QV -> Prop) (sc : scene) (h : list mop) (cs : list Z) (o : outcome) (l : list (list R)) : Prop :=
  exists m m', mrun sc (mp_new sc) h = Ok (cs, m) /\ all_honest near sc (mp_new sc) (h ++ [MPlan o]) /\ mp_plan sc m o = Ok (0%Z, l, m').
