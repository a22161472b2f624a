(** Specification of inverse kinematics solutions. *)
From Coq Require Import ZArith String List Reals.
From Verif Require Import TfModel TfSpec SgModel SgSpec SgKinSpec IkSpec.
Import ListNotations.
Open Scope R_scope.

(** Every joint variable with limits lies between them. *)
Definition in_limits (lims : list (option (R * R))) (q : list R) : Prop :=
  Forall2 (fun l x => match l with Some (a, b) => a <= x <= b | None => True end) lims q.
(** The limits are in order. *)
Definition ordered (lims : list (option (R * R))) : Prop := forall a b, In (Some (a, b)) lims -> a <= b.
(** Every joint variable lies between its limits, or in the half turns either way if it has none. *)
Definition in_turns (lims : list (option (R * R))) (q : list R) : Prop :=
  Forall2 (fun l x => match l with Some (a, b) => a <= x <= b | None => - PI <= x <= PI end) lims q.

(** At the configuration [cfg], frame [tip] is less than [tt] away from the goal, and [c] times the angle
    it would have to be turned by to get the orientation of the goal is less than [ta]. *)
Definition reaches (g : graph) (cfg : string -> R) (tip : string) (Er : QV) (c ta tt : R) : Prop :=
  forall f, (forall p, located g cfg tip p (f p)) ->
  dist (f zero3) (ev Er) < tt /\ forall phi, turn_to f (TfModel.eq Er) phi -> c * phi < ta.
(** It is exactly at the goal. *)
Definition at_goal (g : graph) (cfg : string -> R) (tip : string) (Er : QV) : Prop :=
  forall p, located g cfg tip p (place (TfModel.eq Er) (ev Er) p).

(** An optimiser that stays within the bounds it is given *)
Definition keeps_bounds (opt : list (option (R * R)) -> list R -> list R) : Prop :=
  forall lims x, in_limits lims x -> in_limits lims (opt lims x).
(** One that does nothing when started outside of them (as nlopt_optimize, which then returns
    NLOPT_INVALID_ARGS) *)
Definition refuses_start (opt : list (option (R * R)) -> list R -> list R) : Prop :=
  forall lims x, length x = length lims -> ~ in_limits lims x -> opt lims x = x.
