(** Specification vocabulary for C97, and its examples. *)
From Coq Require Import List Bool Arith.
From Verif Require Import MpThrModel.
Import ListNotations.

Section Spec.
Context {conf ans : Type}.
Notation call := (call conf ans).
Notation sys := (sys conf ans).

(** Every call that has returned gave what it gives when it runs alone. *)
Definition answers_right (y : sys) : Prop :=
  forall i c r, In (c, r) (t_done (snd y i)) -> r = c_fun c (Some (c_conf c)).
(** The calls of a thread return in order and none is lost. *)
Definition calls_kept (todo : nat -> list call) (y : sys) : Prop :=
  forall i, map fst (t_done (snd y i)) ++ t_todo (snd y i) = todo i.
(** Thread [i] has calls left and a step of it changes something. *)
Definition can_step (y : sys) (i : nat) : Prop := t_todo (snd y i) <> [] /\ tstep i (fst y) (snd y i) <> (fst y, snd y i).

End Spec.

(** A state is a number; state 0 is in collision. *)
Definition is_ok (c : option nat) : bool := match c with Some 0 | None => false | _ => true end.
Definition ask (q : nat) : call nat bool := mkCall true q is_ok.
(** distanceGoal; its answer does not matter here *)
Definition measure (q : nat) : call nat bool := mkCall false q is_ok.
Definition two (i : nat) : list (call nat bool) := match i with 0 => [ask 0] | 1 => [measure 1] | _ => [] end.
(** several threads that only ask *)
Definition three (i : nat) : list (call nat bool) := match i with 0 => [ask 0; ask 1] | 1 => [ask 2] | 2 => [ask 0] | _ => [] end.
