(** Specification of workspace control. *)
From Coq Require Import Reals.
From Verif Require Import TfModel TfSpec TfExpSpec SgSpec IkSpec.
Open Scope R_scope.

(** [F] moves the points of space rigidly, with constant angular velocity [w]; the point [x] moves
    with velocity [v] at time 0, and the twist stays the same. *)
Definition moved_by (v w x : V3) (F : R -> V3 -> V3) : Prop := screw_flow (minus3 v (xprod w x)) w F.

(** Where the body posed by the quaternion-translation [E] has its point [p] *)
Definition point (E : QV) (p : V3) : V3 := place (TfModel.eq E) (ev E) p.

(** The velocity zero *)
Definition still : DX := mkDX zero3 zero3.

(** Exponential decay from 1 at rate [g]/2 *)
Definition decay (g t : R) : R := exp (- (g / 2) * t).
