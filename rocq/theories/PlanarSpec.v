(** Vocabulary for the planar properties. *)
From Coq Require Import Reals.
From Verif Require Import PlanarModel.
Open Scope R_scope.

Definition unitc (c : C2) : Prop := re c * re c + im c * im c = 1.
(** Orthonormal columns, determinant 1. *)
Definition proper2 (M : R4) : Prop :=
  r0 M * r0 M + r1 M * r1 M = 1 /\ r2 M * r2 M + r3 M * r3 M = 1 /\
  r0 M * r2 M + r1 M * r3 M = 0 /\ r0 M * r3 M - r1 M * r2 M = 1.
(** Turning a point by an angle about the origin. *)
Definition turn (t : R) (p : C2) : C2 :=
  mkC (cos t * re p - sin t * im p) (sin t * re p + cos t * im p).
Definition shift (v p : C2) : C2 := mkC (re v + re p) (im v + im p).
