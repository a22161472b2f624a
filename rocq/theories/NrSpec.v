(** Rotation vectors as rotations, distances, and the exact motion of a frame
    turning at a constant rate. *)
From Coq Require Import Reals.
From Verif Require Import TfModel TfSpec.
Open Scope R_scope.

(** [v] is a rotation vector of the map [f]: v = a k with k a unit vector, and f
    turns by the angle a about k. *)
Definition turns (v : V3) (f : V3 -> V3) : Prop :=
  exists k a, unit3 k /\ v = times3 a k /\ forall p, f p = rodrigues k a p.
Definition dist2 (a b : V3) : R :=
  (vx a - vx b) ^ 2 + (vy a - vy b) ^ 2 + (vz a - vz b) ^ 2.

(** Difference of two quaternions *)
Definition diff4 (a b : Q4) : Q4 := mkQ (qx a - qx b) (qy a - qy b) (qz a - qz b) (qw a - qw b).
(** The turn by the angle a about the unit axis k, as a unit quaternion *)
Definition turn (k : V3) (a : R) : Q4 :=
  mkQ (sin (a / 2) * vx k) (sin (a / 2) * vy k) (sin (a / 2) * vz k) (cos (a / 2)).

(** All nine differences are at most [d] in size *)
Definition mclose (d : R) (A B : M33) : Prop :=
  Rabs (m00 A - m00 B) <= d /\ Rabs (m10 A - m10 B) <= d /\ Rabs (m20 A - m20 B) <= d /\
  Rabs (m01 A - m01 B) <= d /\ Rabs (m11 A - m11 B) <= d /\ Rabs (m21 A - m21 B) <= d /\
  Rabs (m02 A - m02 B) <= d /\ Rabs (m12 A - m12 B) <= d /\ Rabs (m22 A - m22 B) <= d.
(** Matrix product and transpose by the book *)
Definition prod33 (A B : M33) : M33 :=
  let e a0 a1 a2 b0 b1 b2 := a0 * b0 + a1 * b1 + a2 * b2 in
  mkM (e (m00 A) (m01 A) (m02 A) (m00 B) (m10 B) (m20 B)) (e (m10 A) (m11 A) (m12 A) (m00 B) (m10 B) (m20 B)) (e (m20 A) (m21 A) (m22 A) (m00 B) (m10 B) (m20 B))
      (e (m00 A) (m01 A) (m02 A) (m01 B) (m11 B) (m21 B)) (e (m10 A) (m11 A) (m12 A) (m01 B) (m11 B) (m21 B)) (e (m20 A) (m21 A) (m22 A) (m01 B) (m11 B) (m21 B))
      (e (m00 A) (m01 A) (m02 A) (m02 B) (m12 B) (m22 B)) (e (m10 A) (m11 A) (m12 A) (m02 B) (m12 B) (m22 B)) (e (m20 A) (m21 A) (m22 A) (m02 B) (m12 B) (m22 B)).
Definition flip33 (A : M33) : M33 :=
  mkM (m00 A) (m01 A) (m02 A) (m10 A) (m11 A) (m12 A) (m20 A) (m21 A) (m22 A).
Definition volume (A : M33) : R := dot (col0 A) (xprod (col1 A) (col2 A)).
(** What LAPACK gives for the inverse: the inverse, when there is one *)
Definition inverse_ok (inv : M33 -> M33) : Prop :=
  forall A, volume A <> 0 -> prod33 A (inv A) = ident3 /\ prod33 (inv A) A = ident3.
