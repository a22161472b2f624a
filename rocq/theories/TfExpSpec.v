(** Specification vocabulary for exponentials, logarithms and interpolation. *)
From Coq Require Import Reals.
From Verif Require Import TfModel TfSpec TfExpModel.
Open Scope R_scope.

(** [q] is the exponential of the pure quaternion [v]: with v = a k, k a unit
    vector, it is (sin a) k + cos a. *)
Definition pure_exp (v : V3) (q : Q4) : Prop :=
  exists k a, unit3 k /\ v = times3 a k /\
    q = mkQ (sin a * vx k) (sin a * vy k) (sin a * vz k) (cos a).

(** [q] is the exponential of the quaternion [x]: exp(real part) times the
    exponential of the pure part. *)
Definition quat_exp (x q : Q4) : Prop :=
  exists p, pure_exp (vecpart x) p /\
    q = mkQ (exp (qw x) * qx p) (exp (qw x) * qy p) (exp (qw x) * qz p) (exp (qw x) * qw p).

(** Component-wise distance at most [d]. *)
Definition qnear (d : R) (p q : Q4) : Prop :=
  Rabs (qx p - qx q) <= d /\ Rabs (qy p - qy q) <= d /\
  Rabs (qz p - qz q) <= d /\ Rabs (qw p - qw q) <= d.
Definition vnear (d : R) (p q : V3) : Prop :=
  Rabs (vx p - vx q) <= d /\ Rabs (vy p - vy q) <= d /\ Rabs (vz p - vz q) <= d.

Definition len3 (v : V3) : R := sqrt (dot v v).
Definition len4 (q : Q4) : R := sqrt (norm2 q).
Definition dot4 (a b : Q4) : R := qx a * qx b + qy a * qy b + qz a * qz b + qw a * qw b.
Definition scale4 (k : R) (q : Q4) : Q4 := mkQ (k * qx q) (k * qy q) (k * qz q) (k * qw q).
Definition plus4 (a b : Q4) : Q4 := mkQ (qx a + qx b) (qy a + qy b) (qz a + qz b) (qw a + qw b).

(** The great-circle arc from [p] to [q] (unit quaternions, angle [th] between
    them) parametrised by [tau] at constant speed: in the plane of p and q, at
    angle [tau * th] from p. *)
Definition on_arc (p q : Q4) (th tau : R) (r : Q4) : Prop :=
  exists e, norm2 e = 1 /\ dot4 p e = 0 /\
    q = plus4 (scale4 (cos th) p) (scale4 (sin th) e) /\
    r = plus4 (scale4 (cos (tau * th)) p) (scale4 (sin (tau * th)) e).

(** Constant-twist motion of the points of space: every point [x] moves with
    velocity v + w x x, starting from the identity at time 0. *)
Definition screw_flow (v w : V3) (F : R -> V3 -> V3) : Prop :=
  (forall p, F 0 p = p) /\
  (forall t p, vderiv (fun s => F s p) t (plus3 v (xprod w (F t p)))).

(** Twists outside the small-angle series branch: no rotation, or at least [lim]. *)
Definition off_series (lim : R) (w : V3) : Prop := w = zero3 \/ lim <= len3 w.

(** The error allowed to the truncated series below: 2^-78. *)
Definition tiny : R := / 2 ^ 78.

(** Elementary rotation about a coordinate axis. *)
Definition axis_rot (a : Axis) : R -> V3 -> V3 := match a with AxX => rot_x | AxY => rot_y | AxZ => rot_z end.
