(** Specification vocabulary for the spatial transform properties.  It uses
    only points, the textbook dot and cross products, and functions on points. *)

From Coq Require Import Reals.
From Verif Require Import TfModel.
Open Scope R_scope.

(** ** Points *)

Definition dot (a b : V3) : R := vx a * vx b + vy a * vy b + vz a * vz b.
Definition xprod (a b : V3) : V3 :=
  mkV (vy a * vz b - vz a * vy b) (vz a * vx b - vx a * vz b) (vx a * vy b - vy a * vx b).
Definition plus3 (a b : V3) : V3 := mkV (vx a + vx b) (vy a + vy b) (vz a + vz b).
Definition times3 (k : R) (a : V3) : V3 := mkV (k * vx a) (k * vy a) (k * vz a).
Definition zero3 : V3 := mkV 0 0 0.

(** A rotation about the origin: a linear map that keeps dot products
    (lengths and angles) and cross products (handedness). *)
Record rotation_map (f : V3 -> V3) : Prop := {
  rm_add : forall a b, f (plus3 a b) = plus3 (f a) (f b);
  rm_scale : forall k a, f (times3 k a) = times3 k (f a);
  rm_dot : forall a b, dot (f a) (f b) = dot a b;
  rm_cross : forall a b, f (xprod a b) = xprod (f a) (f b) }.

(** A rigid motion: a rotation followed by a translation. *)
Definition rigid_motion (f : V3 -> V3) : Prop :=
  exists g t, rotation_map g /\ forall p, f p = plus3 t (g p).

(** ** Quaternions *)

(** Textbook Hamilton product: (u + s)(v + t) = (u x v + s v + t u) + (s t - u.v). *)
Definition vecpart (q : Q4) : V3 := mkV (qx q) (qy q) (qz q).
Definition hamilton (a b : Q4) : Q4 :=
  let v := plus3 (xprod (vecpart a) (vecpart b))
                 (plus3 (times3 (qw a) (vecpart b)) (times3 (qw b) (vecpart a))) in
  mkQ (vx v) (vy v) (vz v) (qw a * qw b - dot (vecpart a) (vecpart b)).

Definition norm2 (q : Q4) : R := qx q * qx q + qy q * qy q + qz q * qz q + qw q * qw q.
Definition unitq (q : Q4) : Prop := norm2 q = 1.
Definition pure (p : V3) : Q4 := mkQ (vx p) (vy p) (vz p) 0.
Definition conjugate (q : Q4) : Q4 := mkQ (- qx q) (- qy q) (- qz q) (qw q).

(** ** Matrices *)

Definition ident3 : M33 := mkM 1 0 0 0 1 0 0 0 1.
Definition col0 (M : M33) : V3 := mkV (m00 M) (m10 M) (m20 M).
Definition col1 (M : M33) : V3 := mkV (m01 M) (m11 M) (m21 M).
Definition col2 (M : M33) : V3 := mkV (m02 M) (m12 M) (m22 M).

(** Proper rotation matrix: orthonormal columns in right-handed order
    (equivalently, orthogonal with determinant 1). *)
Definition proper_rotation (M : M33) : Prop :=
  dot (col0 M) (col0 M) = 1 /\ dot (col1 M) (col1 M) = 1 /\ dot (col2 M) (col2 M) = 1 /\
  dot (col0 M) (col1 M) = 0 /\ dot (col0 M) (col2 M) = 0 /\ dot (col1 M) (col2 M) = 0 /\
  dot (col0 M) (xprod (col1 M) (col2 M)) = 1.

(** ** Unit transforms *)

Definition unit_qutr (e : QV) : Prop := unitq (eq e).
Definition unit_duqu (s : DQ) : Prop :=
  unitq (dreal s) /\
  qx (dreal s) * qx (ddual s) + qy (dreal s) * qy (ddual s)
  + qz (dreal s) * qz (ddual s) + qw (dreal s) * qw (ddual s) = 0.
Definition proper_tfmat (T : TF) : Prop := proper_rotation (tR T).

Definition ident_qutr : QV := mkE (mkQ 0 0 0 1) (mkV 0 0 0).
Definition ident_duqu : DQ := mkD (mkQ 0 0 0 1) (mkQ 0 0 0 0).
Definition ident_tfmat : TF := mkT ident3 (mkV 0 0 0).

(** The zero vector, as a quaternion-free test of non-degeneracy. *)
Definition nonzero3 (v : V3) : Prop := dot v v <> 0.
Definition unit3 (v : V3) : Prop := dot v v = 1.

(** ** Motion in time *)

(** Derivatives of curves, component by component. *)
Definition vderiv (f : R -> V3) (t : R) (d : V3) : Prop :=
  derivable_pt_lim (fun s => vx (f s)) t (vx d) /\
  derivable_pt_lim (fun s => vy (f s)) t (vy d) /\
  derivable_pt_lim (fun s => vz (f s)) t (vz d).
Definition qderiv (f : R -> Q4) (t : R) (d : Q4) : Prop :=
  derivable_pt_lim (fun s => qx (f s)) t (qx d) /\
  derivable_pt_lim (fun s => qy (f s)) t (qy d) /\
  derivable_pt_lim (fun s => qz (f s)) t (qz d) /\
  derivable_pt_lim (fun s => qw (f s)) t (qw d).
Definition dderiv (f : R -> DQ) (t : R) (d : DQ) : Prop :=
  qderiv (fun s => dreal (f s)) t (dreal d) /\ qderiv (fun s => ddual (f s)) t (ddual d).
Definition ederiv (f : R -> QV) (t : R) (d : QV) : Prop :=
  qderiv (fun s => eq (f s)) t (eq d) /\ vderiv (fun s => ev (f s)) t (ev d).
Definition mderiv (f : R -> M33) (t : R) (d : M33) : Prop :=
  vderiv (fun s => col0 (f s)) t (col0 d) /\ vderiv (fun s => col1 (f s)) t (col1 d) /\
  vderiv (fun s => col2 (f s)) t (col2 d).
Definition tderiv (f : R -> TF) (t : R) (d : TF) : Prop :=
  mderiv (fun s => tR (f s)) t (tR d) /\ vderiv (fun s => tv (f s)) t (tv d).

(** A moving body [pos s p] (position at time s of the body point p) has
    angular velocity [w], and its origin has velocity [v], at time [t]: every
    body point moves with v + w x (offset from the origin). *)
Definition body_velocity (pos : R -> V3 -> V3) (t : R) (v w : V3) : Prop :=
  forall p, vderiv (fun s => pos s p) t
    (plus3 v (xprod w (plus3 (pos t p) (times3 (-1) (pos t zero3))))).

(** ** Denavit-Hartenberg elementary motions *)

Definition rot_x (t : R) (p : V3) : V3 :=
  mkV (vx p) (cos t * vy p - sin t * vz p) (sin t * vy p + cos t * vz p).
Definition rot_y (t : R) (p : V3) : V3 :=
  mkV (cos t * vx p + sin t * vz p) (vy p) (- sin t * vx p + cos t * vz p).
Definition rot_z (t : R) (p : V3) : V3 :=
  mkV (cos t * vx p - sin t * vy p) (sin t * vx p + cos t * vy p) (vz p).
Definition trans_x (a : R) (p : V3) : V3 := mkV (vx p + a) (vy p) (vz p).
Definition trans_z (d : R) (p : V3) : V3 := mkV (vx p) (vy p) (vz p + d).
(** Proximal (modified) and distal (standard) conventions. *)
Definition dh_proximal (alpha a d phi : R) (p : V3) : V3 :=
  rot_x alpha (trans_x a (rot_z phi (trans_z d p))).
Definition dh_distal (alpha a d phi : R) (p : V3) : V3 :=
  rot_z phi (trans_z d (trans_x a (rot_x alpha p))).

(** Rotation by an angle about a unit axis (Rodrigues). *)
Definition rodrigues (k : V3) (t : R) (p : V3) : V3 :=
  plus3 (times3 (cos t) p)
    (plus3 (times3 (sin t) (xprod k p)) (times3 ((1 - cos t) * dot k p) k)).
