(** Specification of drawing: what OpenGL draws for a mesh in the mode
    GL_TRIANGLES, and the surfaces of the shapes. *)
From Coq Require Import Reals ZArith List Bool Arith.
From Verif Require Import TfModel GlModel.
Import ListNotations.
Open Scope R_scope.

(** ** OpenGL *)

(** Points of a triangle. *)
Definition in_tri (a b c p : V3) : Prop :=
  exists u v w, 0 <= u /\ 0 <= v /\ 0 <= w /\ u + v + w = 1 /\ p = vadd (vscale u a) (vadd (vscale v b) (vscale w c)).
(** GL_TRIANGLES: each three indices name the corners of a triangle; without indices the vertices
    are taken in order. *)
Fixpoint triples (l : list nat) : list (nat * nat * nat) :=
  match l with
  | a :: b :: c :: r => (a, b, c) :: triples r
  | _ => []
  end.
Definition indices (M : dmesh) : list nat := match d_i M with Some l => l | None => seq 0 (length (d_v M)) end.
Definition triangles (M : dmesh) : list (nat * nat * nat) := triples (indices M).
Definition drawn (M : dmesh) (p : V3) : Prop :=
  exists i j k a b c, In (i, j, k) (triangles M) /\
    nth_error (d_v M) i = Some a /\ nth_error (d_v M) j = Some b /\ nth_error (d_v M) k = Some c /\ in_tri a b c p.
(** Whole triangles, every index names a vertex, every vertex has a normal of length one. *)
Definition well_formed (M : dmesh) : Prop :=
  Nat.modulo (length (indices M)) 3 = 0%nat /\
  Forall (fun i => (i < length (d_v M))%nat) (indices M) /\
  match d_n M with None => True | Some n => length n = length (d_v M) /\ Forall (fun a => vdot a a = 1) n end.
(** The vertex and the normal with index i. *)
Definition at_vertex (M : dmesh) (i : nat) (a n : V3) : Prop :=
  nth_error (d_v M) i = Some a /\ exists l, d_n M = Some l /\ nth_error l i = Some n.

(** ** Shapes *)

(** A box of the given dimensions, centred, and its surface. *)
Definition in_box (x y z : R) (p : V3) : Prop :=
  Rabs (vx p) <= x / 2 /\ Rabs (vy p) <= y / 2 /\ Rabs (vz p) <= z / 2.
Definition box_surface (x y z : R) (p : V3) : Prop :=
  in_box x y z p /\ (Rabs (vx p) = x / 2 \/ Rabs (vy p) = y / 2 \/ Rabs (vz p) = z / 2).

(** Multiples of a spacing d that are at most D from the origin. *)
Definition mark (D d m : R) : Prop := exists k : Z, m = IZR k * d /\ Rabs m <= D.
(** A grid: strips of the given width along x and along y, at every mark, as long as the marks reach. *)
Definition in_grid (Dx Dy dx dy w : R) (p : V3) : Prop :=
  vz p = 0 /\
  ((exists m l, mark Dx dx m /\ mark Dy dy l /\ Rabs (vx p - m) <= w / 2 /\ Rabs (vy p) <= l) \/
   (exists m l, mark Dy dy m /\ mark Dx dx l /\ Rabs (vy p - m) <= w / 2 /\ Rabs (vx p) <= l)).

(** Cylindrical coordinates. *)
Definition polar (rho phi z : R) : V3 := mkV (rho * cos phi) (rho * sin phi) z.
(** Radius of a cone at the fraction t of its height. *)
Definition cone_radius (r0 r1 t : R) : R := r0 + t * (r1 - r0).
(** Direction of the line from the base to the top of a cone, at an angle. *)
Definition generator (h r0 r1 phi : R) : V3 := vsub (polar r1 phi h) (polar r0 phi 0).

(** The point of a torus about the z axis at angle phi along it and theta around its tube. *)
Definition torus_point (major minor phi theta : R) : V3 := polar (major + minor * cos theta) phi (minor * sin theta).
Definition torus_normal (phi theta : R) : V3 := mkV (cos theta * cos phi) (cos theta * sin phi) (sin theta).
(** A point at the same angles, inside the torus by at most a factor c1 about the tube and then c2
    about the axis. *)
Definition near_torus (c1 c2 major minor phi theta : R) (p : V3) : Prop :=
  exists mu k, c1 * minor <= mu <= minor /\ c2 <= k <= 1 /\
    p = polar (k * (major + mu * cos theta)) phi (mu * sin theta).

(** Directions through a triangle: the cone from the origin over it. *)
Definition in_cone (a b c u : V3) : Prop :=
  exists x y z, 0 <= x /\ 0 <= y /\ 0 <= z /\ u = vadd (vscale x a) (vadd (vscale y b) (vscale z c)).
(** A face whose corners exist and are close together. *)
Definition face_ok (N d : R) (v : list V3) (t : nat * nat * nat) : Prop :=
  let '(i, j, k) := t in exists a b c, nth_error v i = Some a /\ nth_error v j = Some b /\ nth_error v k = Some c /\
    d * N <= vdot a b /\ d * N <= vdot a c /\ d * N <= vdot b c.
(** Directions through the face t. *)
Definition face_cone (v : list V3) (t : nat * nat * nat) (u : V3) : Prop :=
  let '(i, j, k) := t in exists a b c, nth_error v i = Some a /\ nth_error v j = Some b /\ nth_error v k = Some c /\
    in_cone a b c u.
(** How close the corners are after one refinement, and after n. *)
Definition next (d : R) : R := (1 + 3 * d) / (2 + 2 * d).
Fixpoint after (n : nat) (d : R) : R := match n with O => d | S n' => after n' (next d) end.
