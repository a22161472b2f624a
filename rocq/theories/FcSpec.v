(** Specification of collision and distance checking. *)
From Coq Require Import ZArith List Bool Reals.
From Verif Require Import TfModel TfSpec SgModel ClModel ClSpec FcModel.
Import ListNotations.
Open Scope R_scope.

(** ** Shapes as sets of points *)

(** Points of a triangle. *)
Definition in_tri (a b c p : V3) : Prop :=
  exists u v w, 0 <= u /\ 0 <= v /\ 0 <= w /\ u + v + w = 1 /\ p = vadd (vscale u a) (vadd (vscale v b) (vscale w c)).
(** FCL's shapes: boxes, spheres and cylinders are centred at the origin, cylinders along Z. *)
Definition in_fcl (s : fshape) (p : V3) : Prop :=
  match s with
  | FMesh vs ts => exists i j k a b c, In (i, j, k) ts /\
      nth_error vs i = Some a /\ nth_error vs j = Some b /\ nth_error vs k = Some c /\ in_tri a b c p
  | FBox x y z => Rabs (vx p) <= x / 2 /\ Rabs (vy p) <= y / 2 /\ Rabs (vz p) <= z / 2
  | FSphere r => vx p * vx p + vy p * vy p + vz p * vz p <= r * r /\ 0 <= r
  | FCyl r l => vx p * vx p + vy p * vy p <= r * r /\ 0 <= r /\ Rabs (vz p) <= l / 2
  end.
(** Amino's shapes, as they are drawn (src/amino_gl.c 890-980, 1219-1330): cylinders and cones
    stand on the origin and extend in +Z.  Grids and tori are not described. *)
Definition vertex (v : list R) (k : nat) : V3 := mkV (nth (3 * k) v 0) (nth (3 * k + 1) v 0) (nth (3 * k + 2) v 0).
Definition in_shape (s : shape) (p : V3) : Prop :=
  match s with
  | SMesh nv v nf f => exists t, (t < nf)%nat /\
      in_tri (vertex v (nth (3 * t) f 0%nat)) (vertex v (nth (3 * t + 1) f 0%nat)) (vertex v (nth (3 * t + 2) f 0%nat)) p
  | SBox d0 d1 d2 => Rabs (vx p) <= d0 / 2 /\ Rabs (vy p) <= d1 / 2 /\ Rabs (vz p) <= d2 / 2
  | SSphere r => vx p * vx p + vy p * vy p + vz p * vz p <= r * r /\ 0 <= r
  | SCyl h r => vx p * vx p + vy p * vy p <= r * r /\ 0 <= r /\ 0 <= vz p <= h
  | SCone h r0 r1 => 0 <= vz p <= h /\
      exists r, h * r = h * r0 + (r1 - r0) * vz p /\ vx p * vx p + vy p * vy p <= r * r /\ 0 <= r
  | SNone | SGrid _ _ _ _ _ | STorus _ _ _ => False
  end.
(** Points covered by the geometry of a frame at pose E: scaled, then moved. *)
Definition drawn (g : geom) (E : QV) (x : V3) : Prop :=
  exists p, in_shape (g_shape g) p /\ x = qutr_tf E (vscale (g_scale g) p).
(** Points covered by an object of the collision checker. *)
Definition occupied (o : placed) (x : V3) : Prop := exists p, in_fcl (p_fs o) p /\ x = qutr_tf (p_E o) p.

(** The shapes the collision checker knows. *)
Definition supported (s : shape) : Prop :=
  match s with SMesh _ _ _ _ | SBox _ _ _ | SSphere _ | SCyl _ _ => True | _ => False end.
(** Arrays of a mesh are as long as its counts say and name existing vertices. *)
Definition mesh_ok (s : shape) : Prop :=
  match s with
  | SMesh nv v nf f => (3 * nv <= length v)%nat /\ (3 * nf <= length f)%nat /\ Forall (fun k => (k < nv)%nat) (firstn (3 * nf) f)
  | _ => True
  end.
(** A geometry without collision object so far or with the one made for it. *)
Definition fresh (g : geom) : Prop :=
  match g_cl g with
  | None => True
  | Some fs => g_coll g = true /\ fcl_shape (g_scale g) (g_shape g) = Ok (Some fs)
  end.
Definition good_geom (g : geom) : Prop := fresh g /\ 0 < g_scale g /\ mesh_ok (g_shape g).
(** Cylinders only at scale one. *)
Definition plain (g : geom) : Prop := match g_shape g with SCyl _ _ => g_scale g = 1 | _ => True end.
(** The geometry g of frame z, among the geometry of a scene. *)
Definition body (gs : list geom) (l : list (Z * nat)) (z : Z) (g : geom) : Prop :=
  exists i, In (z, i) l /\ nth_error gs i = Some g /\ g_coll g = true /\ supported (g_shape g).

(** ** What FCL is trusted with *)

(** The narrow phase reports a contact exactly when the objects share a point. *)
Definition exact_hit (hit : placed -> placed -> bool) : Prop :=
  forall a b, hit a b = true <-> exists x, occupied a x /\ occupied b x.
(** The pairs a broad phase visits: pairs of different objects, among them every pair that is in contact. *)
Definition pairs_of (n : nat) (vs : list (nat * nat)) : Prop :=
  forall i j, In (i, j) vs -> (i < n)%nat /\ (j < n)%nat /\ i <> j.
Definition visits (hit : placed -> placed -> bool) (ps : list placed) (vs : list (nat * nat)) : Prop :=
  pairs_of (length ps) vs /\
  forall i j a b, i <> j -> nth_error ps i = Some a -> nth_error ps j = Some b -> hit a b = true -> In (i, j) vs \/ In (j, i) vs.
(** The pairs a distance traversal visits: every pair. *)
Definition visits_all (n : nat) (vs : list (nat * nat)) : Prop :=
  pairs_of n vs /\ forall i j, (i < n)%nat -> (j < n)%nat -> i <> j -> In (i, j) vs \/ In (j, i) vs.

(** ** Collisions *)

(** Two objects on the frames a and b are in contact. *)
Definition touching (hit : placed -> placed -> bool) (ps : list placed) (a b : Z) : Prop :=
  exists x y, In x ps /\ In y ps /\ p_id x = a /\ p_id y = b /\ (hit x y = true \/ hit y x = true).
(** Frames a and b are in a collision that is not allowed. *)
Definition forbidden (hit : placed -> placed -> bool) (allowed : clset) (ps : list placed) (a b : Z) : Prop :=
  a <> b /\ cl_get allowed a b = Ok false /\ touching hit ps a b.

(** ** Distances *)

(** Signed separation d of two objects with its points: the distance and the nearest points,
    or minus the deepest penetration and the ends of that penetration. *)
Definition separation (near : placed -> placed -> R * V3 * V3) (contacts : placed -> placed -> list (R * V3 * V3))
  (x y : placed) (d : R) (p q : V3) : Prop :=
  let '(m, n0, n1) := near x y in
  (0 < m /\ d = m /\ p = n0 /\ q = n1) \/
  (m <= 0 /\ d <= 0 /\ (forall depth pos nrm, In (depth, pos, nrm) (contacts x y) -> depth <= - d) /\
   ((d = 0 /\ p = n0 /\ q = n1) \/
    exists nrm, In (- d, p, nrm) (contacts x y) /\ q = vadd p (vscale (- d) nrm))).
(** The objects on two frames that are compared: the one of the larger frame number comes first. *)
Definition facing (ps : list placed) (a b : Z) (x y : placed) : Prop :=
  In x ps /\ In y ps /\ p_id x = Z.max a b /\ p_id y = Z.min a b.
(** Tables over n frames that a sequence of calls can produce. *)
Inductive dist_made (n : nat) : cldist -> Prop :=
| dm_create : dist_made n (dist_create n)
| dm_check near contacts al objs TF vs d c d' : dist_made n d ->
    dist_check near contacts al objs TF vs d = Ok (c, d') -> dist_made n d'.
