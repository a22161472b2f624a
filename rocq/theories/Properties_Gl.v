(** Drawing of shapes: C100 (boxes and grids), C101 (cylinders and cones), C102 (spheres),
    C103 (tori). *)
From Coq Require Import Reals ZArith List Arith Lia Lra Psatz.
From Verif Require Import TfModel GlModel GlSpec GlProofs GlGrid GlCone GlCone2 GlSphere GlTorus.
Import ListNotations.
Open Scope R_scope.

(** C100: what is drawn for a box is exactly its surface. *)
Theorem C100_box : forall x y z, 0 <= x -> 0 <= y -> 0 <= z ->
  exists M, init_box x y z = Some M /\ well_formed M /\ forall q, drawn M q <-> box_surface x y z q.
Proof.
  exact (fun x y z Hx Hy Hz => ex_intro _ _ (conj (init_box_eq x y z)
    (conj (box_wf x y z _ (init_box_eq x y z)) (fun q => box_drawn x y z _ q Hx Hy Hz (init_box_eq x y z))))).
Qed.
Print Assumptions C100_box.

(** C100: the three corners of a triangle of a box have one normal; it is perpendicular to the
    triangle and points out of the box. *)
Theorem C100_box_normals : forall x y z M i j k a b c na nb nc,
  0 <= x -> 0 <= y -> 0 <= z -> init_box x y z = Some M -> In (i, j, k) (triangles M) ->
  at_vertex M i a na -> at_vertex M j b nb -> at_vertex M k c nc ->
  nb = na /\ nc = na /\ vdot na b = vdot na a /\ vdot na c = vdot na a /\
  forall q, in_box x y z q -> vdot na q <= vdot na a.
Proof. exact box_outward. Qed.
Print Assumptions C100_box_normals.

(** C100: what is drawn for a grid is exactly its strips. *)
Theorem C100_grid : forall Dx Dy dx dy w, 0 <= Dx -> 0 <= Dy -> 0 < dx -> 0 < dy -> 0 <= w ->
  Dx / dx < IZR (2 ^ 64) -> Dy / dy < IZR (2 ^ 64) ->
  exists M, init_grid Dx Dy dx dy w = Some M /\ well_formed M /\ forall q, drawn M q <-> in_grid Dx Dy dx dy w q.
Proof.
  intros Dx Dy dx dy w H1 H2 H3 H4 H5 H6 H7. destruct (grid_ok Dx Dy dx dy w H1 H2 H3 H4 H6 H7) as (M & E & W & _).
  exists M. split; [exact E|]. split; [exact W|]. intros q. now apply grid_drawn.
Qed.
Print Assumptions C100_grid.

Example C100_nonvacuous :
  box_surface 2 4 6 (mkV 1 (1/2) (-2)) /\ ~ box_surface 2 4 6 (mkV (1/2) 1 (-2)) /\
  in_grid 1 1 (1/2) (1/2) (1/10) (mkV (11/20) (3/10) 0) /\ ~ in_grid 1 1 (1/2) (1/2) (1/10) (mkV (11/20) (3/10) 1).
Proof.
  assert (A1 : Rabs 1 = 1) by (apply Rabs_right; lra). assert (A2 : Rabs (1/2) = 1/2) by (apply Rabs_right; lra).
  assert (A3 : Rabs (-2) = 2) by (rewrite Rabs_left; lra).
  unfold box_surface, in_box, in_grid; cbn [vx vy vz]. rewrite A1, A2, A3. split; [lra|]. split; [lra|]. split; [|lra].
  split; auto. left. exists (1/2), 1. split; [exists 1%Z; rewrite A2; lra|]. split; [exists 2%Z; rewrite A1; lra|].
  replace (11/20 - 1/2) with (1/20) by lra. rewrite !Rabs_right; lra.
Qed.

(** C101: drawing a cylinder or cone, with any height and radii, stays inside the arrays and
    gives whole triangles, existing indices and unit normals. *)
Theorem C101_well_formed : forall h r0 r1, exists M, init_cone h r0 r1 = Some M /\ well_formed M.
Proof. exact (fun h r0 r1 => cone_wf 36 h r0 r1 ltac:(lia)). Qed.
Print Assumptions C101_well_formed.
Theorem C101_cylinder_is_cone : forall h r, init_cylinder h r = init_cone h r r.
Proof. reflexivity. Qed.

(** C101: every point drawn for a cone is on its side, inside the circle of that height by at
    most the sagitta of a 36-gon, or on the disc of an end. *)
Theorem C101_inside : forall h r0 r1 M q, 0 <= r0 -> 0 <= r1 -> init_cone h r0 r1 = Some M -> drawn M q ->
  (exists phi t k, 0 <= t <= 1 /\ cos (PI / 36) <= k <= 1 /\ q = polar (k * cone_radius r0 r1 t) phi (t * h)) \/
  (exists phi rho, 0 <= rho <= r0 /\ q = polar rho phi 0) \/
  (exists phi rho, 0 <= rho <= r1 /\ q = polar rho phi h).
Proof.
  intros h r0 r1 M q H0 H1 E D. rewrite <- INR36.
  destruct (cone_points 36 h r0 r1 ltac:(lia) H0 H1 M q E D) as [X|[(phi & k & K & ->)|(phi & k & K & ->)]]; [left; exact X| |].
  - right; left. exists phi, (k * r0). split; [nra|reflexivity].
  - right; right. exists phi, (k * r1). split; [nra|reflexivity].
Qed.
Print Assumptions C101_inside.

(** C101: and nothing is left out: in every direction and at every height the side is drawn, and
    the ends are closed. *)
Theorem C101_closed : forall h r0 r1 M, 0 <= r0 -> 0 <= r1 -> init_cone h r0 r1 = Some M -> forall phi,
  (forall t, 0 <= t <= 1 -> exists k, cos (PI / 36) <= k <= 1 /\ drawn M (polar (k * cone_radius r0 r1 t) phi (t * h))) /\
  (forall rho, 0 <= rho <= r0 * cos (PI / 36) -> drawn M (polar rho phi 0)) /\
  (forall rho, 0 <= rho <= r1 * cos (PI / 36) -> drawn M (polar rho phi h)).
Proof.
  intros h r0 r1 M H0 H1 E phi. rewrite <- INR36. split; [|split].
  - intros t Ht. exact (cone_around 36 h r0 r1 ltac:(lia) H0 H1 M phi t E Ht).
  - intros rho (A & B). exact (proj1 (cone_ends 36 h r0 r1 ltac:(lia) H0 H1 M phi rho E A) B).
  - intros rho (A & B). exact (proj2 (cone_ends 36 h r0 r1 ltac:(lia) H0 H1 M phi rho E A) B).
Qed.
Print Assumptions C101_closed.

(** C101: the normal at each vertex of a cylinder is the outward normal of the side, or of an
    end, that contains the vertex. *)
Theorem C101_cylinder_normals : forall h r M i a n, init_cylinder h r = Some M -> at_vertex M i a n ->
  (exists phi t, (t = 0 \/ t = h) /\ a = polar r phi t /\ n = polar 1 phi 0 /\ vdot n (generator h r r phi) = 0) \/
  (n = mkV 0 0 (-1) /\ vz a = 0) \/ (n = mkV 0 0 1 /\ vz a = h).
Proof.
  intros h r M i a n E V. destruct (cone_normals 36 h r r M i a n ltac:(lia) E V) as [(_ & phi & -> & [->| ->])|(_ & X)].
  - left. exists phi, 0. repeat split; auto. unfold vdot, generator, vsub, polar; cbn; ring.
  - left. exists phi, h. repeat split; auto. unfold vdot, generator, vsub, polar; cbn; ring.
  - right; exact X.
Qed.
Print Assumptions C101_cylinder_normals.

(** C101, violated: no normal of the side of a cone whose radii differ is perpendicular to the
    side: each is horizontal, as for a cylinder. *)
Theorem C101_cone_normals_refuted : forall h r0 r1 M i a n, r0 <> r1 -> init_cone h r0 r1 = Some M ->
  (i < 72)%nat -> at_vertex M i a n ->
  exists phi, (a = polar r0 phi 0 \/ a = polar r1 phi h) /\ vdot n (generator h r0 r1 phi) <> 0.
Proof.
  intros h r0 r1 M i a n Hr E Hi V.
  destruct (cone_normals 36 h r0 r1 M i a n ltac:(lia) E V) as [(_ & phi & -> & X)|(L & _)]; [|exfalso; lia].
  exists phi. split; [exact X|].
  replace (vdot (polar 1 phi 0) (generator h r0 r1 phi)) with ((r1 - r0) * (sin phi * sin phi + cos phi * cos phi))
    by (unfold vdot, generator, vsub, polar; cbn; ring).
  pose proof (sin2_cos2 phi) as S. unfold Rsqr in S. rewrite S. lra.
Qed.
Print Assumptions C101_cone_normals_refuted.

(** The first vertex of the cone of height 1 and radii 2 and 1: its side has 72 vertices. *)
Example C101_nonvacuous : exists M, init_cone 1 2 1 = Some M /\ length (d_v M) = 146%nat /\
  exists a n, at_vertex M 0 a n /\ (0 < 72)%nat.
Proof.
  pose proof (cone_eq 36 1 2 1 ltac:(lia)) as E. eexists; split; [exact E|]. split; [reflexivity|].
  do 2 eexists. split; [split; [reflexivity|eexists; split; reflexivity]|lia].
Qed.

(** C102: the sphere is drawn without reading or writing outside the arrays; every point drawn
    is within half a percent of the sphere and not outside it; every ray from the centre meets a
    triangle; each vertex is on the sphere and its normal points away from the centre. *)
Theorem C102_sphere : forall r, 0 < r -> exists M, init_sphere r = Some M /\ well_formed M /\
  (forall q, drawn M q -> 0.995 * r <= vnorm q <= r) /\
  (forall u, u <> mkV 0 0 0 -> exists k, 0 < k /\ drawn M (vscale k u)) /\
  (forall i a n, at_vertex M i a n -> vnorm a = r /\ a = vscale r n).
Proof.
  intros r Hr. destruct (sphere_wf r Hr) as (M & E & W). exists M. split; [exact E|]. split; [exact W|].
  exact (sphere_drawn r M Hr E).
Qed.
Print Assumptions C102_sphere.

(** C102: the same holds after any number of refinements of any closed mesh with acute faces:
    the vertices stay on the sphere, the faces get flatter, and no direction is uncovered. *)
Theorem C102_refinement : forall r, 0 < r -> forall n d v f, 0 < d <= 1 ->
  Forall (fun a => vdot a a = r * r) v -> Forall (face_ok (r * r) d v) f ->
  exists v' f', rounds n r v f = Some (v', f') /\
    Forall (fun a => vdot a a = r * r) v' /\ Forall (face_ok (r * r) (after n d) v') f' /\
    (forall u, (exists t, In t f /\ face_cone v t u) -> exists t, In t f' /\ face_cone v' t u).
Proof. exact rounds_spec. Qed.
Print Assumptions C102_refinement.

Example C102_nonvacuous : exists M, init_sphere 2 = Some M /\
  exists k, 0 < k /\ drawn M (vscale k (mkV 0 0 1)) /\ 1.99 <= k <= 2.
Proof.
  destruct (C102_sphere 2 ltac:(lra)) as (M & E & _ & A & B & _). exists M. split; [exact E|].
  destruct (B (mkV 0 0 1)) as (k & K & D); [intros [=]; lra|]. exists k. split; [exact K|]. split; [exact D|].
  apply A in D. unfold vnorm in D. replace (vdot (vscale k (mkV 0 0 1)) (vscale k (mkV 0 0 1))) with (k * k) in D by (unfold vdot, vscale; cbn; ring).
  rewrite sqrt_square in D by lra. lra.
Qed.

(** C103: a torus of at most a full turn is drawn without reading or writing outside the arrays;
    its vertices and normals are those of the torus; every point drawn is at an angle of the
    torus, inside its surface by at most the sagittas of the two polygons; and every point of
    the surface has such a drawn point at the same angles. *)
Theorem C103_torus : forall angle major minor, 0 <= angle <= 2 * PI -> 0 <= minor <= major ->
  exists M, init_torus angle major minor = Some M /\ well_formed M /\
  (forall i v n, at_vertex M i v n ->
     exists phi theta, 0 <= phi <= angle /\ v = torus_point major minor phi theta /\ n = torus_normal phi theta) /\
  (forall q, drawn M q -> exists phi theta, 0 <= phi <= angle /\
     near_torus (cos (PI / 36)) (cos (PI / 56)) major minor phi theta q) /\
  (forall phi theta, 0 <= phi <= angle -> exists q, drawn M q /\
     near_torus (cos (PI / 36)) (cos (PI / 56)) major minor phi theta q).
Proof. exact torus_facts. Qed.
Print Assumptions C103_torus.

(** C103, violated: the ends of a part of a torus are not drawn: the middle of no cross section,
    the first and last included, belongs to a triangle. *)
Theorem C103_ends_refuted : forall angle major minor M, 0 <= angle <= 2 * PI -> 0 < minor <= major -> major <= 10 * minor ->
  init_torus angle major minor = Some M -> ~ drawn M (polar major 0 0) /\ ~ drawn M (polar major angle 0).
Proof.
  exact (fun angle major minor M H1 H2 H3 E => conj (ends_open angle major minor M H1 H2 H3 E 0)
    (ends_open angle major minor M H1 H2 H3 E angle)).
Qed.
Print Assumptions C103_ends_refuted.

Example C103_nonvacuous : 0 <= PI / 2 <= 2 * PI /\ 0 < 1 <= 3 /\ 3 <= 10 * 1 /\
  torus_point 3 1 0 0 = mkV 4 0 0 /\ near_torus (cos (PI / 36)) (cos (PI / 56)) 3 1 0 0 (torus_point 3 1 0 0).
Proof.
  pose proof PI_RGT_0. split; [lra|]. split; [lra|]. split; [lra|]. split.
  - unfold torus_point, polar. rewrite cos_0, sin_0. f_equal; lra.
  - exists 1, 1. pose proof (COS_bound (PI / 36)). pose proof (COS_bound (PI / 56)). split; [lra|]. split; [lra|].
    unfold torus_point. f_equal; ring.
Qed.
