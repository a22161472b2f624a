(** Model of collision and distance checking: src/rx/amino_fcl.cpp.  FCL itself (the
    narrow phase and the broad phase) is a parameter: [hit], [near], [contacts] and the
    list of pairs the manager visits. *)
From Coq Require Import ZArith List Bool Reals Arith.
From Verif Require Import TfModel SgModel ClModel.
Import ListNotations.
Open Scope R_scope.

(** ** Shapes *)

(** Shapes: include/amino/rx/scene_geom.h 218-296; a mesh is its vertex floats and vertex
    numbers with the two counts (scene_geom_internal.h 107-141), other fields are not used here. *)
Inductive shape :=
| SNone
| SMesh (nv : nat) (v : list R) (nf : nat) (f : list nat)
| SBox (d0 d1 d2 : R)
| SSphere (r : R)
| SCyl (h r : R)
| SCone (h r0 r1 : R)
| SGrid (d0 d1 e0 e1 w : R)
| STorus (ang major minor : R).
(** FCL shapes: fcl::BVHModel, Box(x,y,z), Sphere(r), Cylinder(radius, length) *)
Inductive fshape :=
| FMesh (vs : list V3) (ts : list (nat * nat * nat))
| FBox (x y z : R)
| FSphere (r : R)
| FCyl (r l : R).
(** struct aa_rx_geom: scene_geom_internal.h 66-80; of the options, collision and scale *)
Record geom := mkG { g_coll : bool; g_scale : R; g_shape : shape; g_cl : option fshape }.

(** cl_init_mesh: amino_fcl.cpp 91-141.  Reading past the arrays is undefined. *)
Fixpoint mesh_verts (k : R) (n : nat) (v : list R) : res (list V3) :=
  match n with
  | O => Ok []
  | S n' => match v with
            | x :: y :: z :: r => bind (mesh_verts k n' r) (fun t => Ok (mkV (k * x) (k * y) (k * z) :: t))
            | _ => UB
            end
  end.
Fixpoint mesh_tris (n : nat) (f : list nat) : res (list (nat * nat * nat)) :=
  match n with
  | O => Ok []
  | S n' => match f with
            | x :: y :: z :: r => bind (mesh_tris n' r) (fun t => Ok ((x, y, z) :: t))
            | _ => UB
            end
  end.
(** cl_init_helper, the switch: amino_fcl.cpp 166-207 *)
Definition fcl_shape (k : R) (s : shape) : res (option fshape) :=
  match s with
  | SNone => Ok None
  | SMesh nv v nf f => bind (mesh_verts k nv v) (fun vs => bind (mesh_tris nf f) (fun ts => Ok (Some (FMesh vs ts))))
  | SBox d0 d1 d2 => Ok (Some (FBox (k * d0) (k * d1) (k * d2)))
  | SSphere r => Ok (Some (FSphere (k * r)))
  | SCyl h r => Ok (Some (FCyl (k * r) (k * h)))
  | SCone _ _ _ => Ok None
  | SGrid _ _ _ _ _ => Ok None
  | STorus _ _ _ => Ok None
  end.
(** cl_init_helper: 143-217 *)
Definition init_geom (g : geom) : res geom :=
  if negb (g_coll g) then Ok g
  else match g_cl g with
       | Some _ => Ok g
       | None => bind (fcl_shape (g_scale g) (g_shape g)) (fun p => Ok (mkG (g_coll g) (g_scale g) (g_shape g) p))
       end.
(** aa_rx_sg_cl_init, the map over the geometry: 226; [l] is what aa_rx_sg_map_geom visits *)
Fixpoint init_geoms (l : list (Z * nat)) (gs : list geom) : res (list geom) :=
  match l with
  | [] => Ok gs
  | (_, i) :: r =>
      bind (from (nth_error gs i)) (fun g =>
      bind (init_geom g) (fun g' => init_geoms r (set_at gs i g')))
  end.

(** ** Collision objects *)

(** fcl::CollisionObject: user data is the frame, geometry user data the amino geometry *)
Record obj := mkO { o_id : Z; o_fs : fshape; o_shape : shape }.
(** cl_create_helper over the map: 250-264, 280 *)
Fixpoint create_objs (gs : list geom) (l : list (Z * nat)) : res (list obj) :=
  match l with
  | [] => Ok []
  | (z, i) :: r =>
      bind (from (nth_error gs i)) (fun g =>
      bind (create_objs gs r) (fun t =>
      Ok (match g_cl g with None => t | Some fs => mkO z fs (g_shape g) :: t end)))
  end.
(** An object with its transform *)
Record placed := mkP { p_id : Z; p_fs : fshape; p_E : QV }.
(** s_update_tf: 379-415; [f] gives the pose of a frame *)
Definition place_obj (f : Z -> res QV) (o : obj) : res placed :=
  bind (f (o_id o)) (fun E =>
  Ok (mkP (o_id o) (o_fs o)
      (match o_shape o with
       | SCyl h _ => qutr_mul E (mkE (mkQ 0 0 0 1) (mkV 0 0 (h / 2)))
       | _ => E
       end))).
Fixpoint place_all (f : Z -> res QV) (l : list obj) : res (list placed) :=
  match l with
  | [] => Ok []
  | o :: r => bind (place_obj f o) (fun p => bind (place_all f r) (fun t => Ok (p :: t)))
  end.
(** check_helper_array: 440-445; check_helper_fk: 460-463 with the poses of the frames *)
Definition tf_array (TF : list R) (ld : nat) (id : Z) : res QV :=
  if (id <? 0)%Z then UB else
  match firstn 7 (skipn (Z.to_nat id * ld) TF) with
  | [x; y; z; w; a; b; c] => Ok (mkE (mkQ x y z w) (mkV a b c))
  | _ => UB
  end.
Definition tf_fk (TF : list QV) (id : Z) : res QV :=
  if (id <? 0)%Z then UB else from (nth_error TF (Z.to_nat id)).

(** ** Collision check *)

Section Fcl.
(** ::fcl::collide reports a contact *)
Variable hit : placed -> placed -> bool.

(** cl_check_callback: 334-376: stop, result and set.  The default request asks for one
    contact and no cost. *)
Definition check_callback (allowed : clset) (o1 o2 : placed) (result : bool) (set : option clset)
  : res (bool * bool * option clset) :=
  if (p_id o1 =? p_id o2)%Z then Ok (false, result, set)
  else bind (cl_get allowed (p_id o1) (p_id o2)) (fun a =>
       if a then Ok (false, result, set)
       else if hit o1 o2 then
              match set with
              | Some c => bind (cl_set c (p_id o1) (p_id o2) true) (fun c' => Ok (false, true, Some c'))
              | None => Ok (true, true, None)
              end
            else Ok (false, result, set)).
(** manager->collide: the pairs of objects visited, until the callback says stop *)
Fixpoint visit_all (allowed : clset) (ps : list placed) (vs : list (nat * nat)) (result : bool) (set : option clset)
  : res (bool * option clset) :=
  match vs with
  | [] => Ok (result, set)
  | (i, j) :: r =>
      bind (from (nth_error ps i)) (fun o1 => bind (from (nth_error ps j)) (fun o2 =>
      bind (check_callback allowed o1 o2 result set) (fun '(stop, result', set') =>
      if stop then Ok (result', set') else visit_all allowed ps r result' set')))
  end.
(** s_cl_check: 417-433, with the pairs the manager will visit *)
Definition cl_check (allowed : clset) (objs : list obj) (f : Z -> res QV) (vs : list (nat * nat)) (set : option clset)
  : res (bool * option clset) :=
  bind (place_all f objs) (fun ps => visit_all allowed ps vs false set).

(** aa_rx_sg_get_collision: 472-498: the poses are those at the configuration *)
Definition get_collision (k : clsg) (gs : list geom) (TF : list R) (vs : list (nat * nat)) (set : clset) : res clset :=
  bind (cl_allowed k) (fun al =>
  bind (map_geom (k_sg k)) (fun l =>
  bind (create_objs gs l) (fun os =>
  bind (cl_check al os (tf_array TF 7) vs (Some set)) (fun '(_, s) =>
  bind (from s) (fun s =>
  cl_merge s (cl_create (length (s_frames (k_sg k))))))))).
(** aa_rx_sg_allow_config: 500-515 *)
Definition pairs_below (n : nat) : list (nat * nat) := flat_map (fun i => map (pair i) (seq 0 i)) (seq 0 n).
Fixpoint allow_pairs (set : clset) (l : list (nat * nat)) (k : clsg) : res clsg :=
  match l with
  | [] => Ok k
  | (i, j) :: r =>
      bind (cl_get set (Z.of_nat i) (Z.of_nat j)) (fun b =>
      bind (if b then bind (frame_name (k_sg k) (Z.of_nat i)) (fun ni => bind (frame_name (k_sg k) (Z.of_nat j)) (fun nj =>
                      cstep k (CSg (OAllow ni nj true))))
            else Ok k) (allow_pairs set r))
  end.
Definition allow_config (k : clsg) (gs : list geom) (TF : list R) (vs : list (nat * nat)) : res clsg :=
  let n := length (s_frames (k_sg k)) in
  bind (get_collision k gs TF vs (cl_create n)) (fun set => allow_pairs set (pairs_below n) k).
End Fcl.

(** ** Distances *)

(** struct dist_ent: 530-534 *)
Record ent := mkEnt { e_dist : R; e_p0 : V3; e_p1 : V3 }.
(** struct aa_rx_cl_dist: 536-543, without the checker *)
Record cldist := mkCD { cd_n : nat; cd_coll : bool; cd_tab : list ent }.
Definition v0 : V3 := mkV 0 0 0.
Definition ent0 : ent := mkEnt 0 v0 v0.
(** aa_rx_cl_dist_create: 555-567; in_collision is not set, the array is zeroed *)
Definition dist_create (n : nat) : cldist := mkCD n false (repeat ent0 (n * n)).
(** s_get_dist_ent: 546-553 *)
Definition dist_idx (n : nat) (id1 id2 : Z) : res nat :=
  if (id1 <? id2)%Z then Abort
  else if (id2 <? 0)%Z then UB else Ok (Z.to_nat id2 * n + Z.to_nat id1)%nat.
Definition get_ent (d : cldist) (id1 id2 : Z) : res ent :=
  bind (dist_idx (cd_n d) id1 id2) (fun r => from (nth_error (cd_tab d) r)).
Definition put_ent (d : cldist) (id1 id2 : Z) (e : ent) : res cldist :=
  bind (dist_idx (cd_n d) id1 id2) (fun r =>
  if Nat.ltb r (length (cd_tab d)) then Ok (mkCD (cd_n d) (cd_coll d) (set_at (cd_tab d) r e)) else UB).

(** DBL_MAX *)
Definition dbl_max : R := (2 - / 2 ^ 52) * 2 ^ 1023.
(** aa_rx_cl_dist_check, the initialisation: 583-599 *)
Fixpoint reset_rows (j : nat) (is : list nat) (d : cldist) : res cldist :=
  match is with
  | [] => Ok d
  | i :: r =>
      bind (get_ent d (Z.of_nat i) (Z.of_nat j)) (fun e =>
      bind (put_ent d (Z.of_nat i) (Z.of_nat j) (mkEnt dbl_max (e_p0 e) (e_p1 e))) (reset_rows j r))
  end.
Fixpoint reset_cols (n : nat) (js : list nat) (d : cldist) : res cldist :=
  match js with
  | [] => Ok d
  | j :: r =>
      bind (put_ent d (Z.of_nat j) (Z.of_nat j) ent0) (fun d =>
      bind (reset_rows j (seq (S j) (n - S j)) d) (reset_cols n r))
  end.
Definition reset (d : cldist) : res cldist :=
  reset_cols (cd_n d) (seq 0 (cd_n d)) (mkCD (cd_n d) false (cd_tab d)).

Section FclDist.
(** ::fcl::distance: minimum distance and nearest points *)
Variable near : placed -> placed -> R * V3 * V3.
(** The contacts of ::fcl::collide: penetration depth, position and normal *)
Variable contacts : placed -> placed -> list (R * V3 * V3).

(** cl_dist_callback, the loop over the contacts: 675-687 *)
Fixpoint deepest (l : list (R * V3 * V3)) (m : R) (p0 p1 : V3) : R * V3 * V3 :=
  match l with
  | [] => (m, p0, p1)
  | (depth, pos, nrm) :: r =>
      if Rlt_dec m depth then deepest r depth pos (vadd (vscale depth nrm) pos)
      else deepest r m p0 p1
  end.
(** cl_dist_callback: 629-714.  It never stops the traversal and leaves the manager's bound alone. *)
Definition dist_callback (allowed : clset) (a b : placed) (d : cldist) : res cldist :=
  if (p_id a =? p_id b)%Z then Ok d
  else
    let '(o1, o2) := if (p_id a <? p_id b)%Z then (b, a) else (a, b) in
    bind (cl_get allowed (p_id o1) (p_id o2)) (fun al =>
    if al then Ok d else
    bind (get_ent d (p_id o1) (p_id o2)) (fun e =>
    let '(m, p0, p1) := near o1 o2 in
    let '(m', q0, q1, c) :=
      if Rle_dec m 0 then let '(x, y0, y1) := deepest (contacts o1 o2) 0 p0 p1 in (- x, y0, y1, true)
      else (m, p0, p1, cd_coll d) in
    let d' := mkCD (cd_n d) c (cd_tab d) in
    if Rlt_dec m' (e_dist e) then put_ent d' (p_id o1) (p_id o2) (mkEnt m' q0 q1) else Ok d')).
Fixpoint dist_visit (allowed : clset) (ps : list placed) (vs : list (nat * nat)) (d : cldist) : res cldist :=
  match vs with
  | [] => Ok d
  | (i, j) :: r =>
      bind (from (nth_error ps i)) (fun a => bind (from (nth_error ps j)) (fun b =>
      bind (dist_callback allowed a b d) (dist_visit allowed ps r)))
  end.
(** aa_rx_cl_dist_check: 576-605: result and table *)
Definition dist_check (allowed : clset) (objs : list obj) (TF : list QV) (vs : list (nat * nat)) (d : cldist)
  : res (bool * cldist) :=
  bind (place_all (tf_fk TF) objs) (fun ps =>
  bind (reset d) (fun d => bind (dist_visit allowed ps vs d) (fun d => Ok (cd_coll d, d)))).
End FclDist.

(** s_normalize_ids: 607-614; aa_rx_cl_dist_get_dist: 747-755 *)
Definition get_dist (d : cldist) (id0 id1 : Z) : res R :=
  let '(a, b) := if (id0 <? id1)%Z then (id1, id0) else (id0, id1) in
  bind (get_ent d a b) (fun e => Ok (e_dist e)).
(** aa_rx_cl_dist_get_points: 757-780: distance, point0 and point1 *)
Definition get_points (d : cldist) (id0 id1 : Z) : res (R * V3 * V3) :=
  if (id1 <? id0)%Z then bind (get_ent d id0 id1) (fun e => Ok (e_dist e, e_p0 e, e_p1 e))
  else bind (get_ent d id1 id0) (fun e => Ok (e_dist e, e_p1 e, e_p0 e)).
(** aa_rx_cl_dist_get_min_dist: 716-744: distance, and the frame and points written, if any *)
Fixpoint min_loop (d : cldist) (id0 : Z) (ids : list nat) (m : R) (best : option (Z * V3 * V3))
  : res (R * option (Z * V3 * V3)) :=
  match ids with
  | [] => Ok (m, best)
  | t :: r =>
      let z := Z.of_nat t in
      if (id0 =? z)%Z then min_loop d id0 r m best
      else bind (get_dist d id0 z) (fun x =>
           if Rlt_dec x m
           then bind (get_points d id0 z) (fun '(_, p0, p1) => min_loop d id0 r x (Some (z, p0, p1)))
           else min_loop d id0 r m best)
  end.
Definition get_min_dist (d : cldist) (id0 : Z) : res (R * option (Z * V3 * V3)) :=
  min_loop d id0 (seq 0 (cd_n d)) dbl_max None.
