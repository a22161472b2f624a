(** Geometry objects, meshes, options and the scene graphs that hold them:
    src/rx/scene_geom.c, src/rx/geom_opt.c, the parts of src/rx/scenegraph.cpp and
    src/rx/sg_api.cpp that attach, copy and release geometry, and the two
    initialisation passes of src/rx/amino_fcl.cpp and src/amino_gl.c.

    An object is named by the number of the allocation that made it, so a freed
    name is never handed out again; touching a freed object is [Ub].  The calls of
    one thread are modelled (the interleavings of reference counting are C17).
    Doubles are reals that are only moved around. *)
From Coq Require Import ZArith List Bool Reals.
Import ListNotations.
Open Scope Z_scope.

(** Undefined behaviour, abort() and a returned value. *)
Inductive res (A : Type) := Ub | Abort | Ok (a : A).
Arguments Ub {A}.
Arguments Abort {A}.
Arguments Ok {A} a.

Definition bind {A B} (r : res A) (f : A -> res B) : res B :=
  match r with Ub => Ub | Abort => Abort | Ok a => f a end.

(** include/amino/rx/scene_geom_internal.h 54-62: color[4], specular[3], scale, flags *)
Record opt := mkOpt {
  col0 : R; col1 : R; col2 : R; col3 : R;
  spc0 : R; spc1 : R; spc2 : R;
  scl : R; noshadow : bool; visual : bool; collis : bool }.

(** geom_opt.c 52-63: aa_rx_geom_opt_create (AA_NEW0, then the setters) *)
Definition opt_new : opt :=
  mkOpt (5/10)%R (5/10)%R (5/10)%R 1%R 0%R 0%R 0%R 1%R false true true.

(** The setters, geom_opt.c 72-84, 138-144, with include/amino/getset.h 79-83, 107-121;
    an int is stored in a one-bit field as [x ? 1 : 0]. *)
Inductive oset :=
| SetColor (x y z : R) | SetAlpha (a : R) | SetSpecular (x y z : R) | SetScale (s : R)
| SetNoShadow (b : Z) | SetVisual (b : Z) | SetCollision (b : Z).

Definition cbool (z : Z) : bool := negb (z =? 0).

Definition opt_set (u : oset) (o : opt) : opt :=
  let '(mkOpt c0 c1 c2 c3 s0 s1 s2 s ns v c) := o in
  match u with
  | SetColor x y z => mkOpt x y z c3 s0 s1 s2 s ns v c
  | SetAlpha a => mkOpt c0 c1 c2 a s0 s1 s2 s ns v c
  | SetSpecular x y z => mkOpt c0 c1 c2 c3 x y z s ns v c
  | SetScale x => mkOpt c0 c1 c2 c3 s0 s1 s2 x ns v c
  | SetNoShadow b => mkOpt c0 c1 c2 c3 s0 s1 s2 s (cbool b) v c
  | SetVisual b => mkOpt c0 c1 c2 c3 s0 s1 s2 s ns (cbool b) c
  | SetCollision b => mkOpt c0 c1 c2 c3 s0 s1 s2 s ns v (cbool b)
  end.

Fixpoint opt_run (l : list oset) (o : opt) : opt :=
  match l with [] => o | u :: r => opt_run r (opt_set u o) end.

(** The getters, geom_opt.c 86-136, 146-150 *)
Definition get_color_red (o : opt) := col0 o.
Definition get_color_blue (o : opt) := col1 o.
Definition get_color_green (o : opt) := col2 o.
Definition get_alpha (o : opt) := col3 o.
Definition get_specular_red (o : opt) := spc0 o.
Definition get_specular_blue (o : opt) := spc1 o.
Definition get_specular_green (o : opt) := spc2 o.
Definition get_scale (o : opt) := scl o.
Definition get_no_shadow (o : opt) : Z := if noshadow o then 1 else 0.
Definition get_visual (o : opt) : Z := if visual o then 1 else 0.
Definition get_collision (o : opt) : Z := if collis o then 1 else 0.

(** scene_geom.h: the shapes (octrees are not modelled) *)
Inductive shape :=
| Box (x y z : R) | Sphere (r : R) | Cylinder (h r : R) | Cone (h r0 r1 : R)
| Grid (d0 d1 e0 e1 w : R) | Torus (a r0 r1 : R) | Mesh (m : nat).

(** scene_geom_internal.h 67-80, 111-150.  [g_cl], [g_gl]: cl_geom and gl_buffers are not NULL. *)
Record geom := mkGeom {
  g_opt : opt; g_shape : shape; g_rc : Z; g_cl : bool; g_gl : bool; g_live : bool }.
Record mesh := mkMesh { m_rc : Z; m_live : bool }.

(** A scene graph: its frames by name with their geometry, scenegraph_internal.h 108, 166,
    and the three flags of lines 198-201. *)
Record graph := mkGraph {
  fr : list (nat * list nat); d_ind : bool; d_cl : bool; d_gl : bool }.

Record st := mkSt {
  opts : list (option opt); geoms : list geom; meshes : list mesh; graphs : list (option graph) }.

Definition wrap32 (z : Z) : Z := z mod 2 ^ 32.

Fixpoint upd {A} (l : list A) (i : nat) (x : A) : list A :=
  match l, i with
  | [], _ => []
  | _ :: r, O => x :: r
  | a :: r, S j => a :: upd r j x
  end.

Definition set_opts s x := mkSt x (geoms s) (meshes s) (graphs s).
Definition set_geoms s x := mkSt (opts s) x (meshes s) (graphs s).
Definition set_meshes s x := mkSt (opts s) (geoms s) x (graphs s).
Definition set_graphs s x := mkSt (opts s) (geoms s) (meshes s) x.

Definition geom_at (s : st) (g : nat) : res geom :=
  match nth_error (geoms s) g with
  | Some c => if g_live c then Ok c else Ub
  | None => Ub
  end.
Definition mesh_at (s : st) (m : nat) : res mesh :=
  match nth_error (meshes s) m with
  | Some c => if m_live c then Ok c else Ub
  | None => Ub
  end.
Definition opt_at (s : st) (o : nat) : res opt :=
  match nth_error (opts s) o with Some (Some c) => Ok c | _ => Ub end.
Definition graph_at (s : st) (k : nat) : res graph :=
  match nth_error (graphs s) k with Some (Some c) => Ok c | _ => Ub end.

(** aa_mem_ref_inc on a mesh, refcount.c 49-52 *)
Definition mesh_inc (s : st) (m : nat) : res st :=
  bind (mesh_at s m) (fun c => Ok (set_meshes s (upd (meshes s) m (mkMesh (wrap32 (m_rc c + 1)) true)))).

(** scene_geom.c 332-348: aa_rx_mesh_destroy (the arrays are MeshModel.v) *)
Definition mesh_destroy (s : st) (m : nat) : res st :=
  bind (mesh_at s m) (fun c =>
    Ok (set_meshes s (upd (meshes s) m (mkMesh (wrap32 (m_rc c - 1)) (negb (m_rc c =? 1)))))).

(** scene_geom.c 58-63: ALLOC_GEOM; the options are copied *)
Definition alloc_geom (s : st) (o : opt) (sh : shape) : st :=
  set_geoms s (geoms s ++ [mkGeom o sh 1 false false true]).

(** scene_geom.c 67-160: aa_rx_geom_box, ..., aa_rx_geom_mesh *)
Definition geom_new (s : st) (o : opt) (sh : shape) : res (st * nat) :=
  let n := length (geoms s) in
  match sh with
  | Mesh m => bind (mesh_inc s m) (fun s' => Ok (alloc_geom s' o sh, n))
  | _ => Ok (alloc_geom s o sh, n)
  end.

(** scene_geom.c 171-180: aa_rx_geom_copy *)
Definition geom_copy (s : st) (g : nat) : res st :=
  bind (geom_at s g) (fun c =>
    if g_rc c =? 0 then Abort
    else Ok (set_geoms s (upd (geoms s) g
           (mkGeom (g_opt c) (g_shape c) (wrap32 (g_rc c + 1)) (g_cl c) (g_gl c) true)))).

(** scene_geom.c 182-240: aa_rx_geom_modify_opt: a new object of the same shape *)
Definition geom_modify (s : st) (g : nat) (o : opt) : res (st * nat) :=
  bind (geom_at s g) (fun c => geom_new s o (g_shape c)).

(** scene_geom.c 242-269: aa_rx_geom_destroy; the collision and GL objects go with it *)
Definition geom_destroy (s : st) (g : nat) : res st :=
  bind (geom_at s g) (fun c =>
    if g_rc c =? 0 then Abort
    else if g_rc c =? 1 then
      bind (match g_shape c with Mesh m => mesh_destroy s m | _ => Ok s end) (fun s' =>
        Ok (set_geoms s' (upd (geoms s') g (mkGeom (g_opt c) (g_shape c) 0 false false false))))
    else Ok (set_geoms s (upd (geoms s) g
           (mkGeom (g_opt c) (g_shape c) (g_rc c - 1) (g_cl c) (g_gl c) true)))).

Fixpoint destroy_all (s : st) (l : list nat) : res st :=
  match l with
  | [] => Ok s
  | g :: r => bind (geom_destroy s g) (fun s' => destroy_all s' r)
  end.
Fixpoint copy_all (s : st) (l : list nat) : res st :=
  match l with
  | [] => Ok s
  | g :: r => bind (geom_copy s g) (fun s' => copy_all s' r)
  end.

(** std::map of frames by name *)
Fixpoint find (n : nat) (l : list (nat * list nat)) : option (list nat) :=
  match l with
  | [] => None
  | (k, v) :: r => if (k =? n)%nat then Some v else find n r
  end.
Fixpoint store (n : nat) (v : list nat) (l : list (nat * list nat)) : list (nat * list nat) :=
  match l with
  | [] => [(n, v)]
  | (k, w) :: r => if (k =? n)%nat then (k, v) :: r else (k, w) :: store n v r
  end.
Fixpoint erase (n : nat) (l : list (nat * list nat)) : list (nat * list nat) :=
  match l with
  | [] => []
  | (k, w) :: r => if (k =? n)%nat then r else (k, w) :: erase n r
  end.

Definition put (s : st) (k : nat) (g : graph) : st := set_graphs s (upd (graphs s) k (Some g)).
Definition held (l : list (nat * list nat)) : list nat := concat (map snd l).

(** scenegraph.cpp 379-391: SceneGraph::add; the frame it replaces is deleted with
    its geometry (scenegraph.cpp 76-86).  The kinds, parents and poses of frames are SgModel.v. *)
Definition add_frame (s : st) (k : nat) (n : nat) : res st :=
  bind (graph_at s k) (fun g =>
  bind (match find n (fr g) with Some l => destroy_all s l | None => Ok s end) (fun s' =>
    Ok (put s' k (mkGraph (store n [] (fr g)) true (d_cl g) (d_gl g))))).

(** sg_api.cpp 197-212: aa_rx_sg_rm_frame *)
Definition rm_frame (s : st) (k : nat) (n : nat) : res st :=
  bind (graph_at s k) (fun g =>
  bind (match find n (fr g) with Some l => destroy_all s l | None => Ok s end) (fun s' =>
    Ok (put s' k (mkGraph (erase n (fr g)) true (d_cl g) (d_gl g))))).

(** scenegraph.cpp 411-418: aa_rx_sg_add_geom; operator[] of the map makes a null frame
    pointer for an unknown name, which is then used *)
Definition attach (s : st) (k : nat) (n : nat) (x : nat) : res st :=
  bind (graph_at s k) (fun g =>
    match find n (fr g) with
    | None => Ub
    | Some l => Ok (put s k (mkGraph (store n (l ++ [x]) (fr g)) (d_ind g) true true))
    end).

(** scenegraph.cpp 396-409: aa_rx_sg_copy_frame_geom.  With source = destination the loop
    appends to the vector it walks over: the end moves away until push_back reallocates and
    the iterator dangles. *)
Definition copy_frame_geom (s : st) (k : nat) (a b : nat) : res st :=
  bind (graph_at s k) (fun g =>
    match find a (fr g), find b (fr g) with
    | Some la, Some lb =>
        match la with
        | [] => Ok (put s k (mkGraph (fr g) (d_ind g) true true))
        | _ :: _ =>
            if (a =? b)%nat then Ub
            else bind (copy_all s la) (fun s' =>
                   Ok (put s' k (mkGraph (store b (lb ++ la) (fr g)) (d_ind g) true true)))
        end
    | _, _ => Ub
    end).

(** sg_api.cpp 49-54; scenegraph.cpp 269-272 leaves dirty_collision and dirty_gl
    uninitialised: the two bits are given by the environment. *)
Definition sg_new (s : st) (b1 b2 : bool) : st :=
  set_graphs s (graphs s ++ [Some (mkGraph [] false b1 b2)]).

(** sg_api.cpp 62-65, scenegraph.cpp 305-376: aa_rx_sg_init.  [ok]: every parent exists. *)
Definition sg_init (s : st) (k : nat) (ok : bool) : res st :=
  bind (graph_at s k) (fun g =>
    Ok (if d_ind g && negb ok then s
        else put s k (mkGraph (fr g) false (d_cl g) (d_gl g)))).

(** sg_api.cpp 754-812 with 745-752: the new graph has the same frames and a reference to
    each geometry object.  Limits and allowed collisions are SgModel.v and ClModel.v. *)
Definition sg_copy (s : st) (k : nat) (b1 b2 : bool) : res st :=
  bind (graph_at s k) (fun g =>
    if d_ind g then Abort
    else bind (copy_all s (held (fr g))) (fun s' =>
           let any := negb (match held (fr g) with [] => true | _ => false end) in
           Ok (set_graphs s' (graphs s' ++ [Some (mkGraph (fr g) false (b1 || any) (b2 || any))])))).

(** sg_api.cpp 56-60, scenegraph.cpp 274-286: the frames are deleted with their geometry *)
Definition sg_destroy (s : st) (k : nat) : res st :=
  bind (graph_at s k) (fun g =>
  bind (destroy_all s (held (fr g))) (fun s' =>
    Ok (set_graphs s' (upd (graphs s') k None)))).

(** amino_fcl.cpp 143-215: which shapes get a collision object *)
Definition cl_shape (sh : shape) : bool :=
  match sh with Mesh _ | Box _ _ _ | Sphere _ | Cylinder _ _ => true | _ => false end.

(** amino_fcl.cpp 143-215: cl_init_helper *)
Definition cl_one (s : st) (g : nat) : res st :=
  bind (geom_at s g) (fun c =>
    if negb (collis (g_opt c)) then Ok s
    else if g_cl c then Ok s
    else if cl_shape (g_shape c)
    then bind (match g_shape c with Mesh m => bind (mesh_at s m) (fun _ => Ok s) | _ => Ok s end)
      (fun _ => Ok (set_geoms s (upd (geoms s) g
                      (mkGeom (g_opt c) (g_shape c) (g_rc c) true (g_gl c) true))))
    else Ok s).
(** amino_gl.c 1447-1507, 1714-1719: gl_init_helper *)
Definition gl_one (s : st) (g : nat) : res st :=
  bind (geom_at s g) (fun c =>
    if g_gl c then Ok s
    else bind (match g_shape c with Mesh m => bind (mesh_at s m) (fun _ => Ok s) | _ => Ok s end)
      (fun _ => Ok (set_geoms s (upd (geoms s) g
                      (mkGeom (g_opt c) (g_shape c) (g_rc c) (g_cl c) true true))))).
Fixpoint each (f : st -> nat -> res st) (s : st) (l : list nat) : res st :=
  match l with
  | [] => Ok s
  | g :: r => bind (f s g) (fun s' => each f s' r)
  end.

(** amino_fcl.cpp 218-238: aa_rx_sg_cl_init, with sg_api.cpp 465-480 (map_geom) *)
Definition cl_init (s : st) (k : nat) : res st :=
  bind (graph_at s k) (fun g =>
    if negb (d_cl g) then Ok s
    else if d_ind g then Abort
    else bind (each cl_one s (held (fr g))) (fun s' =>
           Ok (put s' k (mkGraph (fr g) (d_ind g) false (d_gl g))))).
(** amino_gl.c 1721-1729: aa_rx_sg_gl_init *)
Definition gl_init (s : st) (k : nat) : res st :=
  bind (graph_at s k) (fun g =>
    if negb (d_gl g) then Ok s
    else if d_ind g then Abort
    else bind (each gl_one s (held (fr g))) (fun s' =>
           Ok (put s' k (mkGraph (fr g) (d_ind g) (d_cl g) false)))).

(** One call of the API.  Objects are numbered in order of creation. *)
Inductive op :=
| OptNew | OptSet (o : nat) (u : oset) | OptDestroy (o : nat)
| MeshNew | MeshDestroy (m : nat)
| GeomNew (o : nat) (sh : shape) | GeomCopy (g : nat) | GeomModify (g : nat) (o : nat) | GeomDestroy (g : nat)
| SgNew (b1 b2 : bool) | AddFrame (k n : nat) | RmFrame (k n : nat) | Attach (k n g : nat)
| CopyFrameGeom (k a b : nat) | SgInit (k : nat) (ok : bool) | SgCopy (k : nat) (b1 b2 : bool)
| SgDestroy (k : nat) | ClInit (k : nat) | GlInit (k : nat).

Definition step (s : st) (c : op) : res st :=
  match c with
  | OptNew => Ok (set_opts s (opts s ++ [Some opt_new]))
  | OptSet o u => bind (opt_at s o) (fun x => Ok (set_opts s (upd (opts s) o (Some (opt_set u x)))))
  | OptDestroy o => bind (opt_at s o) (fun _ => Ok (set_opts s (upd (opts s) o None)))
  | MeshNew => Ok (set_meshes s (meshes s ++ [mkMesh 1 true]))     (* scene_geom.c 325-330 *)
  | MeshDestroy m => mesh_destroy s m
  | GeomNew o sh => bind (opt_at s o) (fun x => bind (geom_new s x sh) (fun p => Ok (fst p)))
  | GeomCopy g => geom_copy s g
  | GeomModify g o => bind (opt_at s o) (fun x => bind (geom_modify s g x) (fun p => Ok (fst p)))
  | GeomDestroy g => geom_destroy s g
  | SgNew b1 b2 => Ok (sg_new s b1 b2)
  | AddFrame k n => add_frame s k n
  | RmFrame k n => rm_frame s k n
  | Attach k n g => attach s k n g
  | CopyFrameGeom k a b => copy_frame_geom s k a b
  | SgInit k ok => sg_init s k ok
  | SgCopy k b1 b2 => sg_copy s k b1 b2
  | SgDestroy k => sg_destroy s k
  | ClInit k => cl_init s k
  | GlInit k => gl_init s k
  end.

Definition start : st := mkSt [] [] [] [].

Fixpoint run (s : st) (h : list op) : res st :=
  match h with
  | [] => Ok s
  | c :: r => bind (step s c) (fun s' => run s' r)
  end.
