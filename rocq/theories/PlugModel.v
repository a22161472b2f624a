(** Lifetime of dynamically loaded plugins.

    Functions modelled, one definition each:
      src/rx/plugin.c       54-79    rx_dlopen
      src/rx/plugin.c       88-94    plugin_destructor
      src/rx/plugin.c       96-113   aa_rx_dl_mesh
      src/rx/plugin.c       115-134  aa_rx_dl_sg_at
      src/rx/scene_geom.c   150-160  aa_rx_geom_mesh (the reference it takes)
      src/rx/scene_geom.c   325-347  aa_rx_mesh_create, aa_rx_mesh_destroy
      src/rx/scene_geom.c   351-397  aa_rx_mesh_set_*, aa_rx_mesh_get_vertices
      src/rx/scenegraph.cpp 274-287  SceneGraph::~SceneGraph
      src/rx/sg_api.cpp     671-679  aa_rx_sg_set_destructor
      src/rx/sg_api.cpp     745-800  sg_copy_geom, aa_rx_sg_copy (geometry part)
      lisp/rx/sg-gen.lisp   222-267  the generated mesh functions: static arrays
                                     passed to the setters with copy = 0, and the
                                     mesh reference dropped after attaching

    Simplified: a plugin is named by its file, and its handle is the file (dlopen
    returns the same handle for the same file and counts).  Frames are dropped.
    A geometry is the mesh reference it holds: sharing a geometry between a scene
    graph and its copy, which increments the reference count of the geometry, is
    one more reference on the mesh.  The result is the same for the mesh, which
    dies when no geometry and no client holds it.  Geometries without a mesh have
    no plugin data and are dropped. *)
From Coq Require Import List Arith.
Import ListNotations.

(** [m_ref]: the reference count, zero once freed.  [m_dtor]: the destructor
    context when the destructor is plugin_destructor, [None] for a null destructor.
    [m_data]: the plugin whose static arrays the mesh points to, [None] when the
    arrays belong to the mesh.  [m_held] is ghost: the client still has the
    pointer it got and has not passed it to aa_rx_mesh_destroy. *)
Record mesh := mkMesh
  { m_ref : nat; m_dtor : option nat; m_data : option nat; m_held : bool }.

(** [g_mesh]: the meshes of the attached geometries. *)
Record sgr := mkSg { g_live : bool; g_dtor : option nat; g_mesh : list nat }.

(** [opens]: the count the dynamic linker keeps per file; zero is unmapped. *)
Record st := mkSt { opens : nat -> nat; meshes : list mesh; sgs : list sgr }.

Definition init : st := mkSt (fun _ => 0) [] [].

Fixpoint upd {A} (l : list A) (i : nat) (x : A) : list A :=
  match l, i with
  | [], _ => []
  | _ :: t, 0 => x :: t
  | h :: t, S j => h :: upd t j x
  end.

Definition fset (o : nat -> nat) (f v : nat) : nat -> nat :=
  fun k => if Nat.eqb k f then v else o k.

(** dlopen(3) on a file that loads. *)
Definition dlopen (s : st) (f : nat) : st :=
  mkSt (fset (opens s) f (S (opens s f))) (meshes s) (sgs s).

(** dlclose(3); closing a handle that is not open is undefined. *)
Definition dlclose (s : st) (f : nat) : option st :=
  match opens s f with
  | 0 => None
  | S k => Some (mkSt (fset (opens s) f k) (meshes s) (sgs s))
  end.

(** What the loader finds: no file, a file without the symbol, or both. *)
Inductive found := NoFile | NoSymbol | Found.

(** rx_dlopen, plugin.c 54-79: the state, and whether a function was returned.
    A missing symbol returns NULL with the file left open (lines 70-76). *)
Definition rx_dlopen (s : st) (f : nat) (w : found) : st * bool :=
  match w with
  | NoFile => (s, false)
  | NoSymbol => (dlopen s f, false)
  | Found => (dlopen s f, true)
  end.

(** plugin_destructor behind the null test of its callers
    (plugin.c 88-94, scene_geom.c 336, scenegraph.cpp 277). *)
Definition run_dtor (d : option nat) (s : st) : option st :=
  match d with None => Some s | Some f => dlclose s f end.

Definition set_mesh (s : st) (m : nat) (r : mesh) : st :=
  mkSt (opens s) (upd (meshes s) m r) (sgs s).

Definition set_sg (s : st) (g : nat) (r : sgr) : st :=
  mkSt (opens s) (meshes s) (upd (sgs s) g r).

(** aa_rx_mesh_destroy, scene_geom.c 332-347.  A freed mesh is undefined. *)
Definition mesh_destroy (s : st) (m : nat) : option st :=
  match nth_error (meshes s) m with
  | None => None
  | Some r =>
      match m_ref r with
      | 0 => None
      | 1 => run_dtor (m_dtor r) (set_mesh s m (mkMesh 0 (m_dtor r) (m_data r) (m_held r)))
      | S k => Some (set_mesh s m (mkMesh k (m_dtor r) (m_data r) (m_held r)))
      end
  end.

(** aa_mem_ref_inc on a mesh, scene_geom.c 155 and 174. *)
Definition mesh_inc (s : st) (m : nat) : option st :=
  match nth_error (meshes s) m with
  | None => None
  | Some r =>
      match m_ref r with
      | 0 => None
      | S k => Some (set_mesh s m (mkMesh (S (S k)) (m_dtor r) (m_data r) (m_held r)))
      end
  end.

Fixpoint each (op : st -> nat -> option st) (s : st) (l : list nat) : option st :=
  match l with
  | [] => Some s
  | m :: t => match op s m with None => None | Some s' => each op s' t end
  end.

(** aa_rx_dl_mesh, plugin.c 96-113. *)
Definition dl_mesh (s : st) (f : nat) (w : found) : option st :=
  let (s', ok) := rx_dlopen s f w in
  if ok then
    Some (mkSt (opens s') (meshes s' ++ [mkMesh 1 (Some f) (Some f) true]) (sgs s'))
  else Some s'.

(** aa_rx_mesh_create and setters with client data, scene_geom.c 325-390. *)
Definition user_mesh (s : st) : option st :=
  Some (mkSt (opens s) (meshes s ++ [mkMesh 1 None None true]) (sgs s)).

(** The client's own aa_rx_mesh_destroy. *)
Definition release (s : st) (m : nat) : option st :=
  match nth_error (meshes s) m with
  | None => None
  | Some r => mesh_destroy (set_mesh s m (mkMesh (m_ref r) (m_dtor r) (m_data r) false)) m
  end.

(** aa_rx_geom_mesh then aa_rx_geom_attach, scene_geom.c 150-169. *)
Definition attach (s : st) (m g : nat) : option st :=
  match mesh_inc s m with
  | None => None
  | Some s' =>
      match nth_error (sgs s') g with
      | None => None
      | Some q =>
          if g_live q then Some (set_sg s' g (mkSg true (g_dtor q) (m :: g_mesh q))) else None
      end
  end.

(** The generated scene function with [n] meshes (sg-gen.lisp 222-267), on a new
    scene graph or on the one passed; one geometry per mesh. *)
Definition scene_fun (s : st) (f : nat) (tgt : option nat) (n : nat) : option (st * nat) :=
  let ids := seq (length (meshes s)) n in
  let ms := meshes s ++ repeat (mkMesh 1 None (Some f) false) n in
  match tgt with
  | None => Some (mkSt (opens s) ms (sgs s ++ [mkSg true None ids]), length (sgs s))
  | Some g =>
      match nth_error (sgs s) g with
      | None => None
      | Some q =>
          if g_live q
          then Some (mkSt (opens s) ms (upd (sgs s) g (mkSg true (g_dtor q) (ids ++ g_mesh q))), g)
          else None
      end
  end.

(** aa_rx_sg_set_destructor, sg_api.cpp 671-679: a plain assignment. *)
Definition set_destructor (s : st) (g f : nat) : option st :=
  match nth_error (sgs s) g with
  | None => None
  | Some q => Some (set_sg s g (mkSg (g_live q) (Some f) (g_mesh q)))
  end.

(** aa_rx_dl_sg_at, plugin.c 115-134. *)
Definition dl_sg (s : st) (f : nat) (w : found) (tgt : option nat) (n : nat) : option st :=
  let (s', ok) := rx_dlopen s f w in
  if ok then
    match scene_fun s' f tgt n with
    | None => None
    | Some (s'', g) => set_destructor s'' g f
    end
  else Some s'.

(** aa_rx_sg_copy, sg_api.cpp 754-800: the geometries are shared, the destructor
    is that of aa_rx_sg_create, null (scenegraph.cpp 269-272). *)
Definition sg_copy (s : st) (g : nat) : option st :=
  match nth_error (sgs s) g with
  | None => None
  | Some q =>
      if g_live q then
        match each mesh_inc s (g_mesh q) with
        | None => None
        | Some s' => Some (mkSt (opens s') (meshes s') (sgs s' ++ [mkSg true None (g_mesh q)]))
        end
      else None
  end.

(** ~SceneGraph, scenegraph.cpp 274-287: the destructor, then the frames, which
    destroy their geometries. *)
Definition sg_destroy (s : st) (g : nat) : option st :=
  match nth_error (sgs s) g with
  | None => None
  | Some q =>
      if g_live q then
        match run_dtor (g_dtor q) (set_sg s g (mkSg false None [])) with
        | None => None
        | Some s' => each mesh_destroy s' (g_mesh q)
        end
      else None
  end.

(** aa_rx_mesh_get_vertices and a read through it, scene_geom.c 392-397:
    [None] for a freed mesh or an unmapped array. *)
Definition read_mesh (s : st) (m : nat) : option unit :=
  match nth_error (meshes s) m with
  | None => None
  | Some r =>
      match m_ref r with
      | 0 => None
      | S _ =>
          match m_data r with
          | None => Some tt
          | Some f => match opens s f with 0 => None | S _ => Some tt end
          end
      end
  end.

Inductive ev :=
| DlMesh (f : nat) (w : found)
| UserMesh
| Release (m : nat)
| Attach (m g : nat)
| DlSg (f : nat) (w : found) (tgt : option nat) (n : nat)
| Copy (g : nat)
| Destroy (g : nat).

Definition step (s : st) (e : ev) : option st :=
  match e with
  | DlMesh f w => dl_mesh s f w
  | UserMesh => user_mesh s
  | Release m => release s m
  | Attach m g => attach s m g
  | DlSg f w t n => dl_sg s f w t n
  | Copy g => sg_copy s g
  | Destroy g => sg_destroy s g
  end.

Fixpoint exec (s : st) (es : list ev) : option st :=
  match es with
  | [] => Some s
  | e :: t => match step s e with None => None | Some s' => exec s' t end
  end.
