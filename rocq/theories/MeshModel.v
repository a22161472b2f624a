(** The arrays of a mesh, src/rx/scene_geom.c 325-459: who allocates, copies and frees them.

    Arrays are named by the allocation that made them, the caller's and the library's
    separately, so two arrays never overlap and the name of a freed one is not used again.
    Elements (float, unsigned, uint8_t) are integers that are only moved around.  Reading or
    freeing a freed array is [Ub], so is reading past the end.  The number of references to a
    mesh is GeoModel.v; here a mesh has one. *)
From Coq Require Import ZArith List Bool Reals.
From Verif Require Import GeoModel.
Import ListNotations.
Open Scope Z_scope.

Inductive ptr := Cl (i : nat) | Lb (j : nat).

(** scene_geom_internal.h 117-155: the five arrays; [THING] and [THING_data] *)
Inductive fld := Vertices | Normals | Uv | Indices | Rgba.
Definition fld_eqb (f g : fld) : bool :=
  match f, g with
  | Vertices, Vertices | Normals, Normals | Uv, Uv | Indices, Indices | Rgba, Rgba => true
  | _, _ => false
  end.
Record slot := mkSlot { s_ptr : option ptr; s_data : option nat }.
Record mesh := mkM { m_slot : fld -> slot; n_vertices : nat; n_indices : nat }.

Record ms := mkMs { cl : list (option (list Z)); lb : list (option (list Z)); mm : list (option mesh) }.
Definition start : ms := mkMs [] [] [].

Definition mesh_at (s : ms) (m : nat) : res mesh :=
  match nth_error (mm s) m with Some (Some x) => Ok x | _ => Ub end.
Definition block (l : list (option (list Z))) (i : nat) : res (list Z) :=
  match nth_error l i with Some (Some v) => Ok v | _ => Ub end.
Definition read (s : ms) (p : ptr) : res (list Z) :=
  match p with Cl i => block (cl s) i | Lb j => block (lb s) j end.
(** the first [n] elements *)
Definition read_n (s : ms) (p : ptr) (n : nat) : res (list Z) :=
  bind (read s p) (fun v => if (n <=? length v)%nat then Ok (firstn n v) else Ub).
Definition lib_free (s : ms) (j : nat) : res ms :=
  bind (block (lb s) j) (fun _ => Ok (mkMs (cl s) (upd (lb s) j None) (mm s))).
Definition checked_free (s : ms) (j : option nat) : res ms :=
  match j with Some j => lib_free s j | None => Ok s end.
Definition lib_new (s : ms) (v : list Z) : ms * nat :=
  (mkMs (cl s) (lb s ++ [Some v]) (mm s), length (lb s)).
Definition put_slot (s : ms) (m : nat) (x : mesh) (f : fld) (y : slot) : ms :=
  mkMs (cl s) (lb s) (upd (mm s) m
    (Some (mkM (fun g => if fld_eqb f g then y else m_slot x g) (n_vertices x) (n_indices x)))).

(** Number of elements per unit of [n]: MESH_SET_THING, lines 387-390, and 406-423
    (4 width height for Rgba, [n] = width * height). *)
Definition ld (f : fld) : nat :=
  match f with Vertices | Normals | Indices => 3 | Uv => 2 | Rgba => 4 end.
Definition counted (x : mesh) (f : fld) (n : nat) : mesh :=
  match f with
  | Vertices => mkM (m_slot x) n (n_indices x)
  | Indices => mkM (m_slot x) (n_vertices x) n
  | _ => x
  end.

(** scene_geom.c 352-390, 406-423: the old copy is freed first *)
Definition mesh_set (s : ms) (m : nat) (f : fld) (n : nat) (src : ptr) (copy : bool) : res ms :=
  bind (mesh_at s m) (fun x0 =>
  bind (checked_free s (s_data (m_slot x0 f))) (fun s1 =>
  let x := counted x0 f n in
  if copy then
    bind (read_n s1 src (ld f * n)) (fun v =>
      let '(s2, j) := lib_new s1 v in Ok (put_slot s2 m x f (mkSlot (Some (Lb j)) (Some j))))
  else Ok (put_slot s1 m x f (mkSlot (Some src) None)))).

(** scene_geom.c 433: (uint8_t)(color * 255), truncated; undefined when the truncated value
    is no uint8_t *)
Definition texel (c : R) : res Z :=
  let x := (c * 255)%R in
  if Rlt_dec (-1) x then if Rlt_dec x 256 then Ok (if Rlt_dec x 0 then 0 else Int_part x) else Ub else Ub.
Fixpoint texels (l : list R) : res (list Z) :=
  match l with
  | [] => Ok []
  | c :: r => bind (texel c) (fun v => bind (texels r) (fun w => Ok (v :: w)))
  end.

(** scene_geom.c 425-440: aa_rx_mesh_set_texture; the previous uv_data is not freed (the line
    that did is commented out).  The local array rgba[4] is its own source. *)
Definition mesh_texture (s : ms) (m : nat) (c0 c1 c2 c3 : R) : res ms :=
  bind (texels [c0; c1; c2; c3]) (fun v =>
  bind (mesh_at s m) (fun x =>
  bind (checked_free s (s_data (m_slot x Rgba))) (fun s1 =>
  let '(s2, j) := lib_new s1 v in
  let s3 := put_slot s2 m x Rgba (mkSlot (Some (Lb j)) (Some j)) in
  bind (mesh_at s3 m) (fun x =>
  let '(s4, k) := lib_new s3 (repeat 0 (2 * n_vertices x)) in
  Ok (put_slot s4 m x Uv (mkSlot (Some (Lb k)) (Some k))))))).

(** scene_geom.c 332-348: aa_rx_mesh_destroy at the last reference *)
Definition mesh_destroy (s : ms) (m : nat) : res ms :=
  bind (mesh_at s m) (fun x =>
  bind (checked_free s (s_data (m_slot x Vertices))) (fun s =>
  bind (checked_free s (s_data (m_slot x Normals))) (fun s =>
  bind (checked_free s (s_data (m_slot x Indices))) (fun s =>
  bind (checked_free s (s_data (m_slot x Rgba))) (fun s =>
  bind (checked_free s (s_data (m_slot x Uv))) (fun s =>
    Ok (mkMs (cl s) (lb s) (upd (mm s) m None)))))))).

(** What is passed for an array: one of the caller's, or one got from a mesh. *)
Inductive source := Own (i : nat) | Of (m : nat) (f : fld).
Definition src_ptr (s : ms) (x : source) : res ptr :=
  match x with
  | Own i => Ok (Cl i)
  | Of m f => bind (mesh_at s m) (fun x => match s_ptr (m_slot x f) with Some p => Ok p | None => Ub end)
  end.

Inductive call :=
| New (v : list Z) | Write (i : nat) (v : list Z) | Free (i : nat)        (* the caller's arrays *)
| MNew | MSet (m : nat) (f : fld) (n : nat) (src : source) (copy : bool)
| MTexture (m : nat) (c0 c1 c2 c3 : R) | MDestroy (m : nat).

Definition empty_mesh : mesh := mkM (fun _ => mkSlot None None) 0 0.

Definition step (s : ms) (c : call) : res ms :=
  match c with
  | New v => Ok (mkMs (cl s ++ [Some v]) (lb s) (mm s))
  | Write i v => bind (block (cl s) i) (fun _ => Ok (mkMs (upd (cl s) i (Some v)) (lb s) (mm s)))
  | Free i => bind (block (cl s) i) (fun _ => Ok (mkMs (upd (cl s) i None) (lb s) (mm s)))
  | MNew => Ok (mkMs (cl s) (lb s) (mm s ++ [Some empty_mesh]))           (* 325-330 *)
  | MSet m f n x b => bind (src_ptr s x) (fun p => mesh_set s m f n p b)
  | MTexture m c0 c1 c2 c3 => mesh_texture s m c0 c1 c2 c3
  | MDestroy m => mesh_destroy s m
  end.

Fixpoint run (s : ms) (h : list call) : res ms :=
  match h with [] => Ok s | c :: r => bind (step s c) (fun s' => run s' r) end.

(** What is found through the pointer of an array: [None] when it was never set. *)
Definition view (s : ms) (m : nat) (f : fld) : res (option (list Z)) :=
  bind (mesh_at s m) (fun x =>
    match s_ptr (m_slot x f) with
    | None => Ok None
    | Some p => bind (read s p) (fun v => Ok (Some v))
    end).
