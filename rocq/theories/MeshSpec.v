(** What the arrays of meshes are to a caller: copies of what was given, or the caller's own
    arrays. *)
From Coq Require Import ZArith List Bool Reals.
From Verif Require Import GeoModel MeshModel.
Import ListNotations.
Open Scope Z_scope.

(** [Given v]: a copy, [v].  [Uses i]: the caller's array [i], whatever it holds. *)
Inductive content := Nothing | Given (v : list Z) | Uses (i : nat).
Record amesh := mkAm { a_arr : fld -> content; a_nv : nat; a_ni : nat }.
(** [lost]: number of copies that were given up without being released. *)
Record as_ := mkAs { a_cl : list (option (list Z)); a_mm : list (option amesh); lost : nat }.
Definition a_start : as_ := mkAs [] [] 0.

Definition a_mesh (a : as_) (m : nat) : option amesh :=
  match nth_error (a_mm a) m with Some (Some x) => Some x | _ => None end.
Definition a_client (a : as_) (i : nat) : option (list Z) :=
  match nth_error (a_cl a) i with Some (Some v) => Some v | _ => None end.
Fixpoint repl {A} (l : list A) (i : nat) (x : A) : list A :=
  match l, i with [], _ => [] | _ :: r, O => x :: r | a :: r, S j => a :: repl r j x end.

Definition source_content (a : as_) (x : source) : content :=
  match x with
  | Own i => Uses i
  | Of m f => match a_mesh a m with Some y => a_arr y f | None => Nothing end
  end.
Definition value (a : as_) (c : content) : option (list Z) :=
  match c with Nothing => None | Given v => Some v | Uses i => a_client a i end.
Definition is_given (c : content) : bool := match c with Given _ => true | _ => false end.

Definition per (f : fld) : nat :=
  match f with Vertices | Normals | Indices => 3 | Uv => 2 | Rgba => 4 end.
Definition with_array (y : amesh) (f : fld) (n : nat) (c : content) : amesh :=
  mkAm (fun g => if fld_eqb f g then c else a_arr y g)
       (match f with Vertices => n | _ => a_nv y end) (match f with Indices => n | _ => a_ni y end).

(** texel value of a colour in [0,1] *)
Definition shade (c : R) (v : Z) : Prop := (IZR v <= c * 255 < IZR v + 1)%R.

(** The effect of a call the caller may make.  A caller may not set an array of a mesh from
    the copy that mesh holds, nor lend a mesh's copy to another mesh. *)
Inductive effect (a : as_) : call -> as_ -> Prop :=
| e_new v : effect a (New v) (mkAs (a_cl a ++ [Some v]) (a_mm a) (lost a))
| e_write i v w : a_client a i = Some w -> effect a (Write i v) (mkAs (repl (a_cl a) i (Some v)) (a_mm a) (lost a))
| e_free i w : a_client a i = Some w -> effect a (Free i) (mkAs (repl (a_cl a) i None) (a_mm a) (lost a))
| e_mnew : effect a MNew (mkAs (a_cl a) (a_mm a ++ [Some (mkAm (fun _ => Nothing) 0 0)]) (lost a))
| e_copy m f n x y v : a_mesh a m = Some y ->
    value a (source_content a x) = Some v -> (per f * n <= length v)%nat ->
    (forall g, x = Of m g -> g = f -> is_given (a_arr y f) = false) ->
    effect a (MSet m f n x true)
      (mkAs (a_cl a) (repl (a_mm a) m (Some (with_array y f n (Given (firstn (per f * n) v))))) (lost a))
| e_lend m f n x y i : a_mesh a m = Some y -> source_content a x = Uses i ->
    effect a (MSet m f n x false)
      (mkAs (a_cl a) (repl (a_mm a) m (Some (with_array y f n (Uses i)))) (lost a))
| e_texture m y c0 c1 c2 c3 v0 v1 v2 v3 : a_mesh a m = Some y ->
    (0 <= c0 <= 1)%R -> (0 <= c1 <= 1)%R -> (0 <= c2 <= 1)%R -> (0 <= c3 <= 1)%R ->
    shade c0 v0 -> shade c1 v1 -> shade c2 v2 -> shade c3 v3 ->
    effect a (MTexture m c0 c1 c2 c3)
      (mkAs (a_cl a)
         (repl (a_mm a) m (Some (with_array (with_array y Rgba 0 (Given [v0; v1; v2; v3])) Uv 0
                                            (Given (repeat 0 (2 * a_nv y))))))
         (lost a + (if is_given (a_arr y Uv) then 1 else 0)))
| e_destroy m y : a_mesh a m = Some y ->
    effect a (MDestroy m) (mkAs (a_cl a) (repl (a_mm a) m None) (lost a)).

Inductive meaning : list call -> as_ -> Prop :=
| meaning_nil : meaning [] a_start
| meaning_snoc h a c a' : meaning h a -> effect a c a' -> meaning (h ++ [c]) a'.

(** The library block [j] is the copy behind array [f] of mesh [m]. *)
Definition holds (s : ms) (m : nat) (f : fld) (j : nat) : Prop :=
  exists x, mesh_at s m = Ok x /\ s_ptr (m_slot x f) = Some (Lb j).
Definition live (s : ms) (j : nat) : Prop := exists v, nth_error (lb s) j = Some (Some v).

Definition agrees (s : ms) (a : as_) : Prop :=
  cl s = a_cl a /\
  (forall m y, a_mesh a m = Some y ->
     (forall f, match a_arr y f with
                | Nothing => view s m f = Ok None
                | Given v => view s m f = Ok (Some v)
                | Uses i => match a_client a i with Some v => view s m f = Ok (Some v) | None => view s m f = Ub end
                end) /\
     exists x, mesh_at s m = Ok x /\ n_vertices x = a_nv y /\ n_indices x = a_ni y) /\
  (forall m, a_mesh a m = None -> mesh_at s m = Ub) /\
  (* every live copy belongs to one array of one mesh, except the lost ones *)
  (forall m f j m' f', holds s m f j -> holds s m' f' j -> m = m' /\ f = f') /\
  exists L, NoDup L /\ length L = lost a /\
    forall j, live s j <-> In j L \/ exists m f, holds s m f j.
