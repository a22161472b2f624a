(** What a history of calls on geometry, meshes and scene graphs means to its caller,
    without reference counts or memory: who refers to what. *)
From Coq Require Import ZArith List Bool Reals.
From Verif Require Import GeoModel.
Import ListNotations.
Open Scope Z_scope.

(** The frames of a graph and the geometry attached to each. *)
Record agraph := mkA { a_frames : list (nat * list nat); a_indexed : bool }.

(** [made]: options and shape each geometry object was made with.  [own_g], [own_m]: the
    references the caller owns: one per creation and copy, until it is given away
    ([Attach]) or destroyed. *)
Record ast := mkAst {
  a_opts : list (option opt); made : list (opt * shape); n_mesh : nat;
  own_g : list nat; own_m : list nat; a_graphs : list (option agraph) }.

Definition a_start : ast := mkAst [] [] 0 [] [] [].

Definition geoms_of (k : option agraph) : list nat :=
  match k with Some g => concat (map snd (a_frames g)) | None => [] end.

(** All references to geometry objects: the caller's and those of the frames. *)
Definition refs_g (a : ast) : list nat := own_g a ++ concat (map geoms_of (a_graphs a)).

Definition cnt (l : list nat) (x : nat) : Z := Z.of_nat (count_occ Nat.eq_dec l x).

Definition uses (p : opt * shape) (m : nat) : bool :=
  match snd p with Mesh k => (k =? m)%nat | _ => false end.

(** Number of geometry objects, numbered from [i], that show mesh [m] and are referred to. *)
Fixpoint shown (l : list (opt * shape)) (i : nat) (refs : list nat) (m : nat) : Z :=
  match l with
  | [] => 0
  | p :: r => (if uses p m && (0 <? cnt refs i) then 1 else 0) + shown r (S i) refs m
  end.

(** References to a mesh: the caller's and one for each such geometry object. *)
Definition refs_m (a : ast) (m : nat) : Z := cnt (own_m a) m + shown (made a) 0 (refs_g a) m.

Fixpoint drop (x : nat) (l : list nat) : list nat :=
  match l with [] => [] | y :: r => if (y =? x)%nat then r else y :: drop x r end.

Definition known_frame (f : list (nat * list nat)) (n : nat) : bool :=
  existsb (fun p => (fst p =? n)%nat) f.
(** the geometry of the frame called [n] *)
Definition attached (f : list (nat * list nat)) (n : nat) : list nat :=
  match filter (fun p => (fst p =? n)%nat) f with p :: _ => snd p | [] => [] end.
Definition with_frame (f : list (nat * list nat)) (n : nat) (l : list nat) : list (nat * list nat) :=
  if known_frame f n then map (fun p => if (fst p =? n)%nat then (n, l) else p) f
  else f ++ [(n, l)].
Definition without_frame (f : list (nat * list nat)) (n : nat) : list (nat * list nat) :=
  filter (fun p => negb (fst p =? n)%nat) f.

Fixpoint repl {A} (l : list A) (i : nat) (x : A) : list A :=
  match l, i with [], _ => [] | _ :: r, O => x :: r | a :: r, S j => a :: repl r j x end.

Definition a_opt (a : ast) (o : nat) : option opt :=
  match nth_error (a_opts a) o with Some (Some x) => Some x | _ => None end.
Definition a_graph (a : ast) (k : nat) : option agraph :=
  match nth_error (a_graphs a) k with Some (Some x) => Some x | _ => None end.

(** The effect of a call; [None]: the caller was not allowed to make it (it uses an object
    to which no reference is left, gives away or destroys a reference it does not own, names
    a frame that does not exist, copies a frame's geometry onto the same frame, or works on
    a graph whose frames changed since [SgInit]). *)
Definition effect (a : ast) (c : op) : option ast :=
  let '(mkAst os mk nm og om gs) := a in
  match c with
  | OptNew => Some (mkAst (os ++ [Some opt_new]) mk nm og om gs)
  | OptSet o u =>
      match a_opt a o with
      | Some x => Some (mkAst (repl os o (Some (opt_set u x))) mk nm og om gs)
      | None => None
      end
  | OptDestroy o =>
      match a_opt a o with Some _ => Some (mkAst (repl os o None) mk nm og om gs) | None => None end
  | MeshNew => Some (mkAst os mk (S nm) og (om ++ [nm]) gs)
  | MeshDestroy m => if 0 <? cnt om m then Some (mkAst os mk nm og (drop m om) gs) else None
  | GeomNew o sh =>
      match a_opt a o with
      | Some x =>
          let ok := match sh with Mesh m => 0 <? refs_m a m | _ => true end in
          if ok then Some (mkAst os (mk ++ [(x, sh)]) nm (og ++ [length mk]) om gs) else None
      | None => None
      end
  | GeomCopy g => if 0 <? cnt (refs_g a) g then Some (mkAst os mk nm (og ++ [g]) om gs) else None
  | GeomModify g o =>
      match a_opt a o, nth_error mk g with
      | Some x, Some (_, sh) =>
          if 0 <? cnt (refs_g a) g
          then Some (mkAst os (mk ++ [(x, sh)]) nm (og ++ [length mk]) om gs) else None
      | _, _ => None
      end
  | GeomDestroy g => if 0 <? cnt og g then Some (mkAst os mk nm (drop g og) om gs) else None
  | SgNew _ _ => Some (mkAst os mk nm og om (gs ++ [Some (mkA [] true)]))
  | AddFrame k n =>
      match a_graph a k with
      | Some g => Some (mkAst os mk nm og om (repl gs k (Some (mkA (with_frame (a_frames g) n []) false))))
      | None => None
      end
  | RmFrame k n =>
      match a_graph a k with
      | Some g => Some (mkAst os mk nm og om (repl gs k (Some (mkA (without_frame (a_frames g) n) false))))
      | None => None
      end
  | Attach k n x =>
      match a_graph a k with
      | Some g =>
          if known_frame (a_frames g) n && (0 <? cnt og x)
          then Some (mkAst os mk nm (drop x og) om
                 (repl gs k (Some (mkA (with_frame (a_frames g) n (attached (a_frames g) n ++ [x])) (a_indexed g)))))
          else None
      | None => None
      end
  | CopyFrameGeom k x y =>
      match a_graph a k with
      | Some g =>
          if known_frame (a_frames g) x && known_frame (a_frames g) y && negb (x =? y)%nat
          then Some (mkAst os mk nm og om
                 (repl gs k (Some (mkA (with_frame (a_frames g) y
                    (attached (a_frames g) y ++ attached (a_frames g) x)) (a_indexed g)))))
          else None
      | None => None
      end
  | SgInit k ok =>
      match a_graph a k with
      | Some g => Some (mkAst os mk nm og om (repl gs k (Some (mkA (a_frames g) (a_indexed g || ok)))))
      | None => None
      end
  | SgCopy k _ _ =>
      match a_graph a k with
      | Some g => if a_indexed g then Some (mkAst os mk nm og om (gs ++ [Some g])) else None
      | None => None
      end
  | SgDestroy k =>
      match a_graph a k with Some _ => Some (mkAst os mk nm og om (repl gs k None)) | None => None end
  | ClInit k | GlInit k =>
      match a_graph a k with Some g => if a_indexed g then Some a else None | None => None end
  end.

(** Fewer than 2^32 references to any object. *)
Definition small (a : ast) : Prop :=
  (forall g, cnt (refs_g a) g < 2 ^ 32) /\ (forall m, refs_m a m < 2 ^ 32).

(** [meaning h a]: the calls [h] were all allowed and lead to [a]. *)
Inductive meaning : list op -> ast -> Prop :=
| meaning_nil : meaning [] a_start
| meaning_snoc h a c a' : meaning h a -> effect a c = Some a' -> small a' -> meaning (h ++ [c]) a'.

(** What the caller can rely on: an object exists exactly while somebody refers to it, with
    the options and shape it was made with, its count is the number of references, and the
    frames hold the geometry attached to them. *)
Definition agrees (s : st) (a : ast) : Prop :=
  opts s = a_opts a /\
  length (geoms s) = length (made a) /\
  length (meshes s) = n_mesh a /\
  (forall g c p, nth_error (geoms s) g = Some c -> nth_error (made a) g = Some p ->
     (g_live c = true <-> 0 < cnt (refs_g a) g) /\
     (g_live c = true -> g_opt c = fst p /\ g_shape c = snd p /\ g_rc c = cnt (refs_g a) g)) /\
  (forall m c, nth_error (meshes s) m = Some c ->
     (m_live c = true <-> 0 < refs_m a m) /\ (m_live c = true -> m_rc c = refs_m a m)) /\
  map (option_map fr) (graphs s) = map (option_map a_frames) (a_graphs a).

(** Geometry [x] has its collision object if it wants one and its shape has one. *)
Definition has_cl (s : st) (x : nat) : Prop :=
  exists c, nth_error (geoms s) x = Some c /\
    (collis (g_opt c) = true ->
     match g_shape c with
     | Box _ _ _ | Sphere _ | Cylinder _ _ | Mesh _ => g_cl c = true
     | _ => True
     end).
Definition has_gl (s : st) (x : nat) : Prop :=
  exists c, nth_error (geoms s) x = Some c /\ g_gl c = true.

(** All references given up. *)
Definition all_released (a : ast) : Prop :=
  own_g a = [] /\ own_m a = [] /\ forall k, In k (a_graphs a) -> k = None.

(** The value last given to an option, or its default [d].  The header scene_geom.h names
    the arguments: colour is set as (red, blue, green), line 139, and specular as
    (red, green, blue), line 175. *)
Fixpoint last_set {A} (f : oset -> option A) (l : list oset) (d : A) : A :=
  match l with
  | [] => d
  | u :: r => last_set f r (match f u with Some x => x | None => d end)
  end.
Definition set_red u := match u with SetColor r _ _ => Some r | _ => None end.
Definition set_blue u := match u with SetColor _ b _ => Some b | _ => None end.
Definition set_green u := match u with SetColor _ _ g => Some g | _ => None end.
Definition set_alpha u := match u with SetAlpha a => Some a | _ => None end.
Definition set_spec_red u := match u with SetSpecular r _ _ => Some r | _ => None end.
Definition set_spec_green u := match u with SetSpecular _ g _ => Some g | _ => None end.
Definition set_spec_blue u := match u with SetSpecular _ _ b => Some b | _ => None end.
Definition set_scale u := match u with SetScale s => Some s | _ => None end.
Definition set_no_shadow u := match u with SetNoShadow b => Some b | _ => None end.
Definition set_visual u := match u with SetVisual b => Some b | _ => None end.
Definition set_collision u := match u with SetCollision b => Some b | _ => None end.
(** a C truth value *)
Definition truth (b : Z) : Z := if b =? 0 then 0 else 1.
