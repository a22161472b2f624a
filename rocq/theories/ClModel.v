(** Model of collision sets (src/rx/collision_set.cpp), of the collision part of the scene
    graph (src/rx/amino_fcl.cpp 215-245, src/rx/sg_api.cpp 465-480, 822-842) and of
    motion-plan sequences (src/rx/mp_seq.cpp). *)
From Coq Require Import ZArith String List Bool Reals Arith.
From Verif Require Import TfModel SgModel.
Import ListNotations.
Open Scope Z_scope.

(** struct aa_rx_cl_set: collision_set.cpp 49-52 *)
Record clset := mkC { c_n : nat; c_v : list bool }.
(** aa_rx_cl_set_create: 54-63; std::vector<bool>(n*n) is all false *)
Definition cl_create (n : nat) : clset := mkC n (repeat false (n * n)).
(** cl_set_i: 72-88 *)
Definition cl_i (c : clset) (i j : Z) : res nat :=
  if (i <? 0) || (j <? 0) then Abort else
  let i := Z.to_nat i in
  let j := Z.to_nat j in
  let r := if Nat.ltb i j then (c_n c * j + i)%nat else (c_n c * i + j)%nat in
  if Nat.ltb r (length (c_v c)) then Ok r else Abort.
(** aa_rx_cl_set_set: 92-99 *)
Definition cl_set (c : clset) (i j : Z) (x : bool) : res clset :=
  bind (cl_i c i j) (fun r => Ok (mkC (c_n c) (set_at (c_v c) r x))).
(** aa_rx_cl_set_get: 109-115 *)
Definition cl_get (c : clset) (i j : Z) : res bool :=
  bind (cl_i c i j) (fun r => from (nth_error (c_v c) r)).
(** aa_rx_cl_set_fill: 101-107 *)
Definition cl_fill (dst src : clset) : clset := mkC (c_n dst) (c_v src).
(** aa_rx_cl_set_merge: 128-140; [j] counts the inner loop, [i] the outer *)
Fixpoint merge_row (src : clset) (i : nat) (js : list nat) (into : clset) : res clset :=
  match js with
  | [] => Ok into
  | j :: r =>
      bind (cl_get src (Z.of_nat i) (Z.of_nat j)) (fun b =>
      bind (if b then cl_set into (Z.of_nat i) (Z.of_nat j) true else Ok into) (fun into' =>
      merge_row src i r into'))
  end.
Fixpoint merge_rows (src : clset) (is : list nat) (into : clset) : res clset :=
  match is with
  | [] => Ok into
  | i :: r => bind (merge_row src i (seq 0 i) into) (merge_rows src r)
  end.
Definition cl_merge (into src : clset) : res clset :=
  if negb (Nat.eqb (c_n into) (c_n src)) then Abort
  else merge_rows src (seq 0 (c_n into)) into.
(** aa_rx_cl_set_clear: 142-147 *)
Definition cl_clear (c : clset) : res clset :=
  if negb (Nat.eqb (length (c_v c)) (c_n c * c_n c)) then Abort
  else Ok (mkC (c_n c) (repeat false (length (c_v c)))).

(** ** Geometry and allowed collisions of a scene graph *)

(** aa_rx_sg_map_geom: sg_api.cpp 465-480: the (frame id, geometry) pairs visited, in order *)
Fixpoint map_geom_loop (s : sg) (ids : list nat) : res (list (Z * nat)) :=
  match ids with
  | [] => Ok []
  | i :: r =>
      bind (frame_at s (Z.of_nat i)) (fun f =>
      bind (match f_geoms f with [] => Ok [] | gs => bind (from (f_fid f)) (fun z => Ok (map (pair z) gs)) end) (fun a =>
      bind (map_geom_loop s r) (fun b => Ok (a ++ b))))
  end.
Definition map_geom (s : sg) : res (list (Z * nat)) :=
  clean s (map_geom_loop s (seq 0 (length (s_frames s)))).

(** The scene graph with dirty_collision ([None]: the constructor, scenegraph.cpp 269-272,
    does not set it) and allowed_indices1/2. *)
Record clsg := mkCS { k_sg : sg; k_dirty : option bool; k_ids : list (Z * Z) }.
Definition clsg_create : clsg := mkCS sg_create None [].

(** amino_fcl.cpp 232-235: ids of the names the stored pointers point to *)
Fixpoint allowed_ids (s : sg) (l : list (nat * nat)) : res (list (Z * Z)) :=
  match l with
  | [] => Ok []
  | (a, b) :: r =>
      bind (name_at a (s_map s)) (fun na => bind (frame_id s na) (fun ia =>
      bind (name_at b (s_map s)) (fun nb => bind (frame_id s nb) (fun ib =>
      bind (allowed_ids s r) (fun t => Ok ((ia, ib) :: t))))))
  end.
(** aa_rx_sg_cl_init: amino_fcl.cpp 218-238; the creation of collision objects by
    cl_init_helper is not modelled *)
Definition cl_init (k : clsg) : res clsg :=
  bind (from (k_dirty k)) (fun d =>
  if negb d then Ok k
  else bind (map_geom (k_sg k)) (fun _ =>
       bind (allowed_ids (k_sg k) (s_allowed (k_sg k))) (fun ids =>
       Ok (mkCS (k_sg k) (Some false) ids)))).
(** aa_rx_sg_cl_set_copy: collision_set.cpp 117-124 *)
Fixpoint set_copy_loop (l : list (Z * Z)) (c : clset) : res clset :=
  match l with
  | [] => Ok c
  | (i, j) :: r => bind (cl_set c i j true) (set_copy_loop r)
  end.
Definition cl_set_copy (k : clsg) (c : clset) : res clset := set_copy_loop (k_ids k) c.
(** aa_rx_cl_create: amino_fcl.cpp 266-285, the allowed set it makes; 457-469 of
    scenegraph.cpp is the test of the flag *)
Definition cl_allowed (k : clsg) : res clset :=
  bind (from (k_dirty k)) (fun d =>
  if d then Abort else cl_set_copy k (cl_create (length (s_frames (k_sg k))))).

(** Calls on the graph; adding geometry and allowing collisions set dirty_collision
    (scenegraph.cpp 415, sg_api.cpp 841), adding and removing frames do not. *)
Inductive cop := CSg (o : op) | CInit.
Definition cstep (k : clsg) (o : cop) : res clsg :=
  match o with
  | CSg o =>
      bind (step (k_sg k) o) (fun '(_, s') =>
      Ok (mkCS s' (match o with OGeom _ _ | OAllow _ _ _ => Some true | _ => k_dirty k end) (k_ids k)))
  | CInit => cl_init k
  end.
Fixpoint crun (k : clsg) (h : list cop) : res clsg :=
  match h with
  | [] => Ok k
  | o :: r => bind (cstep k o) (fun k' => crun k' r)
  end.

(** ** Motion-plan sequences: src/rx/mp_seq.cpp *)

(** struct aa_rx_mp_seq_elt, aa_rx_mp_seq: 45-54.  The scene graph is a number (pointer);
    the path is a copy. *)
Record mpelt := mkME { me_path : list R; me_n : nat; me_sg : nat }.
Record mpseq := mkMS { ms_data : list mpelt; ms_n : nat }.
(** aa_rx_mp_seq_create: 58-64 *)
Definition mp_create : mpseq := mkMS [] 0.
(** aa_rx_mp_seq_append_all: 77-90.  [m] is the graph's configuration count; [src] is the
    caller's array, which must hold m * n doubles. *)
Definition mp_append (p : mpseq) (g m n : nat) (src : list R) : res mpseq :=
  if Nat.ltb (length src) (m * n) then UB
  else Ok (mkMS (ms_data p ++ [mkME (firstn (m * n) src) n g]) (ms_n p + n)).
(** aa_rx_mp_seq_count: 92-96; aa_rx_mp_seq_point_count: 98-102 *)
Definition mp_count (p : mpseq) : nat := length (ms_data p).
Definition mp_points (p : mpseq) : nat := ms_n p.
(** aa_rx_mp_seq_elt: 105-121; [None] is a null pointer *)
Definition mp_elt (p : mpseq) (i : nat) : res (option nat * nat * option (list R)) :=
  if Nat.leb (mp_count p) i then Ok (None, O, None)
  else bind (from (nth_error (ms_data p) i)) (fun e => Ok (Some (me_sg e), me_n e, Some (me_path e))).
