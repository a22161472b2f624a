(** Model of the drawing of shapes: the mesh that src/amino_gl.c builds for a
    shape and hands to OpenGL.  Line numbers are amino_gl.c's.  Doubles and
    floats are ideal reals; the conversions to GLfloat round and are the
    identity here.  The three stores of one vertex or normal are one step, and
    the capacity of an array is counted in vertices accordingly.  An index is a
    natural number: unsigned overflow, which needs 2^32 vertices, is not
    modelled except where the code relies on it (torus).  A store or a read
    outside an array gives None. *)
From Coq Require Import Reals ZArith List Bool Arith.
From Verif Require Import TfModel.
Import ListNotations.
Open Scope R_scope.

(** x[n++] = v on an array of a given capacity *)
Definition put {A} (cap : nat) (x : A) (l : list A) : option (list A) :=
  if (length l <? cap)%nat then Some (l ++ [x]) else None.
Fixpoint puts {A} (cap : nat) (xs : list A) (l : list A) : option (list A) :=
  match xs with
  | [] => Some l
  | x :: r => match put cap x l with Some l' => puts cap r l' | None => None end
  end.
(** for(...) over the given values of the counter *)
Fixpoint loop {S : Type} (f : nat -> S -> option S) (is : list nat) (s : S) : option S :=
  match is with
  | [] => Some s
  | i :: r => match f i s with Some s' => loop f r s' | None => None end
  end.
(** the counter of for( i = a; i < b; i++ ) *)
Definition range (a b : nat) : list nat := seq a (b - a).

(** What OpenGL is given: vertices, normals if any, indices if any. *)
Record dmesh := mkD { d_v : list V3; d_n : option (list V3); d_i : option (list nat) }.

(** aa_rx_mesh_set_vertices .. set_indices without copying (scene_geom.c 352-386) followed by
    bind_mesh: 664-733.  OpenGL copies nv vertices, nv normals and 3*ni indices. *)
Definition take {A} (n : nat) (l : list A) : option (list A) :=
  if (n <=? length l)%nat then Some (firstn n l) else None.
Definition tri_mesh (nv : nat) (v : list V3) (n : option (list V3)) (ni : nat) (ix : option (list nat)) : option dmesh :=
  match take nv v with
  | None => None
  | Some v' =>
    match (match n with None => Some None | Some n' => option_map Some (take nv n') end) with
    | None => None
    | Some n' =>
      match (match ix with None => Some None | Some i' => option_map Some (take (3 * ni) i') end) with
      | None => None
      | Some i' => Some (mkD v' n' i')
      end
    end
  end.

(** ** Grid: 776-888 *)

(** (size_t)x of a double: toward zero; undefined when the result does not fit *)
Definition to_size (x : R) : option nat :=
  if Rle_dec x (-1) then None
  else if Rlt_dec x (IZR (2 ^ 64)) then Some (Z.to_nat (up x - 1)) else None.
(** x / y: undefined as a size when y is zero (infinite or not a number) *)
Definition quot_size (x y : R) : option nat :=
  if Req_EM_T y 0 then None else to_size (x / y).

Record gst := mkGst { g_v : list V3; g_i : list nat; g_nn : nat }.
(** one line of the grid: 809-832, 845-872; four vertices, two triangles *)
Definition grid_quad (vcap icap : nat) (a b c d : V3) (s : gst) : option gst :=
  match puts vcap [a; b; c; d] (g_v s) with
  | None => None
  | Some v =>
    let nn := g_nn s in
    match puts icap [nn; nn + 1; nn + 2; nn; nn + 2; nn + 3]%nat (g_i s) with
    | None => None
    | Some ix => Some (mkGst v ix (nn + 4))
    end
  end.
(** a[k] = 1, -1: 797 *)
Definition sgn (k : nat) : R := if Nat.eqb k 0 then 1 else -1.
(** 803-834 *)
Definition grid_x (vcap icap : nat) (dx w dmy : R) (nx : nat) (s : gst) : option gst :=
  loop (fun k s => loop (fun i s =>
    let x_nom := sgn k * INR i * dx in
    let x0 := x_nom + w in let x1 := x_nom - w in let y0 := - dmy in let y1 := dmy in
    grid_quad vcap icap (mkV x0 y0 0) (mkV x0 y1 0) (mkV x1 y1 0) (mkV x1 y0 0) s) (range k nx) s) (range 0 2) s.
(** 837-874 *)
Definition grid_y (vcap icap : nat) (dy w dmx : R) (ny : nat) (s : gst) : option gst :=
  loop (fun k s => loop (fun i s =>
    let y_nom := sgn k * INR i * dy in
    let y0 := y_nom + w in let y1 := y_nom - w in let x0 := - dmx in let x1 := dmx in
    grid_quad vcap icap (mkV x0 y0 0) (mkV x0 y1 0) (mkV x1 y1 0) (mkV x1 y0 0) s) (range k ny) s) (range 0 2) s.
(** aa_geom_gl_buffers_init_grid: 776-888; 2*n_vert indices and n_vert vertices are allocated (790-793) *)
Definition init_grid (dimx dimy dx dy width : R) : option dmesh :=
  match quot_size dimx dx, quot_size dimy dy with
  | Some qx, Some qy =>
    let nx := (qx + 1)%nat in let ny := (qy + 1)%nat in
    let dmx := INR (nx - 1) * dx in let dmy := INR (ny - 1) * dy in
    let n_vert := (8 * (nx + ny - 1))%nat in
    let w := width / 2 in
    match grid_x n_vert (2 * n_vert) dx w dmy nx (mkGst [] [] 0) with
    | None => None
    | Some s =>
      match grid_y n_vert (2 * n_vert) dy w dmx ny s with
      | None => None
      | Some s' =>
        if Nat.eqb (length (g_v s')) n_vert (* assert: 875 *)
        then tri_mesh n_vert (g_v s') None (length (g_i s') / 3) (Some (g_i s'))
        else None
      end
    end
  | _, _ => None
  end.

(** ** Box: 890-983 *)

(** ii[ell]: 915 *)
Definition corner (ell : nat) : nat * nat :=
  match ell with 0 => (0, 0) | 1 => (0, 1) | 2 => (1, 1) | _ => (1, 0) end%nat.
(** 920-960: 24 vertices and normals; d halved, face pairs in the order Z, X, Y *)
Definition box_face (f : R -> R -> R -> V3) (nf : R -> V3) (s : list V3 * list V3) : option (list V3 * list V3) :=
  loop (fun k s => loop (fun ell s =>
    let '(i, j) := corner ell in
    match put 24 (f (sgn i) (sgn j) (sgn k)) (fst s), put 24 (nf (sgn k)) (snd s) with
    | Some v, Some n => Some (v, n)
    | _, _ => None
    end) (range 0 4) s) (range 0 2) s.
Definition box_vertices (d0 d1 d2 : R) : option (list V3 * list V3) :=
  match box_face (fun ai aj ak => mkV (ai * d0) (aj * d1) (ak * d2)) (fun ak => mkV 0 0 ak) ([], []) with
  | None => None
  | Some s =>
    match box_face (fun ai aj ak => mkV (ak * d0) (ai * d1) (aj * d2)) (fun ak => mkV ak 0 0) s with
    | None => None
    | Some s => box_face (fun ai aj ak => mkV (ai * d0) (ak * d1) (aj * d2)) (fun ak => mkV 0 ak 0) s
    end
  end.
(** 962-976 *)
Definition box_indices : option (list nat * nat) :=
  loop (fun axis s => loop (fun k s =>
    let nn := snd s in
    match puts 36 [nn; nn + 1; nn + 2; nn; nn + 3; nn + 2]%nat (fst s) with
    | Some l => Some (l, nn + 4)%nat
    | None => None
    end) (range 0 2) s) (range 0 3) ([], 0%nat).
(** aa_geom_gl_buffers_init_box: 890-983 *)
Definition init_box (x y z : R) : option dmesh :=
  match box_vertices (x / 2) (y / 2) (z / 2), box_indices with
  | Some (v, n), Some (ix, _) => tri_mesh (length v) v (Some n) (length ix / 3) (Some ix)
  | _, _ => None
  end.

(** ** Cylinders and cones: 1219-1327, with p points around (36 in the code) *)

Definition cc_side (p : nat) (h r0 r1 : R) (i : nat) (s : list V3 * list V3 * list nat) : option (list V3 * list V3 * list nat) :=
  let '(v, n, ix) := s in
  let theta := INR i * (2 * PI / INR p) in
  let sn := sin theta in let c := cos theta in
  match puts (4 * p + 2) [mkV (c * r0) (sn * r0) 0; mkV (c * r1) (sn * r1) h] v,
        puts (4 * p + 2) [mkV c sn 0; mkV c sn 0] n with
  | Some v', Some n' =>
    let k0 := (2 * i)%nat in let k1 := (k0 + 1)%nat in
    let k2 := ((k1 + 1) mod (2 * p))%nat in let k3 := ((k2 + 1) mod (2 * p))%nat in
    match puts (12 * p) [k0; k1; k2; k3; k1; k2] ix with
    | Some ix' => Some (v', n', ix')
    | None => None
    end
  | _, _ => None
  end.
(** the two triangles and two normals of the ends: 1286-1303 *)
Definition cc_end (p k_end : nat) (i : nat) (s : list V3 * list nat) : option (list V3 * list nat) :=
  let '(n, ix) := s in
  let k0 := (k_end + (2 * i + 0))%nat in let k1 := (k_end + (2 * i + 1))%nat in
  let k2 := (k_end + ((2 * i + 2) mod (2 * p)))%nat in let k3 := (k_end + ((2 * i + 3) mod (2 * p)))%nat in
  match puts (12 * p) [2 * k_end; k0; k2; 2 * k_end + 1; k1; k3]%nat ix,
        puts (4 * p + 2) [mkV 0 0 (-1); mkV 0 0 1] n with
  | Some ix', Some n' => Some (n', ix')
  | _, _ => None
  end.
(** init_cone_cylinder: 1219-1327 *)
Definition cone_cylinder (p : nat) (h r0 r1 : R) : option dmesh :=
  match loop (cc_side p h r0 r1) (range 0 p) ([], [], []) with
  | None => None
  | Some (v, n, ix) =>
    match puts (4 * p + 2) v v with (* AA_MEM_CPY: 1274 *)
    | None => None
    | Some v2 =>
      let k_end := length v in
      match loop (cc_end p k_end) (range 0 p) (n, ix) with
      | None => None
      | Some (n2, ix2) =>
        match puts (4 * p + 2) [mkV 0 0 0; mkV 0 0 h] v2, puts (4 * p + 2) [mkV 0 0 (-1); mkV 0 0 1] n2 with
        | Some v3, Some n3 =>
          if Nat.eqb (length v2) (4 * p) && Nat.eqb (length v3) (4 * p + 2) && Nat.eqb (length n3) (4 * p + 2)
             && Nat.eqb (length ix2) (12 * p) (* asserts: 1279-1280, 1316-1318 *)
          then tri_mesh (length v3) v3 (Some n3) (length ix2 / 3) (Some ix2)
          else None
        | _, _ => None
        end
      end
    end
  end.
Definition init_cone (h r0 r1 : R) : option dmesh := cone_cylinder 36 h r0 r1.
Definition init_cylinder (h r : R) : option dmesh := cone_cylinder 36 h r r.

(** ** Sphere: 1009-1212 *)

(** 1101-1119: the icosahedron, p and q as in 1097-1100 *)
Definition ico_v (p q : R) : list V3 :=
  [mkV 0 q p; mkV 0 q (- p); mkV 0 (- q) p; mkV 0 (- q) (- p);
   mkV p 0 q; mkV p 0 (- q); mkV (- p) 0 q; mkV (- p) 0 (- q);
   mkV q p 0; mkV q (- p) 0; mkV (- q) p 0; mkV (- q) (- p) 0].
(** 1121-1144 *)
Definition ico_f : list (nat * nat * nat) :=
  [(0, 4, 8); (0, 8, 1); (0, 1, 10); (0, 10, 6); (0, 4, 6);
   (3, 2, 9); (3, 9, 5); (3, 5, 7); (3, 7, 11); (3, 11, 2);
   (6, 2, 4); (2, 4, 9); (4, 9, 8); (9, 8, 5); (8, 5, 1);
   (5, 1, 7); (1, 7, 10); (7, 10, 11); (10, 11, 6); (11, 6, 2)]%nat.
(** the middle of two vertices moved to the sphere: 1024-1046; undefined at the centre *)
Definition middle (r : R) (a b : V3) : option V3 :=
  let u := vscale (1 / 2) (vadd a b) in
  if Req_EM_T (vdot u u) 0 then None else Some (vscale (r / sqrt (vdot u u)) u).
(** geodesic_round: 1009-1064; a face splits in four, its three new vertices are appended *)
Fixpoint geodesic_round (r : R) (faces : list (nat * nat * nat)) (v : list V3) (out : list (nat * nat * nat))
  : option (list V3 * list (nat * nat * nat)) :=
  match faces with
  | [] => Some (v, out)
  | (j0, j1, j2) :: rest =>
    match nth_error v j0, nth_error v j1, nth_error v j2 with
    | Some v0, Some v1, Some v2 =>
      match middle r v0 v1, middle r v0 v2, middle r v1 v2 with
      | Some u01, Some u02, Some u12 =>
        let k01 := length v in let k02 := (k01 + 1)%nat in let k12 := (k01 + 2)%nat in
        geodesic_round r rest (v ++ [u01; u02; u12])
          (out ++ [(j0, k01, k02); (j1, k01, k12); (j2, k02, k12); (k01, k02, k12)])
      | _, _, _ => None
      end
    | _, _, _ => None
    end
  end.
Fixpoint rounds (n : nat) (r : R) (v : list V3) (f : list (nat * nat * nat)) : option (list V3 * list (nat * nat * nat)) :=
  match n with
  | O => Some (v, f)
  | S n' => match geodesic_round r f v [] with Some (v', f') => rounds n' r v' f' | None => None end
  end.
Definition flat3 (f : list (nat * nat * nat)) : list nat := flat_map (fun t => [fst (fst t); snd (fst t); snd t]) f.
(** init_sphere: 1067-1212; dividing by a zero radius is undefined *)
Definition init_sphere (r : R) : option dmesh :=
  if Req_EM_T r 0 then None else
  let phi := (1 + sqrt 5) / 2 in
  let n := r / sqrt (1 + phi * phi) in
  match rounds 3 r (ico_v n (phi * n)) ico_f with
  | None => None
  | Some (v, f) =>
    tri_mesh (length v) v (Some (map (fun a => vdivs a r) v)) (length f) (Some (flat3 f))
  end.

(** ** Torus: 1331-1441 *)

(** (unsigned)x of a double *)
Definition to_unsigned (x : R) : option nat :=
  if Rle_dec x (-1) then None
  else if Rlt_dec x (IZR (2 ^ 32)) then Some (Z.to_nat (up x - 1)) else None.
(** unsigned addition wraps around *)
Definition uadd (a b : N) : N := ((a + b) mod 2 ^ 32)%N.
(** base circle: 1364-1380 *)
Definition circ_base (p : nat) (major minor : R) (i : nat) : V3 :=
  let theta := INR i * (2 * PI / INR p) in mkV (major + cos theta * minor) 0 (sin theta * minor).
Definition circ_norm (p : nat) (i : nat) : V3 :=
  let theta := INR i * (2 * PI / INR p) in mkV (cos theta) 0 (sin theta).
(** 1383-1408 *)
Definition torus_ring (p : nat) (cap : nat) (angle dangle major minor : R) (j : nat) (s : list V3 * list V3)
  : option (list V3 * list V3) :=
  let phi := INR j * dangle in
  let phi := if Rlt_dec angle phi then angle else phi in
  let M := zangle2rotmat phi in
  match puts cap (map (fun i => mrot M (circ_base p major minor i)) (range 0 p)) (fst s),
        puts cap (map (fun i => mrot M (circ_norm p i)) (range 0 p)) (snd s) with
  | Some v, Some n => Some (v, n)
  | _, _ => None
  end.
(** 1413-1431; kd = -i wraps around *)
Definition torus_quad (p : nat) (icap : nat) (j i : nat) (ix : list nat) : option (list nat) :=
  let k0 := (j * p + i)%nat in
  let k1 := (k0 + p)%nat in
  let kd := if Nat.eqb (i + 1) p then ((2 ^ 32 - N.of_nat i) mod 2 ^ 32)%N else 1%N in
  let k2 := N.to_nat (uadd (N.of_nat k0) kd) in
  let k3 := N.to_nat (uadd (N.of_nat k1) kd) in
  puts icap [k0; k1; k2; k3; k1; k2] ix.
(** init_torus: 1331-1441 *)
Definition init_torus (angle major minor : R) : option dmesh :=
  match to_unsigned (angle / (PI * 2 / 72)) with
  | None => None
  | Some m =>
    let n_major := if (m <? 8)%nat then 8%nat else m in
    let dangle := angle / INR (n_major - 1) in
    let p := 36%nat in
    let n_values := (p * n_major)%nat in
    let n_indices := (p * (n_major - 1) * 2)%nat in
    match loop (torus_ring p n_values angle dangle major minor) (range 0 n_major) ([], []) with
    | None => None
    | Some (v, n) =>
      match loop (fun j s => loop (fun i s => torus_quad p (n_indices * 3) j i s) (range 0 p) s) (range 0 (n_major - 1)) [] with
      | None => None
      | Some ix =>
        if Nat.eqb (length v) n_values && Nat.eqb (length ix) (n_indices * 3) (* asserts: 1409, 1434 *)
        then tri_mesh (length v) v (Some n) (length ix / 3) (Some ix)
        else None
      end
    end
  end.
