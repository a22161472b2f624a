(** The viewer's frame mask, view matrices and camera control: src/amino_gl.c
    and src/amino_sdl.c.  Doubles and GLfloats are real numbers (the cast of
    d2glf and (GLfloat) is dropped).  A GL matrix is stored column by column,
    [mkM44 c0 c1 c2 c3]; element (i,j) of AA_MATREF(M,4,i,j) is component i of
    column j. *)
From Coq Require Import Reals ZArith List Bool.
From Verif Require Import BitsModel TfModel TfSpec.
Import ListNotations.

(** ** Frame mask *)
Section MASK.
Open Scope Z_scope.

(** The int array of frame_mask with frame_mask_size (in octets); an element
    that was never written is [None] (scene_gl_internal.h 80-81). *)
Record fmask := mkF { fwords : list (option Z); fsize : Z }.

(** amino_gl.c 1514 (AA_NEW0), 1732-1737: aa_gl_globals_unmask_all *)
Definition fm_none : fmask := mkF [] 0.

Definition all_some (l : list (option Z)) : list Z :=
  map (fun o => match o with Some z => z | None => 0 end) l.

(** An int that is read must be inside the array and initialised. *)
Definition readable (l : list (option Z)) (i : Z) : bool :=
  match nth_error l (Z.to_nat (bit_j i)) with Some (Some _) => true | _ => false end.

(** mem.h 672-677 through amino_gl.c 1739-1743: aa_gl_globals_is_masked;
    [None]: reads outside the array or an uninitialised int *)
Definition is_masked (m : fmask) (i : Z) : option Z :=
  if fsize m <? bits_size (i + 1) then Some 0
  else if readable (fwords m) i then bits_get (all_some (fwords m)) i else None.

(** memset of [n] octets from int number [at]; every count is a multiple of 4
    here.  [None]: a write past the end. *)
Fixpoint zero_words (n : nat) (at_ : nat) (l : list (option Z)) : option (list (option Z)) :=
  match n with
  | O => Some l
  | S k => if (at_ <? length l)%nat then zero_words k (S at_) (set_nth l at_ (Some 0)) else None
  end.
Definition memset0 (l : list (option Z)) (at_ n : Z) : option (list (option Z)) :=
  zero_words (Z.to_nat (n / 4)) (Z.to_nat at_) l.

(** realloc to [n] octets of a smaller array *)
Definition realloc_words (l : list (option Z)) (n : Z) : list (option Z) :=
  l ++ repeat None (Z.to_nat (n / 4) - length l).

(** mem.h 682-692: aa_bits_set, a read-modify-write of one int *)
Definition fm_set (m : fmask) (i : Z) (v : bool) : option fmask :=
  if readable (fwords m) i then
    match bits_set (all_some (fwords m)) i v with
    | Some b => Some (mkF (set_nth (fwords m) (Z.to_nat (bit_j i)) (nth_error b (Z.to_nat (bit_j i)))) (fsize m))
    | None => None
    end
  else None.

(** amino_gl.c 1745-1758: aa_gl_globals_mask.  [globals->frame_mask + old_size]
    is pointer arithmetic on int, old_size being in octets. *)
Definition fm_mask (m : fmask) (i : Z) (v : bool) : option fmask :=
  if fsize m <? bits_size (i + 1) then
    let old_size := fsize m in
    let new_bits := 2 * (i + 1) in
    let new_size := bits_size new_bits in
    match memset0 (realloc_words (fwords m) new_size) old_size (new_size - old_size) with
    | Some l => fm_set (mkF l new_size) i v
    | None => None
    end
  else fm_set m i v.

Inductive fcall := Mask (i : Z) (v : bool) | UnmaskAll.
Definition fm_call (m : fmask) (c : fcall) : option fmask :=
  match c with Mask i v => fm_mask m i v | UnmaskAll => Some fm_none end.
Fixpoint fm_run (m : fmask) (h : list fcall) : option fmask :=
  match h with [] => Some m | c :: r => match fm_call m c with Some m' => fm_run m' r | None => None end end.
End MASK.

Open Scope R_scope.

(** ** Matrices *)

(** amino_gl.c 130-147: aa_gl_tfmat2glmat *)
Definition tfmat2glmat (T : TF) : M44 :=
  mkM44 (mkQ (m00 (tR T)) (m10 (tR T)) (m20 (tR T)) 0)
        (mkQ (m01 (tR T)) (m11 (tR T)) (m21 (tR T)) 0)
        (mkQ (m02 (tR T)) (m12 (tR T)) (m22 (tR T)) 0)
        (mkQ (vx (tv T)) (vy (tv T)) (vz (tv T)) 1).
(** 120-127: aa_gl_qutr2glmat *)
Definition qutr2glmat (E : QV) : M44 := tfmat2glmat (qutr2tfmat E).

(** 149-163: aa_gl_mat_perspective *)
Definition mat_perspective (fovy aspect znear zfar : R) : M44 :=
  let t := tan (fovy / 2) in
  mkM44 (mkQ (1 / (aspect * t)) 0 0 0)
        (mkQ 0 (1 / t) 0 0)
        (mkQ 0 0 (- (zfar + znear) / (zfar - znear)) (-1))
        (mkQ 0 0 (- (2 * zfar * znear) / (zfar - znear)) 0).

(** 390-404: the matrices of aa_gl_draw_tf: the model matrix, with its 3x3
    block scaled, and the rotation of the normals *)
Definition draw_matrices (E : QV) (scale : R) : M44 * M33 :=
  let M := qutr2glmat E in
  let s3 (c : Q4) := mkQ (qx c * scale) (qy c * scale) (qz c * scale) (qw c) in
  (mkM44 (s3 (c0 M)) (s3 (c1 M)) (s3 (c2 M)) (c3 M),
   mkM (qx (c0 M)) (qy (c0 M)) (qz (c0 M)) (qx (c1 M)) (qy (c1 M)) (qz (c1 M))
       (qx (c2 M)) (qy (c2 M)) (qz (c2 M))).

(** cblas_sgemm on 4x4 blocks, 1691-1696 *)
Definition m44_mul (A B : M44) : M44 :=
  mkM44 (m44_app A (c0 B)) (m44_app A (c1 B)) (m44_app A (c2 B)) (m44_app A (c3 B)).

(** ** The camera *)
Record cam := mkCam {
  world_E_cam : QV; world_E_camhome : QV;
  fovy : R; aspect : R; znear : R; zfar : R;
  cam_M_world : M44; perspective : M44; world_v_cam : V3;
  mouse_x : Z; mouse_y : Z; scroll_ratio : R; angle_ratio : R }.

(** 1561-1578: aa_gl_globals_set_camera *)
Definition set_camera (G : cam) (E : QV) : cam :=
  mkCam E (world_E_camhome G) (fovy G) (aspect G) (znear G) (zfar G)
        (tfmat2glmat (tfmat_inv (qutr2tfmat E))) (perspective G) (ev E)
        (mouse_x G) (mouse_y G) (scroll_ratio G) (angle_ratio G).
(** 1580-1587: aa_gl_globals_set_camera_home *)
Definition set_camera_home (G : cam) (E : QV) : cam :=
  mkCam (world_E_cam G) E (fovy G) (aspect G) (znear G) (zfar G)
        (cam_M_world G) (perspective G) (world_v_cam G)
        (mouse_x G) (mouse_y G) (scroll_ratio G) (angle_ratio G).
(** 1589-1594: aa_gl_globals_home_camera *)
Definition home_camera (G : cam) : cam := set_camera G (world_E_camhome G).
(** 1610-1623: aa_gl_globals_set_aspect; the ones put on the diagonal first are
    all overwritten by aa_gl_mat_perspective *)
Definition set_aspect (G : cam) (a : R) : cam :=
  mkCam (world_E_cam G) (world_E_camhome G) (fovy G) a (znear G) (zfar G)
        (cam_M_world G) (mat_perspective (fovy G) a (znear G) (zfar G)) (world_v_cam G)
        (mouse_x G) (mouse_y G) (scroll_ratio G) (angle_ratio G).
(** 1596-1608: aa_gl_globals_set_perspective *)
Definition set_perspective (G : cam) (f a n z : R) : cam :=
  set_aspect (mkCam (world_E_cam G) (world_E_camhome G) f (aspect G) n z
        (cam_M_world G) (perspective G) (world_v_cam G)
        (mouse_x G) (mouse_y G) (scroll_ratio G) (angle_ratio G)) a.
Definition set_mouse (G : cam) (x y : Z) : cam :=
  mkCam (world_E_cam G) (world_E_camhome G) (fovy G) (aspect G) (znear G) (zfar G)
        (cam_M_world G) (perspective G) (world_v_cam G) x y (scroll_ratio G) (angle_ratio G).

(** 1511-1553: aa_gl_globals_create (light and colours left out) *)
Definition globals_zero : cam :=
  let z4 := mkQ 0 0 0 0 in
  mkCam (mkE z4 (mkV 0 0 0)) (mkE z4 (mkV 0 0 0)) 0 0 0 0
        (mkM44 z4 z4 z4 z4) (mkM44 z4 z4 z4 z4) (mkV 0 0 0) 0 0 (5 / 100) (5 / 100).
Definition globals_create : cam :=
  set_perspective
    (home_camera (set_camera_home globals_zero (qutr_mzlook (mkV 2 2 2) (mkV 0 0 0) (mkV 0 0 1))))
    (PI / 4) (1 / 1) (5 / 100) 100.

(** ** Events: amino_sdl.c *)
Inductive key := KP_2 | KP_8 | KP_4 | KP_6 | KP_MINUS | KP_PLUS | KHOME | KC | KOther.
Inductive event :=
  | WinExposed | WinResized (w h : Z) | WinOther
  | KeyDown (k : key)
  | ButtonDown
  | Motion (x y : Z) (left right : bool)
  | Wheel (y : Z)
  | OtherEvent.
(** What SDL_GetKeyboardState and SDL_GetMouseState report *)
Record input := mkIn { kshift : bool; kctrl : bool; kalt : bool; mx : Z; my : Z; mleft : bool }.

(** 295-310: scroll; gives E_pre, E_post is set to the identity *)
Definition scroll (x y : R) (R_cam : M33) : QV :=
  let q1 := axang2quat (mkA (mkV 0 0 1) y) in
  let q2 := axang2quat (mkA (mcol0 R_cam) x) in
  mkE (qmul q1 q2) (mkV 0 0 0).

Definition trans (x y z : R) : QV := mkE qident (mkV x y z).
Definition E_ident : QV := trans 0 0 0.

(** 455-463: the camera is replaced by world_E_cam0 * world_E_cam * cam_E_camp *)
Definition update_tf (G : cam) (pre post : QV) : cam * bool :=
  (set_camera G (qutr_mul (qutr_mul pre (world_E_cam G)) post), true).

(** 312-467: aa_sdl_scroll_event; gives the new state and whether *update is set *)
Definition scroll_event (G : cam) (i : input) (e : event) : cam * bool :=
  let R_cam := quat2rotmat (eq (world_E_cam G)) in
  let sr := scroll_ratio G in let ar := angle_ratio G in
  match e with
  | WinExposed => (G, true)
  | WinResized w h => (set_aspect G (IZR w / IZR h), false)
  | WinOther => (G, false)
  | KeyDown k =>
      match k with
      | KP_2 | KP_8 =>
          let sign := match k with KP_2 => -1 | _ => 1 end in
          if kctrl i then update_tf G E_ident (trans 0 (0 + sign * sr) 0)
          else update_tf G (scroll (sign * ar) 0 R_cam) E_ident
      | KP_4 | KP_6 =>
          let sign := match k with KP_4 => -1 | _ => 1 end in
          if kctrl i then update_tf G E_ident (trans (0 + sign * sr) 0 0)
          else update_tf G (scroll 0 (sign * ar) R_cam) E_ident
      | KP_MINUS | KP_PLUS =>
          let sign := match k with KP_MINUS => -1 | _ => 1 end in
          update_tf G E_ident (trans 0 0 (0 - sign * sr))
      | KHOME => update_tf (home_camera G) E_ident E_ident
      | KC | KOther => (G, false)
      end
  | ButtonDown => (set_mouse G (mx i) (my i), false)
  | Motion x y l r =>
      let dx := IZR (x - mouse_x G) in let dy := IZR (y - mouse_y G) in
      (* globals->mouse is set before the common update at 455, which does not read it *)
      let G' := set_mouse G x y in
      if l then update_tf G' (scroll (- (1/10) * ar * dy) (- (1/10) * ar * dx) R_cam) E_ident
      else if r then update_tf G' E_ident (trans (- (1/10) * sr * dx) ((1/10) * sr * dy) 0)
      else (G', false)
  | Wheel y =>
      let a := IZR y in
      if (kctrl i && kshift i) || mleft i then
        update_tf G E_ident (mkE (zangle2quat (ar * a)) (mkV 0 0 0))
      else if kalt i && kshift i then update_tf G (scroll (ar * a) 0 R_cam) E_ident
      else if kalt i && kctrl i then update_tf G (scroll 0 (ar * a) R_cam) E_ident
      else if kctrl i then update_tf G E_ident (trans (sr * a) 0 0)
      else if kshift i then update_tf G E_ident (trans 0 (sr * a) 0)
      else if negb (kctrl i) && negb (kshift i) && negb (kalt i) then
        update_tf G E_ident (trans 0 0 (- sr * a))
      else update_tf G E_ident E_ident
  | OtherEvent => (G, false)
  end.

(** What a program can do to the camera *)
Inductive call :=
  | SetCamera (E : QV) | SetHome (E : QV) | HomeCamera
  | SetPerspective (f a n z : R) | SetAspect (a : R) | Event (i : input) (e : event).
Definition cam_call (G : cam) (c : call) : cam :=
  match c with
  | SetCamera E => set_camera G E
  | SetHome E => set_camera_home G E
  | HomeCamera => home_camera G
  | SetPerspective f a n z => set_perspective G f a n z
  | SetAspect a => set_aspect G a
  | Event i e => fst (scroll_event G i e)
  end.
Definition cam_run (G : cam) (h : list call) : cam := fold_left cam_call h G.

(** What the vertex shader computes (amino_gl.c 206-207) with the camera matrix
    of aa_rx_sg_render (1691-1696): the clip coordinates of a world point *)
Definition camera_matrix (G : cam) : M44 := m44_mul (perspective G) (cam_M_world G).
Definition clip_of (G : cam) (p : V3) : Q4 := m44_app (camera_matrix G) (mkqv p 1).
