(** Specification vocabulary for the viewer: which frames are masked, what is
    inside the view, and how user events are meant to move the camera. *)
From Coq Require Import Reals ZArith List Bool.
From Verif Require Import TfModel TfSpec CamModel.
Import ListNotations.

(** ** Masks *)

(** The last request about frame [i] decides; frames never mentioned since the
    last UnmaskAll are shown. *)
Fixpoint hidden_by (past_first : list fcall) (i : Z) (b : bool) : bool :=
  match past_first with
  | [] => b
  | UnmaskAll :: r => hidden_by r i false
  | Mask j v :: r => hidden_by r i (if Z.eqb i j then v else b)
  end.

(** Between two UnmaskAll calls, the frames named stay below the capacity given
    by the first one: 32 * ceil(2 (i0+1) / 32). *)
Definition capacity (i0 : Z) : Z := (32 * ((2 * (i0 + 1) + 31) / 32))%Z.
Fixpoint within (cap : option Z) (h : list fcall) : Prop :=
  match h with
  | [] => True
  | UnmaskAll :: r => within None r
  | Mask i _ :: r =>
      (0 <= i)%Z /\
      match cap with
      | None => within (Some (capacity i)) r
      | Some c => (i < c)%Z /\ within cap r
      end
  end.

Open Scope R_scope.

(** ** The view volume, in camera coordinates: the camera looks along -z *)
Definition in_view (fovy aspect znear zfar : R) (q : V3) : Prop :=
  let d := - vz q in
  znear <= d <= zfar /\
  Rabs (vy q) <= d * tan (fovy / 2) /\
  Rabs (vx q) <= aspect * (d * tan (fovy / 2)).

(** OpenGL keeps what has every clip coordinate between -w and w *)
Definition clipped_in (c : Q4) : Prop :=
  - qw c <= qx c <= qw c /\ - qw c <= qy c <= qw c /\ - qw c <= qz c <= qw c.

(** ** Camera moves *)

(** A camera pose is known by where it puts the points of the camera frame. *)
Definition pose := V3 -> V3.

(** [Orbit x y]: turn about the camera's own right axis through the world
    origin by x, then about the world's vertical axis by y. *)
Inductive move := Still | Orbit (x y : R) | Shift (d : V3) | Roll (t : R) | GoHome.

Definition vertical : V3 := mkV 0 0 1.
(** Direction in the world of the camera's x axis *)
Definition right_of (P : pose) : V3 := plus3 (P (mkV 1 0 0)) (times3 (-1) (P zero3)).
Definition eye_of (P : pose) : V3 := P zero3.

Definition after (home P : pose) (m : move) : pose :=
  match m with
  | Still => P
  | Orbit x y => fun p => rodrigues vertical y (rodrigues (right_of P) x (P p))
  | Shift d => fun p => P (plus3 d p)
  | Roll t => fun p => P (rodrigues (mkV 0 0 1) t p)
  | GoHome => home
  end.

(** What each input means; [s] is the shift step and [a] the angle step, [x0 y0]
    the last known pointer position. *)
Definition intended (s a : R) (x0 y0 : Z) (i : input) (e : event) : move :=
  match e with
  | KeyDown KP_8 => if kctrl i then Shift (mkV 0 s 0) else Orbit a 0
  | KeyDown KP_2 => if kctrl i then Shift (mkV 0 (- s) 0) else Orbit (- a) 0
  | KeyDown KP_6 => if kctrl i then Shift (mkV s 0 0) else Orbit 0 a
  | KeyDown KP_4 => if kctrl i then Shift (mkV (- s) 0 0) else Orbit 0 (- a)
  | KeyDown KP_PLUS => Shift (mkV 0 0 (- s))
  | KeyDown KP_MINUS => Shift (mkV 0 0 s)
  | KeyDown KHOME => GoHome
  | Motion x y true _ => Orbit (- (a * IZR (y - y0) / 10)) (- (a * IZR (x - x0) / 10))
  | Motion x y false true => Shift (mkV (- (s * IZR (x - x0) / 10)) (s * IZR (y - y0) / 10) 0)
  | Wheel y =>
      match mleft i, kctrl i, kshift i, kalt i with
      | true, _, _, _ => Roll (a * IZR y)
      | false, true, true, _ => Roll (a * IZR y)
      | false, false, true, true => Orbit (a * IZR y) 0
      | false, true, false, true => Orbit 0 (a * IZR y)
      | false, true, false, false => Shift (mkV (s * IZR y) 0 0)
      | false, false, true, false => Shift (mkV 0 (s * IZR y) 0)
      | false, false, false, false => Shift (mkV 0 0 (- (s * IZR y)))
      | false, false, false, true => Still
      end
  | _ => Still
  end.

(** Events after which the picture has to be drawn again *)
Definition redraws (e : event) : bool :=
  match e with
  | WinExposed | Wheel _ => true
  | KeyDown KC | KeyDown KOther => false
  | KeyDown _ => true
  | Motion _ _ l r => l || r
  | _ => false
  end.

(** ** What the viewer should show *)
Record view := mkView {
  place : pose; home : pose; v_fovy : R; v_aspect : R; v_near : R; v_far : R;
  pointer : Z * Z }.

(** At first: seen from (2,2,2), looking at the origin, z up; 45 degrees, square,
    from 0.05 to 100. *)
Definition first_pose : pose := fun p =>
  plus3 (mkV 2 2 2)
    (plus3 (times3 (vx p) (mkV (- (1 / sqrt 2)) (1 / sqrt 2) 0))
    (plus3 (times3 (vy p) (mkV (- (1 / sqrt 6)) (- (1 / sqrt 6)) (2 / sqrt 6)))
           (times3 (vz p) (mkV (1 / sqrt 3) (1 / sqrt 3) (1 / sqrt 3))))).
Definition first_view : view :=
  mkView first_pose first_pose (PI / 4) 1 (5 / 100) 100 (0%Z, 0%Z).

Definition step_size : R := 5 / 100.
Definition next_pointer (xy : Z * Z) (i : input) (e : event) : Z * Z :=
  match e with ButtonDown => (mx i, my i) | Motion x y _ _ => (x, y) | _ => xy end.
Definition next (v : view) (c : call) : view :=
  match c with
  | SetCamera E => mkView (qutr_tf E) (home v) (v_fovy v) (v_aspect v) (v_near v) (v_far v) (pointer v)
  | SetHome E => mkView (place v) (qutr_tf E) (v_fovy v) (v_aspect v) (v_near v) (v_far v) (pointer v)
  | HomeCamera => mkView (home v) (home v) (v_fovy v) (v_aspect v) (v_near v) (v_far v) (pointer v)
  | SetPerspective f a n z => mkView (place v) (home v) f a n z (pointer v)
  | SetAspect a => mkView (place v) (home v) (v_fovy v) a (v_near v) (v_far v) (pointer v)
  | Event i e =>
      mkView (after (home v) (place v) (intended step_size step_size (fst (pointer v)) (snd (pointer v)) i e))
             (home v) (v_fovy v)
             (match e with WinResized w h => IZR w / IZR h | _ => v_aspect v end)
             (v_near v) (v_far v) (next_pointer (pointer v) i e)
  end.
Definition seen (h : list call) : view := fold_left next h first_view.

(** Callers pass poses with unit quaternions. *)
Definition poses_ok (h : list call) : Prop :=
  forall c, In c h -> match c with SetCamera E | SetHome E => unit_qutr E | _ => True end.

(** Normalised depth, as OpenGL computes it from the clip coordinates *)
Definition depth (c : Q4) : R := qz c / qw c.

(** A level camera: its right axis is horizontal *)
Definition level (P : pose) : Prop := vz (right_of P) = 0.
Definition no_roll (h : list call) : Prop :=
  forall c, In c h ->
    match c with
    | SetCamera E | SetHome E => level (qutr_tf E)
    | Event i (Wheel _) => mleft i = false /\ (kctrl i && kshift i)%bool = false
    | _ => True
    end.

(** A right button drag through the given pointer positions *)
Definition right_drag (path : list (Z * Z)) : list call :=
  map (fun xy => Event (mkIn false false false 0 0 false) (Motion (fst xy) (snd xy) false true)) path.
