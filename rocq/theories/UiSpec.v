(** Specification vocabulary for the display loop: each thing that happens is
    judged by what happened before it. *)
From Coq Require Import ZArith List Bool.
From Verif Require Import UiModel.
Import ListNotations.
Open Scope Z_scope.

(** Every observation satisfies [P] with respect to what came before it *)
Definition always (P : list obs -> obs -> Prop) (tr : list obs) : Prop :=
  forall before o rest, tr = before ++ o :: rest -> P before o.

(** The last display and what happened since *)
Fixpoint last_display_from (acc : option (shown * list obs)) (tr : list obs) : option (shown * list obs) :=
  match tr with
  | [] => acc
  | ODisplay d :: r => last_display_from (Some (d, [])) r
  | o :: r => last_display_from (match acc with Some (d, l) => Some (d, l ++ [o]) | None => None end) r
  end.
Definition last_display (tr : list obs) := last_display_from None tr.

Definition quits (o : obs) : bool :=
  match o with ODisplay d => d_quits d | OEvent t => t_quits t | _ => false end.
Definition asks (o : obs) : bool := match o with OEvent t => t_asks t | _ => false end.
Definition is_wait (o : obs) : bool := match o with OWait _ _ => true | _ => false end.
Definition is_swap (o : obs) : bool := match o with OSwap => true | _ => false end.
Definition is_clean (o : obs) : bool := match o with OClean => true | _ => false end.

(** ** Handlers *)
Definition serves (b : bind) (e : ev) : option Z :=
  match b with
  | BindKey k h => if (etype e =? 768) && (ekey e =? k) then Some h else None
  | BindEvent t h => if negb (etype e =? 768) && (etype e =? t) then Some h else None
  end.
(** The handler bound first *)
Fixpoint first_bound (tr : list obs) (e : ev) : option Z :=
  match tr with
  | [] => None
  | OBind b :: r => match serves b e with Some h => Some h | None => first_bound r e end
  | _ :: r => first_bound r e
  end.

(** ** The claims, as judgements of an observation by its past *)

Definition first_ok (before : list obs) (o : obs) : Prop :=
  match o with ODisplay d => (d_first d = true <-> last_display before = None) | _ => True end.

Definition times_ok (t0 : Z) (before : list obs) (o : obs) : Prop :=
  match o with
  | ODisplay d =>
      d_init d = t0 /\
      d_last d = match last_display before with Some (d0, _) => d_now d0 | None => t0 end
  | _ => True
  end.

(** Asked to update: at first, and when an event since the last display asked *)
Definition update_ok (before : list obs) (o : obs) : Prop :=
  match o with
  | ODisplay d => d_update d = match last_display before with Some (_, l) => existsb asks l | None => true end
  | _ => True
  end.

(** Buffers are swapped right after a display that was asked or asks to update *)
Definition swap_ok (before : list obs) (o : obs) : Prop :=
  match o with
  | OSwap => exists d l, last_display before = Some (d, l) /\ d_update d || d_asks d = true /\
               (forall x, In x l -> exists b, x = OBind b)
  | OClean => exists d l, last_display before = Some (d, l) /\ existsb is_clean l = false /\
               existsb is_swap l = d_update d || d_asks d
  | ODisplay _ | OWait _ _ => match last_display before with Some (_, l) => existsb is_clean l = true | None => True end
  | _ => True
  end.

Definition quit_ok (before : list obs) (o : obs) : Prop :=
  match o with
  | ODisplay _ | OWait _ _ | OEvent _ => existsb quits before = false
  | _ => True
  end.

Definition handler_ok (before : list obs) (o : obs) : Prop :=
  match o with
  | OEvent t => t_handler t = first_bound before (t_ev t) /\ t_seen t = Live (t_ev t) /\
                (t_handler t = None -> t_result t = -1) /\ (t_camera t = true <-> t_result t <> 0) /\ (exists b a m, before = b ++ [OWait a m])
  | _ => True
  end.

(** Pace: a display starts less than a millisecond before its time; the wait
    does not reach beyond that time; every cycle looks for events. *)
Definition pace_ok (delta : Z) (before : list obs) (o : obs) : Prop :=
  match o with
  | ODisplay d =>
      match last_display before with
      | Some (d0, l) => d_now d0 + delta - 1000000 < d_now d /\ existsb is_wait l = true
      | None => True
      end
  | OWait a ms =>
      0 <= ms /\
      match last_display before with
      | Some (d0, _) => 0 < ms -> a + 1000000 * ms <= d_now d0 + delta
      | None => False
      end
  | _ => True
  end.

(** A clock that does not run backwards *)
Fixpoint clock_from (t : Z) (l : list input) : Prop :=
  match l with [] => True | i :: r => t <= i_time i /\ clock_from (i_time i) r end.
