(** Specification vocabulary for C104, and its examples. *)
From Coq Require Import List Bool Arith.
From Verif Require Import WinThrModel.
Import ListNotations.

Section Spec.
Context {fn cx val : Type}.
Variable apply : fn -> option cx -> val.
Variable creates : fn -> bool.
Notation sys := (sys fn cx val).

(** Thread [r] runs the display loop; the other threads only have functions called that do not
    create windows.  Nobody creates a window. *)
Definition waiting_setup (r : nat) (todo : nat -> list (item fn cx)) : Prop :=
  todo r = [Run] /\
  forall i c, i <> r -> In c (todo i) -> exists f x, c = Call f x /\ creates f = false.
(** No two calls, of one thread or of two, ask for the same function and context. *)
Definition distinct_calls (todo : nat -> list (item fn cx)) : Prop :=
  forall i p j q f x, nth_error (todo i) p = Some (Call f x) -> nth_error (todo j) q = Some (Call f x) -> i = j /\ p = q.
(** The p-th item of thread [i] has returned. *)
Definition returned (y : sys) (i p : nat) : Prop := p < length (t_done (snd y i)).
(** The result that item [c] should have. *)
Definition answer (c : item fn cx) : ret val :=
  match c with Call f x => RetCall (Some (apply f (Some x))) | Create => RetCreate true | Run => RetRun end.
(** Nothing happens to thread [i] any more, whatever the threads do, unless threads wake without a broadcast. *)
Definition asleep_for_ever (y : sys) (i : nat) : Prop :=
  forall l, (forall j, ~ In (Spurious j) l) -> snd (srun apply creates y l) i = snd y i.
(** The current item of thread [i] never returns, whatever happens. *)
Definition never_returns (y : sys) (i : nat) : Prop :=
  forall l, t_done (snd (srun apply creates y l) i) = t_done (snd y i).
End Spec.

(** Examples: functions and contexts are numbers, the result tells both, function 9 creates a window. *)
Definition ap (f : nat) (x : option nat) : nat * option nat := (f, x).
Definition cr (f : nat) : bool := Nat.eqb f 9.
(** A stretch of a schedule in which threads [r] and [c] each take a step, and none wakes without a broadcast. *)
Definition a_round (r c : nat) (l : list event) : Prop :=
  (forall e, In e l -> exists i, e = Step i) /\ In (Step r) l /\ In (Step c) l.
