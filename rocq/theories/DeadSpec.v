(** Specification vocabulary for the deferred deletion of buffers. *)
From Coq Require Import Arith List Bool.
From Verif Require Import DeadModel.
Import ListNotations.

(** The buffers a program schedules, one entry for each call *)
Definition scheduled (progs : list (list op)) : list nat :=
  flat_map (flat_map (fun o => match o with Sched b => [b] | Clean => [] end)) progs.
Definition finished (t : thread) : bool :=
  match t_ph t, t_ops t with Idle, [] => true | _, _ => false end.
Definition all_finished (s : st) : Prop := forall t, In t (s_ts s) -> finished t = true.
Definition destroyed (s : st) : list nat := g_gone (s_g s).
(** One more thread with the given calls *)
Definition join (s : st) (p : list op) : st := mkSt (s_g s) (s_ts s ++ [mkT Idle p]).
