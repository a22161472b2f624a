From Coq Require Import ZArith List.
From Verif Require Import RefModel.
Import ListNotations.
Open Scope Z_scope.

(** References owned by all threads. *)
Definition references (s : state) : Z := fold_right (fun th a => Z.of_nat (held th) + a) 0 (thr s).

(** Every execution of threads compiled as [styles] (true: mutex, false: C11
    atomics) in which fewer than 2^32 references exist at any time. *)
Inductive reach (styles : list bool) : state -> Prop :=
| reach_init : styles <> [] -> reach styles (init styles)
| reach_step s l s' : reach styles s -> step s l = Next s' -> references s' < 2 ^ 32 -> reach styles s'.

Definition quiet (s : state) : Prop := forall th, In th (thr s) -> pc th = Idle.
