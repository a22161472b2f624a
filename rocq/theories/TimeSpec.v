From Coq Require Import ZArith.
From Verif Require Import TimeModel.
Open Scope Z_scope.

(** Specification: the instant a timespec denotes, in nanoseconds. *)
Definition instant (t : timespec) : Z := tv_sec t * 1000000000 + tv_nsec t.
Definition normal (t : timespec) : Prop := 0 <= tv_nsec t < 1000000000.
