(** Reference counting under concurrency: C17 and C59. *)
From Coq Require Import ZArith List.
From Verif Require Import RefModel RefSpec RefProofs.
Import ListNotations.
Open Scope Z_scope.

(** C17.  [n] threads all built with C11 atomics ([b = false]) or all with the mutex
    fallback ([b = true]); in every interleaving no call touches the freed object,
    aborts on a zero count, or frees twice. *)
Theorem C17_refcount_no_use_after_free : forall b n s l,
  reach (repeat b n) s -> step s l <> Bad.
Proof. exact ref_never_bad. Qed.
Print Assumptions C17_refcount_no_use_after_free.

(** C17: while any thread owns a reference the object is not freed, and the stored
    count is the number of references. *)
Theorem C17_refcount_counts_references : forall b n s,
  reach (repeat b n) s -> 0 < references s -> freed s = false /\ cnt s = references s.
Proof. exact ref_alive. Qed.
Print Assumptions C17_refcount_counts_references.

(** C17: once all calls have returned, the object is freed exactly when no
    reference is left (so exactly one release reported zero). *)
Theorem C17_refcount_freed_exactly_at_end : forall b n s,
  reach (repeat b n) s -> quiet s -> (freed s = true <-> references s = 0).
Proof. exact ref_freed_at_end. Qed.
Print Assumptions C17_refcount_freed_exactly_at_end.

Example C17_nonvacuous : exists s, reach (repeat true 2) s /\ freed s = true /\ quiet s.
Proof.
  assert (H : exists s, run (init [true; true])
     ([Begin 0 Copy] ++ repeat (Tick 0) 6 ++ [Give 0 1] ++ [Begin 0 Destroy; Begin 1 Destroy]
      ++ repeat (Tick 1) 6 ++ repeat (Tick 0) 6) = Next s) by (vm_compute; eauto).
  destruct H as [s Hs]. exists s. split; [|split].
  - refine (run_reach_b _ _ (init [true; true]) s (reach_init _ _) Hs _); [discriminate|reflexivity].
  - revert Hs. vm_compute. intros [= <-]. reflexivity.
  - revert Hs. vm_compute. intros [= <-] th [<-|[<-|[]]]; reflexivity.
Qed.

(** C59, violated: refcount.h selects atomics for C11 callers and the mutex for C++
    callers; used on one object from both, an update is lost and the object is
    freed while a thread still owns a reference (and may release it). *)
Theorem C59_mixed_builds_free_early_refuted : exists s, reach [false; true] s /\
  freed s = true /\ 0 < references s /\ step s (Begin 1 Destroy) <> Disabled.
Proof. exact mixed_refuted. Qed.
Print Assumptions C59_mixed_builds_free_early_refuted.
