(** C123 deferred deletion of the viewer's buffers. *)
From Coq Require Import Arith List Bool Lia Permutation.
From Verif Require Import DeadModel DeadSpec DeadProofs.
Import ListNotations.

(** C123: whatever the interleaving, if no buffer is scheduled twice then no
    freed buffer is touched, each buffer is destroyed at most once, and only
    scheduled buffers are destroyed. *)
Theorem C123_once : forall garbage progs picks, NoDup (scheduled progs) ->
  exists s, exec (start garbage progs) picks = Some s /\ NoDup (destroyed s) /\ incl (destroyed s) (scheduled progs).
Proof. exact once. Qed.
Print Assumptions C123_once.

(** C123: none is lost: when all calls have returned, one more cleanup leaves
    exactly the scheduled buffers destroyed. *)
Theorem C123_none_lost : forall garbage progs picks s, NoDup (scheduled progs) ->
  exec (start garbage progs) picks = Some s -> all_finished s ->
  exists k s', exec (join s [Clean]) (repeat (length (s_ts s)) k) = Some s' /\ all_finished s' /\
               g_head (s_g s') = None /\ Permutation (destroyed s') (scheduled progs).
Proof. exact none_lost. Qed.
Print Assumptions C123_none_lost.

(** C123: no deadlock: until all calls have returned, some thread can move. *)
Theorem C123_no_deadlock : forall garbage progs picks s, NoDup (scheduled progs) ->
  exec (start garbage progs) picks = Some s -> ~ all_finished s ->
  exists n t g' t', nth_error (s_ts s) n = Some t /\ tstep (s_g s) t = Step g' t'.
Proof. exact no_deadlock. Qed.
Print Assumptions C123_no_deadlock.

(** C123: the condition is needed: a buffer scheduled twice before a cleanup is
    freed and then read again. *)
Theorem C123_twice_refuted : forall garbage,
  exec (start garbage [[Sched 5; Sched 5]; [Clean]]) (repeat 0 8 ++ repeat 1 8) = None.
Proof. intros garbage. vm_compute. reflexivity. Qed.
Print Assumptions C123_twice_refuted.

(** Two threads schedule three buffers while a third cleans up in between *)
Example C123_nonvacuous : exists picks s,
  NoDup (scheduled [[Sched 1; Sched 2]; [Sched 3]; [Clean; Clean]]) /\
  exec (start (fun _ => Some 9) [[Sched 1; Sched 2]; [Sched 3]; [Clean; Clean]]) picks = Some s /\
  all_finished s /\ destroyed s = [1; 3; 2] /\ g_head (s_g s) = None.
Proof.
  exists ([0; 0; 0; 1; 0; 2; 2; 2; 1; 2; 0; 0; 2; 0; 0; 2; 2] ++ repeat 1 4 ++ repeat 2 12).
  eexists. split; [|split; [vm_compute; reflexivity|]].
  - cbn. repeat constructor; cbn; lia.
  - vm_compute. repeat split. intros t [<-|[<-|[<-|[]]]]; reflexivity.
Qed.
