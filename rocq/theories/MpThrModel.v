(** Model of threads asking for state validity and for distances to a workspace goal while a
    plan runs: src/rx/mp/scene_state_validity_checker.cpp, workspace_goal.cpp, scene_state_space.cpp
    with the memory region of the state space, src/mem.c.  One step is one access to shared
    memory.  The region's offsets count whole pose arrays, and the region is assumed large
    enough, so that it stays on the fast path. *)
From Coq Require Import List Bool Arith.
Import ListNotations.

Section Threads.
(** configurations with the poses computed from them, and what is computed from stored poses *)
Variables (conf ans : Type).

(** A call: [true] is isValid, which holds the checker's mutex, [false] is distanceGoal, which
    does not; its state with the other joints; and what it computes from the poses. *)
Record call := mkCall { c_locks : bool; c_conf : conf; c_fun : option conf -> ans }.

(** Where a thread is in its current call: isValid, scene_state_validity_checker.cpp 68-86;
    distanceGoal, workspace_goal.cpp 164-189; get_tf_abs, scene_state_space.cpp 99-119;
    aa_mem_region_alloc, mem.c 204-215; aa_mem_region_pop, mem.c 136-141. *)
Inductive at_ :=
| AtIdle                       (** before the call *)
| AtHead                       (** mem.c 212: read the head *)
| AtBump (p : nat)             (** 213: write the head *)
| AtFill (p : nat)             (** scene_state_space.cpp 114-117: write the poses *)
| AtUse (p : nat)              (** read the poses: aa_rx_cl_check, or the loop of distanceGoal *)
| AtPop (p : nat) (r : ans)    (** mem.c 140: reset the head *)
| AtEnd (r : ans).             (** release the mutex, if held, and return *)
Record thread := mkThr { t_todo : list call; t_at : at_; t_done : list (call * ans) }.
(** The mutex with its owner, the region's head, and the pose arrays in it *)
Record shared := mkSh { s_lock : option nat; s_head : nat; s_mem : nat -> option conf }.

Definition put {A} (f : nat -> A) (k : nat) (x : A) : nat -> A := fun i => if Nat.eqb i k then x else f i.
(** One step of thread [i]; a thread that waits for the mutex or has no more calls stays as it is. *)
Definition tstep (i : nat) (s : shared) (t : thread) : shared * thread :=
  match t_todo t with
  | [] => (s, t)
  | c :: rest =>
      let go s a := (s, mkThr (t_todo t) a (t_done t)) in
      match t_at t with
      | AtIdle =>
          if c_locks c
          then match s_lock s with
               | None => go (mkSh (Some i) (s_head s) (s_mem s)) AtHead
               | Some _ => (s, t)
               end
          else go s AtHead
      | AtHead => go s (AtBump (s_head s))
      | AtBump p => go (mkSh (s_lock s) (S p) (s_mem s)) (AtFill p)
      | AtFill p => go (mkSh (s_lock s) (s_head s) (put (s_mem s) p (Some (c_conf c)))) (AtUse p)
      | AtUse p => go s (AtPop p (c_fun c (s_mem s p)))
      | AtPop p r => go (mkSh (s_lock s) p (s_mem s)) (AtEnd r)
      | AtEnd r => (if c_locks c then mkSh None (s_head s) (s_mem s) else s, mkThr rest AtIdle (t_done t ++ [(c, r)]))
      end
  end.
(** All threads under a schedule: the numbers of the threads that step, in order. *)
Definition sys : Type := shared * (nat -> thread).
Definition sstep (y : sys) (i : nat) : sys :=
  let (s, t) := tstep i (fst y) (snd y i) in (s, put (snd y) i t).
Definition srun (y : sys) (sched : list nat) : sys := fold_left sstep sched y.
(** Nothing is running yet; the region already holds [k] arrays. *)
Definition sys_new (k : nat) (mem : nat -> option conf) (todo : nat -> list call) : sys :=
  (mkSh None k mem, fun i => mkThr (todo i) AtIdle []).
End Threads.
Arguments mkCall {conf ans}. Arguments AtIdle {ans}. Arguments c_locks {conf ans}. Arguments c_conf {conf ans}. Arguments c_fun {conf ans}.
Arguments t_todo {conf ans}. Arguments t_at {conf ans}. Arguments t_done {conf ans}. Arguments s_lock {conf}. Arguments s_head {conf}. Arguments s_mem {conf}.
Arguments tstep {conf ans}. Arguments sstep {conf ans}. Arguments srun {conf ans}. Arguments sys_new {conf ans}. Arguments sys : clear implicits.
Arguments mkThr {conf ans}. Arguments mkSh {conf}. Arguments AtHead {ans}. Arguments AtBump {ans}. Arguments AtFill {ans}. Arguments AtUse {ans}.
Arguments AtPop {ans}. Arguments AtEnd {ans}.
