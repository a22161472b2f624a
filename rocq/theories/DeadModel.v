(** Deferred deletion of the viewer's buffers: src/amino_gl.c 520-579.
    Any thread may schedule a buffer; the display loop cleans up.  The threads
    are interleaved at every access to shared memory; the mutex is a flag that
    blocks (pthread_mutex_lock does not fail).  Memory is sequentially
    consistent, as data guarded by a mutex is. *)
From Coq Require Import Arith List Bool.
Import ListNotations.

(** Buffers are numbers.  A buffer's cell: freed, or its next pointer. *)
Definition heap := nat -> option (option nat).
Definition upd (h : heap) (b : nat) (v : option (option nat)) : heap :=
  fun x => if x =? b then v else h x.

(** s_dead_buffers, s_cleanup_mutex, the cells, and the buffers given to
    aa_gl_buffers_destroy so far, in order *)
Record glob := mkG { g_head : option nat; g_lock : bool; g_heap : heap; g_gone : list nat }.

(** The calls of one thread *)
Inductive op := Sched (b : nat) | Clean.

Inductive ph :=
  | Idle
  | S1 (b : nat)           (* 554 passed: about to write buffers->next *)
  | S2 (b : nat)           (* about to write s_dead_buffers *)
  | S3                     (* about to unlock *)
  | C1                     (* 565 passed: about to test and read s_dead_buffers *)
  | C2 (l : option nat)    (* about to clear s_dead_buffers *)
  | C3 (l : option nat)    (* about to unlock *)
  | W (l : option nat)     (* 572: at the loop test with local_dead_buffers *)
  | D (x : nat) (n : option nat).  (* 575: about to destroy x *)
Record thread := mkT { t_ph : ph; t_ops : list op }.

Inductive res := Step (g : glob) (t : thread) | Blocked | Finished | Bad.

(** 536-542: s_cleanup_lock, then go on as [p] *)
Definition lock (g : glob) (p : ph) (ops : list op) : res :=
  if g_lock g then Blocked else Step (mkG (g_head g) true (g_heap g) (g_gone g)) (mkT p ops).

Definition tstep (g : glob) (t : thread) : res :=
  let go g' p := Step g' (mkT p (t_ops t)) in
  match t_ph t with
  | Idle => match t_ops t with
            | [] => Finished
            | Sched b :: r => lock g (S1 b) r
            | Clean :: r => lock g C1 r
            end
  (* 552-559: aa_gl_buffers_schedule_destroy *)
  | S1 b => match g_heap g b with
            | None => Bad
            | Some _ => go (mkG (g_head g) (g_lock g) (upd (g_heap g) b (Some (g_head g))) (g_gone g)) (S2 b)
            end
  | S2 b => go (mkG (Some b) (g_lock g) (g_heap g) (g_gone g)) S3
  | S3 => go (mkG (g_head g) false (g_heap g) (g_gone g)) Idle
  (* 561-577: aa_gl_buffers_cleanup *)
  | C1 => match g_head g with
          | None => go g (C3 None)
          | Some b => go g (C2 (Some b))
          end
  | C2 l => go (mkG None (g_lock g) (g_heap g) (g_gone g)) (C3 l)
  | C3 l => go (mkG (g_head g) false (g_heap g) (g_gone g)) (W l)
  | W None => go g Idle
  | W (Some x) => match g_heap g x with None => Bad | Some n => go g (D x n) end
  (* 519-530: aa_gl_buffers_destroy; free *)
  | D x n => match g_heap g x with
             | None => Bad
             | Some _ => go (mkG (g_head g) (g_lock g) (upd (g_heap g) x None) (g_gone g ++ [x])) (W n)
             end
  end.

Record st := mkSt { s_g : glob; s_ts : list thread }.

Fixpoint set_nth (n : nat) (t : thread) (l : list thread) : list thread :=
  match l, n with
  | [], _ => []
  | _ :: r, O => t :: r
  | x :: r, S m => x :: set_nth m t r
  end.

(** The scheduler picks thread [n]; [None] is undefined behaviour. *)
Definition step_at (s : st) (n : nat) : option st :=
  match nth_error (s_ts s) n with
  | None => Some s
  | Some t => match tstep (s_g s) t with
              | Step g' t' => Some (mkSt g' (set_nth n t' (s_ts s)))
              | Blocked | Finished => Some s
              | Bad => None
              end
  end.
Fixpoint exec (s : st) (picks : list nat) : option st :=
  match picks with
  | [] => Some s
  | n :: r => match step_at s n with Some s' => exec s' r | None => None end
  end.

(** Nothing scheduled, all buffers allocated with arbitrary next pointers *)
Definition start (garbage : nat -> option nat) (progs : list (list op)) : st :=
  mkSt (mkG None false (fun b => Some (garbage b)) []) (map (mkT Idle) progs).
