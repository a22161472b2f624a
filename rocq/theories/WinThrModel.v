(** Model of src/rx/sdl_win.c 65-81, 117-242, 822-914, 995-1026: threads that ask the window thread to call
    functions (aa_rx_win_call), create the window (aa_rx_win_create) and run the display loop
    (aa_rx_win_run).  Line numbers are sdl_win.c's.

    One step is one access to a variable that another thread may touch; what is read or written
    only while s_mutex is held is one step with the test that follows it.  s_mutex is a normal
    mutex: a thread that locks it twice waits for ever (POSIX leaves this undefined for a default
    mutex).  A thread waiting on s_cond is asleep until a broadcast; waking without one, which
    POSIX allows, is a separate event.  SDL, OpenGL and the window's own mutex, which only the
    display loop holds around s_handle_call, are left out; so is what a display function does. *)
From Coq Require Import List Bool Arith.
Import ListNotations.

Section Window.
(** functions handed to aa_rx_win_call, their contexts, their results *)
Variables (fn cx val : Type).
(** what the function returns for a context; None is the null pointer *)
Variable apply : fn -> option cx -> val.
(** functions that call aa_rx_win_create *)
Variable creates : fn -> bool.

(** What a thread does: aa_rx_win_call, aa_rx_win_create, aa_rx_win_run *)
Inductive item := Call (f : fn) (x : cx) | Create | Run.
(** What it gets back: the result, which may be null; whether a window was made; nothing *)
Inductive ret := RetCall (v : option val) | RetCreate (made : bool) | RetRun.

Inductive at_ :=
| Idle                               (** before the item: s_lock at 123, 188, 847 *)
(* aa_rx_win_call: 117-163 *)
| CWho                               (** 126-129: whose thread is it *)
| COwn                               (** 131: function(context) *)
| CFree                              (** 138: s_handler free? *)
| CFreeSleep | CFreeLock             (** 139: asleep; woken, wants the mutex *)
| CSetF | CSetA | CSetR | CSetD      (** 142-145 *)
| CWake                              (** 148 *)
| CDone                              (** 151: done? *)
| CDoneSleep | CDoneLock             (** 152 *)
| CGet                               (** 156 *)
| CClrR (v : option val) | CClrD (v : option val)   (** 157, 158 *)
| CUnlock (v : option val)           (** 160, or 132 *)
(* aa_rx_win_create: 178-243 *)
| KLook                              (** 189, 190: read s_win, unlock *)
| KLock                              (** 237: lock again, after the window is made *)
| KSet                               (** 238-240 *)
(* aa_rx_win_run: 842-914 *)
| RLook                              (** 848-855 *)
| RLock                              (** 858 *)
| RWin                               (** 859-873: window, or handler, or sleep *)
| RSleep | RRelock                   (** 864 *)
| RDisp                              (** the display loop, outside win_display: 893-902 *)
| REnd                               (** 911: s_lock *)
| REndUnlock                         (** 912, 913 *)
(* s_handle_call: 165-176.  [true]: called at 862, [false]: called by win_display at 546 *)
| HTest (w : bool)                   (** 169 *)
| HCall (w : bool)                   (** 170: the call *)
| HRes (w : bool) (v : option val)   (** 170: the store *)
| HClrF (w : bool) | HClrA (w : bool) | HDone (w : bool) | HWake (w : bool).  (** 171-174 *)

Record thread := mkThr { t_todo : list item; t_at : at_; t_done : list ret }.
(** s_mutex with its owner; s_handler, s_handler_arg, s_handler_result, s_handler_done; s_win, as
    the thread in s_thread_win; s_loop_running, as the thread in s_thread_run; and what has been
    called so far: by which thread, which function, with which context. *)
Record shared := mkSh {
  s_mutex : option nat;
  s_handler : option fn; s_arg : option cx; s_result : option val; s_ready : bool;
  s_win : option nat; s_loop : option nat;
  s_log : list (nat * fn * option cx) }.

Definition set_mutex o s := mkSh o (s_handler s) (s_arg s) (s_result s) (s_ready s) (s_win s) (s_loop s) (s_log s).
Definition set_handler h s := mkSh (s_mutex s) h (s_arg s) (s_result s) (s_ready s) (s_win s) (s_loop s) (s_log s).
Definition set_arg a s := mkSh (s_mutex s) (s_handler s) a (s_result s) (s_ready s) (s_win s) (s_loop s) (s_log s).
Definition set_result v s := mkSh (s_mutex s) (s_handler s) (s_arg s) v (s_ready s) (s_win s) (s_loop s) (s_log s).
Definition set_ready b s := mkSh (s_mutex s) (s_handler s) (s_arg s) (s_result s) b (s_win s) (s_loop s) (s_log s).
Definition set_win w s := mkSh (s_mutex s) (s_handler s) (s_arg s) (s_result s) (s_ready s) w (s_loop s) (s_log s).
Definition set_loop l s := mkSh (s_mutex s) (s_handler s) (s_arg s) (s_result s) (s_ready s) (s_win s) l (s_log s).
Definition set_log l s := mkSh (s_mutex s) (s_handler s) (s_arg s) (s_result s) (s_ready s) (s_win s) (s_loop s) l.
Definition put {A} (f : nat -> A) (k : nat) (x : A) : nat -> A := fun i => if Nat.eqb i k then x else f i.

Definition is_me (o : option nat) (i : nat) : bool := match o with Some j => Nat.eqb j i | None => false end.
(** 1020-1026: s_broadcast *)
Definition wake_at (a : at_) : at_ :=
  match a with CFreeSleep => CFreeLock | CDoneSleep => CDoneLock | RSleep => RRelock | _ => a end.
Definition wake (t : thread) : thread := mkThr (t_todo t) (wake_at (t_at t)) (t_done t).

(** What a step of a thread does to it *)
Inductive move := Stay | Go (a : at_) | Ret (r : ret) | GoWake (a : at_).
(** 1004-1010 s_lock: go on with the mutex, or stay *)
Definition lock (i : nat) (s : shared) (a : at_) : shared * move :=
  match s_mutex s with None => (set_mutex (Some i) s, Go a) | Some _ => (s, Stay) end.
Definition unlock (s : shared) : shared := set_mutex None s.

(** function(context) at 131 or 170.  A function that creates a window needs s_mutex (188): in the
    display loop, where the mutex is not held and a window exists, it returns null (191-194). *)
Definition call_fn (i : nat) (f : fn) (a : option cx) (s : shared) : option (shared * option val) :=
  let s' := set_log (s_log s ++ [(i, f, a)]) s in
  if creates f
  then match s_mutex s with None => Some (s', None) | Some _ => None end
  else Some (s', Some (apply f a)).

Definition tstep (i : nat) (s : shared) (c : item) (a : at_) : shared * move :=
  match a with
  | Idle => lock i s (match c with Call _ _ => CWho | Create => KLook | Run => RLook end)
  | CWho => (s, Go (if orb (is_me (s_win s) i) (is_me (s_loop s) i) then COwn else CFree))
  | COwn =>
      match c with
      | Call f x => match call_fn i f (Some x) s with Some (s', v) => (s', Go (CUnlock v)) | None => (s, Stay) end
      | _ => (s, Stay)
      end
  | CFree => match s_handler s with None => (s, Go CSetF) | Some _ => (unlock s, Go CFreeSleep) end
  | CFreeSleep => (s, Stay)
  | CFreeLock => lock i s CFree
  | CSetF => match c with Call f _ => (set_handler (Some f) s, Go CSetA) | _ => (s, Stay) end
  | CSetA => match c with Call _ x => (set_arg (Some x) s, Go CSetR) | _ => (s, Stay) end
  | CSetR => (set_result None s, Go CSetD)
  | CSetD => (set_ready false s, Go CWake)
  | CWake => (s, GoWake CDone)
  | CDone => if s_ready s then (s, Go CGet) else (unlock s, Go CDoneSleep)
  | CDoneSleep => (s, Stay)
  | CDoneLock => lock i s CDone
  | CGet => (s, Go (CClrR (s_result s)))
  | CClrR v => (set_result None s, Go (CClrD v))
  | CClrD v => (set_ready false s, Go (CUnlock v))
  | CUnlock v => (unlock s, Ret (RetCall v))
  | KLook => match s_win s with Some _ => (unlock s, Ret (RetCreate false)) | None => (unlock s, Go KLock) end
  | KLock => lock i s KSet
  | KSet => (unlock (set_win (Some i) s), Ret (RetCreate true))
  | RLook => match s_loop s with Some _ => (unlock s, Ret RetRun) | None => (unlock (set_loop (Some i) s), Go RLock) end
  | RLock => lock i s RWin
  | RWin =>
      match s_win s with
      | Some _ => (unlock s, Go RDisp)
      | None => match s_handler s with Some _ => (s, Go (HTest true)) | None => (unlock s, Go RSleep) end
      end
  | RSleep => (s, Stay)
  | RRelock => lock i s RWin
  | RDisp => (s, Go (HTest false))
  | REnd => lock i s REndUnlock
  | REndUnlock => (unlock (set_loop None s), Ret RetRun)
  | HTest w => match s_handler s with Some _ => (s, Go (HCall w)) | None => (s, Go (if w then RWin else RDisp)) end
  | HCall w =>
      match s_handler s with
      | Some f => match call_fn i f (s_arg s) s with Some (s', v) => (s', Go (HRes w v)) | None => (s, Stay) end
      | None => (s, Stay)
      end
  | HRes w v => (set_result v s, Go (HClrF w))
  | HClrF w => (set_handler None s, Go (HClrA w))
  | HClrA w => (set_arg None s, Go (HDone w))
  | HDone w => (set_ready true s, Go (HWake w))
  | HWake w => (s, GoWake (if w then RWin else RDisp))
  end.

Definition sys : Type := shared * (nat -> thread).
Definition apply_move (y : sys) (i : nat) (s : shared) (m : move) : sys :=
  let t := snd y i in
  match m with
  | Stay => (s, snd y)
  | Go a => (s, put (snd y) i (mkThr (t_todo t) a (t_done t)))
  | Ret r => (s, put (snd y) i (mkThr (tl (t_todo t)) Idle (t_done t ++ [r])))
  | GoWake a => (s, put (fun j => wake (snd y j)) i (mkThr (t_todo t) a (t_done t)))
  end.
(** What happens next: thread [i] steps; it wakes without a broadcast; its display loop ends, by
    quitting or by aa_rx_win_stop (897-902). *)
Inductive event := Step (i : nat) | Spurious (i : nat) | Quit (i : nat).
Definition sstep (y : sys) (e : event) : sys :=
  match e with
  | Step i =>
      match t_todo (snd y i) with
      | [] => y
      | c :: _ => let (s, m) := tstep i (fst y) c (t_at (snd y i)) in apply_move y i s m
      end
  | Spurious i => (fst y, put (snd y) i (wake (snd y i)))
  | Quit i =>
      match t_at (snd y i) with
      | RDisp => (fst y, put (snd y) i (mkThr (t_todo (snd y i)) REnd (t_done (snd y i))))
      | _ => y
      end
  end.
Definition srun (y : sys) (l : list event) : sys := fold_left sstep l y.
(** Before any of it: 66-77 *)
Definition sys_new (todo : nat -> list item) : sys :=
  (mkSh None None None None false None None [], fun i => mkThr (todo i) Idle []).
End Window.
Arguments Call {fn cx}. Arguments Create {fn cx}. Arguments Run {fn cx}.
Arguments RetCall {val}. Arguments RetCreate {val}. Arguments RetRun {val}.
Arguments Idle {val}. Arguments CWho {val}. Arguments COwn {val}. Arguments CFree {val}. Arguments CFreeSleep {val}. Arguments CFreeLock {val}.
Arguments CSetF {val}. Arguments CSetA {val}. Arguments CSetR {val}. Arguments CSetD {val}. Arguments CWake {val}. Arguments CDone {val}.
Arguments CDoneSleep {val}. Arguments CDoneLock {val}. Arguments CGet {val}. Arguments CClrR {val}. Arguments CClrD {val}. Arguments CUnlock {val}.
Arguments KLook {val}. Arguments KLock {val}. Arguments KSet {val}. Arguments RLook {val}. Arguments RLock {val}. Arguments RWin {val}.
Arguments RSleep {val}. Arguments RRelock {val}. Arguments RDisp {val}. Arguments REnd {val}. Arguments REndUnlock {val}.
Arguments HTest {val}. Arguments HCall {val}. Arguments HRes {val}. Arguments HClrF {val}. Arguments HClrA {val}. Arguments HDone {val}. Arguments HWake {val}.
Arguments mkThr {fn cx val}. Arguments t_todo {fn cx val}. Arguments t_at {fn cx val}. Arguments t_done {fn cx val}.
Arguments mkSh {fn cx val}. Arguments s_mutex {fn cx val}. Arguments s_handler {fn cx val}. Arguments s_arg {fn cx val}. Arguments s_result {fn cx val}.
Arguments s_ready {fn cx val}. Arguments s_win {fn cx val}. Arguments s_loop {fn cx val}. Arguments s_log {fn cx val}.
Arguments set_mutex {fn cx val}. Arguments set_handler {fn cx val}. Arguments set_arg {fn cx val}. Arguments set_result {fn cx val}.
Arguments set_ready {fn cx val}. Arguments set_win {fn cx val}. Arguments set_loop {fn cx val}. Arguments set_log {fn cx val}.
Arguments wake_at {val}. Arguments wake {fn cx val}. Arguments Stay {val}. Arguments Go {val}. Arguments Ret {val}. Arguments GoWake {val}.
Arguments lock {fn cx val}. Arguments unlock {fn cx val}. Arguments call_fn {fn cx val}. Arguments tstep {fn cx val}.
Arguments apply_move {fn cx val}. Arguments sstep {fn cx val}. Arguments srun {fn cx val}. Arguments sys_new {fn cx val}.
