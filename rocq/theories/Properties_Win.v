(** C104: functions called by the window thread. *)
From Coq Require Import List Bool Arith Lia.
From Verif Require Import WinThrModel WinThrSpec WinThrProofs WinThrOne WinThrLive WinThrBad.
Import ListNotations.

(** While no window exists: whatever the schedule, each call is made at most once, by the thread
    that runs the display loop, with the context it was asked for; it has been made when
    aa_rx_win_call returns. *)
Theorem C104_called_once {fn cx val} (apply : fn -> option cx -> val) creates r todo l :
  waiting_setup creates r todo -> distinct_calls todo ->
  let y := srun apply creates (sys_new todo) l in
  NoDup (s_log (fst y)) /\
  (forall k f a, In (k, f, a) (s_log (fst y)) -> k = r /\ exists i p x, a = Some x /\ nth_error (todo i) p = Some (Call f x)) /\
  (forall i p f x, nth_error (todo i) p = Some (Call f x) -> returned y i p -> In (r, f, Some x) (s_log (fst y))).
Proof. intros S D. exact (called_once apply creates r todo S D l). Qed.
Print Assumptions C104_called_once.

(** One caller: each of its calls that has returned gave what its function gives for its context. *)
Theorem C104_one_caller_results {fn cx val} (apply : fn -> option cx -> val) creates r c todo l :
  waiting_setup creates r todo -> distinct_calls todo -> c <> r -> (forall i, i <> r -> i <> c -> todo i = []) ->
  let y := srun apply creates (sys_new todo) l in
  t_done (snd y c) = map (answer apply) (firstn (length (t_done (snd y c))) (todo c)).
Proof. intros S D N O. exact (own_results apply creates r c todo S D N O l). Qed.
Print Assumptions C104_one_caller_results.

(** One caller: from every reachable state, once both threads have had enough turns all calls have returned. *)
Theorem C104_one_caller_returns {fn cx val} (apply : fn -> option cx -> val) creates r c todo l :
  waiting_setup creates r todo -> distinct_calls todo -> c <> r -> (forall i, i <> r -> i <> c -> todo i = []) ->
  exists n, forall rs, n <= length rs -> Forall (a_round r c) rs ->
  t_done (snd (srun apply creates (sys_new todo) (l ++ concat rs)) c) = map (answer apply) (todo c).
Proof. intros S D N O. exact (all_return apply creates r c todo S D N O l). Qed.
Print Assumptions C104_one_caller_returns.

(** The thread that created the window gets the results of its own calls, whatever the other threads call. *)
Theorem C104_window_thread {fn cx val} (apply : fn -> option cx -> val) creates i todo calls l :
  todo i = Create :: calls -> (forall c, In c calls -> exists f x, c = Call f x /\ creates f = false) ->
  (forall j, j <> i -> ~ In Create (todo j)) ->
  let y := srun apply creates (sys_new todo) l in
  t_done (snd y i) = map (answer apply) (firstn (length (t_done (snd y i))) (todo i)).
Proof. intros M C O. exact (own_results_all apply creates i todo calls M C O l). Qed.
Print Assumptions C104_window_thread.

(** Two callers: one can be given the result of the other, which then never returns. *)
Theorem C104_two_callers_refuted :
  exists todo l y, waiting_setup cr 0 todo /\ distinct_calls todo /\ y = srun ap cr (sys_new todo) l /\
  todo 1 = [Call 1 10] /\ t_done (snd y 1) = [RetCall (Some (ap 2 (Some 20)))] /\
  t_todo (snd y 2) = [Call 2 20] /\ In (0, 2, Some 20) (s_log (fst y)) /\ never_returns ap cr y 2.
Proof. exact two_callers. Qed.
Print Assumptions C104_two_callers_refuted.

(** Once the window is displayed: the function can be called with a null context, and the caller is not woken. *)
Theorem C104_display_refuted :
  exists l y, y = srun ap cr (sys_new (todo_of [[Create; Run]; [Call 1 10]])) l /\
  s_log (fst y) = [(0, 1, None)] /\ t_todo (snd y 1) = [Call 1 10] /\ asleep_for_ever ap cr y 1.
Proof. exact display_bad. Qed.
Print Assumptions C104_display_refuted.

(** A function that creates the window, called while the display loop waits for one: neither returns. *)
Theorem C104_create_refuted :
  exists l y, y = srun ap cr (sys_new (todo_of [[Run]; [Call 9 10]])) l /\
  cr 9 = true /\ never_returns ap cr y 0 /\ never_returns ap cr y 1 /\ forall l', s_win (fst (srun ap cr y l')) = None.
Proof. exact create_bad. Qed.
Print Assumptions C104_create_refuted.

(** A window created by another thread does not end the wait of the display loop. *)
Theorem C104_created_elsewhere_refuted :
  exists l y, y = srun ap cr (sys_new (todo_of [[Run]; [Create]])) l /\
  t_done (snd y 1) = [RetCreate true] /\ s_win (fst y) = Some 1 /\ asleep_for_ever ap cr y 0.
Proof. exact elsewhere_bad. Qed.
Print Assumptions C104_created_elsewhere_refuted.

(** Two threads that create a window at once both get one; only one is kept. *)
Theorem C104_two_windows_refuted :
  exists l, let y := srun ap cr (sys_new (todo_of [[Create]; [Create]])) l in
  t_done (snd y 0) = [RetCreate true] /\ t_done (snd y 1) = [RetCreate true] /\ s_win (fst y) = Some 1.
Proof. exists both_sched. exact both_state. Qed.
Print Assumptions C104_two_windows_refuted.

(** the runner waits, the caller's two calls come back with their own results *)
Example C104_nonvacuous :
  let todo := todo_of [[Run]; [Call 1 10; Call 2 20]] in
  waiting_setup cr 0 todo /\ distinct_calls todo /\
  t_done (snd (srun ap cr (sys_new todo) (st 5 0 ++ st 9 1 ++ st 10 0 ++ st 15 1 ++ [Spurious 1] ++ st 10 0 ++ st 6 1)) 1)
  = [RetCall (Some (1, Some 10)); RetCall (Some (2, Some 20))].
Proof.
  split; [|split].
  - split; [reflexivity|]. intros [|[|i]] c N E; cbn in E; try tauto.
    + destruct E as [<-|[<-|[]]]; [exists 1, 10|exists 2, 20]; auto.
    + destruct i; destruct E.
  - assert (H : forall i p f x, nth_error (todo_of [[Run]; [Call 1 10; Call 2 20]] i) p = Some (Call f x) -> i = 1 /\ S p = f).
    { intros [|[|i]] [|[|p]] f x E; cbn in E; try discriminate; try (injection E as <- <-; auto); try (destruct p; discriminate);
      exfalso; destruct i; discriminate. }
    intros i p j q f x A B. destruct (H _ _ _ _ A) as [-> <-]. destruct (H _ _ _ _ B) as [-> E]. split; auto; lia.
  - vm_compute. reflexivity.
Qed.
