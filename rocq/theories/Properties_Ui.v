(** C121 event handlers, C122 display loop. *)
From Coq Require Import ZArith List Bool Lia.
From Verif Require Import UiModel UiSpec UiProofs.
Import ListNotations.
Open Scope Z_scope.

(** C121: each event goes to the handler bound first for its type or key; the
    handler can read the event; the camera gets it when there is no handler or
    the handler's result is not 0. *)
Theorem C121_handler : forall delta t0 binds inputs, always handler_ok (loop delta t0 binds inputs).
Proof.
  intros. eapply always_imp; [|apply loop_claims]. intros b o (_ & _ & _ & _ & _ & H & _). exact H.
Qed.
Print Assumptions C121_handler.

(** C121: with the handlers of aa_sdl_init bound first, nothing is displayed
    after a request to close the window, given that the first handler for it
    sets quit. *)
Theorem C121_close : forall delta t0 user inputs before t rest,
  (forall b u r, loop delta t0 (ui_setup ++ user) inputs = b ++ OEvent u :: r ->
     t_handler u = Some H_QUIT -> t_quits u = true) ->
  loop delta t0 (ui_setup ++ user) inputs = before ++ OEvent t :: rest -> etype (t_ev t) = 256 ->
  forall d, ~ In (ODisplay d) rest.
Proof. exact close_quits. Qed.
Print Assumptions C121_close.

(** C121 refuted as wished (a later binding replaces an earlier one): a program
    that binds its own handler 7 to the request to close, after aa_sdl_init,
    still gets the first one. *)
Theorem C121_rebind_refuted : exists delta t0 inputs before t rest,
  loop delta t0 (ui_setup ++ [BindEvent 256 7]) inputs = before ++ OEvent t :: rest /\
  etype (t_ev t) = 256 /\ t_handler t = Some H_QUIT.
Proof.
  exists 1000000000, 0, [mkI 0 None false false [] 0 false; mkI 1 (Some (mkEv 256 0)) false true [] 0 false].
  eexists (_ :: _ :: _ :: _ :: _ :: _ :: _ :: [_]), _, _. vm_compute. repeat split.
Qed.
Print Assumptions C121_rebind_refuted.

(** C121 refuted as wished (aa_sdl_bind_event works for every event type): a
    handler bound to the type of key presses is not called. *)
Theorem C121_keydown_refuted : exists delta t0 inputs before t rest,
  loop delta t0 [BindEvent 768 7] inputs = before ++ OEvent t :: rest /\
  etype (t_ev t) = 768 /\ t_handler t = None.
Proof.
  exists 1000000000, 0, [mkI 0 None false false [] 0 false; mkI 1 (Some (mkEv 768 97)) false false [] 0 false].
  eexists (_ :: _ :: _ :: _ :: [_]), _, _. vm_compute. repeat split.
Qed.
Print Assumptions C121_keydown_refuted.

Example C121_nonvacuous : exists before t rest,
  loop 1000000000 0 (ui_setup ++ [BindKey 97 7; BindKey 97 8])
    [mkI 0 None false false [] 0 false; mkI 1 (Some (mkEv 768 97)) false false [] 5 true] = before ++ OEvent t :: rest /\
  t_handler t = Some 7 /\ t_camera t = true /\ t_asks t = true /\ t_seen t = Live (mkEv 768 97).
Proof. eexists (_ :: _ :: _ :: _ :: _ :: _ :: _ :: _ :: [_]), _, _. vm_compute. repeat split. Qed.

(** C122: the first display is told that it is the first and no other is; the
    times handed over are those of the start, of the display before, and of now. *)
Theorem C122_times : forall delta t0 binds inputs,
  always first_ok (loop delta t0 binds inputs) /\ always (times_ok t0) (loop delta t0 binds inputs).
Proof.
  intros. split; (eapply always_imp; [|apply loop_claims]); intros b o (H1 & H2 & _); assumption.
Qed.
Print Assumptions C122_times.

(** C122: a display is asked to draw at first and when an event since the last
    display asked for it; buffers are swapped exactly after displays that were
    asked or asked themselves; buffers to be deleted are deleted once per display. *)
Theorem C122_redraw : forall delta t0 binds inputs,
  always update_ok (loop delta t0 binds inputs) /\ always swap_ok (loop delta t0 binds inputs).
Proof.
  intros. split; (eapply always_imp; [|apply loop_claims]); intros b o (_ & _ & H1 & H2 & _); assumption.
Qed.
Print Assumptions C122_redraw.

(** C122: once the display function or a handler set quit, there is no further
    display, wait or event. *)
Theorem C122_quit : forall delta t0 binds inputs, always quit_ok (loop delta t0 binds inputs).
Proof.
  intros. eapply always_imp; [|apply loop_claims]. intros b o (_ & _ & _ & _ & H & _). exact H.
Qed.
Print Assumptions C122_quit.

(** C122: with a clock that does not run backwards, displays start no more than
    a millisecond before their time, waits do not reach beyond it, and events
    are looked for between any two displays, however slow the display is. *)
Theorem C122_pace : forall delta t0 binds inputs, clock_from t0 inputs ->
  always (pace_ok delta) (loop delta t0 binds inputs).
Proof. exact loop_pace. Qed.
Print Assumptions C122_pace.

(** C122 refuted as wished (the display function can read the last event): the
    event pointer it gets is never one it may read; at the first display it was
    never set, later it points at an object that no longer exists. *)
Theorem C122_event_refuted : forall delta t0 binds inputs before d rest,
  loop delta t0 binds inputs = before ++ ODisplay d :: rest -> forall e, d_event d <> Live e.
Proof.
  intros until 1. destruct (loop_claims delta t0 binds inputs _ _ _ H) as (_ & _ & _ & _ & _ & _ & H1). exact H1.
Qed.
Print Assumptions C122_event_refuted.

(** Three displays; an event in between asks for the second to draw *)
Example C122_nonvacuous : exists ins d1 d2 d3,
  clock_from 0 ins /\
  filter (fun o => match o with ODisplay _ | OSwap => true | _ => false end) (loop 20000000 0 ui_setup ins)
    = [ODisplay d1; OSwap; ODisplay d2; OSwap; ODisplay d3] /\
  d_first d1 = true /\ d_update d2 = true /\ d_update d3 = false /\ d_event d1 = Unset /\ d_event d2 = Dead /\
  d_now d2 = 20000000 /\ d_last d3 = d_now d2 /\ d_quits d3 = true.
Proof.
  exists [mkI 0 None false false [] 0 false; mkI 5000000 (Some (mkEv 512 0)) false false [] 0 true;
          mkI 20000000 None false false [] 0 false; mkI 20000000 None false false [] 0 false;
          mkI 45000000 None false false [] 0 false; mkI 45000000 None false true [] 0 false;
          mkI 46000000 None false false [] 0 false].
  do 3 eexists. split; [cbn; lia|]. vm_compute. repeat split.
Qed.
