(** What a window shows: motion plans and configurations. *)
From Coq Require Import ZArith List Bool Reals Lia Lra.
From Verif Require Import SgModel ClModel ShowModel ShowSpec ShowProofs.
Import ListNotations.
Open Scope R_scope.

(** * C109, C110: every allowed history shows what it should
    ([at_time] and [over] for motion plans, the configuration last given for graphs). *)
Theorem C109_shows : forall cc h a xs, meaning cc h a xs -> exists w, run cc start h = Val (w, xs).
Proof. exact shows. Qed.
Print Assumptions C109_shows.

(** At any time exactly one of: the plans are over, or one configuration of one graph is due. *)
Theorem C109_timeline : forall p t, 0 <= t -> over p t \/ exists g q, at_time p t g q.
Proof. exact playback. Qed.
Print Assumptions C109_timeline.
Theorem C109_timeline_unique : forall p t g q g' q', at_time p t g q -> at_time p t g' q' -> g = g' /\ q = q' /\ ~ over p t.
Proof. exact playback_unique. Qed.
Print Assumptions C109_timeline_unique.

(** "A sequence with a point is played over and over" fails when its first plan is empty. *)
Theorem C109_empty_first_refuted :
  run (fun _ => 1%nat) start [SeqNew; SeqAppend 0 0 0 []; SeqAppend 0 0 1 [5]; SetSeq 0;
    Frame true 0 0 true; Frame false 0 0 true; Frame false 0 (8/10) true] = Stop.
Proof. exact empty_first_stops. Qed.
Print Assumptions C109_empty_first_refuted.

(** Two plans, then again from the start. *)
Definition ex : list call :=
  ((((((([] ++ [SeqNew]) ++ [SeqAppend 0 3 2 [0; 8]]) ++ [SeqAppend 0 4 1 [5; 99]]) ++ [SetSeq 0]) ++
    [Frame true 10 10 true]) ++ [Frame false 10 (10 + 2/10) true]) ++ [Frame false 10 (10 + 18/10) true]) ++ [Frame false 10 13 true].
Example C109_nonvacuous : exists a, meaning (fun _ => 1%nat) ex a
  [Nothing; Nothing; Nothing; Nothing; Nothing; Graph 3 [2]; Graph 4 [5]; Graph 3 [0]].
Proof.
  eexists. unfold ex.
  change [Nothing; Nothing; Nothing; Nothing; Nothing; Graph 3 [2]; Graph 4 [5]; Graph 3 [0]] with
    (((((((([] ++ [Nothing]) ++ [Nothing]) ++ [Nothing]) ++ [Nothing]) ++ [Nothing]) ++ [Graph 3 [2]]) ++ [Graph 4 [5]]) ++ [Graph 3 [0]]).
  eapply meaning_snoc; [eapply meaning_snoc; [eapply meaning_snoc; [eapply meaning_snoc; [eapply meaning_snoc;
      [eapply meaning_snoc; [eapply meaning_snoc; [eapply meaning_snoc; [apply meaning_nil|]|]|]|]|]|]|]|].
  - apply e_seq_new.
  - eapply e_seq_append with (ps := [[0]; [8]]); [reflexivity|]. split; [reflexivity|]. split; [|exists []; reflexivity].
    intros x [<-|[<-|[]]]; reflexivity.
  - eapply e_seq_append with (ps := [[5]]); [reflexivity|]. split; [reflexivity|]. split; [|exists [99]; reflexivity].
    intros x [<-|[]]; reflexivity.
  - eapply e_set_seq; [discriminate|reflexivity].
  - eapply e_frame_first. reflexivity.
  - eapply e_frame_play; [reflexivity|reflexivity|]. exists 0%nat, (2/8), [0], [8]. cbn. split; [field|]. split; [lra|].
    split; [reflexivity|]. unfold between. cbn. f_equal. field.
  - eapply e_frame_play; [reflexivity|reflexivity|]. exists 2%nat, (2/8), [5], [5]. cbn. split; [field|]. split; [lra|].
    split; [reflexivity|]. unfold between. cbn. f_equal. field.
  - eapply e_frame_again; [reflexivity|reflexivity|]. unfold over. cbn. lra.
Qed.

(** * C110: contexts, arrays and sequences behind the window *)
Theorem C110_resources : forall cc h a xs w, meaning cc h a xs -> run cc start h = Val (w, xs) ->
  w_cxs w = match a_disp a with ADefault (Some _) | APlay _ _ _ => 1%nat | _ => 0%nat end /\
  w_log w = a_log a /\
  w_qs w = (a_lost a + match a_q a with Some _ => 1 | None => 0 end)%nat /\
  w_elts w = a_elts a /\
  (forall p, (exists s, nth_error (w_seqs w) p = Some (Some s)) <-> a_seq a p <> None).
Proof. exact resources. Qed.
Print Assumptions C110_resources.

(** "A destroyed window leaves nothing behind" fails for configurations. *)
Theorem C110_config_leak_refuted : forall cc g, exists a xs w, meaning cc [SetSg g false; SetSg g false; Destroy] a xs /\
  run cc start [SetSg g false; SetSg g false; Destroy] = Val (w, xs) /\ w_qs w = 2%nat.
Proof. exact config_leak. Qed.
Print Assumptions C110_config_leak_refuted.
(** "A destroyed sequence leaves nothing behind" fails. *)
Theorem C110_elements_leak_refuted : forall cc g, exists a xs w, meaning cc [SeqNew; SeqAppend 0 g 0 []; SeqFree 0] a xs /\
  run cc start [SeqNew; SeqAppend 0 g 0 []; SeqFree 0] = Val (w, xs) /\ (forall p, a_seq a p = None) /\ w_elts w = 1%nat.
Proof. exact elements_leak. Qed.
Print Assumptions C110_elements_leak_refuted.
(** "Any configuration can be given" fails for one shorter than the graph's. *)
Theorem C110_short_config_refuted : run (fun _ => 2%nat) start [SetSg 0 false; SetConfig [1]; Frame true 0 0 true] = Undef.
Proof. exact short_config_ub. Qed.
Print Assumptions C110_short_config_refuted.
(** "A sub scene graph can be moved with the space mouse" fails. *)
Theorem C110_workspace_control_refuted : forall cc g first init now b,
  run cc start [SetSg g true; Dx true; Frame first init now b] = Undef.
Proof. exact workspace_ub. Qed.
Print Assumptions C110_workspace_control_refuted.

Definition ex2 : list call := ((((([] ++ [SetUser 7 true]) ++ [SetPlan 3 1 [4]]) ++ [SetSg 5 true]) ++ [SetConfig [1; 2]]) ++ [Frame false 0 1 false]) ++ [GetConfig 1].
Definition xs2 : list shown := ((((([] ++ [Nothing]) ++ [Nothing]) ++ [Nothing]) ++ [Nothing]) ++ [Graph 5 (firstn 1 [1; 2])]) ++ [Read (firstn 1 [1; 2])].
Example C110_nonvacuous : exists a w, meaning (fun _ => 1%nat) ex2 a xs2 /\ run (fun _ => 1%nat) start ex2 = Val (w, xs2) /\
  w_log w = [7%nat] /\ w_cxs w = 1%nat /\ a_seq a 0 = None.
Proof.
  assert (M : exists a, meaning (fun _ => 1%nat) ex2 a xs2 /\ a_log a = [7%nat] /\ a_disp a = ADefault (Some (5%nat, true)) /\ a_seq a 0 = None).
  { eexists. split.
    - unfold ex2, xs2. eapply meaning_snoc; [eapply meaning_snoc; [eapply meaning_snoc; [eapply meaning_snoc; [eapply meaning_snoc;
        [eapply meaning_snoc; [apply meaning_nil|]|]|]|]|]|].
      + apply e_set_user. discriminate.
      + eapply e_set_plan with (ps := [[4]]); [discriminate|]. split; [reflexivity|]. split; [|exists []; reflexivity].
        intros x [<-|[]]; reflexivity.
      + apply e_set_sg. discriminate.
      + apply e_set_config.
      + apply (e_frame_sg (fun _ => 1%nat) _ 5 true [1; 2]); [reflexivity|reflexivity|cbn; lia|right; reflexivity].
      + match goal with |- effect _ ?a0 _ _ _ => apply (e_get_config (fun _ => 1%nat) a0 1) end.
    - split; [reflexivity|]. split; reflexivity. }
  destruct M as (a & M & L & D & S). destruct (C109_shows _ _ _ _ M) as (w & E). exists a, w. split; [exact M|]. split; [exact E|].
  destruct (C110_resources _ _ _ _ _ M E) as (Q1 & Q2 & _). rewrite Q1, Q2, D, L. auto.
Qed.
