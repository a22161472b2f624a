(** Proofs for C104: schedules in which calls go wrong; calls made by the window's own thread. *)
From Coq Require Import List Bool Arith Lia.
From Verif Require Import WinThrModel WinThrSpec WinThrProofs.
Import ListNotations.

Definition st (n i : nat) : list event := repeat (Step i) n.
Definition todo_of (l : list (list (item nat nat))) (i : nat) : list (item nat nat) := nth i l [].
Notation sysn := (WinThrModel.sys nat nat (nat * option nat)).

Lemma run_inv {fn cx val} (apply : fn -> option cx -> val) creates (ok : event -> Prop) (P : sys fn cx val -> Prop) :
  (forall z e, P z -> ok e -> P (sstep apply creates z e)) -> forall l, (forall e, In e l -> ok e) -> forall z, P z -> P (srun apply creates z l).
Proof.
  intros S l. induction l as [|e l IH]; intros O z Pz; [exact Pz|]. apply IH; [intros; apply O; now right|]. apply S; auto. apply O. now left.
Qed.

(** two callers *)
Definition two_todo := todo_of [[Run]; [Call 1 10]; [Call 2 20]].
Definition two_sched := st 5 0 ++ st 9 1 ++ st 10 0 ++ st 9 2 ++ st 2 1 ++ st 10 0 ++ st 6 1 ++ st 2 2.
Definition two_bad : sysn := srun ap cr (sys_new two_todo) two_sched.
(** a function taken by the display loop while it is being installed *)
Definition disp_todo := todo_of [[Create; Run]; [Call 1 10]].
Definition disp_sched := st 8 0 ++ st 4 1 ++ st 8 0 ++ st 10 1.
Definition disp_bad : sysn := srun ap cr (sys_new disp_todo) disp_sched.
(** a window created through a call *)
Definition make_todo := todo_of [[Run]; [Call 9 10]].
Definition make_sched := st 5 0 ++ st 9 1 ++ st 4 0.
Definition make_bad : sysn := srun ap cr (sys_new make_todo) make_sched.
(** a window created by another thread *)
Definition other_todo := todo_of [[Run]; [Create]].
Definition other_sched := st 5 0 ++ st 4 1.
Definition other_bad : sysn := srun ap cr (sys_new other_todo) other_sched.
(** two windows *)
Definition both_todo := todo_of [[Create]; [Create]].
Definition both_sched := st 2 0 ++ st 2 1 ++ st 2 0 ++ st 2 1.
Definition both_bad : sysn := srun ap cr (sys_new both_todo) both_sched.

Lemma two_bad_state : let y := two_bad in
  fst y = mkSh None None None None false None (Some 0) [(0, 1, Some 10); (0, 2, Some 20)] /\
  snd y 0 = mkThr [Run] RSleep [] /\ snd y 1 = mkThr [] Idle [RetCall (Some (2, Some 20))] /\ snd y 2 = mkThr [Call 2 20] CDoneSleep [].
Proof. vm_compute. auto. Qed.

(** nobody else does anything *)
Definition rest_idle (k : nat) (y : sysn) : Prop := forall i, k <= i -> t_todo (snd y i) = [] /\ t_at (snd y i) = Idle.
Lemma rest_run k l (y : sysn) : rest_idle k y -> rest_idle k (srun ap cr y l).
Proof.
  intros R. apply (run_inv ap cr (fun _ => True) (rest_idle k)); auto. clear. intros z e R _ i L. destruct (R i L) as [A B].
  assert (W : t_todo (wake (snd z i)) = [] /\ t_at (wake (snd z i)) = Idle) by (cbn; rewrite A, B; auto).
  destruct e as [j|j|j]; cbn.
  - destruct (t_todo (snd z j)) as [|c rest] eqn:T; auto. destruct (Nat.eq_dec i j) as [->|N]; [congruence|].
    destruct (tstep ap cr j (fst z) c (t_at (snd z j))) as [s m]. destruct m; cbn; rewrite ?put_other by auto; auto.
  - destruct (Nat.eq_dec i j) as [<-|N]; [rewrite put_same; exact W|rewrite put_other by auto; auto].
  - destruct (t_at (snd z j)) eqn:Q; auto. destruct (Nat.eq_dec i j) as [->|N]; [congruence|]. cbn. rewrite put_other; auto.
Qed.
Lemma rest_new k l : length l <= k -> rest_idle k (sys_new (todo_of l)).
Proof. intros L i Li. cbn. split; auto. unfold todo_of. apply nth_overflow. lia. Qed.

Definition two_inv (z : sysn) : Prop :=
  rest_idle 3 z /\
    s_handler (fst z) = None /\ s_ready (fst z) = false /\ s_win (fst z) = None /\ s_loop (fst z) = Some 0 /\
    t_todo (snd z 0) = [Run] /\ (t_at (snd z 0) = RSleep \/ t_at (snd z 0) = RRelock \/ t_at (snd z 0) = RWin) /\
    t_todo (snd z 1) = [] /\ t_at (snd z 1) = Idle /\
    t_todo (snd z 2) = [Call 2 20] /\ t_done (snd z 2) = [] /\
    (t_at (snd z 2) = CDoneSleep \/ t_at (snd z 2) = CDoneLock \/ t_at (snd z 2) = CDone).
Lemma two_keep : forall z e, two_inv z -> True -> two_inv (sstep ap cr z e).
Proof.
  intros z e (R & H & D & W & L & T0 & A0 & T1 & A1 & T2 & E2 & A2) _.
  split. { apply (rest_run 3 [e] z R). }
  destruct e as [i|i|i]; cbn [sstep].
  + destruct i as [|[|[|i]]].
    * rewrite T0. destruct A0 as [A0|[A0|A0]]; rewrite A0; cbn [tstep].
      -- cbn. tauto.
      -- unfold lock. destruct (s_mutex (fst z)); cbn; tauto.
      -- rewrite W, H. cbn. tauto.
    * rewrite T1. tauto.
    * rewrite T2. destruct A2 as [A2|[A2|A2]]; rewrite A2; cbn [tstep].
      -- cbn. tauto.
      -- unfold lock. destruct (s_mutex (fst z)); cbn; tauto.
      -- rewrite D. cbn. tauto.
    * destruct (R (S (S (S i))) ltac:(lia)) as [Q _]. rewrite Q. tauto.
  + destruct i as [|[|[|i]]]; cbn; rewrite ?A1; repeat (split; [tauto|]); auto.
    * destruct A0 as [A0|[A0|A0]]; rewrite A0; cbn; tauto.
    * destruct A2 as [A2|[A2|A2]]; rewrite A2; cbn; tauto.
  + destruct i as [|[|[|i]]].
    * destruct A0 as [A0|[A0|A0]]; rewrite A0; tauto.
    * rewrite A1. tauto.
    * destruct A2 as [A2|[A2|A2]]; rewrite A2; tauto.
    * destruct (R (S (S (S i))) ltac:(lia)) as [_ Q]. rewrite Q. tauto.
Qed.
Lemma two_lost l : t_done (snd (srun ap cr two_bad l) 2) = [].
Proof.
  assert (B : two_inv two_bad).
  { split; [exact (rest_run 3 two_sched _ (rest_new 3 [[Run]; [Call 1 10]; [Call 2 20]] (le_n 3)))|]. rewrite (proj1 two_bad_state).
    destruct two_bad_state as (_ & -> & -> & ->). cbn. tauto. }
  apply (run_inv ap cr (fun _ => True) two_inv two_keep l (fun _ _ => I) two_bad B).
Qed.
Lemma disp_state : fst disp_bad = mkSh None None (Some 10) None false (Some 0) (Some 0) [(0, 1, None)] /\
  snd disp_bad 0 = mkThr [Run] RDisp [RetCreate true] /\ snd disp_bad 1 = mkThr [Call 1 10] CDoneSleep [].
Proof. vm_compute. auto. Qed.
Definition disp_inv (z : sysn) : Prop :=
  rest_idle 2 z /\ s_handler (fst z) = None /\ s_win (fst z) = Some 0 /\
    snd z 1 = mkThr [Call 1 10] CDoneSleep [] /\
    (t_todo (snd z 0) = [Run] /\ (t_at (snd z 0) = RDisp \/ t_at (snd z 0) = HTest false \/ t_at (snd z 0) = REnd \/ t_at (snd z 0) = REndUnlock) \/
     t_todo (snd z 0) = [] /\ t_at (snd z 0) = Idle).
Lemma disp_keep : forall z e, disp_inv z -> (forall j, e <> Spurious j) -> disp_inv (sstep ap cr z e).
Proof.
  intros z e (R & H & W & T1 & T0) O.
  split. { apply (rest_run 2 [e] z R). }
  destruct e as [i|i|i]; cbn [sstep]; [| |].
  + destruct i as [|[|i]].
    * destruct T0 as [[T0 A0]|[T0 A0]]; rewrite T0; [|tauto]. destruct A0 as [A0|[A0|[A0|A0]]]; rewrite A0; cbn [tstep].
      -- cbn. tauto.
      -- rewrite H. cbn. tauto.
      -- unfold lock. destruct (s_mutex (fst z)); cbn; tauto.
      -- cbn. rewrite T0. cbn. tauto.
    * rewrite T1. cbn. rewrite T1. tauto.
    * destruct (R (S (S i)) ltac:(lia)) as [Q _]. rewrite Q. tauto.
  + exfalso. exact (O i eq_refl).
  + destruct i as [|[|i]].
    * destruct T0 as [[T0 A0]|[T0 A0]]; [|rewrite A0; tauto]. destruct A0 as [A0|[A0|[A0|A0]]]; rewrite A0; cbn; tauto.
    * rewrite T1. cbn. tauto.
    * destruct (R (S (S i)) ltac:(lia)) as [_ Q]. rewrite Q. tauto.
Qed.
Lemma disp_asleep l : (forall j, ~ In (Spurious j) l) -> snd (srun ap cr disp_bad l) 1 = mkThr [Call 1 10] CDoneSleep [].
Proof.
  intros Sp. assert (B : disp_inv disp_bad).
  { split; [exact (rest_run 2 disp_sched _ (rest_new 2 [[Create; Run]; [Call 1 10]] (le_n 2)))|]. rewrite (proj1 disp_state).
    destruct disp_state as (_ & -> & ->). cbn. tauto. }
  apply (run_inv ap cr (fun e => forall j, e <> Spurious j) disp_inv disp_keep l); auto. intros e E j ->. exact (Sp j E).
Qed.
Lemma make_state : fst make_bad = mkSh (Some 0) (Some 9) (Some 10) None false None (Some 0) [] /\
  snd make_bad 0 = mkThr [Run] (HCall true) [] /\ snd make_bad 1 = mkThr [Call 9 10] CDoneSleep [].
Proof. vm_compute. auto. Qed.
Definition make_inv (z : sysn) : Prop :=
  rest_idle 2 z /\ s_mutex (fst z) = Some 0 /\ s_handler (fst z) = Some 9 /\ s_log (fst z) = [] /\ s_win (fst z) = None /\
    snd z 0 = mkThr [Run] (HCall true) [] /\
    t_todo (snd z 1) = [Call 9 10] /\ t_done (snd z 1) = [] /\ (t_at (snd z 1) = CDoneSleep \/ t_at (snd z 1) = CDoneLock).
Lemma make_keep : forall z e, make_inv z -> True -> make_inv (sstep ap cr z e).
Proof.
  intros z e (R & M & H & G & W & T0 & T1 & D1 & A1) _.
  split. { apply (rest_run 2 [e] z R). }
  destruct e as [i|i|i]; cbn [sstep].
  + destruct i as [|[|i]].
    * rewrite T0. cbn [t_at t_todo tstep]. rewrite H. unfold call_fn. cbn [cr Nat.eqb]. rewrite M. cbn. tauto.
    * rewrite T1. destruct A1 as [A1|A1]; rewrite A1; cbn [tstep]; [cbn; tauto|]. unfold lock. rewrite M. cbn. tauto.
    * destruct (R (S (S i)) ltac:(lia)) as [Q _]. rewrite Q. tauto.
  + destruct i as [|[|i]]; cbn; rewrite ?T0; repeat (split; [tauto|]); auto. destruct A1 as [A1|A1]; rewrite A1; cbn; tauto.
  + destruct i as [|[|i]].
    * rewrite T0. cbn. tauto.
    * destruct A1 as [A1|A1]; rewrite A1; tauto.
    * destruct (R (S (S i)) ltac:(lia)) as [_ Q]. rewrite Q. tauto.
Qed.
Lemma make_stuck l : let z := srun ap cr make_bad l in t_done (snd z 0) = [] /\ t_done (snd z 1) = [] /\ s_log (fst z) = [] /\ s_win (fst z) = None.
Proof.
  assert (B : make_inv make_bad).
  { split; [exact (rest_run 2 make_sched _ (rest_new 2 [[Run]; [Call 9 10]] (le_n 2)))|]. rewrite (proj1 make_state).
    destruct make_state as (_ & -> & ->). cbn. tauto. }
  destruct (run_inv ap cr (fun _ => True) make_inv make_keep l (fun _ _ => I) make_bad B) as (_ & _ & _ & K1 & K2 & K3 & _ & K4 & _).
  cbv zeta. rewrite K3. auto.
Qed.
Lemma other_state : fst other_bad = mkSh None None None None false (Some 1) (Some 0) [] /\
  snd other_bad 0 = mkThr [Run] RSleep [] /\ snd other_bad 1 = mkThr [] Idle [RetCreate true].
Proof. vm_compute. auto. Qed.
Definition other_inv (z : sysn) : Prop :=
  rest_idle 2 z /\ snd z 0 = mkThr [Run] RSleep [] /\ s_win (fst z) = Some 1 /\
    t_todo (snd z 1) = [] /\ t_at (snd z 1) = Idle.
Lemma other_keep : forall z e, other_inv z -> (forall j, e <> Spurious j) -> other_inv (sstep ap cr z e).
Proof.
  intros z e (R & T0 & W & T1 & A1) O.
  split. { apply (rest_run 2 [e] z R). }
  destruct e as [i|i|i]; cbn [sstep].
  + destruct i as [|[|i]].
    * rewrite T0. cbn. rewrite T0. tauto.
    * rewrite T1. tauto.
    * destruct (R (S (S i)) ltac:(lia)) as [Q _]. rewrite Q. tauto.
  + exfalso. exact (O i eq_refl).
  + destruct i as [|[|i]].
    * rewrite T0. cbn. tauto.
    * rewrite A1. tauto.
    * destruct (R (S (S i)) ltac:(lia)) as [_ Q]. rewrite Q. tauto.
Qed.
Lemma other_asleep l : (forall j, ~ In (Spurious j) l) ->
  snd (srun ap cr other_bad l) 0 = mkThr [Run] RSleep [] /\ s_win (fst (srun ap cr other_bad l)) = Some 1.
Proof.
  intros Sp. assert (B : other_inv other_bad).
  { split; [exact (rest_run 2 other_sched _ (rest_new 2 [[Run]; [Create]] (le_n 2)))|]. rewrite (proj1 other_state).
    destruct other_state as (_ & -> & ->). cbn. tauto. }
  assert (K : other_inv (srun ap cr other_bad l)).
  { apply (run_inv ap cr (fun e => forall j, e <> Spurious j) other_inv other_keep l); auto. intros e E j ->. exact (Sp j E). }
  destruct K as (_ & K1 & K2 & _). auto.
Qed.
Lemma both_state : t_done (snd both_bad 0) = [RetCreate true] /\ t_done (snd both_bad 1) = [RetCreate true] /\ s_win (fst both_bad) = Some 1.
Proof. vm_compute. auto. Qed.

Lemma two_distinct : distinct_calls two_todo.
Proof.
  assert (H : forall i p f x, nth_error (two_todo i) p = Some (Call f x) -> p = 0 /\ i = f /\ i <= 2).
  { intros [|[|[|i]]] [|p] f x E; cbn in E; try discriminate; try (injection E as <- <-; auto); try (destruct p; discriminate);
    exfalso; destruct i; discriminate. }
  intros i p j q f x P Q. destruct (H _ _ _ _ P) as (-> & -> & _). destruct (H _ _ _ _ Q) as (-> & -> & _). auto.
Qed.
Lemma two_callers : exists todo l y, waiting_setup cr 0 todo /\ distinct_calls todo /\ y = srun ap cr (sys_new todo) l /\
  todo 1 = [Call 1 10] /\ t_done (snd y 1) = [RetCall (Some (ap 2 (Some 20)))] /\
  t_todo (snd y 2) = [Call 2 20] /\ In (0, 2, Some 20) (s_log (fst y)) /\ never_returns ap cr y 2.
Proof.
  exists two_todo, two_sched, two_bad. destruct two_bad_state as (A & B & C & D).
  split; [|split; [|split; [solve [unfold two_bad; reflexivity | unfold disp_bad; reflexivity | unfold make_bad; reflexivity | unfold other_bad; reflexivity]|split; [reflexivity|split; [exact (f_equal t_done C)|split; [exact (f_equal t_todo D)|split]]]]]].
  - split; [reflexivity|]. intros [|[|[|i]]] c N E; cbn in E; try tauto.
    + destruct E as [<-|[]]. exists 1, 10. auto.
    + destruct E as [<-|[]]. exists 2, 20. auto.
    + destruct i; destruct E.
  - exact two_distinct.
  - rewrite (f_equal s_log A). right. now left.
  - intros l. exact (eq_trans (two_lost l) (eq_sym (f_equal t_done D))).
Qed.
Lemma display_bad : exists l y, y = srun ap cr (sys_new (todo_of [[Create; Run]; [Call 1 10]])) l /\
  s_log (fst y) = [(0, 1, None)] /\ t_todo (snd y 1) = [Call 1 10] /\ asleep_for_ever ap cr y 1.
Proof.
  exists disp_sched, disp_bad. destruct disp_state as (A & B & C). split; [solve [unfold two_bad; reflexivity | unfold disp_bad; reflexivity | unfold make_bad; reflexivity | unfold other_bad; reflexivity]|]. split; [exact (f_equal s_log A)|]. split; [exact (f_equal t_todo C)|].
  intros l Sp. exact (eq_trans (disp_asleep l Sp) (eq_sym C)).
Qed.
Lemma create_bad : exists l y, y = srun ap cr (sys_new (todo_of [[Run]; [Call 9 10]])) l /\
  cr 9 = true /\ never_returns ap cr y 0 /\ never_returns ap cr y 1 /\ forall l', s_win (fst (srun ap cr y l')) = None.
Proof.
  exists make_sched, make_bad. destruct make_state as (A & B & C). split; [solve [unfold two_bad; reflexivity | unfold disp_bad; reflexivity | unfold make_bad; reflexivity | unfold other_bad; reflexivity]|]. split; [reflexivity|].
  split; [intros l; exact (eq_trans (proj1 (make_stuck l)) (eq_sym (f_equal t_done B)))|].
  split; [intros l; exact (eq_trans (proj1 (proj2 (make_stuck l))) (eq_sym (f_equal t_done C)))|intros l; exact (proj2 (proj2 (proj2 (make_stuck l))))].
Qed.
Lemma elsewhere_bad : exists l y, y = srun ap cr (sys_new (todo_of [[Run]; [Create]])) l /\
  t_done (snd y 1) = [RetCreate true] /\ s_win (fst y) = Some 1 /\ asleep_for_ever ap cr y 0.
Proof.
  exists other_sched, other_bad. destruct other_state as (A & B & C). split; [solve [unfold two_bad; reflexivity | unfold disp_bad; reflexivity | unfold make_bad; reflexivity | unfold other_bad; reflexivity]|]. split; [exact (f_equal t_done C)|]. split; [exact (f_equal s_win A)|].
  intros l Sp. exact (eq_trans (proj1 (other_asleep l Sp)) (eq_sym B)).
Qed.

(** The thread that created the window *)
Section Own.
Context {fn cx val : Type}.
Variable apply : fn -> option cx -> val.
Variable creates : fn -> bool.
Variable i : nat.
Variable todo : nat -> list (item fn cx).
Variable calls : list (item fn cx).
Hypothesis Mine : todo i = Create :: calls.
Hypothesis Calls : forall c, In c calls -> exists f x, c = Call f x /\ creates f = false.
Hypothesis Others : forall j, j <> i -> ~ In Create (todo j).

Definition maker {val} (a : at_ val) : bool := match a with KLook | KLock | KSet => true | _ => false end.
Definition own_at (s : shared fn cx val) (t : thread fn cx val) : Prop :=
  match t_done t with
  | [] => s_win s = None /\ (t_at t = Idle \/ t_at t = KLook \/ t_at t = KLock \/ t_at t = KSet)
  | _ => s_win s = Some i /\
     match t_at t with Idle | CWho | COwn => True
     | CUnlock v => forall f x rest, t_todo t = Call f x :: rest -> v = Some (apply f (Some x)) | _ => False end
  end.
Definition own (y : sys fn cx val) : Prop :=
  (forall j, j <> i -> maker (t_at (snd y j)) = false /\ exists pre, todo j = pre ++ t_todo (snd y j)) /\
  (exists pre, todo i = pre ++ t_todo (snd y i) /\ t_done (snd y i) = map (answer apply) pre) /\
  own_at (fst y) (snd y i).

Lemma other_win j s c a : maker a = false -> (a = Idle -> c <> Create) ->
  let (s', m) := tstep apply creates j s c a in s_win s' = s_win s /\
    match m with Go a' => maker a' = false | GoWake a' => maker a' = false | _ => True end.
Proof.
  intros M N. destruct a; try discriminate; cbn [tstep]; auto.
  - unfold lock. destruct (s_mutex s); cbn; auto. destruct c; auto. now destruct (N eq_refl).
  - destruct (is_me (s_win s) j || is_me (s_loop s) j)%bool; auto.
  - destruct c; auto. unfold call_fn. destruct (creates f); [destruct (s_mutex s)|]; cbn; auto.
  - destruct (s_handler s); cbn; auto.
  - unfold lock. destruct (s_mutex s); cbn; auto.
  - destruct c; cbn; auto.
  - destruct c; cbn; auto.
  - destruct (s_ready s); cbn; auto.
  - unfold lock. destruct (s_mutex s); cbn; auto.
  - destruct (s_loop s); cbn; auto.
  - unfold lock. destruct (s_mutex s); cbn; auto.
  - destruct (s_win s) eqn:W; cbn; auto. destruct (s_handler s); cbn; auto.
  - unfold lock. destruct (s_mutex s); cbn; auto.
  - unfold lock. destruct (s_mutex s); cbn; auto.
  - destruct (s_handler s); cbn; auto. destruct w; auto.
  - destruct (s_handler s) as [f|]; cbn; auto. unfold call_fn. destruct (creates f); [destruct (s_mutex s)|]; cbn; auto.
  - destruct w; auto.
Qed.
Lemma maker_wake (a : at_ val) : maker (wake_at a) = maker a.
Proof. now destruct a. Qed.
Lemma own_wake s t : own_at s t -> own_at s (wake t) /\ wake t = t.
Proof.
  destruct t as [td a d]. unfold own_at, wake. cbn. intros H.
  assert (E : wake_at a = a); [|now rewrite E]. destruct d; destruct H as [_ H]; destruct a; try contradiction; try reflexivity;
  destruct H as [H|[H|[H|H]]]; discriminate.
Qed.
Lemma own_win s s' t : s_win s' = s_win s -> own_at s t -> own_at s' t.
Proof. intros E. unfold own_at. now rewrite E. Qed.

Lemma own_step y e : own y -> own (sstep apply creates y e).
Proof.
  intros (Oth & Kept & At). destruct e as [j|j|j]; cbn [sstep].
  - destruct (t_todo (snd y j)) as [|c rest] eqn:T; [repeat split; auto; apply Oth; auto|].
    destruct (Nat.eq_dec j i) as [->|N].
    + (* the thread itself *)
      destruct Kept as (pre & K1 & K2). rewrite T in K1.
      assert (G : forall (s : shared fn cx val) t', (exists pre, todo i = pre ++ t_todo t' /\ t_done t' = map (answer apply) pre) -> own_at s t' ->
         own (s, put (snd y) i t')).
      { intros s t' P Q. split; [|split]; cbn [fst snd]; rewrite ?put_same; auto.
        intros k Nk. rewrite put_other by auto. now apply Oth. }
      assert (Keep : exists pre, todo i = pre ++ c :: rest /\ t_done (snd y i) = map (answer apply) pre) by (exists pre; auto).
      destruct (t_done (snd y i)) as [|r0 done] eqn:D.
      * destruct pre; [|discriminate]. cbn in K1. rewrite Mine in K1. injection K1 as <- <-.
        unfold own_at in At. rewrite D in At. destruct At as [W At].
        destruct At as [A|[A|[A|A]]]; rewrite A; cbn [tstep].
        -- unfold lock. destruct (s_mutex (fst y)) eqn:M; cbn [apply_move].
           ++ destruct y as [s th]. cbn in *. split; [|split]; cbn; auto; [exists []; rewrite T, D; auto|]. unfold own_at. rewrite D. auto.
           ++ rewrite T. apply G; cbn; rewrite D; auto. unfold own_at. cbn. auto.
        -- rewrite W. cbn [apply_move]. rewrite T. apply G; cbn; rewrite D; auto. unfold own_at. cbn. auto.
        -- unfold lock. destruct (s_mutex (fst y)) eqn:M; cbn [apply_move].
           ++ destruct y as [s th]. cbn in *. split; [|split]; cbn; auto; [exists []; rewrite T, D; auto|]. unfold own_at. rewrite D. auto.
           ++ rewrite T. apply G; cbn; rewrite D; auto. unfold own_at. cbn. auto.
        -- cbn [apply_move]. rewrite T. cbn [tl]. apply G; cbn; rewrite D; [exists [Create]; auto|]. unfold own_at. cbn. auto.
      * assert (Ic : In c calls).
        { rewrite Mine in K1. destruct pre as [|p pre]; [discriminate|]. injection K1 as _ ->. apply in_or_app. right. now left. }
        destruct (Calls c Ic) as (f & x & -> & Cf). unfold own_at in At. rewrite D in At. destruct At as [W At].
        assert (Stay_ : own (fst y, snd y)).
        { split; [|split]; cbn [fst snd]; auto; [exists pre; now rewrite T, D|]. unfold own_at. rewrite D. auto. }
        destruct (t_at (snd y i)) eqn:A; try contradiction; cbn [tstep].
        -- unfold lock. destruct (s_mutex (fst y)) eqn:M; cbn [apply_move]; [exact Stay_|].
           rewrite T. apply G; cbn; rewrite D; auto. unfold own_at. cbn. auto.
        -- rewrite W. cbn [is_me]. rewrite Nat.eqb_refl. cbn [orb apply_move]. rewrite T. apply G; cbn; rewrite D; auto. unfold own_at. cbn. auto.
        -- unfold call_fn. rewrite Cf. cbn [apply_move]. rewrite T. apply G; cbn; rewrite D; auto. unfold own_at. cbn. split; auto.
           intros g z r1 E. injection E as <- <- _. reflexivity.
        -- cbn [apply_move]. rewrite T. cbn [tl]. apply G; cbn [t_todo t_done]; rewrite D.
           ++ exists (pre ++ [Call f x]). rewrite K1, <- app_assoc, map_app, <- K2. cbn. rewrite (At f x rest T). auto.
           ++ unfold own_at. cbn. auto.
    + destruct (Oth j N) as [Mj (pre & Pj)].
      assert (Nc : t_at (snd y j) = Idle -> c <> Create).
      { intros _ ->. apply (Others j N). rewrite Pj, T. apply in_or_app. right. now left. }
      pose proof (other_win j (fst y) c (t_at (snd y j)) Mj Nc) as Q. destruct (tstep apply creates j (fst y) c (t_at (snd y j))) as [s m].
      destruct Q as [W Q].
      assert (G : forall th t', (forall k, th k = snd y k \/ th k = wake (snd y k)) -> maker (t_at t') = false -> (exists pre, todo j = pre ++ t_todo t') ->
         own (s, put th j t')).
      { intros th t' Th Mt Pt. assert (Ei : th i = snd y i) by (destruct (Th i) as [->|E]; auto; rewrite E; now apply (own_wake (fst y))).
        split; [|split]; cbn [fst snd]; rewrite ?put_other, ?Ei by auto; auto.
        - intros k Nk. destruct (Nat.eq_dec k j) as [->|Nkj]; [rewrite put_same; auto|]. rewrite put_other by auto.
          destruct (Oth k Nk) as [Mk Pk]. destruct (Th k) as [->| ->]; [auto|]. cbn. rewrite maker_wake. auto.
        - now apply (own_win (fst y)). }
      assert (Kj : exists pre, todo j = pre ++ t_todo (snd y j)) by eauto.
      destruct m; cbn [apply_move].
      * split; [|split]; cbn; auto. now apply (own_win (fst y)).
      * apply G; auto.
      * apply G; auto. exists (pre ++ [c]). rewrite Pj, T, <- app_assoc. reflexivity.
      * apply G; auto.
  - assert (Th : forall k, put (snd y) j (wake (snd y j)) k = snd y k \/ put (snd y) j (wake (snd y j)) k = wake (snd y k)).
    { intros k. unfold put. destruct (Nat.eqb_spec k j) as [->|]; auto. }
    assert (Ei : put (snd y) j (wake (snd y j)) i = snd y i) by (destruct (Th i) as [E|E]; rewrite E; auto; now apply (own_wake (fst y))).
    split; [|split]; cbn [fst snd]; rewrite ?Ei; auto.
    intros k Nk. destruct (Oth k Nk) as [Mk Pk]. destruct (Th k) as [E|E]; rewrite E; auto. cbn. rewrite maker_wake. auto.
  - destruct (t_at (snd y j)) eqn:A; try (repeat split; auto; apply Oth; auto).
    destruct (Nat.eq_dec j i) as [->|N].
    { exfalso. unfold own_at in At. rewrite A in At. destruct (t_done (snd y i)); destruct At as [_ At]; [|exact At]. destruct At as [Q|[Q|[Q|Q]]]; discriminate. }
    split; [|split]; cbn [fst snd]; rewrite ?put_other by auto; auto.
    intros k Nk. destruct (Nat.eq_dec k j) as [->|Nkj]; [rewrite put_same; cbn; split; auto; now apply Oth|]. rewrite put_other by auto. now apply Oth.
Qed.
Lemma own_results_all l : let y := srun apply creates (sys_new todo) l in
  t_done (snd y i) = map (answer apply) (firstn (length (t_done (snd y i))) (todo i)).
Proof.
  intros y. assert (O : own y).
  { apply (run_inv apply creates (fun _ => True) own); auto; [intros; now apply own_step|].
    split; [|split]; cbn; [|exists []; auto|unfold own_at; cbn; auto]. intros j _. split; auto. exists []. reflexivity. }
  destruct O as (_ & (pre & A & B) & _). rewrite A, B, map_length, firstn_app, firstn_all, Nat.sub_diag. cbn. now rewrite app_nil_r.
Qed.
End Own.
