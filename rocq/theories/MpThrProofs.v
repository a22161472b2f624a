(** Proofs for C97. *)
From Coq Require Import List Bool Arith Lia.
From Verif Require Import MpThrModel MpThrSpec.
Import ListNotations.

Section Proofs.
Context {conf ans : Type}.
Notation call := (call conf ans).
Notation thread := (thread conf ans).
Notation sys := (sys conf ans).

Definition right_thread (t : thread) : Prop := forall c r, In (c, r) (t_done t) -> r = c_fun c (Some (c_conf c)).
(** what the owner of the mutex knows *)
Definition inside (k : nat) (s : shared conf) (t : thread) : Prop :=
  exists c rest, t_todo t = c :: rest /\
  match t_at t with
  | AtIdle => False
  | AtHead => s_head s = k
  | AtBump p => p = k /\ s_head s = k
  | AtFill p => p = k /\ s_head s = S k
  | AtUse p => p = k /\ s_head s = S k /\ s_mem s p = Some (c_conf c)
  | AtPop p r => p = k /\ s_head s = S k /\ r = c_fun c (Some (c_conf c))
  | AtEnd r => s_head s = k /\ r = c_fun c (Some (c_conf c))
  end.
Definition good (k : nat) (todo : nat -> list call) (y : sys) : Prop :=
  (forall i, right_thread (snd y i)) /\ calls_kept todo y /\
  match s_lock (fst y) with
  | None => s_head (fst y) = k /\ forall i, t_at (snd y i) = AtIdle
  | Some j => inside k (fst y) (snd y j) /\ forall i, i <> j -> t_at (snd y i) = AtIdle
  end.
Lemma put_same {A} (f : nat -> A) k x : put f k x k = x.
Proof. unfold put. now rewrite Nat.eqb_refl. Qed.
Lemma put_other {A} (f : nat -> A) k x i : i <> k -> put f k x i = f i.
Proof. unfold put. intros H. destruct (Nat.eqb_spec i k); congruence. Qed.

Lemma good_new k mem todo : good k todo (sys_new k mem todo).
Proof. split; [intros i c r []|]. split; [intros i; reflexivity|]. cbn. auto. Qed.

Variable k : nat.
Variable todo : nat -> list call.
Hypothesis Locks : forall i c, In c (todo i) -> c_locks c = true.

Lemma kept_locks y i c rest : calls_kept todo y -> t_todo (snd y i) = c :: rest -> c_locks c = true.
Proof. intros H E. apply (Locks i). rewrite <- (H i), E. apply in_or_app. right. now left. Qed.

(** a step of a thread that only moves on in its call *)
Lemma good_put y i s' a c rest : good k todo y -> t_todo (snd y i) = c :: rest ->
  (match s_lock s' with
   | None => False
   | Some j => j = i /\ inside k s' (mkThr (t_todo (snd y i)) a (t_done (snd y i))) end) ->
  (forall j, j <> i -> t_at (snd y j) = AtIdle) ->
  good k todo (s', put (snd y) i (mkThr (t_todo (snd y i)) a (t_done (snd y i)))).
Proof.
  intros (Ri & Ke & _) T L O. split; [|split]; cbn [fst snd].
  - intros j. destruct (Nat.eq_dec j i) as [->|N]; [rewrite put_same; exact (Ri i)|rewrite put_other by auto; auto].
  - intros j. cbn. destruct (Nat.eq_dec j i) as [->|N]; [rewrite put_same; exact (Ke i)|rewrite put_other by auto; apply Ke].
  - destruct (s_lock s') as [j|]; [|tauto]. destruct L as [-> L]. rewrite put_same. split; auto. intros j N. rewrite put_other by auto. auto.
Qed.
Lemma good_step y i : good k todo y -> good k todo (sstep y i).
Proof.
  intros G. pose proof G as (Ri & Ke & Lk). unfold sstep, tstep. destruct y as [s f]. cbn [fst snd] in *.
  assert (Same : good k todo (s, put f i (f i))).
  { split; [|split]; cbn [fst snd].
    - intros j. unfold put. destruct (Nat.eqb_spec j i) as [->|]; auto.
    - intros j. cbn. unfold put. destruct (Nat.eqb_spec j i) as [->|]; apply Ke.
    - destruct (s_lock s) as [o|]; [|destruct Lk as [A B]; split; auto; intros j; unfold put; destruct (Nat.eqb_spec j i) as [->|]; auto].
      destruct Lk as [A B]. split; [unfold put; destruct (Nat.eqb_spec o i) as [->|]; auto|].
      intros j Nj. unfold put. destruct (Nat.eqb_spec j i) as [->|]; auto. }
  destruct (t_todo (f i)) as [|c rest] eqn:T; auto.
  pose proof (kept_locks (s, f) i c rest Ke T) as Lc. rewrite Lc.
  destruct (s_lock s) as [o|] eqn:L.
  - destruct Lk as [In_ Out]. destruct (Nat.eq_dec i o) as [->|No].
    + destruct In_ as (c' & rest' & T' & A). rewrite T in T'. injection T' as <- <-.
      destruct (t_at (f o)) as [| |p|p|p|p r|r] eqn:E; [easy| | | | | |];
        try (rewrite <- T; apply (good_put (s, f) o _ _ c rest); cbn [fst snd s_lock]; auto; rewrite ?L; split; auto;
             exists c, rest; cbn; rewrite T; split; auto).
      * destruct A as [-> A]. auto.
      * destruct A as [-> A]. unfold put. rewrite Nat.eqb_refl. auto.
      * destruct A as (-> & A & B). rewrite B. auto.
      * destruct A as (-> & A & B). auto.
      * destruct A as [A ->]. split; [|split]; cbn [fst snd s_lock].
        -- intros j. destruct (Nat.eq_dec j o) as [->|N]; [rewrite put_same|rewrite put_other by auto; auto].
           intros c1 r1 H. cbn in H. apply in_app_or in H as [H|[H|[]]]; [exact (Ri o _ _ H)|]. injection H as <- <-. reflexivity.
        -- intros j. cbn. destruct (Nat.eq_dec j o) as [->|N]; [rewrite put_same|rewrite put_other by auto; apply Ke].
           cbn. rewrite map_app, <- app_assoc. cbn. rewrite <- T. exact (Ke o).
        -- split; auto. intros j. destruct (Nat.eq_dec j o) as [->|N]; [now rewrite put_same|rewrite put_other by auto; auto].
    + rewrite (Out i No). exact Same.
  - destruct Lk as [Hd Al]. rewrite (Al i). rewrite <- T. apply (good_put (s, f) i _ _ c rest); cbn [fst snd s_lock]; auto.
    split; auto. exists c, rest. cbn. rewrite T. auto.
Qed.
Lemma good_run sched : forall y, good k todo y -> good k todo (srun y sched).
Proof. unfold srun. induction sched as [|i l IH]; intros y G; cbn; auto. apply IH. now apply good_step. Qed.

Lemma c97 mem sched : let y := srun (sys_new k mem todo) sched in
  answers_right y /\ calls_kept todo y /\
  ((forall i, t_todo (snd y i) = []) -> s_head (fst y) = k /\ s_lock (fst y) = None) /\
  ((exists i, t_todo (snd y i) <> []) -> exists i, can_step y i).
Proof.
  cbn zeta. pose proof (good_run sched _ (good_new k mem todo)) as (Ri & Ke & Lk).
  set (y := srun (sys_new k mem todo) sched) in *. split; [exact Ri|]. split; auto. split.
  - intros All. destruct (s_lock (fst y)) as [o|]; [|tauto]. destruct Lk as [(c & rest & T & _) _]. rewrite All in T. discriminate.
  - intros [i Ti]. destruct (s_lock (fst y)) as [o|] eqn:L.
    + exists o. destruct Lk as [(c & rest & T & A) _]. split; [congruence|]. unfold tstep. rewrite T.
      destruct (t_at (snd y o)) eqn:E; [easy| | | | | |]; intros H; apply (f_equal snd) in H; cbn in H; apply (f_equal t_at) in H; cbn in H;
        rewrite E in H; discriminate.
    + exists i. split; auto. destruct Lk as [_ Al]. unfold tstep. destruct (t_todo (snd y i)) as [|c rest] eqn:T; [easy|].
      rewrite (kept_locks y i c rest Ke T), (Al i), L. intros H. apply (f_equal snd) in H; cbn in H; apply (f_equal t_at) in H; cbn in H.
      rewrite (Al i) in H. discriminate.
Qed.
End Proofs.

(** ** Without the mutex *)
(** both read the head before either moves it; the second fills the array after the first *)
Definition clash : list nat := [0; 0; 1; 1; 0; 1; 0; 1; 0; 0; 0].
Lemma c97_clash : t_done (snd (srun (sys_new 0 (fun _ => None) two) clash) 0) = [(ask 0, true)].
Proof. vm_compute. reflexivity. Qed.
