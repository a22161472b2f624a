(** Proofs for C104: many callers while no window exists. *)
From Coq Require Import List Bool Arith Lia.
From Verif Require Import WinThrModel WinThrSpec.
Import ListNotations.

Lemma put_same {A} (f : nat -> A) k x : put f k x k = x.
Proof. unfold put. now rewrite Nat.eqb_refl. Qed.
Lemma put_other {A} (f : nat -> A) k x i : i <> k -> put f k x i = f i.
Proof. unfold put. intros H. destruct (Nat.eqb_spec i k); congruence. Qed.

(** places where the mutex is held *)
Definition holds {val} (a : at_ val) : bool :=
  match a with
  | CWho | COwn | CFree | CSetF | CSetA | CSetR | CSetD | CWake | CDone | CGet | CClrR _ | CClrD _ | CUnlock _ => true
  | KLook | KSet | RLook | RWin | REndUnlock => true
  | HTest w | HCall w | HRes w _ | HClrF w | HClrA w | HDone w | HWake w => w
  | _ => false
  end.
(** the function is installed *)
Definition inst {val} (a : at_ val) : bool :=
  match a with
  | CSetA | CSetR | CSetD | CWake | CDone | CDoneSleep | CDoneLock | CGet | CClrR _ | CClrD _ | CUnlock _ => true
  | _ => false
  end.
Definition caller_at {val} (a : at_ val) : bool :=
  match a with
  | Idle | CWho | CFree | CFreeSleep | CFreeLock | CSetF | CSetA | CSetR | CSetD | CWake | CDone | CDoneSleep | CDoneLock
  | CGet | CClrR _ | CClrD _ | CUnlock _ => true
  | _ => false
  end.
Definition runner_at {val} (a : at_ val) : bool :=
  match a with
  | Idle | RLook | RLock | RWin | RSleep | RRelock => true
  | HTest w | HCall w | HRes w _ | HClrF w | HClrA w | HDone w | HWake w => w
  | _ => false
  end.
Lemma holds_wake {val} (a : at_ val) : holds (wake_at a) = holds a.
Proof. now destruct a. Qed.
Lemma inst_wake {val} (a : at_ val) : inst (wake_at a) = inst a.
Proof. now destruct a. Qed.
Lemma caller_wake {val} (a : at_ val) : caller_at (wake_at a) = caller_at a.
Proof. now destruct a. Qed.
Lemma runner_wake {val} (a : at_ val) : runner_at (wake_at a) = runner_at a.
Proof. now destruct a. Qed.

Section Proofs.
Context {fn cx val : Type}.
Variable apply : fn -> option cx -> val.
Variable creates : fn -> bool.
Notation sys := (sys fn cx val).
Notation thread := (thread fn cx val).
Notation shared := (shared fn cx val).
Variable r : nat.
Variable todo : nat -> list (item fn cx).
Hypothesis Setup : waiting_setup creates r todo.
Hypothesis Distinct : distinct_calls todo.

Definition logged (s : shared) (f : fn) (x : cx) : Prop := In (r, f, Some x) (s_log s).
Definition current (t : thread) (f : fn) (x : cx) : Prop := exists rest, t_todo t = Call f x :: rest.
(** places of the runner between the call and the clearing of s_handler *)
Definition called {val} (a : at_ val) : bool := match a with HRes _ _ | HClrF _ => true | _ => false end.

Record inv (y : sys) : Prop := {
  i_win : s_win (fst y) = None;
  i_loop : s_loop (fst y) = None \/ s_loop (fst y) = Some r;
  i_kept : forall i, exists pre, todo i = pre ++ t_todo (snd y i) /\ length pre = length (t_done (snd y i));
  i_idle : forall i, t_todo (snd y i) = [] -> t_at (snd y i) = Idle;
  i_caller : forall i, i <> r -> caller_at (t_at (snd y i)) = true;
  i_runner : runner_at (t_at (snd y r)) = true;
  i_mutex : forall i, holds (t_at (snd y i)) = true <-> s_mutex (fst y) = Some i;
  i_pending : forall i f x, i <> r -> inst (t_at (snd y i)) = true -> current (snd y i) f x ->
     logged (fst y) f x \/ (s_handler (fst y) = Some f /\ (t_at (snd y i) <> CSetA -> s_arg (fst y) = Some x));
  i_handler : forall f, s_handler (fst y) = Some f ->
     exists i x, i <> r /\ inst (t_at (snd y i)) = true /\ current (snd y i) f x /\
       (t_at (snd y i) <> CSetA -> s_arg (fst y) = Some x) /\ (called (t_at (snd y r)) = false -> ~ logged (fst y) f x);
  i_log : forall k f a, In (k, f, a) (s_log (fst y)) -> k = r /\ exists i p x, a = Some x /\ nth_error (todo i) p = Some (Call f x) /\
     (p < length (t_done (snd y i)) \/ p = length (t_done (snd y i)) /\ inst (t_at (snd y i)) = true);
  i_nodup : NoDup (s_log (fst y));
  i_done : forall i p f x, nth_error (todo i) p = Some (Call f x) -> p < length (t_done (snd y i)) -> logged (fst y) f x;
  i_one : forall i j f x g z, i <> r -> j <> r -> i <> j -> inst (t_at (snd y i)) = true -> inst (t_at (snd y j)) = true ->
     current (snd y i) f x -> current (snd y j) g z -> logged (fst y) f x \/ logged (fst y) g z;
  i_new : forall i f x, i <> r -> t_at (snd y i) = CSetA -> current (snd y i) f x -> ~ logged (fst y) f x;
  i_stage : match t_at (snd y r) with
     | HTest _ | HCall _ => s_handler (fst y) <> None
     | HRes _ _ | HClrF _ => exists f x, s_handler (fst y) = Some f /\ s_arg (fst y) = Some x /\ logged (fst y) f x
     | HClrA _ | HDone _ | HWake _ => s_handler (fst y) = None
     | _ => True end }.

(** what the threads' places show to the others *)
Definition same_view (a b : at_ val) : Prop :=
  holds a = holds b /\ inst a = inst b /\ caller_at a = caller_at b /\ runner_at a = runner_at b /\
  (a = CSetA <-> b = CSetA) /\ called a = called b /\ (a = Idle -> b = Idle) /\
  match b with
  | HTest _ | HCall _ => match a with HTest _ | HCall _ => True | _ => False end
  | HRes _ _ | HClrF _ => match a with HRes _ _ | HClrF _ => True | _ => False end
  | HClrA _ | HDone _ | HWake _ => match a with HClrA _ | HDone _ | HWake _ => True | _ => False end
  | _ => True end.
Lemma same_wake a : same_view a (wake_at a).
Proof. destruct a; repeat split; cbn; auto; discriminate. Qed.

Definition same_core (s s' : shared) : Prop :=
  s_handler s' = s_handler s /\ s_arg s' = s_arg s /\ s_log s' = s_log s /\ s_win s' = s_win s /\ s_loop s' = s_loop s.

(** Steps that only move threads on. *)
Lemma inv_view (y : sys) (s' : shared) (th : nat -> thread) :
  inv y -> same_core (fst y) s' -> s_mutex s' = s_mutex (fst y) ->
  (forall j, t_todo (th j) = t_todo (snd y j) /\ t_done (th j) = t_done (snd y j) /\ same_view (t_at (snd y j)) (t_at (th j))) ->
  inv (s', th).
Proof.
  intros I (H1 & H2 & H3 & H4 & H5) M V.
  assert (T : forall j, t_todo (th j) = t_todo (snd y j)) by (intros; apply V).
  assert (D : forall j, t_done (th j) = t_done (snd y j)) by (intros; apply V).
  assert (Ho : forall j, holds (t_at (th j)) = holds (t_at (snd y j))) by (intros j; destruct (V j) as (_ & _ & W & _); now rewrite W).
  assert (In_ : forall j, inst (t_at (th j)) = inst (t_at (snd y j))) by (intros j; destruct (V j) as (_ & _ & _ & W & _); now rewrite W).
  assert (Ca : forall j, caller_at (t_at (th j)) = caller_at (t_at (snd y j))) by (intros j; destruct (V j) as (_ & _ & _ & _ & W & _); now rewrite W).
  assert (Ru : forall j, runner_at (t_at (th j)) = runner_at (t_at (snd y j))) by (intros j; destruct (V j) as (_ & _ & _ & _ & _ & W & _); now rewrite W).
  assert (SA : forall j, t_at (snd y j) = CSetA <-> t_at (th j) = CSetA) by (intros j; apply V).
  assert (Cl : forall j, called (t_at (th j)) = called (t_at (snd y j))) by (intros j; destruct (V j) as (_ & _ & _ & _ & _ & _ & _ & W & _); now rewrite W).
  assert (Id : forall j, t_at (snd y j) = Idle -> t_at (th j) = Idle) by (intros j; apply V).
  assert (St : match t_at (th r) with
     | HTest _ | HCall _ => match t_at (snd y r) with HTest _ | HCall _ => True | _ => False end
     | HRes _ _ | HClrF _ => match t_at (snd y r) with HRes _ _ | HClrF _ => True | _ => False end
     | HClrA _ | HDone _ | HWake _ => match t_at (snd y r) with HClrA _ | HDone _ | HWake _ => True | _ => False end
     | _ => True end) by (destruct (V r) as (_ & _ & _ & _ & _ & _ & _ & _ & _ & W); exact W).
  assert (Cu : forall j f x, current (th j) f x <-> current (snd y j) f x) by (intros j f x; unfold current; rewrite T; tauto).
  assert (Lo : forall f x, logged s' f x <-> logged (fst y) f x) by (intros f x; unfold logged; rewrite H3; tauto).
  destruct I as [J1 J2 J3 J4 J5 J6 J7 J8 J9 J10 J11 J12 J13 J14 J15].
  constructor; cbn [fst snd].
  - now rewrite H4.
  - now rewrite H5.
  - intros i. rewrite T, D. apply J3.
  - intros i. rewrite T. intros E. apply Id. now apply J4.
  - intros i. rewrite Ca. apply J5.
  - rewrite Ru. exact J6.
  - intros i. rewrite Ho, M. apply J7.
  - intros i f x N. rewrite In_, Cu, Lo, H1, H2, <- SA. now apply J8.
  - intros f. rewrite H1. intros E. destruct (J9 f E) as (i & x & A & B & C & F & G). exists i, x.
    rewrite In_, Cu, <- SA, H2, Cl, Lo. auto.
  - intros k f a. rewrite H3. intros E. destruct (J10 k f a E) as (A & i & p & x & B & C & F). split; auto. exists i, p, x.
    rewrite D, In_. auto.
  - now rewrite H3.
  - intros i p f x E. rewrite D, Lo. now apply (J12 i).
  - intros i j f x g z. rewrite !In_, !Cu, !Lo. now apply J13.
  - intros i f x N. rewrite <- SA, Cu, Lo. now apply J14.
  - destruct (t_at (th r)); auto; destruct (t_at (snd y r)); try easy; rewrite ?H1, ?H2; auto; destruct J15 as (f & x & A & B & C); exists f, x; rewrite Lo; auto.
Qed.
Lemma wakes_view (y : sys) i a : same_view (t_at (snd y i)) a -> forall j,
  let th := put (fun j => wake (snd y j)) i (mkThr (t_todo (snd y i)) a (t_done (snd y i))) in
  t_todo (th j) = t_todo (snd y j) /\ t_done (th j) = t_done (snd y j) /\ same_view (t_at (snd y j)) (t_at (th j)).
Proof.
  intros V j th. unfold th. destruct (Nat.eq_dec j i) as [->|N]; [rewrite put_same; cbn; auto|].
  rewrite put_other by auto. cbn. split; [reflexivity|]. split; [reflexivity|]. apply same_wake.
Qed.
Lemma go_view (y : sys) i a : same_view (t_at (snd y i)) a -> forall j,
  let th := put (snd y) i (mkThr (t_todo (snd y i)) a (t_done (snd y i))) in
  t_todo (th j) = t_todo (snd y j) /\ t_done (th j) = t_done (snd y j) /\ same_view (t_at (snd y j)) (t_at (th j)).
Proof.
  intros V j th. unfold th. destruct (Nat.eq_dec j i) as [->|N]; [rewrite put_same; cbn; auto|].
  rewrite put_other by auto. split; [reflexivity|]. split; [reflexivity|].
  destruct (t_at (snd y j)); repeat split; cbn; auto.
Qed.
(** A step of one thread from one place to another, with what must hold of the new state. *)
Lemma inv_go (y : sys) i (s' : shared) (a' : at_ val) :
  inv y -> same_core (fst y) s' -> let a := t_at (snd y i) in t_todo (snd y i) <> [] ->
  (if Nat.eqb i r then runner_at a' = true else caller_at a' = true) ->
  (forall j, j <> i -> (holds (t_at (snd y j)) = true <-> s_mutex s' = Some j)) ->
  (holds a' = true <-> s_mutex s' = Some i) ->
  inst a' = inst a -> (a' = CSetA <-> a = CSetA) -> called a' = called a ->
  (i = r -> match a' with
     | HTest _ | HCall _ => s_handler (fst y) <> None
     | HRes _ _ | HClrF _ => exists f x, s_handler (fst y) = Some f /\ s_arg (fst y) = Some x /\ logged (fst y) f x
     | HClrA _ | HDone _ | HWake _ => s_handler (fst y) = None
     | _ => True end) ->
  inv (s', put (snd y) i (mkThr (t_todo (snd y i)) a' (t_done (snd y i)))).
Proof.
  intros I (H1 & H2 & H3 & H4 & H5) a Ne At Mo Mi Ia Sa Ca Sta.
  set (th := put (snd y) i (mkThr (t_todo (snd y i)) a' (t_done (snd y i)))).
  assert (T : forall j, t_todo (th j) = t_todo (snd y j)) by (intros j; unfold th, put; destruct (Nat.eqb_spec j i) as [->|]; reflexivity).
  assert (D : forall j, t_done (th j) = t_done (snd y j)) by (intros j; unfold th, put; destruct (Nat.eqb_spec j i) as [->|]; reflexivity).
  assert (In_ : forall j, inst (t_at (th j)) = inst (t_at (snd y j))) by (intros j; unfold th, put; destruct (Nat.eqb_spec j i) as [->|]; [exact Ia|reflexivity]).
  assert (SA : forall j, t_at (snd y j) = CSetA <-> t_at (th j) = CSetA) by (intros j; unfold th, put; destruct (Nat.eqb_spec j i) as [->|]; [cbn; tauto|tauto]).
  assert (Cl : forall j, called (t_at (th j)) = called (t_at (snd y j))) by (intros j; unfold th, put; destruct (Nat.eqb_spec j i) as [->|]; [exact Ca|reflexivity]).
  assert (Cu : forall j f x, current (th j) f x <-> current (snd y j) f x) by (intros j f x; unfold current; rewrite T; tauto).
  assert (Lo : forall f x, logged s' f x <-> logged (fst y) f x) by (intros f x; unfold logged; rewrite H3; tauto).
  destruct I as [J1 J2 J3 J4 J5 J6 J7 J8 J9 J10 J11 J12 J13 J14 J15].
  constructor; cbn [fst snd].
  - now rewrite H4.
  - now rewrite H5.
  - intros j. rewrite T, D. apply J3.
  - intros j. rewrite T. intros E. unfold th, put. destruct (Nat.eqb_spec j i) as [->|]; [easy|]. now apply J4.
  - intros j N. unfold th, put. destruct (Nat.eqb_spec j i) as [->|]; [|now apply J5]. apply Nat.eqb_neq in N. rewrite N in At. exact At.
  - unfold th, put. destruct (Nat.eqb_spec r i) as [<-|]; [|exact J6]. rewrite Nat.eqb_refl in At. exact At.
  - intros j. unfold th, put. destruct (Nat.eqb_spec j i) as [->|N]; [exact Mi|now apply Mo].
  - intros j f x N. rewrite In_, Cu, Lo, H1, H2, <- SA. now apply J8.
  - intros f. rewrite H1. intros E. destruct (J9 f E) as (j & x & A & B & C & F & G). exists j, x.
    rewrite In_, Cu, <- SA, H2, Cl, Lo. auto.
  - intros k f b. rewrite H3. intros E. destruct (J10 k f b E) as (A & j & p & x & B & C & F). split; auto. exists j, p, x.
    rewrite D, In_. auto.
  - now rewrite H3.
  - intros j p f x E. rewrite D, Lo. now apply (J12 j).
  - intros j k f x g z. rewrite !In_, !Cu, !Lo. now apply J13.
  - intros j f x N. rewrite <- SA, Cu, Lo. now apply J14.
  - unfold th, put. destruct (Nat.eqb_spec r i) as [<-|].
    + cbn. specialize (Sta eq_refl). destruct a'; auto; rewrite ?H1, ?H2; auto; destruct Sta as (f & x & A & B & C); exists f, x; rewrite Lo; auto.
    + destruct (t_at (snd y r)); auto; rewrite ?H1, ?H2; auto; destruct J15 as (f & x & A & B & C); exists f, x; rewrite Lo; auto.
Qed.

(** only the owner is at a place that holds the mutex *)
Lemma holder_only y i j : inv y -> holds (t_at (snd y i)) = true -> holds (t_at (snd y j)) = true -> i = j.
Proof. intros I A B. apply (i_mutex y I) in A, B. congruence. Qed.

Lemma free_none y i : inv y -> s_mutex (fst y) = None -> holds (t_at (snd y i)) = false.
Proof. intros I E. destruct (holds (t_at (snd y i))) eqn:H; auto. apply (i_mutex y I) in H. congruence. Qed.

Lemma current_nth y i f x : inv y -> current (snd y i) f x -> nth_error (todo i) (length (t_done (snd y i))) = Some (Call f x).
Proof.
  intros I [rest E]. destruct (i_kept y I i) as (pre & A & B). rewrite A, E, nth_error_app2 by lia.
  replace (length (t_done (snd y i)) - length pre) with 0 by lia. reflexivity.
Qed.
Lemma current_creates y i f x : inv y -> i <> r -> current (snd y i) f x -> creates f = false.
Proof.
  intros I N C. pose proof (current_nth y i f x I C) as E. apply nth_error_In in E. destruct Setup as [_ S].
  destruct (S i _ N E) as (g & z & A & B). now injection A as <- <-.
Qed.
Lemma caller_item y i c rest : inv y -> i <> r -> t_todo (snd y i) = c :: rest -> exists f x, c = Call f x.
Proof.
  intros I N E. destruct (i_kept y I i) as (pre & A & _). destruct Setup as [_ S].
  destruct (S i c N) as (f & x & -> & _); eauto. rewrite A, E. apply in_or_app. right. now left.
Qed.
Lemma runner_item y c rest : inv y -> t_todo (snd y r) = c :: rest -> c = Run.
Proof.
  intros I E. destruct (i_kept y I r) as (pre & A & _). destruct Setup as [S _]. rewrite S, E in A.
  destruct pre as [|? pre]; cbn in A; [congruence|]. injection A as _ A. destruct pre; discriminate.
Qed.

Ltac here y I i :=
  let M := fresh "M" in
  pose proof (i_mutex y I i) as M.

Lemma core_mutex s o : same_core s (set_mutex o s).
Proof. repeat split. Qed.
Lemma core_refl s : same_core s s.
Proof. repeat split. Qed.

(** taking the mutex, giving it back, keeping it, being without it *)
Lemma mutex_lock y i j : inv y -> s_mutex (fst y) = None -> j <> i ->
  (holds (t_at (snd y j)) = true <-> s_mutex (set_mutex (Some i) (fst y)) = Some j).
Proof. intros I E N. rewrite (free_none y j I E). cbn. split; [discriminate|]. intros H. congruence. Qed.
Lemma mutex_unlock y i j : inv y -> holds (t_at (snd y i)) = true -> j <> i ->
  (holds (t_at (snd y j)) = true <-> s_mutex (set_mutex None (fst y)) = Some j).
Proof.
  intros I E N. cbn. split; [|discriminate]. intros H. destruct N. symmetry. exact (holder_only y i j I E H).
Qed.

Definition set_at (t : thread) a : thread := mkThr (t_todo t) a (t_done t).

Lemma inv_lock y i a' : inv y -> t_todo (snd y i) <> [] -> s_mutex (fst y) = None ->
  (if Nat.eqb i r then runner_at a' = true else caller_at a' = true) -> holds a' = true ->
  inst a' = inst (t_at (snd y i)) -> a' <> CSetA -> t_at (snd y i) <> CSetA ->
  called a' = false -> called (t_at (snd y i)) = false -> match a' with HTest _ | HCall _ | HClrA _ | HDone _ | HWake _ => False | _ => True end ->
  inv (set_mutex (Some i) (fst y), put (snd y) i (mkThr (t_todo (snd y i)) a' (t_done (snd y i)))).
Proof.
  intros I Ne E At Ho Ia N1 N2 C1 C2 St. apply inv_go; auto.
  - apply core_mutex.
  - intros j N. now apply mutex_lock.
  - rewrite Ho. cbn. tauto.
  - tauto.
  - congruence.
  - intros _. destruct a'; auto; try tauto; discriminate.
Qed.
Lemma inv_unlock y i a' : inv y -> t_todo (snd y i) <> [] -> holds (t_at (snd y i)) = true ->
  (if Nat.eqb i r then runner_at a' = true else caller_at a' = true) -> holds a' = false ->
  inst a' = inst (t_at (snd y i)) -> t_at (snd y i) <> CSetA ->
  called (t_at (snd y i)) = false -> called a' = false ->
  inv (set_mutex None (fst y), put (snd y) i (mkThr (t_todo (snd y i)) a' (t_done (snd y i)))).
Proof.
  intros I Ne E At Ho Ia N2 C2 C1. apply inv_go; auto.
  - apply core_mutex.
  - intros j N. apply (mutex_unlock y i); auto.
  - rewrite Ho. cbn. split; discriminate.
  - split; [intros ->; discriminate|]. tauto.
  - congruence.
  - intros ->. rewrite Nat.eqb_refl in At. destruct a'; auto; cbn in *; try discriminate; congruence.
Qed.
(** a step at a place that holds the mutex *)
Lemma inv_keep y i s' a' : inv y -> t_todo (snd y i) <> [] -> holds (t_at (snd y i)) = true -> same_core (fst y) s' ->
  s_mutex s' = s_mutex (fst y) ->
  (if Nat.eqb i r then runner_at a' = true else caller_at a' = true) -> holds a' = true ->
  inst a' = inst (t_at (snd y i)) -> (a' = CSetA <-> t_at (snd y i) = CSetA) ->
  called a' = called (t_at (snd y i)) ->
  (i = r -> match a' with
     | HTest _ | HCall _ => s_handler (fst y) <> None
     | HRes _ _ | HClrF _ => exists f x, s_handler (fst y) = Some f /\ s_arg (fst y) = Some x /\ logged (fst y) f x
     | HClrA _ | HDone _ | HWake _ => s_handler (fst y) = None
     | _ => True end) ->
  inv (s', put (snd y) i (mkThr (t_todo (snd y i)) a' (t_done (snd y i)))).
Proof.
  intros I Ne E Co M At Ho Ia Sa Ca St. apply inv_go; auto.
  - intros j N. rewrite M. apply (i_mutex y I).
  - rewrite M, Ho. split; auto. intros _. apply (i_mutex y I). exact E.
Qed.

Ltac th_cases j i := unfold put; destruct (Nat.eqb_spec j i) as [?|?]; [subst; cbn [t_todo t_at t_done]|].

(** 142: s_handler = function *)
Lemma inv_setf y i f x rest : inv y -> i <> r -> t_todo (snd y i) = Call f x :: rest -> t_at (snd y i) = CSetF -> s_handler (fst y) = None ->
  inv (set_handler (Some f) (fst y), put (snd y) i (mkThr (t_todo (snd y i)) CSetA (t_done (snd y i)))).
Proof.
  intros I N T A Hn.
  assert (Cur : current (snd y i) f x) by (exists rest; exact T).
  assert (AllL : forall j g z, j <> r -> inst (t_at (snd y j)) = true -> current (snd y j) g z -> logged (fst y) g z).
  { intros j g z Nj Ij Cj. destruct (i_pending y I j g z Nj Ij Cj) as [L|[L _]]; [exact L|congruence]. }
  assert (NotL : ~ logged (fst y) f x).
  { intros L. destruct (i_log y I _ _ _ L) as (_ & j & p & z & E & F & G). injection E as <-.
    destruct (Distinct _ _ _ _ _ _ F (current_nth y i f x I Cur)) as [-> ->]. rewrite A in G. destruct G as [G|[_ G]]; [lia|discriminate]. }
  assert (Hi : holds (t_at (snd y i)) = true) by (rewrite A; reflexivity).
  assert (Cr : called (t_at (snd y r)) = false).
  { destruct (called (t_at (snd y r))) eqn:E; auto. pose proof (i_stage y I) as S. destruct (t_at (snd y r)); try discriminate;
      destruct S as (g & z & S & _); congruence. }
  destruct I as [J1 J2 J3 J4 J5 J6 J7 J8 J9 J10 J11 J12 J13 J14 J15].
  constructor; cbn [fst snd set_handler s_win s_loop s_mutex s_handler s_arg s_log]; unfold logged; cbn [s_log]; fold (logged (fst y)).
  - exact J1.
  - exact J2.
  - intros j. th_cases j i; apply J3.
  - intros j. th_cases j i; [rewrite T; discriminate|apply J4].
  - intros j Nj. th_cases j i; [reflexivity|auto].
  - th_cases r i; [congruence|exact J6].
  - intros j. th_cases j i; [rewrite <- (J7 i), Hi; cbn; tauto|apply J7].
  - intros j g z Nj. th_cases j i.
    + intros _ [rest' C]. cbn in C. rewrite T in C. injection C as <- <- <-. right. split; auto. congruence.
    + intros Ij Cj. left. exact (AllL j g z Nj Ij Cj).
  - intros g E. injection E as <-. exists i, x. rewrite put_same. cbn. repeat split; auto.
    + congruence.
  - intros k g b L. destruct (J10 k g b L) as (B & j & p & z & C & D & E). split; auto. exists j, p, z. split; auto. split; auto.
    th_cases j i; [|exact E]. destruct E as [E|[E F]]; [now left|rewrite A in F; discriminate].
  - exact J11.
  - intros j p g z E. th_cases j i; apply (J12 _ p g z E).
  - intros j k g z h w Nj Nk Njk. th_cases j i.
    + intros _. th_cases k i; [congruence|]. intros Ik _ Ck. right. exact (AllL k h w Nk Ik Ck).
    + intros Ij _ Cj _. left. exact (AllL j g z Nj Ij Cj).
  - intros j g z Nj. th_cases j i; [|apply J14; exact Nj]. intros _ [rest' C]. cbn in C. rewrite T in C. injection C as <- <- <-. exact NotL.
  - th_cases r i; [congruence|]. destruct (t_at (snd y r)) eqn:E; auto; try discriminate; try congruence; exfalso;
      assert (Hr : holds (t_at (snd y r)) = true) by (rewrite E in *; cbn in J6 |- *; exact J6);
      apply J7 in Hr; apply J7 in Hi; congruence.
Qed.
(** 143: s_handler_arg = context *)
Lemma inv_seta y i f x rest : inv y -> i <> r -> t_todo (snd y i) = Call f x :: rest -> t_at (snd y i) = CSetA ->
  inv (set_arg (Some x) (fst y), put (snd y) i (mkThr (t_todo (snd y i)) CSetR (t_done (snd y i)))).
Proof.
  intros I N T A.
  assert (Cur : current (snd y i) f x) by (exists rest; exact T).
  assert (NotL : ~ logged (fst y) f x) by exact (i_new y I i f x N A Cur).
  assert (Hi : holds (t_at (snd y i)) = true) by (rewrite A; reflexivity).
  assert (Ii : inst (t_at (snd y i)) = true) by (rewrite A; reflexivity).
  assert (AllL : forall j g z, j <> r -> j <> i -> inst (t_at (snd y j)) = true -> current (snd y j) g z -> logged (fst y) g z).
  { intros j g z Nj Nij Ij Cj. destruct (i_one y I j i g z f x Nj N Nij Ij Ii Cj Cur) as [L|L]; [exact L|contradiction]. }
  assert (Hf : s_handler (fst y) = Some f) by (destruct (i_pending y I i f x N Ii Cur) as [L|[L _]]; [contradiction|exact L]).
  destruct I as [J1 J2 J3 J4 J5 J6 J7 J8 J9 J10 J11 J12 J13 J14 J15].
  constructor; cbn [fst snd set_arg s_win s_loop s_mutex s_handler s_arg s_log]; unfold logged; cbn [s_log]; fold (logged (fst y)).
  - exact J1.
  - exact J2.
  - intros j. th_cases j i; apply J3.
  - intros j. th_cases j i; [rewrite T; discriminate|apply J4].
  - intros j Nj. th_cases j i; [reflexivity|auto].
  - th_cases r i; [congruence|exact J6].
  - intros j. th_cases j i; [rewrite <- (J7 i), Hi; cbn; tauto|apply J7].
  - intros j g z Nj. th_cases j i.
    + intros _ [rest' C]. cbn in C. rewrite T in C. injection C as <- <- <-. right. split; auto.
    + intros Ij Cj. left. exact (AllL j g z Nj n Ij Cj).
  - intros g E. rewrite Hf in E. injection E as <-. exists i, x. rewrite put_same. cbn. repeat split; auto.
  - intros k g b L. destruct (J10 k g b L) as (B & j & p & z & C & D & E). split; auto. exists j, p, z. split; auto. split; auto.
    th_cases j i; [|exact E]. destruct E as [E|[E F]]; auto.
  - exact J11.
  - intros j p g z E. th_cases j i; apply (J12 _ p g z E).
  - intros j k g z h w Nj Nk Njk. th_cases j i.
    + intros _. th_cases k i; [congruence|]. intros Ik _ Ck. right. exact (AllL k h w Nk n Ik Ck).
    + intros Ij _ Cj _. left. exact (AllL j g z Nj n Ij Cj).
  - intros j g z Nj. th_cases j i; [discriminate|apply J14; exact Nj].
  - th_cases r i; [congruence|]. destruct (t_at (snd y r)) eqn:E; auto; try discriminate; try congruence; exfalso;
      assert (Hr : holds (t_at (snd y r)) = true) by (rewrite E in *; cbn in J6 |- *; exact J6);
      apply J7 in Hr; apply J7 in Hi; congruence.
Qed.
(** a call returns once its function has been called *)
Lemma inv_ret y i v f x rest : inv y -> i <> r -> t_todo (snd y i) = Call f x :: rest -> t_at (snd y i) = CUnlock v ->
  logged (fst y) f x ->
  inv (set_mutex None (fst y), put (snd y) i (mkThr rest Idle (t_done (snd y i) ++ [RetCall v]))).
Proof.
  intros I N T A L.
  assert (Cur : current (snd y i) f x) by (exists rest; exact T).
  assert (Hi : holds (t_at (snd y i)) = true) by (rewrite A; reflexivity).
  assert (Ii : inst (t_at (snd y i)) = true) by (rewrite A; reflexivity).
  pose proof (current_nth y i f x I Cur) as Nth.
  destruct I as [J1 J2 J3 J4 J5 J6 J7 J8 J9 J10 J11 J12 J13 J14 J15].
  constructor; cbn [fst snd set_mutex s_win s_loop s_mutex s_handler s_arg s_log]; unfold logged; cbn [s_log]; fold (logged (fst y)).
  - exact J1.
  - exact J2.
  - intros j. th_cases j i; [|apply J3]. destruct (J3 i) as (pre & B & C). exists (pre ++ [Call f x]).
    rewrite B, T, <- app_assoc, !app_length. cbn. split; [reflexivity|lia].
  - intros j. th_cases j i; auto.
  - intros j Nj. th_cases j i; [reflexivity|auto].
  - th_cases r i; [congruence|exact J6].
  - intros j. th_cases j i; [cbn; split; discriminate|]. split; [|discriminate]. intros E. apply J7 in E, Hi. congruence.
  - intros j g z Nj. th_cases j i; [discriminate|]. apply J8; exact Nj.
  - intros g E. destruct (J9 g E) as (j & z & B & C & D & F & G). destruct (Nat.eq_dec j i) as [->|Nj].
    + destruct D as [rest' D]. rewrite T in D. injection D as <- <- <-.
      assert (Cr : called (t_at (snd y r)) = true) by (destruct (called (t_at (snd y r))) eqn:Q; auto; exfalso; apply (G eq_refl); exact L).
      exfalso. destruct (t_at (snd y r)) eqn:Q; try discriminate; cbn in J6; subst;
        assert (Hr : holds (t_at (snd y r)) = true) by (rewrite Q; reflexivity); apply J7 in Hr, Hi; congruence.
    + exists j, z. rewrite !put_other by auto. repeat split; auto.
  - intros k g b E. destruct (J10 k g b E) as (B & j & p & z & C & D & F). split; auto. exists j, p, z. split; auto. split; auto.
    th_cases j i; [|exact F]. rewrite app_length. cbn. destruct F as [F|[F G]]; left; lia.
  - exact J11.
  - intros j p g z E. th_cases j i; [|apply (J12 _ p g z E)]. rewrite app_length. cbn. intros P.
    destruct (Nat.eq_dec p (length (t_done (snd y i)))) as [->|Np]; [|apply (J12 _ p g z E); lia].
    rewrite Nth in E. injection E as <- <-. exact L.
  - intros j k g z h w Nj Nk Njk. th_cases j i; [discriminate|]. th_cases k i; [discriminate|]. now apply J13.
  - intros j g z Nj. th_cases j i; [discriminate|apply J14; exact Nj].
  - th_cases r i; [congruence|]. exact J15.
Qed.
(** 170: the call *)
Lemma inv_call y f w v : inv y -> t_todo (snd y r) <> [] -> t_at (snd y r) = HCall w -> s_handler (fst y) = Some f ->
  inv (set_log (s_log (fst y) ++ [(r, f, s_arg (fst y))]) (fst y),
       put (snd y) r (mkThr (t_todo (snd y r)) (HRes w v) (t_done (snd y r)))).
Proof.
  intros I Ne A Hf.
  assert (W : w = true) by (pose proof (i_runner y I) as Q; rewrite A in Q; exact Q). subst w.
  assert (Hr : holds (t_at (snd y r)) = true) by (rewrite A; reflexivity).
  destruct (i_handler y I f Hf) as (i & x & Ni & Ii & Ci & Ai & Li).
  assert (NA : t_at (snd y i) <> CSetA).
  { intros E. assert (Hi : holds (t_at (snd y i)) = true) by (rewrite E; reflexivity). apply Ni. exact (holder_only y i r I Hi Hr). }
  specialize (Ai NA). rewrite A in Li. specialize (Li eq_refl). rewrite Ai.
  pose proof (current_nth y i f x I Ci) as Nth.
  assert (Mono : forall g z, logged (fst y) g z -> logged (set_log (s_log (fst y) ++ [(r, f, Some x)]) (fst y)) g z).
  { intros g z L. unfold logged. cbn. apply in_or_app. now left. }
  assert (New : logged (set_log (s_log (fst y) ++ [(r, f, Some x)]) (fst y)) f x).
  { unfold logged. cbn. apply in_or_app. right. now left. }
  destruct I as [J1 J2 J3 J4 J5 J6 J7 J8 J9 J10 J11 J12 J13 J14 J15].
  constructor; cbn [fst snd set_log s_win s_loop s_mutex s_handler s_arg s_log].
  - exact J1.
  - exact J2.
  - intros j. th_cases j r; apply J3.
  - intros j. th_cases j r; [contradiction|apply J4].
  - intros j Nj. rewrite put_other by auto. auto.
  - rewrite put_same. reflexivity.
  - intros j. th_cases j r; [rewrite <- (J7 r), Hr; cbn; tauto|apply J7].
  - intros j g z Nj. rewrite put_other by auto. intros Ij Cj. destruct (J8 j g z Nj Ij Cj) as [L|L]; [left; now apply Mono|right; exact L].
  - intros g E. rewrite Hf in E. injection E as <-. exists i, x. rewrite put_other by auto. rewrite put_same. cbn. repeat split; auto. discriminate.
  - intros k g b E. apply in_app_or in E as [E|[E|[]]].
    + destruct (J10 k g b E) as (B & j & p & z & C & D & F). split; auto. exists j, p, z. split; auto. split; auto.
      th_cases j r; [|exact F]. destruct F as [F|[F G]]; [now left|]. rewrite A in G. discriminate.
    + injection E as <- <- <-. split; auto. exists i, (length (t_done (snd y i))), x. rewrite put_other by auto. auto.
  - apply (NoDup_Add (a := (r, f, Some x)) (l := s_log (fst y))).
    + rewrite <- (app_nil_r (s_log (fst y))) at 1. apply Add_app.
    + split; auto.
  - intros j p g z E. th_cases j r; intros P; apply Mono; apply (J12 _ p g z E P).
  - intros j k g z h w Nj Nk Njk. rewrite !put_other by auto. intros Ij Ik Cj Ck.
    destruct (J13 j k g z h w Nj Nk Njk Ij Ik Cj Ck) as [L|L]; [left|right]; now apply Mono.
  - intros j g z Nj. rewrite put_other by auto. intros E _ _. exfalso. apply Nj.
    assert (Hj : holds (t_at (snd y j)) = true) by (rewrite E; reflexivity). apply J7 in Hj, Hr. congruence.
  - rewrite put_same. cbn [t_at]. exists f, x. auto.
Qed.
(** 171: s_handler = NULL *)
Lemma inv_clrf y w : inv y -> t_todo (snd y r) <> [] -> t_at (snd y r) = HClrF w ->
  inv (set_handler None (fst y), put (snd y) r (mkThr (t_todo (snd y r)) (HClrA w) (t_done (snd y r)))).
Proof.
  intros I Ne A.
  assert (W : w = true) by (pose proof (i_runner y I) as Q; rewrite A in Q; exact Q). subst w.
  assert (Hr : holds (t_at (snd y r)) = true) by (rewrite A; reflexivity).
  pose proof (i_stage y I) as S. rewrite A in S. destruct S as (f & x & Hf & Hx & L).
  destruct I as [J1 J2 J3 J4 J5 J6 J7 J8 J9 J10 J11 J12 J13 J14 J15].
  constructor; cbn [fst snd set_handler s_win s_loop s_mutex s_handler s_arg s_log]; unfold logged; cbn [s_log]; fold (logged (fst y)).
  - exact J1.
  - exact J2.
  - intros j. th_cases j r; apply J3.
  - intros j. th_cases j r; [contradiction|apply J4].
  - intros j Nj. rewrite put_other by auto. auto.
  - rewrite put_same. reflexivity.
  - intros j. th_cases j r; [rewrite <- (J7 r), Hr; cbn; tauto|apply J7].
  - intros j g z Nj. rewrite put_other by auto. intros Ij Cj. left. destruct (J8 j g z Nj Ij Cj) as [M|[M P]]; [exact M|].
    assert (NA : t_at (snd y j) <> CSetA).
    { intros E. assert (Hj : holds (t_at (snd y j)) = true) by (rewrite E; reflexivity). apply J7 in Hj, Hr. congruence. }
    specialize (P NA). rewrite Hf in M. rewrite Hx in P. injection M as <-. injection P as <-. exact L.
  - discriminate.
  - intros k g b E. destruct (J10 k g b E) as (B & j & p & z & C & D & F). split; auto. exists j, p, z. split; auto. split; auto.
    th_cases j r; [|exact F]. destruct F as [F|[F G]]; [now left|]. rewrite A in G. discriminate.
  - exact J11.
  - intros j p g z E. th_cases j r; apply (J12 _ p g z E).
  - intros j k g z h w Nj Nk Njk. rewrite !put_other by auto. now apply J13.
  - intros j g z Nj. rewrite put_other by auto. apply J14; exact Nj.
  - rewrite put_same. reflexivity.
Qed.
(** 172: s_handler_arg = NULL *)
Lemma inv_clra y w : inv y -> t_todo (snd y r) <> [] -> t_at (snd y r) = HClrA w ->
  inv (set_arg None (fst y), put (snd y) r (mkThr (t_todo (snd y r)) (HDone w) (t_done (snd y r)))).
Proof.
  intros I Ne A.
  assert (W : w = true) by (pose proof (i_runner y I) as Q; rewrite A in Q; exact Q). subst w.
  assert (Hr : holds (t_at (snd y r)) = true) by (rewrite A; reflexivity).
  pose proof (i_stage y I) as S. rewrite A in S.
  destruct I as [J1 J2 J3 J4 J5 J6 J7 J8 J9 J10 J11 J12 J13 J14 J15].
  constructor; cbn [fst snd set_arg s_win s_loop s_mutex s_handler s_arg s_log]; unfold logged; cbn [s_log]; fold (logged (fst y)).
  - exact J1.
  - exact J2.
  - intros j. th_cases j r; apply J3.
  - intros j. th_cases j r; [contradiction|apply J4].
  - intros j Nj. rewrite put_other by auto. auto.
  - rewrite put_same. reflexivity.
  - intros j. th_cases j r; [rewrite <- (J7 r), Hr; cbn; tauto|apply J7].
  - intros j g z Nj. rewrite put_other by auto. intros Ij Cj. left. destruct (J8 j g z Nj Ij Cj) as [M|[M P]]; [exact M|congruence].
  - intros g E. congruence.
  - intros k g b E. destruct (J10 k g b E) as (B & j & p & z & C & D & F). split; auto. exists j, p, z. split; auto. split; auto.
    th_cases j r; [|exact F]. destruct F as [F|[F G]]; [now left|]. rewrite A in G. discriminate.
  - exact J11.
  - intros j p g z E. th_cases j r; apply (J12 _ p g z E).
  - intros j k g z h w Nj Nk Njk. rewrite !put_other by auto. now apply J13.
  - intros j g z Nj. rewrite put_other by auto. apply J14; exact Nj.
  - rewrite put_same. exact S.
Qed.
(** 853-855: the loop is marked as running *)
Lemma inv_loop y : inv y -> t_todo (snd y r) <> [] -> t_at (snd y r) = RLook ->
  inv (set_mutex None (set_loop (Some r) (fst y)), put (snd y) r (mkThr (t_todo (snd y r)) RLock (t_done (snd y r)))).
Proof.
  intros I Ne A.
  assert (Hr : holds (t_at (snd y r)) = true) by (rewrite A; reflexivity).
  pose proof (inv_unlock y r RLock I Ne Hr) as Q. rewrite Nat.eqb_refl, A in Q.
  specialize (Q eq_refl eq_refl eq_refl ltac:(discriminate) eq_refl eq_refl).
  destruct Q as [J1 J2 J3 J4 J5 J6 J7 J8 J9 J10 J11 J12 J13 J14 J15].
  constructor; auto.
Qed.

Definition set_done {val} (a : at_ val) : bool := match a with CSetA | CSetR | CSetD => true | _ => false end.
Definition late {val} (a : at_ val) : bool := match a with CGet | CClrR _ | CClrD _ | CUnlock _ => true | _ => false end.
Record inv2 (y : sys) : Prop := {
  i2 : inv y;
  i2_ready : forall i f x, i <> r -> inst (t_at (snd y i)) = true -> set_done (t_at (snd y i)) = false -> current (snd y i) f x ->
     logged (fst y) f x \/ s_ready (fst y) = false;
  i2_late : forall i f x, i <> r -> late (t_at (snd y i)) = true -> current (snd y i) f x -> logged (fst y) f x;
  i2_loop : match t_at (snd y r) with Idle | RLook => s_loop (fst y) = None | _ => True end;
  i2_free : forall i, t_at (snd y i) = CSetF -> s_handler (fst y) = None }.

Lemma inv2_new : inv2 (sys_new todo).
Proof.
  constructor.
  - constructor; cbn; try tauto; try discriminate; auto.
    + intros i. exists []. auto.
    + intros i. split; discriminate.
    + constructor.
    + intros. lia.
  - cbn. discriminate.
  - cbn. discriminate.
  - reflexivity.
  - discriminate.
Qed.

(** The rest of inv2 after a step of one thread. *)
Lemma inv2_put y i s' t' : inv2 y -> inv (s', put (snd y) i t') ->
  (forall g z, logged (fst y) g z -> logged s' g z) ->
  (s_ready s' = false \/ s_ready s' = s_ready (fst y) \/ s_handler (fst y) = None) ->
  (if Nat.eqb i r then match t_at t' with Idle | RLook => s_loop s' = None | _ => True end else s_loop s' = s_loop (fst y)) ->
  (t_at t' = CSetF -> s_handler s' = None) ->
  (s_handler s' = s_handler (fst y) \/ s_handler s' = None \/ holds (t_at (snd y i)) = true) ->
  (i <> r -> forall f x, current t' f x ->
     (inst (t_at t') = true -> set_done (t_at t') = false -> logged s' f x \/ s_ready s' = false) /\
     (late (t_at t') = true -> logged s' f x)) ->
  inv2 (s', put (snd y) i t').
Proof.
  intros [I R L Lo Fr] I' Mo Re Li Fi Ha C. constructor; auto; cbn [fst snd].
  - intros j f x Nj. th_cases j i.
    + intros A B D. exact (proj1 (C Nj f x D) A B).
    + intros A B D. destruct (R j f x Nj A B D) as [H|H]; [left; now apply Mo|]. destruct Re as [E|[E|E]]; [now right|rewrite E; now right|].
      left. apply Mo. destruct (i_pending y I j f x Nj A D) as [Q|[Q _]]; [exact Q|congruence].
  - intros j f x Nj. th_cases j i.
    + intros A D. exact (proj2 (C Nj f x D) A).
    + intros A D. apply Mo. exact (L j f x Nj A D).
  - unfold put. rewrite (Nat.eqb_sym r i). destruct (Nat.eqb i r); [exact Li|]. rewrite Li. exact Lo.
  - intros j. th_cases j i; [exact Fi|]. intros E. destruct Ha as [Ha|[Ha|Ha]]; [rewrite Ha; now apply (Fr j)|exact Ha|].
    exfalso. apply n. apply (holder_only y j i I); auto. now rewrite E.
Qed.
Lemma inv2_wake y i a : inv2 y -> t_todo (snd y i) <> [] -> same_view (t_at (snd y i)) a ->
  set_done a = set_done (t_at (snd y i)) -> late a = late (t_at (snd y i)) ->
  match a with Idle | RLook | CSetF => False | _ => True end ->
  inv2 (fst y, put (fun j => wake (snd y j)) i (mkThr (t_todo (snd y i)) a (t_done (snd y i)))).
Proof.
  intros [I R L Lo Fr] Ne V S La Na. constructor; cbn [fst snd].
  - apply (inv_view y); auto. { apply core_refl. } now apply wakes_view.
  - intros j f x Nj. th_cases j i.
    + intros A B C. apply (R i f x Nj); auto; [|congruence].
      destruct V as (_ & V & _). now rewrite V.
    + cbn. rewrite inst_wake. intros A B C. apply (R j f x Nj); auto. destruct (t_at (snd y j)); auto.
  - intros j f x Nj. th_cases j i.
    + rewrite La. intros A C. now apply (L i).
    + cbn. intros A C. apply (L j f x Nj); auto. destruct (t_at (snd y j)); auto.
  - th_cases r i; [destruct a; tauto|]. cbn. destruct (t_at (snd y r)); cbn; auto.
  - intros j. th_cases j i; [destruct a; try tauto; discriminate|]. cbn. intros E. apply (Fr j). destruct (t_at (snd y j)); auto; discriminate.
Qed.
Lemma inv2_runner y s' a : inv2 y -> inv (s', put (snd y) r (mkThr (t_todo (snd y r)) a (t_done (snd y r)))) ->
  (forall g z, logged (fst y) g z -> logged s' g z) ->
  (s_ready s' = false \/ s_ready s' = s_ready (fst y) \/ s_handler (fst y) = None) ->
  match a with Idle | RLook => s_loop s' = None | CSetF => False | _ => True end ->
  (s_handler s' = s_handler (fst y) \/ s_handler s' = None) ->
  inv2 (s', put (snd y) r (mkThr (t_todo (snd y r)) a (t_done (snd y r)))).
Proof.
  intros I A B C D E. apply inv2_put; auto; try congruence.
  - rewrite Nat.eqb_refl. cbn. destruct a; auto.
  - cbn. intros ->. contradiction.
  - tauto.
Qed.

Lemma runner_step y : inv2 y -> t_todo (snd y r) <> [] ->
  inv2 (let (s, m) := tstep apply creates r (fst y) Run (t_at (snd y r)) in apply_move y r s m).
Proof.
  intros I2 Ne. pose proof (i2 y I2) as I. pose proof (i_runner y I) as Ru. pose proof (i2_loop y I2) as Lo.
  pose proof (Nat.eqb_refl r) as Er. pose proof (i_stage y I) as St.
  destruct (t_at (snd y r)) eqn:A; try discriminate; cbn in Ru; subst; cbn [tstep].
  - unfold lock. destruct (s_mutex (fst y)) eqn:M; cbn; [destruct y; exact I2|].
    apply inv2_runner; auto. apply inv_lock; auto; rewrite ?A, ?Er; auto; discriminate.
  - rewrite Lo. cbn. unfold unlock. apply inv2_runner; auto. now apply inv_loop.
  - unfold lock. destruct (s_mutex (fst y)) eqn:M; cbn; [destruct y; exact I2|].
    apply inv2_runner; auto. apply inv_lock; auto; rewrite ?A, ?Er; auto; discriminate.
  - rewrite (i_win y I). destruct (s_handler (fst y)) eqn:H; cbn.
    + apply inv2_runner; auto. apply inv_keep; auto; rewrite ?A, ?Er; auto; try apply core_refl; [split; discriminate|congruence].
    + apply inv2_runner; auto. apply inv_unlock; auto; rewrite ?A, ?Er; auto; discriminate.
  - cbn. destruct y; exact I2.
  - unfold lock. destruct (s_mutex (fst y)) eqn:M; cbn; [destruct y; exact I2|].
    apply inv2_runner; auto. apply inv_lock; auto; rewrite ?A, ?Er; auto; discriminate.
  - destruct (s_handler (fst y)) eqn:H; cbn; [|congruence].
    apply inv2_runner; auto. apply inv_keep; auto; rewrite ?A, ?Er; auto; try apply core_refl; [split; discriminate|congruence].
  - destruct (s_handler (fst y)) as [f|] eqn:H; cbn; [|congruence].
    unfold call_fn. destruct (i_handler y I f H) as (i & x & Ni & Ii & Ci & _). rewrite (current_creates y i f x I Ni Ci). cbn.
    apply inv2_runner; auto; [now apply inv_call|]. intros g z L. unfold logged. cbn. apply in_or_app. now left.
  - cbn. apply inv2_runner; auto. apply inv_keep; auto; rewrite ?A, ?Er; auto; try (repeat split; fail); split; discriminate.
  - cbn. apply inv2_runner; auto. now apply inv_clrf.
  - cbn. apply inv2_runner; auto. now apply inv_clra.
  - cbn. apply inv2_runner; auto. apply inv_keep; auto; rewrite ?A, ?Er; auto; try (repeat split; fail); split; discriminate.
  - cbn. apply inv2_wake; auto; rewrite ?A; try reflexivity. repeat split; auto; discriminate.
Qed.

Lemma caller_step y i c rest : inv2 y -> i <> r -> t_todo (snd y i) = c :: rest ->
  inv2 (let (s, m) := tstep apply creates i (fst y) c (t_at (snd y i)) in apply_move y i s m).
Proof.
  intros I2 N T. pose proof (i2 y I2) as I. pose proof (i_caller y I i N) as Ca.
  assert (Ne : t_todo (snd y i) <> []) by (rewrite T; discriminate).
  destruct (caller_item y i c rest I N T) as (f & x & ->).
  assert (Cur : current (snd y i) f x) by (exists rest; exact T).
  assert (En : Nat.eqb i r = false) by now apply Nat.eqb_neq.
  assert (CU : forall a g z, current (mkThr (t_todo (snd y i)) a (t_done (snd y i))) g z -> g = f /\ z = x).
  { intros a g z [rest' Q]. cbn in Q. rewrite T in Q. injection Q as <- <- _. auto. }
  pose proof (i2_ready y I2 i f x N) as Rd. pose proof (i2_late y I2 i f x N) as La.
  destruct (t_at (snd y i)) eqn:A; try discriminate; cbn [tstep].
  - unfold lock. destruct (s_mutex (fst y)) eqn:M; cbn; [destruct y; exact I2|].
    apply inv2_put; auto; try (rewrite En; reflexivity); try discriminate; try (right; right; rewrite A; reflexivity); [|split; discriminate]. apply inv_lock; auto; rewrite ?A, ?En; auto; discriminate.
  - rewrite (i_win y I). replace (is_me (s_loop (fst y)) i) with false.
    2:{ destruct (i_loop y I) as [-> | ->]; cbn; auto. symmetry. rewrite Nat.eqb_sym. exact En. }
    cbn. apply inv2_put; auto; try (rewrite En; reflexivity); try discriminate; try (right; right; rewrite A; reflexivity); [|split; discriminate].
    apply inv_keep; auto; rewrite ?A, ?En; auto; try apply core_refl; split; discriminate.
  - destruct (s_handler (fst y)) eqn:H; cbn.
    + apply inv2_put; auto; try (rewrite En; reflexivity); try discriminate; try (right; right; rewrite A; reflexivity); [|split; discriminate]. apply inv_unlock; auto; rewrite ?A, ?En; auto; discriminate.
    + apply inv2_put; auto; try (rewrite En; reflexivity); try discriminate; try (right; right; rewrite A; reflexivity); [|split; discriminate].
      apply inv_keep; auto; rewrite ?A, ?En; auto; try apply core_refl; split; discriminate.
  - cbn. destruct y; exact I2.
  - unfold lock. destruct (s_mutex (fst y)) eqn:M; cbn; [destruct y; exact I2|].
    apply inv2_put; auto; try (rewrite En; reflexivity); try discriminate; try (right; right; rewrite A; reflexivity); [|split; discriminate]. apply inv_lock; auto; rewrite ?A, ?En; auto; discriminate.
  - cbn. apply inv2_put; auto; try (rewrite En; reflexivity); try discriminate; try (right; right; rewrite A; reflexivity); [|split; discriminate].
    apply (inv_setf y i f x rest); auto. now apply (i2_free y I2 i).
  - cbn. apply inv2_put; auto; try (rewrite En; reflexivity); try discriminate; try (right; right; rewrite A; reflexivity); [|split; discriminate].
    apply (inv_seta y i f x rest); auto.
  - cbn. apply inv2_put; auto; try (rewrite En; reflexivity); try discriminate; try (right; right; rewrite A; reflexivity); [|split; discriminate].
    apply inv_keep; auto; rewrite ?A, ?En; auto; try (repeat split; fail); split; discriminate.
  - cbn. apply inv2_put; auto; try (rewrite En; reflexivity); try discriminate; try (right; right; rewrite A; reflexivity); [|split; [|discriminate]; intros; now right].
    apply inv_keep; auto; rewrite ?A, ?En; auto; try (repeat split; fail); split; discriminate.
  - cbn. apply inv2_wake; auto; rewrite ?A; try reflexivity. repeat split; auto; discriminate.
  - destruct (s_ready (fst y)) eqn:Q; cbn.
    + destruct (Rd eq_refl eq_refl Cur) as [L|L]; [|congruence].
      apply inv2_put; auto; try (rewrite En; reflexivity); try discriminate; try (right; right; rewrite A; reflexivity); [|intros _ g z C; destruct (CU _ _ _ C) as [-> ->]; auto].
      apply inv_keep; auto; rewrite ?A, ?En; auto; try apply core_refl; split; discriminate.
    + apply inv2_put; auto; try (rewrite En; reflexivity); try discriminate; try (right; right; rewrite A; reflexivity); [|intros; split; [intros; right; exact Q|discriminate]]. apply inv_unlock; auto; rewrite ?A, ?En; auto; discriminate.
  - cbn. destruct y; exact I2.
  - unfold lock. destruct (s_mutex (fst y)) eqn:M; cbn; [destruct y; exact I2|].
    apply inv2_put; auto; try (rewrite En; reflexivity); try discriminate; try (right; right; rewrite A; reflexivity).
    + apply inv_lock; auto; rewrite ?A, ?En; auto; discriminate.
    + intros _ g z C. destruct (CU _ _ _ C) as [-> ->]. cbn. split; [auto|discriminate].
  - cbn. specialize (La eq_refl Cur).
    apply inv2_put; auto; try (rewrite En; reflexivity); try discriminate; try (right; right; rewrite A; reflexivity); [|intros _ g z C; destruct (CU _ _ _ C) as [-> ->]; auto].
    apply inv_keep; auto; rewrite ?A, ?En; auto; try apply core_refl; split; discriminate.
  - cbn. specialize (La eq_refl Cur).
    apply inv2_put; auto; try (rewrite En; reflexivity); try discriminate; try (right; right; rewrite A; reflexivity); [|intros _ g z C; destruct (CU _ _ _ C) as [-> ->]; auto].
    apply inv_keep; auto; rewrite ?A, ?En; auto; try (repeat split; fail); split; discriminate.
  - cbn. specialize (La eq_refl Cur).
    apply inv2_put; auto; try (rewrite En; reflexivity); try discriminate; try (right; right; rewrite A; reflexivity); [|intros _ g z C; destruct (CU _ _ _ C) as [-> ->]; auto].
    apply inv_keep; auto; rewrite ?A, ?En; auto; try (repeat split; fail); split; discriminate.
  - cbn. specialize (La eq_refl Cur). rewrite T. cbn [tl].
    apply inv2_put; auto; try (rewrite En; reflexivity); try discriminate; try (right; right; rewrite A; reflexivity); [|split; discriminate]. now apply (inv_ret y i v f x rest).
Qed.
Lemma runner_todo y c rest : inv y -> t_todo (snd y r) = c :: rest -> c = Run.
Proof. exact (runner_item y c rest). Qed.

Lemma inv2_step y e : inv2 y -> inv2 (sstep apply creates y e).
Proof.
  intros I2. pose proof (i2 y I2) as I. destruct e as [i|i|i]; cbn [sstep].
  - destruct (t_todo (snd y i)) as [|c rest] eqn:T; [exact I2|]. destruct (Nat.eq_dec i r) as [->|N].
    + rewrite (runner_item y c rest I T). apply runner_step; auto. rewrite T. discriminate.
    + apply (caller_step y i c rest); auto.
  - destruct I2 as [_ R L Lo Fr]. constructor; cbn [fst snd].
    + apply (inv_view y); auto; [apply core_refl|]. intros j. th_cases j i; [cbn; repeat split; auto; apply same_wake|].
      split; auto. split; auto. destruct (t_at (snd y j)); repeat split; cbn; auto.
    + intros j f x Nj. th_cases j i; [|now apply R]. cbn. rewrite inst_wake. intros A B C. apply (R i f x Nj); auto.
      destruct (t_at (snd y i)); auto.
    + intros j f x Nj. th_cases j i; [|now apply L]. cbn. intros A C. apply (L i f x Nj); auto. destruct (t_at (snd y i)); auto.
    + unfold put; destruct (Nat.eqb_spec r i) as [<-|]; [|exact Lo]. cbn. destruct (t_at (snd y r)); auto.
    + intros j. th_cases j i; [|apply Fr]. cbn. intros E. apply (Fr i). destruct (t_at (snd y i)); auto; discriminate.
  - destruct (t_at (snd y i)) eqn:A; auto. exfalso. destruct (Nat.eq_dec i r) as [->|N].
    + pose proof (i_runner y I) as Q. rewrite A in Q. discriminate.
    + pose proof (i_caller y I i N) as Q. rewrite A in Q. discriminate.
Qed.
Lemma inv2_run l : forall y, inv2 y -> inv2 (srun apply creates y l).
Proof. induction l as [|e l IH]; intros y I; [exact I|]. apply IH. now apply inv2_step. Qed.

Lemma called_once l : let y := srun apply creates (sys_new todo) l in
  NoDup (s_log (fst y)) /\
  (forall k f a, In (k, f, a) (s_log (fst y)) -> k = r /\ exists i p x, a = Some x /\ nth_error (todo i) p = Some (Call f x)) /\
  (forall i p f x, nth_error (todo i) p = Some (Call f x) -> returned y i p -> In (r, f, Some x) (s_log (fst y))).
Proof.
  intros y. assert (I : inv y) by (apply i2, inv2_run, inv2_new). split; [apply I|]. split.
  - intros k f a E. destruct (i_log y I k f a E) as (A & i & p & x & B & C & _). split; auto. exists i, p, x. auto.
  - intros i p f x E Q. exact (i_done y I i p f x E Q).
Qed.
End Proofs.
