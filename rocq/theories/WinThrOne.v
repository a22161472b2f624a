(** Proofs for C104: one caller while no window exists. *)
From Coq Require Import List Bool Arith Lia.
From Verif Require Import WinThrModel WinThrSpec WinThrProofs.
Import ListNotations.

Section One.
Context {fn cx val : Type}.
Variable apply : fn -> option cx -> val.
Variable creates : fn -> bool.
Notation sys := (sys fn cx val).
Variable r c : nat.
Variable todo : nat -> list (item fn cx).
Hypothesis Setup : waiting_setup creates r todo.
Hypothesis Distinct : distinct_calls todo.
Hypothesis Nc : c <> r.
Hypothesis Only : forall i, i <> r -> i <> c -> todo i = [].

Definition in_call (a : at_ val) : Prop := match a with HClrA _ | HDone _ => True | _ => False end.
(** what ties the caller's place to the runner's and to the shared variables *)
Definition tied (s : shared fn cx val) (ar ac : at_ val) (f : fn) (x : cx) : Prop :=
  match ar with HRes _ v => v = Some (apply f (Some x)) | HClrF _ => s_result s = Some (apply f (Some x)) | _ => True end /\
  match ac with
  | CDone | CDoneSleep | CDoneLock | CGet => s_handler s = None -> s_result s = Some (apply f (Some x))
  | CClrR v | CClrD v | CUnlock v => v = Some (apply f (Some x)) | _ => True end.
Definition linked (s : shared fn cx val) (ar ac : at_ val) : Prop :=
  match ac with CSetA | CSetR | CSetD | CWake => s_handler s <> None
    | CGet => s_handler s = None
    | CFreeSleep | CFreeLock => False | _ => True end /\
  match ac with CDone | CDoneSleep | CDoneLock => s_handler s <> None -> ar <> RSleep | _ => True end /\
  (s_handler s = None ->
    match ac with
    | CDone | CDoneLock => s_ready s = true \/ in_call ar
    | CDoneSleep => in_call ar \/ (exists w, ar = HWake w) /\ s_ready s = true
    | _ => True end).
Record one (y : sys) : Prop := {
  o2 : inv2 r todo y;
  o_done : exists pre, todo c = pre ++ t_todo (snd y c) /\ t_done (snd y c) = map (answer apply) pre;
  o_tied : forall f x, current (snd y c) f x -> tied (fst y) (t_at (snd y r)) (t_at (snd y c)) f x;
  o_link : linked (fst y) (t_at (snd y r)) (t_at (snd y c)) }.

Lemma others_idle (y : sys) i : inv r todo y -> i <> r -> i <> c -> t_todo (snd y i) = [] /\ t_at (snd y i) = Idle.
Proof.
  intros I A B. destruct (i_kept _ _ y I i) as (pre & E & _). rewrite (Only i A B) in E. symmetry in E. apply app_eq_nil in E as [_ E].
  split; auto. now apply (i_idle _ _ y I).
Qed.
Lemma handler_caller (y : sys) f : inv r todo y -> s_handler (fst y) = Some f ->
  inst (t_at (snd y c)) = true /\ exists x, current (snd y c) f x /\ (t_at (snd y c) <> CSetA -> s_arg (fst y) = Some x).
Proof.
  intros I E. destruct (i_handler _ _ y I f E) as (i & x & A & B & C & D & _). destruct (Nat.eq_dec i c) as [->|N]; [eauto|].
  destruct (others_idle y i I A N) as [_ Q]. rewrite Q in B. discriminate.
Qed.
Lemma one_new : one (sys_new todo).
Proof.
  constructor; cbn; auto.
  - now apply inv2_new.
  - exists []. auto.
  - unfold tied. auto.
  - repeat split; auto.
Qed.

(** not both at places that hold the mutex *)
Lemma not_both (y : sys) : inv r todo y -> holds (t_at (snd y r)) = true -> holds (t_at (snd y c)) = true -> False.
Proof. intros I A B. apply Nc. symmetry. exact (holder_only _ _ y r c I A B). Qed.

Lemma current_same (y : sys) f x g z : current (snd y c) f x -> current (snd y c) g z -> f = g /\ x = z.
Proof. intros [a A] [b B]. rewrite A in B. injection B as -> -> _. auto. Qed.

(** the runner's step, as it shows *)
Lemma put_step (y : sys) i s' t' : one y -> inv2 r todo (s', put (snd y) i t') ->
  (i <> r -> i <> c -> False) ->
  (i = c -> exists pre, todo c = pre ++ t_todo t' /\ t_done t' = map (answer apply) pre) ->
  (forall f x, current (if Nat.eqb i c then t' else snd y c) f x ->
     tied s' (if Nat.eqb i r then t_at t' else t_at (snd y r)) (if Nat.eqb i c then t_at t' else t_at (snd y c)) f x) ->
  linked s' (if Nat.eqb i r then t_at t' else t_at (snd y r)) (if Nat.eqb i c then t_at t' else t_at (snd y c)) ->
  one (s', put (snd y) i t').
Proof.
  intros O I N D T L. assert (Er : t_at (put (snd y) i t' r) = if Nat.eqb i r then t_at t' else t_at (snd y r)).
  { unfold put. rewrite Nat.eqb_sym. destruct (Nat.eqb i r); reflexivity. }
  assert (Ec : put (snd y) i t' c = if Nat.eqb i c then t' else snd y c).
  { unfold put. now rewrite Nat.eqb_sym. }
  assert (Ec' : t_at (put (snd y) i t' c) = if Nat.eqb i c then t_at t' else t_at (snd y c)).
  { rewrite Ec. now destruct (Nat.eqb i c). }
  constructor; auto; cbn [fst snd].
  - unfold put. destruct (Nat.eqb_spec c i) as [<-|]; [now apply D|apply O].
  - intros f x. rewrite Er, Ec', Ec. apply T.
  - rewrite Er, Ec'. exact L.
Qed.
Lemma wake_step (y : sys) i s' t' : one y -> inv2 r todo (s', put (fun j => wake (snd y j)) i t') ->
  (i = c -> exists pre, todo c = pre ++ t_todo t' /\ t_done t' = map (answer apply) pre) ->
  (forall f x, current (if Nat.eqb i c then t' else snd y c) f x ->
     tied s' (if Nat.eqb i r then t_at t' else wake_at (t_at (snd y r))) (if Nat.eqb i c then t_at t' else wake_at (t_at (snd y c))) f x) ->
  linked s' (if Nat.eqb i r then t_at t' else wake_at (t_at (snd y r))) (if Nat.eqb i c then t_at t' else wake_at (t_at (snd y c))) ->
  one (s', put (fun j => wake (snd y j)) i t').
Proof.
  intros O I D T L. assert (Er : t_at (put (fun j => wake (snd y j)) i t' r) = if Nat.eqb i r then t_at t' else wake_at (t_at (snd y r))).
  { unfold put. rewrite Nat.eqb_sym. destruct (Nat.eqb i r); reflexivity. }
  assert (Ec : put (fun j => wake (snd y j)) i t' c = if Nat.eqb i c then t' else wake (snd y c)).
  { unfold put. now rewrite Nat.eqb_sym. }
  assert (Ec' : t_at (put (fun j => wake (snd y j)) i t' c) = if Nat.eqb i c then t_at t' else wake_at (t_at (snd y c))).
  { rewrite Ec. now destruct (Nat.eqb i c). }
  constructor; auto; cbn [fst snd].
  - unfold put. destruct (Nat.eqb_spec c i) as [<-|]; [now apply D|apply O].
  - intros f x. rewrite Er, Ec', Ec. destruct (Nat.eqb i c) eqn:Q; [apply T|]. intros [rest C]. apply T. exists rest. exact C.
  - rewrite Er, Ec'. exact L.
Qed.

Ltac finh H := unfold linked in *; cbn in *; rewrite ?H in *;
  match goal with |- context [t_at (snd ?y c)] => destruct (t_at (snd y c)) end; cbn in *;
  intuition (try congruence; try discriminate; try match goal with H : exists _, _ |- _ => destruct H; congruence end).
Ltac fin := unfold linked in *; cbn in *;
  match goal with |- context [t_at (snd ?y c)] => destruct (t_at (snd y c)) end; cbn in *;
  intuition (try congruence; try discriminate; try match goal with H : exists _, _ |- _ => destruct H; congruence end).

Lemma one_runner (y : sys) : one y -> t_todo (snd y r) <> [] ->
  inv2 r todo (let (s, m) := tstep apply creates r (fst y) Run (t_at (snd y r)) in apply_move y r s m) ->
  one (let (s, m) := tstep apply creates r (fst y) Run (t_at (snd y r)) in apply_move y r s m).
Proof.
  intros O Ne I2'. pose proof (o2 y O) as I2. pose proof (i2 _ _ y I2) as I.
  pose proof (not_both y I) as NB. pose proof (i_runner _ _ y I) as Ru. pose proof (i_caller _ _ y I c Nc) as Ca.
  pose proof (o_tied y O) as Ot. pose proof (o_link y O) as Ol. pose proof (i_stage _ _ y I) as St. pose proof (i2_loop _ _ y I2) as Lo.
  assert (E1 : Nat.eqb r r = true) by apply Nat.eqb_refl.
  assert (E2 : Nat.eqb r c = false) by (apply Nat.eqb_neq; congruence).
  pose proof (fun f => handler_caller y f I) as HC. pose proof (i_mutex _ _ y I c) as MX.
  destruct (t_at (snd y r)) eqn:A; try discriminate Ru; cbn in Ru; try subst w; cbn [tstep] in *.
  - unfold lock in *. destruct (s_mutex (fst y)) eqn:M; cbn in *; [destruct y; exact O|].
    apply put_step; auto; rewrite ?E1, ?E2; auto; try congruence. 
    fin.
  - rewrite Lo in *. cbn in *. apply put_step; auto; rewrite ?E1, ?E2; auto; try congruence.
    fin.
  - unfold lock in *. destruct (s_mutex (fst y)) eqn:M; cbn in *; [destruct y; exact O|].
    apply put_step; auto; rewrite ?E1, ?E2; auto; try congruence. 
    fin.
  - rewrite (i_win _ _ y I) in *. specialize (NB eq_refl). destruct (s_handler (fst y)) eqn:H; cbn in *.
    + apply put_step; auto; rewrite ?E1, ?E2; auto; try congruence.
      finh H.
    + apply put_step; auto; rewrite ?E1, ?E2; auto; try congruence.
      finh H.
  - cbn in *. destruct y; exact O.
  - unfold lock in *. destruct (s_mutex (fst y)) eqn:M; cbn in *; [destruct y; exact O|].
    apply put_step; auto; rewrite ?E1, ?E2; auto; try congruence. 
    fin.
  - specialize (NB eq_refl). destruct (s_handler (fst y)) eqn:H; cbn in *; [|congruence].
    apply put_step; auto; rewrite ?E1, ?E2; auto; try congruence.
    finh H.
  - specialize (NB eq_refl). destruct (s_handler (fst y)) as [f|] eqn:H; cbn in *; [|congruence].
    destruct (HC f eq_refl) as (Ic & x & Cx & Ax).
    assert (Cf : creates f = false) by exact (current_creates creates r todo Setup y c f x I Nc Cx).
    unfold call_fn in *. rewrite Cf in *. cbn in *.
    assert (NA : t_at (snd y c) <> CSetA) by (intros Q; rewrite Q in NB; apply NB; reflexivity).
    apply put_step; auto; rewrite ?E1, ?E2; auto; try congruence.
    + intros g z C. destruct (current_same y f x g z Cx C) as [<- <-]. split; [now rewrite (Ax NA)|]. apply (Ot f x Cx).
    + finh H.
  - specialize (NB eq_refl). cbn in *. destruct St as (f & x & Hf & Hx & L).
    apply put_step; auto; rewrite ?E1, ?E2; auto; try congruence.
    + intros g z C. destruct (Ot g z C) as [B _]. split; [exact B|]. cbn. destruct (t_at (snd y c)); auto; try congruence; exfalso; now apply NB.
    + finh Hf.
  - specialize (NB eq_refl). cbn in *. destruct St as (f & x & Hf & Hx & L).
    apply put_step; auto; rewrite ?E1, ?E2; auto; try congruence.
    + intros g z C. destruct (Ot g z C) as [B _]. split; [exact Logic.I|]. cbn. destruct (t_at (snd y c)); auto; exfalso; now apply NB.
    + finh Hf.
  - specialize (NB eq_refl). cbn in *.
    apply put_step; auto; rewrite ?E1, ?E2; auto; try congruence.
    finh St.
  - specialize (NB eq_refl). cbn in *.
    apply put_step; auto; rewrite ?E1, ?E2; auto; try congruence.
    finh St; right; split; eauto.
  - specialize (NB eq_refl). cbn in *.
    apply wake_step; auto; rewrite ?E1, ?E2; auto; try congruence.
    + intros g z C. destruct (Ot g z C) as [B D]. split; [exact Logic.I|]. destruct (t_at (snd y c)); auto.
    + finh St.
Qed.

Lemma not_inst_free (y : sys) : inv r todo y -> inst (t_at (snd y c)) = false -> s_handler (fst y) = None.
Proof. intros I E. destruct (s_handler (fst y)) as [f|] eqn:H; auto. destruct (handler_caller y f I H) as [Q _]. congruence. Qed.

Ltac finr H := unfold linked in *; cbn in *; rewrite ?H in *;
  match goal with |- context [t_at (snd ?y r)] => destruct (t_at (snd y r)) end; cbn in *;
  intuition (try congruence; try discriminate; try match goal with H : exists _, _ |- _ => destruct H; congruence end).

Lemma one_caller (y : sys) it rest : one y -> t_todo (snd y c) = it :: rest ->
  inv2 r todo (let (s, m) := tstep apply creates c (fst y) it (t_at (snd y c)) in apply_move y c s m) ->
  one (let (s, m) := tstep apply creates c (fst y) it (t_at (snd y c)) in apply_move y c s m).
Proof.
  intros O T I2'. pose proof (o2 y O) as I2. pose proof (i2 _ _ y I2) as I.
  pose proof (not_both y I) as NB. pose proof (i_runner _ _ y I) as Ru. pose proof (i_caller _ _ y I c Nc) as Ca.
  pose proof (o_tied y O) as Ot. pose proof (o_link y O) as Ol.
  assert (E1 : Nat.eqb c c = true) by apply Nat.eqb_refl.
  assert (E2 : Nat.eqb c r = false) by (apply Nat.eqb_neq; congruence).
  destruct (caller_item creates r todo Setup y c it rest I Nc T) as (f & x & ->).
  assert (Cx : current (snd y c) f x) by (exists rest; exact T).
  pose proof (o_done y O) as Od. rewrite T in Od.
  assert (CU : forall (a : at_ val) d g z, current (mkThr (Call f x :: rest) a d) g z -> g = f /\ z = x).
  { intros a d g z [rest' Q]. cbn in Q. injection Q as <- <- _. auto. }
  assert (WhoR : is_me (s_loop (fst y)) c = false).
  { destruct (i_loop _ _ y I) as [-> | ->]; cbn; auto. now rewrite Nat.eqb_sym. }
  pose proof (Ot f x Cx) as [Tr Tc]. pose proof (not_inst_free y I) as NI.
  assert (HN : holds (t_at (snd y c)) = true -> match t_at (snd y r) with HTest w | HCall w | HRes w _ | HClrF w | HClrA w | HDone w | HWake w => False | _ => True end).
  { intros Q. destruct (t_at (snd y r)); auto; cbn in Ru; subst; now apply NB. }
  destruct (t_at (snd y c)) eqn:A; try discriminate Ca; cbn [tstep] in *.
  - unfold lock in *. destruct (s_mutex (fst y)) eqn:M; cbn in *; rewrite ?T in *; [destruct y; exact O|].
    apply put_step; auto; rewrite ?E1, ?E2; auto; try congruence.
    all: solve [intros g z C; destruct (CU _ _ _ _ C) as [-> ->]; split; auto|finr (NI eq_refl)].
  - rewrite (i_win _ _ y I), WhoR in *. cbn in *. rewrite ?T in *.
    apply put_step; auto; rewrite ?E1, ?E2; auto; try congruence.
    all: solve [intros g z C; destruct (CU _ _ _ _ C) as [-> ->]; split; auto|finr (NI eq_refl)].
  - rewrite (NI eq_refl) in *. cbn in *. rewrite ?T in *.
    apply put_step; auto; rewrite ?E1, ?E2; auto; try congruence.
    all: solve [intros g z C; destruct (CU _ _ _ _ C) as [-> ->]; split; auto|finr (NI eq_refl)].
  - destruct Ol as [[] _].
  - destruct Ol as [[] _].
  - specialize (HN eq_refl). cbn in *. rewrite ?T in *.
    apply put_step; auto; rewrite ?E1, ?E2; auto; try congruence.
    all: solve [intros g z C; destruct (CU _ _ _ _ C) as [-> ->]; split; auto|unfold linked; cbn; repeat split; auto; discriminate].
  - specialize (HN eq_refl). cbn in *. rewrite ?T in *.
    apply put_step; auto; rewrite ?E1, ?E2; auto; try congruence.
    all: solve [intros g z C; destruct (CU _ _ _ _ C) as [-> ->]; split; auto|finr (NI eq_refl)].
  - specialize (HN eq_refl). cbn in *. rewrite ?T in *.
    apply put_step; auto; rewrite ?E1, ?E2; auto; try congruence.
    all: solve [intros g z C; destruct (CU _ _ _ _ C) as [-> ->]; split; cbn; auto; destruct (t_at (snd y r)); auto; contradiction|unfold linked in *; cbn in *; intuition].
  - specialize (HN eq_refl). cbn in *. rewrite ?T in *.
    apply put_step; auto; rewrite ?E1, ?E2; auto; try congruence.
    all: solve [intros g z C; destruct (CU _ _ _ _ C) as [-> ->]; split; cbn; auto|unfold linked in *; cbn in *; intuition].
  - specialize (HN eq_refl). cbn in *. rewrite ?T in *.
    apply wake_step; auto; rewrite ?E1, ?E2; auto; try congruence.
    all: solve [intros g z C; destruct (CU _ _ _ _ C) as [-> ->]; destruct Ol as [Om _]; split; cbn; [|congruence]; destruct (t_at (snd y r)); auto|unfold linked in *; destruct Ol as [Om _]; cbn in *; split; [exact Logic.I|]; split; [|congruence]; intros _; destruct (t_at (snd y r)); discriminate].
  - specialize (HN eq_refl). destruct (s_ready (fst y)) eqn:Q; cbn in *; rewrite ?T in *.
    + assert (Hn : s_handler (fst y) = None).
      { pose proof (i2_ready _ _ y I2 c f x Nc) as Rd. rewrite A in Rd. destruct (Rd eq_refl eq_refl Cx) as [L|L]; [|congruence].
        destruct (s_handler (fst y)) as [g|] eqn:H; auto. exfalso.
        destruct (i_handler _ _ y I g H) as (i & z & Ni & Ii & Ci & _ & Li). destruct (Nat.eq_dec i c) as [->|Nic].
        - destruct (current_same y f x g z Cx Ci) as [<- <-]. apply Li; auto. destruct (t_at (snd y r)); auto; contradiction.
        - destruct (others_idle y i I Ni Nic) as [_ W]. rewrite W in Ii. discriminate. }
      apply put_step; auto; rewrite ?E1, ?E2; auto; try congruence.
      all: solve [intros g z C; destruct (CU _ _ _ _ C) as [-> ->]; split; cbn; auto|unfold linked; cbn; auto].
    + apply put_step; auto; rewrite ?E1, ?E2; auto; try congruence.
      * intros g z C. destruct (CU _ _ _ _ C) as [-> ->]. split; cbn; auto.
      * unfold linked in *. cbn in *. destruct Ol as (_ & B & C). split; auto. split; auto. intros H. destruct (C H) as [D|D]; [congruence|auto].
  - cbn in *. destruct y; exact O.
  - unfold lock in *. destruct (s_mutex (fst y)) eqn:M; cbn in *; rewrite ?T in *; [destruct y; exact O|].
    apply put_step; auto; rewrite ?E1, ?E2; auto; try congruence.
    intros g z C. destruct (CU _ _ _ _ C) as [-> ->]. split; auto.
  - specialize (HN eq_refl). cbn in *. rewrite ?T in *. destruct Ol as [Om _].
    apply put_step; auto; rewrite ?E1, ?E2; auto; try congruence.
    all: solve [intros g z C; destruct (CU _ _ _ _ C) as [-> ->]; split; cbn; auto|unfold linked; cbn; auto].
  - specialize (HN eq_refl). cbn in *. rewrite ?T in *.
    apply put_step; auto; rewrite ?E1, ?E2; auto; try congruence.
    all: solve [intros g z C; destruct (CU _ _ _ _ C) as [-> ->]; split; cbn; auto; destruct (t_at (snd y r)); auto; contradiction|unfold linked; cbn; auto].
  - specialize (HN eq_refl). cbn in *. rewrite ?T in *.
    apply put_step; auto; rewrite ?E1, ?E2; auto; try congruence.
    all: solve [intros g z C; destruct (CU _ _ _ _ C) as [-> ->]; split; cbn; auto|unfold linked; cbn; auto].
  - specialize (HN eq_refl). cbn in *. rewrite ?T in *. cbn [tl] in *.
    apply put_step; auto; rewrite ?E1, ?E2; auto; try congruence.
    { intros _. destruct Od as (pre & B & C). exists (pre ++ [Call f x]). cbn [t_todo t_done]. rewrite B, C, <- app_assoc, map_app. cbn. rewrite Tc. auto. }
    all: solve [intros g z C; split; cbn; auto; destruct (t_at (snd y r)); auto; contradiction|unfold linked; cbn; auto].
Qed.

Lemma one_step y e : one y -> one (sstep apply creates y e).
Proof.
  intros O. pose proof (o2 y O) as I2. pose proof (i2 _ _ y I2) as I.
  pose proof (inv2_step apply creates r todo Setup Distinct y e I2) as I2'.
  destruct e as [i|i|i]; cbn [sstep] in *.
  - destruct (Nat.eq_dec i r) as [->|Nr]; [|destruct (Nat.eq_dec i c) as [->|Ncc]].
    + destruct (t_todo (snd y r)) as [|it rest] eqn:T; [exact O|].
      assert (it = Run) by exact (runner_item _ _ _ Setup y it rest I T). subst it. apply one_runner; auto. rewrite T. discriminate.
    + destruct (t_todo (snd y c)) as [|it rest] eqn:T; [exact O|]. now apply (one_caller y it rest).
    + destruct (others_idle y i I Nr Ncc) as [T _]. now rewrite T.
  - pose proof (i_runner _ _ y I) as Ru. pose proof (i_caller _ _ y I c Nc) as Ca. destruct O as [_ Od Ot Ol]. constructor; auto; cbn [fst snd].
    + unfold put. destruct (Nat.eqb_spec c i) as [<-|]; exact Od.
    + intros f x C. assert (C' : current (snd y c) f x) by (revert C; unfold put; destruct (Nat.eqb_spec c i) as [<-|]; auto).
      specialize (Ot f x C'). clear - Ot Nc Ru Ca. unfold put, tied in *.
      destruct (Nat.eqb r i) eqn:Q; destruct (Nat.eqb c i) eqn:R; cbn; apply Nat.eqb_eq in Q || apply Nat.eqb_neq in Q; try rewrite <- Q;
        apply Nat.eqb_eq in R || apply Nat.eqb_neq in R; try rewrite <- R; try congruence; destruct (t_at (snd y r)); try discriminate Ru; destruct (t_at (snd y c)); try discriminate Ca; cbn in *; auto.
    + clear - Ol Nc Ru Ca. unfold put, linked in *.
      destruct (Nat.eqb r i) eqn:Q; destruct (Nat.eqb c i) eqn:R; cbn; apply Nat.eqb_eq in Q || apply Nat.eqb_neq in Q; try rewrite <- Q;
        apply Nat.eqb_eq in R || apply Nat.eqb_neq in R; try rewrite <- R; try congruence; destruct (t_at (snd y r)); try discriminate Ru; destruct (t_at (snd y c)); try discriminate Ca; cbn in *;
        intuition (try congruence; try discriminate; try match goal with H : exists _, _ |- _ => destruct H; congruence end).
  - destruct (t_at (snd y i)) eqn:A; auto. exfalso. destruct (Nat.eq_dec i r) as [->|N].
    + pose proof (i_runner _ _ y I) as Q. rewrite A in Q. discriminate.
    + pose proof (i_caller _ _ y I i N) as Q. rewrite A in Q. discriminate.
Qed.
Lemma one_run l : forall y, one y -> one (srun apply creates y l).
Proof. induction l as [|e l IH]; intros y I; [exact I|]. apply IH. now apply one_step. Qed.

(** Every returned call of the one caller gave the result of its own function on its own context. *)
Lemma own_results l : let y := srun apply creates (sys_new todo) l in
  t_done (snd y c) = map (answer apply) (firstn (length (t_done (snd y c))) (todo c)).
Proof.
  intros y. assert (O : one y) by (apply one_run, one_new). destruct (o_done y O) as (pre & A & B).
  rewrite A, B, map_length, firstn_app, firstn_all, Nat.sub_diag. cbn. now rewrite app_nil_r.
Qed.
End One.
