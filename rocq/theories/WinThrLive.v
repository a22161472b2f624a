(** Proofs for C104: the calls of one caller all return. *)
From Coq Require Import List Bool Arith Lia.
From Verif Require Import WinThrModel WinThrSpec WinThrProofs WinThrOne.
Import ListNotations.

Section Live.
Context {fn cx val : Type}.
Variable apply : fn -> option cx -> val.
Variable creates : fn -> bool.
Notation sys := (sys fn cx val).
Variable r c : nat.
Variable todo : nat -> list (item fn cx).
Hypothesis Setup : waiting_setup creates r todo.
Hypothesis Distinct : distinct_calls todo.
Hypothesis Nc : c <> r.
Hypothesis Only : forall i, i <> r -> i <> c -> todo i = [].
Notation one := (one apply r c todo).

(** how far the caller and the runner still have to go *)
Definition wc (a : at_ val) : nat :=
  match a with
  | CUnlock _ => 1 | CClrD _ => 2 | CClrR _ => 3 | CGet => 4 | CDoneSleep => 5 | CDone => 6 | CDoneLock => 7
  | CWake => 10 | CSetD => 11 | CSetR => 12 | CSetA => 13 | CSetF => 40 | CFree => 41 | CWho => 42 | _ => 43 end.
Definition wr (a : at_ val) (h : bool) : nat :=
  match a with
  | HTest _ => 19 | HCall _ => 18 | HRes _ _ => 17 | HClrF _ => 16 | HClrA _ => 15 | HDone _ => 14 | HWake _ => 13
  | _ => (match a with RSleep => 0 | RWin => 1 | RRelock => 2 | RLock => 3 | RLook => 4 | _ => 5 end) + (if h then 20 else 0)
  end.
Definition some {A} (o : option A) : bool := match o with Some _ => true | None => false end.
Definition rank (y : sys) : nat :=
  50 * length (t_todo (snd y c)) + wc (t_at (snd y c)) + wr (t_at (snd y r)) (some (s_handler (fst y))).

Lemma Ncr : Nat.eqb r c = false /\ Nat.eqb c r = false.
Proof. split; apply Nat.eqb_neq; congruence. Qed.
Lemma wc_wake a : wc (wake_at a) <= wc a + 2.
Proof. destruct a; cbn; lia. Qed.
Lemma wr_wake a h : wr (wake_at a) h <= wr a h + 2.
Proof. destruct a; cbn; lia. Qed.

Lemma rank_runner y : one y -> t_todo (snd y r) = [Run] ->
  let y' := sstep apply creates y (Step r) in y' = y \/ rank y' < rank y /\ t_todo (snd y' r) = [Run].
Proof.
  intros O Td y'. pose proof (o2 _ _ _ _ y O) as I2. pose proof (i2 _ _ y I2) as I.
  pose proof (i_runner _ _ y I) as Ru. pose proof (i_stage _ _ y I) as St. pose proof (i2_loop _ _ y I2) as Lo.
  unfold y'. cbn [sstep]. rewrite Td. destruct Ncr as [E1 E2].
  destruct (t_at (snd y r)) eqn:A; try discriminate Ru; cbn in Ru; subst; cbn [tstep].
  - unfold lock. destruct (s_mutex (fst y)); cbn; [left; destruct y; reflexivity|]. right. split; [|rewrite put_same; exact Td].
    unfold rank, put. cbn [fst snd]. rewrite Nat.eqb_refl, Nat.eqb_sym, E1, A. cbn. lia.
  - rewrite Lo. cbn. right. split; [|rewrite put_same; exact Td].
    unfold rank, put. cbn [fst snd]. rewrite Nat.eqb_refl, Nat.eqb_sym, E1, A. cbn. lia.
  - unfold lock. destruct (s_mutex (fst y)); cbn; [left; destruct y; reflexivity|]. right. split; [|rewrite put_same; exact Td].
    unfold rank, put. cbn [fst snd]. rewrite Nat.eqb_refl, Nat.eqb_sym, E1, A. cbn. lia.
  - rewrite (i_win _ _ y I). destruct (s_handler (fst y)) eqn:H; cbn; right; split; try (rewrite put_same; exact Td);
    unfold rank, put; cbn [fst snd]; rewrite Nat.eqb_refl, Nat.eqb_sym, E1, A; cbn; rewrite ?H; cbn; lia.
  - left. destruct y; reflexivity.
  - unfold lock. destruct (s_mutex (fst y)); cbn; [left; destruct y; reflexivity|]. right. split; [|rewrite put_same; exact Td].
    unfold rank, put. cbn [fst snd]. rewrite Nat.eqb_refl, Nat.eqb_sym, E1, A. cbn. lia.
  - destruct (s_handler (fst y)) eqn:H; cbn; [|congruence]. right. split; [|rewrite put_same; exact Td].
    unfold rank, put. cbn [fst snd]. rewrite Nat.eqb_refl, Nat.eqb_sym, E1, A. cbn. lia.
  - destruct (s_handler (fst y)) as [f|] eqn:H; cbn; [|congruence].
    destruct (handler_caller r c todo Only y f I H) as (_ & x & Cx & _).
    unfold call_fn. rewrite (current_creates creates r todo Setup y c f x I Nc Cx). cbn. right. split; [|rewrite put_same; exact Td].
    unfold rank, put. cbn [fst snd]. rewrite Nat.eqb_refl, Nat.eqb_sym, E1, A. cbn. lia.
  - cbn. right. split; [|rewrite put_same; exact Td].
    unfold rank, put. cbn [fst snd]. rewrite Nat.eqb_refl, Nat.eqb_sym, E1, A. cbn. lia.
  - cbn. right. split; [|rewrite put_same; exact Td].
    unfold rank, put. cbn [fst snd]. rewrite Nat.eqb_refl, Nat.eqb_sym, E1, A. cbn. lia.
  - cbn. right. split; [|rewrite put_same; exact Td].
    unfold rank, put. cbn [fst snd]. rewrite Nat.eqb_refl, Nat.eqb_sym, E1, A. cbn. lia.
  - cbn. right. split; [|rewrite put_same; exact Td].
    unfold rank, put. cbn [fst snd]. rewrite Nat.eqb_refl, Nat.eqb_sym, E1, A. cbn. lia.
  - cbn. right. split; [|rewrite put_same; exact Td].
    unfold rank, put. cbn [fst snd]. rewrite Nat.eqb_refl, Nat.eqb_sym, E1, A. cbn [t_at t_todo wake].
    rewrite St. pose proof (wc_wake (t_at (snd y c))). cbn. lia.
Qed.
Lemma rank_caller y it rest : one y -> t_todo (snd y c) = it :: rest ->
  let y' := sstep apply creates y (Step c) in (y' = y \/ rank y' < rank y) /\ t_todo (snd y' r) = t_todo (snd y r).
Proof.
  intros O T y'. pose proof (o2 _ _ _ _ y O) as I2. pose proof (i2 _ _ y I2) as I.
  pose proof (i_caller _ _ y I c Nc) as Ca. pose proof (i_runner _ _ y I) as Ru. pose proof (o_link _ _ _ _ y O) as Ol.
  unfold y'. cbn [sstep]. rewrite T. destruct Ncr as [E1 E2].
  destruct (caller_item creates r todo Setup y c it rest I Nc T) as (f & x & ->).
  assert (WhoR : is_me (s_loop (fst y)) c = false).
  { destruct (i_loop _ _ y I) as [-> | ->]; cbn; auto. }
  pose proof (not_inst_free r c todo Only y I) as NI.
  assert (P : forall (s : shared fn cx val) t, t_todo (snd (s, put (snd y) c t) r) = t_todo (snd y r)).
  { intros s t. cbn. unfold put. now rewrite E1. }
  destruct (t_at (snd y c)) eqn:A; try discriminate Ca; cbn [tstep].
  - unfold lock. destruct (s_mutex (fst y)); cbn [apply_move]; (split; [|try apply P; auto]); [left; destruct y; reflexivity|right].
    unfold rank, put. cbn [fst snd]. rewrite Nat.eqb_refl, E1, A. cbn. lia.
  - rewrite (i_win _ _ y I), WhoR. cbn [is_me orb apply_move]. split; [|apply P]. right.
    unfold rank, put. cbn [fst snd]. rewrite Nat.eqb_refl, E1, A. cbn. lia.
  - rewrite (NI eq_refl). cbn [apply_move]. split; [|apply P]. right.
    unfold rank, put. cbn [fst snd]. rewrite Nat.eqb_refl, E1, A. cbn. lia.
  - destruct Ol as [[] _].
  - destruct Ol as [[] _].
  - cbn [apply_move]. split; [|apply P]. right. unfold rank, put. cbn [fst snd]. rewrite Nat.eqb_refl, E1, A. rewrite (NI eq_refl).
    destruct (t_at (snd y r)); cbn; lia.
  - cbn [apply_move]. split; [|apply P]. right. unfold rank, put. cbn [fst snd]. rewrite Nat.eqb_refl, E1, A. cbn. lia.
  - cbn [apply_move]. split; [|apply P]. right. unfold rank, put. cbn [fst snd]. rewrite Nat.eqb_refl, E1, A. cbn. lia.
  - cbn [apply_move]. split; [|apply P]. right. unfold rank, put. cbn [fst snd]. rewrite Nat.eqb_refl, E1, A. cbn. lia.
  - cbn [apply_move]. split; [|cbn; unfold put; now rewrite E1]. right. unfold rank, put. cbn [fst snd]. rewrite Nat.eqb_refl, E1, A. cbn [t_at t_todo wake].
    pose proof (wr_wake (t_at (snd y r)) (some (s_handler (fst y)))). cbn. lia.
  - destruct (s_ready (fst y)); cbn [apply_move]; (split; [|apply P]); right; unfold rank, put; cbn [fst snd]; rewrite Nat.eqb_refl, E1, A; cbn; lia.
  - cbn [apply_move]. split; [|auto]. left; destruct y; reflexivity.
  - unfold lock. destruct (s_mutex (fst y)); cbn [apply_move]; (split; [|try apply P; auto]); [left; destruct y; reflexivity|right].
    unfold rank, put. cbn [fst snd]. rewrite Nat.eqb_refl, E1, A. cbn. lia.
  - cbn [apply_move]. split; [|apply P]. right. unfold rank, put. cbn [fst snd]. rewrite Nat.eqb_refl, E1, A. cbn. lia.
  - cbn [apply_move]. split; [|apply P]. right. unfold rank, put. cbn [fst snd]. rewrite Nat.eqb_refl, E1, A. cbn. lia.
  - cbn [apply_move]. split; [|apply P]. right. unfold rank, put. cbn [fst snd]. rewrite Nat.eqb_refl, E1, A. cbn. lia.
  - cbn [apply_move]. split; [|apply P]. right. unfold rank, put. cbn [fst snd]. rewrite Nat.eqb_refl, E1, A, T. cbn. lia.
Qed.

Lemma stuck_r y : one y -> t_todo (snd y r) = [Run] -> sstep apply creates y (Step r) = y ->
  t_at (snd y r) = RSleep \/ s_mutex (fst y) <> None /\ holds (t_at (snd y r)) = false.
Proof.
  intros O Td. pose proof (o2 _ _ _ _ y O) as I2. pose proof (i2 _ _ y I2) as I.
  pose proof (i_runner _ _ y I) as Ru. pose proof (i_stage _ _ y I) as St. pose proof (i2_loop _ _ y I2) as Lo.
  cbn [sstep]. rewrite Td. intros E. apply (f_equal (fun z : sys => t_at (snd z r))) in E.
  destruct (t_at (snd y r)) eqn:A; try discriminate Ru; cbn in Ru; subst; cbn [tstep] in E.
  - unfold lock in E. destruct (s_mutex (fst y)); cbn in E; [right; split; [discriminate|reflexivity]|].
    rewrite put_same in E. discriminate.
  - rewrite Lo in E. cbn in E. rewrite put_same in E. discriminate.
  - unfold lock in E. destruct (s_mutex (fst y)); cbn in E; [right; split; [discriminate|reflexivity]|].
    rewrite put_same in E. discriminate.
  - rewrite (i_win _ _ y I) in E. destruct (s_handler (fst y)); cbn in E; rewrite put_same in E; discriminate.
  - now left.
  - unfold lock in E. destruct (s_mutex (fst y)); cbn in E; [right; split; [discriminate|reflexivity]|].
    rewrite put_same in E. discriminate.
  - destruct (s_handler (fst y)); cbn in E; rewrite put_same in E; discriminate.
  - destruct (s_handler (fst y)) as [f|] eqn:H; [|congruence].
    destruct (handler_caller r c todo Only y f I H) as (_ & x & Cx & _).
    unfold call_fn in E. rewrite (current_creates creates r todo Setup y c f x I Nc Cx) in E. cbn in E. rewrite put_same in E. discriminate.
  - cbn in E. rewrite put_same in E. discriminate.
  - cbn in E. rewrite put_same in E. discriminate.
  - cbn in E. rewrite put_same in E. discriminate.
  - cbn in E. rewrite put_same in E. discriminate.
  - cbn in E. rewrite put_same in E. discriminate.
Qed.
Lemma stuck_c y it rest : one y -> t_todo (snd y c) = it :: rest -> sstep apply creates y (Step c) = y ->
  t_at (snd y c) = CDoneSleep \/ s_mutex (fst y) <> None /\ holds (t_at (snd y c)) = false.
Proof.
  intros O T. pose proof (o2 _ _ _ _ y O) as I2. pose proof (i2 _ _ y I2) as I.
  pose proof (i_caller _ _ y I c Nc) as Ca. pose proof (o_link _ _ _ _ y O) as Ol.
  destruct (caller_item creates r todo Setup y c it rest I Nc T) as (f & x & ->).
  cbn [sstep]. rewrite T. intros E. apply (f_equal (fun z : sys => t_at (snd z c))) in E.
  destruct (t_at (snd y c)) eqn:A; try discriminate Ca; cbn [tstep] in E;
    try (cbn in E; rewrite put_same in E; discriminate); try (destruct Ol as [[] _]).
  - unfold lock in E. destruct (s_mutex (fst y)); cbn in E; [right; split; [discriminate|reflexivity]|].
    rewrite put_same in E. discriminate.
  - cbn in E. rewrite put_same in E. cbn in E. destruct (is_me (s_win (fst y)) c || is_me (s_loop (fst y)) c)%bool; discriminate.
  - destruct (s_handler (fst y)); cbn in E; rewrite put_same in E; discriminate.
  - destruct (s_ready (fst y)); cbn in E; rewrite put_same in E; discriminate.
  - now left.
  - unfold lock in E. destruct (s_mutex (fst y)); cbn in E; [right; split; [discriminate|reflexivity]|].
    rewrite put_same in E. discriminate.
Qed.

Definition good (y : sys) : Prop := one y /\ t_todo (snd y r) = [Run].
Lemma alive y : good y -> t_todo (snd y c) <> [] ->
  sstep apply creates y (Step r) = y -> sstep apply creates y (Step c) = y -> False.
Proof.
  intros [O Td] Ne Sr Sc. destruct (t_todo (snd y c)) as [|it rest] eqn:T; [easy|].
  pose proof (i2 _ _ y (o2 _ _ _ _ y O)) as I.
  pose proof (stuck_r y O Td Sr) as Qr. pose proof (stuck_c y it rest O T Sc) as Qc.
  destruct (s_mutex (fst y)) as [k|] eqn:M.
  - assert (H : holds (t_at (snd y k)) = true) by now apply (i_mutex _ _ y I).
    destruct (Nat.eq_dec k r) as [->|N1]; [destruct Qr as [Q|[_ Q]]; [rewrite Q in H; discriminate|congruence]|].
    destruct (Nat.eq_dec k c) as [->|N2]; [destruct Qc as [Q|[_ Q]]; [rewrite Q in H; discriminate|congruence]|].
    destruct (others_idle r c todo Only y k I N1 N2) as [_ Q]. rewrite Q in H. discriminate.
  - destruct Qr as [Qr|[Qr _]]; [|congruence]. destruct Qc as [Qc|[Qc _]]; [|congruence].
    pose proof (o_link _ _ _ _ y O) as (_ & L2 & L3). rewrite Qr, Qc in *. destruct (s_handler (fst y)) eqn:H.
    + apply L2; [discriminate|reflexivity].
    + destruct (L3 eq_refl) as [[]|[[w Q] _]]. discriminate.
Qed.
Lemma good_step y i : good y ->
  let y' := sstep apply creates y (Step i) in good y' /\ (y' = y \/ rank y' < rank y) /\ (i <> c -> t_todo (snd y' c) = t_todo (snd y c)).
Proof.
  intros [O Td] y'. assert (O' : one y') by (apply one_step; auto).
  destruct (Nat.eq_dec i r) as [->|Nr].
  - destruct (rank_runner y O Td) as [E|[E F]]; fold y' in E.
    + rewrite E. split; [split; auto|]. split; auto.
    + fold y' in F. split; [split; auto|]. split; auto. intros _. unfold y'. cbn [sstep]. rewrite Td.
      destruct (tstep apply creates r (fst y) Run (t_at (snd y r))) as [s m]. destruct m; cbn; auto; rewrite put_other by congruence; auto.
  - destruct (Nat.eq_dec i c) as [->|N].
    + destruct (t_todo (snd y c)) as [|it rest] eqn:T.
      * assert (E : y' = y) by (unfold y'; cbn [sstep]; now rewrite T). rewrite E. split; [split; auto|]. split; auto.
      * destruct (rank_caller y it rest O T) as [E F]. fold y' in E, F. split; [split; auto; congruence|]. split; [exact E|easy].
    + assert (E : y' = y).
      { unfold y'. cbn [sstep]. destruct (others_idle r c todo Only y i (i2 _ _ y (o2 _ _ _ _ y O)) Nr N) as [T _]. now rewrite T. }
      rewrite E. split; [split; auto|]. split; auto.
Qed.
Lemma done_stays y i : good y -> t_todo (snd y c) = [] -> t_todo (snd (sstep apply creates y (Step i)) c) = [].
Proof.
  intros G E. destruct (Nat.eq_dec i c) as [->|N]; [cbn [sstep]; now rewrite E|].
  destruct (good_step y i G) as (_ & _ & Q). now rewrite Q.
Qed.
Lemma steps l : forall y, good y -> (forall e, In e l -> exists i, e = Step i) ->
  let y' := srun apply creates y l in good y' /\ (t_todo (snd y c) = [] -> t_todo (snd y' c) = []) /\
    (rank y' < rank y \/ y' = y /\ forall i, In (Step i) l -> sstep apply creates y (Step i) = y).
Proof.
  induction l as [|e l IH]; intros y G S; cbn [srun fold_left].
  - split; auto. split; auto. right. split; auto. intros i [].
  - destruct (S e (or_introl eq_refl)) as [i ->]. destruct (good_step y i G) as (G' & R & _).
    destruct (IH (sstep apply creates y (Step i)) G' (fun e H => S e (or_intror H))) as (A & B & C). unfold srun in *.
    split; auto. split; [intros E; apply B; now apply done_stays|].
    destruct R as [R|R]; [|left; destruct C as [C|[C _]]; [lia|rewrite C; exact R]].
    rewrite R in *. destruct C as [C|[C D]]; [now left|]. right. split; auto. intros j [Q|Q]; [injection Q as <-; exact R|now apply D].
Qed.
Lemma good_run l : forall y, good y -> good (srun apply creates y l).
Proof.
  induction l as [|e l IH]; intros y G; [exact G|]. apply IH. destruct e as [i|i|i].
  - apply good_step; exact G.
  - destruct G as [O T]. split; [now apply one_step|]. cbn. unfold put. destruct (Nat.eqb_spec r i) as [<-|]; exact T.
  - destruct G as [O T]. split; [now apply one_step|]. cbn. destruct (t_at (snd y i)); auto. cbn. unfold put. destruct (Nat.eqb_spec r i) as [<-|]; exact T.
Qed.
Lemma good_new : good (sys_new todo).
Proof. split; [now apply one_new|]. apply Setup. Qed.

Lemma rounds_finish rs : forall y, good y -> rank y <= length rs -> Forall (a_round r c) rs ->
  t_todo (snd (srun apply creates y (concat rs)) c) = [].
Proof.
  induction rs as [|l rs IH]; intros y G Rk F.
  - cbn [concat srun fold_left length] in *. destruct (t_todo (snd y c)) as [|it rest] eqn:T; auto. exfalso. revert Rk. unfold rank. rewrite ?T. cbn. lia.
  - inversion F as [|? ? [S [Hr Hc]] F']; subst. cbn [concat]. unfold srun. rewrite fold_left_app.
    destruct (steps l y G S) as (G' & K & D). unfold srun in *.
    destruct D as [D|[D E]]; [apply IH; auto; cbn [length] in Rk; lia|].
    destruct (t_todo (snd y c)) as [|it rest] eqn:T.
    + specialize (K eq_refl). clear - K G' F' Setup Distinct Nc Only. revert K G' F'. generalize (fold_left (sstep apply creates) l y) as z.
      induction rs as [|m rs IH]; intros z K G F; [exact K|]. cbn [concat]. rewrite fold_left_app. inversion F as [|? ? [S _] F']; subst.
      destruct (steps m z G S) as (G'' & K' & _). unfold srun in *. apply IH; auto.
    + exfalso. apply (alive y G); [rewrite T; discriminate|auto|auto].
Qed.
Lemma all_return l : exists n, forall rs, n <= length rs -> Forall (a_round r c) rs ->
  t_done (snd (srun apply creates (sys_new todo) (l ++ concat rs)) c) = map (answer apply) (todo c).
Proof.
  set (y := srun apply creates (sys_new todo) l). exists (rank y). intros rs L F.
  pose proof (good_run l _ good_new) as G. fold y in G.
  pose proof (rounds_finish rs y G L F) as E. pose proof (good_run (concat rs) y G) as [O _].
  unfold srun. rewrite fold_left_app. fold (srun apply creates (sys_new todo) l). fold y. fold (srun apply creates y (concat rs)).
  destruct (o_done _ _ _ _ _ O) as (pre & A & B). rewrite E, app_nil_r in A. now rewrite B, A.
Qed.
End Live.
