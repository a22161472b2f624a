From Coq Require Import Reals List Arith Lia Lra Bool.
From Verif Require Import OwnModel OwnSpec.
Import ListNotations.

Lemma slot_eqb_ok a b : slot_eqb a b = true <-> a = b.
Proof. destruct a, b; cbn; split; congruence. Qed.
Lemma slot_eqb_refl a : slot_eqb a a = true.
Proof. now destruct a. Qed.
Lemma put_same h p v : put h p v p = v.
Proof. unfold put. now rewrite Nat.eqb_refl. Qed.
Lemma put_other h p v a : a <> p -> put h p v a = h a.
Proof. intros N. unfold put. destruct (Nat.eqb_spec a p); congruence. Qed.
Lemma setf_same f s v : setf f s v s = v.
Proof. unfold setf. now rewrite slot_eqb_refl. Qed.
Lemma setf_other f s v a : a <> s -> setf f s v a = f a.
Proof. intros N. unfold setf. destruct (slot_eqb a s) eqn:E; [apply slot_eqb_ok in E; congruence|reflexivity]. Qed.
Lemma setg_same f s v : set_given f s v s = v.
Proof. unfold set_given. now rewrite slot_eqb_refl. Qed.
Lemma setg_other f s v a : a <> s -> set_given f s v a = f a.
Proof. intros N. unfold set_given. destruct (slot_eqb a s) eqn:E; [apply slot_eqb_ok in E; congruence|reflexivity]. Qed.
Lemma slot_dec (a b : slot) : {a = b} + {a <> b}.
Proof. decide equality. Qed.

(** Each live block belongs to the caller or to exactly one slot. *)
Definition slot_ok (x : st) (c : caller) (s : slot) : Prop :=
  match given c s with
  | Nothing => f_const (fl x s) = None /\ f_data (fl x s) = None
  | Own v => exists p, f_const (fl x s) = Some p /\ f_data (fl x s) = Some p /\ heap x p = Some v /\ mine c p = None
  | Lent p n => f_const (fl x s) = Some p /\ f_data (fl x s) = None /\ f_n (fl x s) = n /\ exists v, mine c p = Some v /\ (n <= length v)%nat
  end.
Record Inv (x : st) (c : caller) : Prop := {
  i_mine : forall p v, mine c p = Some v -> heap x p = Some v;
  i_slot : forall s, slot_ok x c s;
  i_apart : forall s s' p, f_data (fl x s) = Some p -> f_data (fl x s') = Some p -> s = s';
  i_all : forall p v, heap x p = Some v -> mine c p = Some v \/ exists s, f_data (fl x s) = Some p;
  i_new : forall p, (nxt x <= p)%nat -> heap x p = None }.

Lemma data_own x c s p : Inv x c -> f_data (fl x s) = Some p -> exists v, given c s = Own v /\ heap x p = Some v /\ mine c p = None.
Proof.
  intros I D. pose proof (i_slot _ _ I s) as S. unfold slot_ok in S. destruct (given c s) as [|v|q n].
  - destruct S; congruence.
  - destruct S as (p' & A & B & C & E). assert (p' = p) by congruence. subst. eauto.
  - destruct S as (A & B & _). congruence.
Qed.

(** What is left after the slot's own block is freed: the slot owns nothing. *)
Record Inv0 (x : st) (c : caller) (s : slot) : Prop := {
  j_mine : forall p v, mine c p = Some v -> heap x p = Some v;
  j_slot : forall s', s' <> s -> slot_ok x c s';
  j_apart : forall s1 s2 p, s1 <> s -> s2 <> s -> f_data (fl x s1) = Some p -> f_data (fl x s2) = Some p -> s1 = s2;
  j_all : forall p v, heap x p = Some v -> mine c p = Some v \/ exists s', s' <> s /\ f_data (fl x s') = Some p;
  j_new : forall p, (nxt x <= p)%nat -> heap x p = None }.

Lemma drop x c s : Inv x c -> exists y, checked_free x (f_data (fl x s)) = Some y /\ Inv0 y c s /\ fl y = fl x /\ nxt y = nxt x /\
  (forall p, f_data (fl x s) <> Some p -> heap y p = heap x p).
Proof.
  intros I. destruct (f_data (fl x s)) as [p|] eqn:D; cbn [checked_free].
  - destruct (data_own x c s p I D) as (v & G & H & M). unfold free. rewrite H. eexists. split; [reflexivity|].
    split; [|cbn; repeat split; auto; intros q N; apply put_other; congruence].
    split; cbn [heap nxt fl].
    + intros q w Q. rewrite put_other; [now apply (i_mine _ _ I)|congruence].
    + intros s' N. pose proof (i_slot _ _ I s') as S. unfold slot_ok in *. destruct (given c s') as [|w|q n]; cbn [heap fl]; [exact S| |exact S].
      destruct S as (q & A & B & C & E). exists q. repeat split; auto. rewrite put_other; [exact C|].
      intros ->. apply N. exact (i_apart _ _ I s' s p B D).
    + intros s1 s2 q _ _. apply (i_apart _ _ I).
    + intros q w Q. destruct (Nat.eq_dec q p) as [->|N]; [rewrite put_same in Q; discriminate|]. rewrite put_other in Q by exact N.
      destruct (i_all _ _ I q w Q) as [|(s' & D')]; [now left|right]. exists s'. split; [|exact D']. intros ->. congruence.
    + intros q L. destruct (Nat.eq_dec q p) as [->|N]; [apply put_same|]. rewrite put_other by exact N. now apply (i_new _ _ I).
  - exists x. split; [reflexivity|]. split; [|auto]. split.
    + apply I. + intros s' _. apply I. + intros s1 s2 p _ _. apply (i_apart _ _ I).
    + intros p v H. destruct (i_all _ _ I p v H) as [|(s' & D')]; [now left|right]. exists s'. split; [congruence|exact D'].
    + apply I.
Qed.

Lemma slot_frame x c s y c' s' : s' <> s -> slot_ok x c s' -> fl y s' = fl x s' -> given c' s' = given c s' ->
  (forall p v, f_data (fl x s') = Some p -> heap x p = Some v -> mine c p = None -> heap y p = Some v /\ mine c' p = None) ->
  (forall p n v, given c s' = Lent p n -> mine c p = Some v -> exists w, mine c' p = Some w /\ length w = length v) ->
  slot_ok y c' s'.
Proof.
  intros N S F G H1 H2. unfold slot_ok in *. rewrite G, F. destruct (given c s') as [|v|p n]; [exact S| |].
  - destruct S as (p & A & B & C & E). destruct (H1 p v B C E). exists p. auto.
  - destruct S as (A & B & C & v & M & L). destruct (H2 p n v eq_refl M) as (w & W & Lw).
    repeat split; auto. exists w. split; [exact W|lia].
Qed.

Lemma take_copy x c s n p v : Inv x c -> mine c p = Some v -> (n <= length v)%nat ->
  exists y, take x s n p COPY = Some y /\ Inv y (mkC (mine c) (set_given (given c) s (Own (firstn n v)))).
Proof.
  intros I M L. destruct (drop x c s I) as (y & E & J & F & X & _). unfold take. rewrite E. cbn [dupop].
  rewrite (j_mine _ _ _ J p v M). destruct (Nat.leb_spec n (length v)); [|lia]. cbn [malloc]. eexists. split; [reflexivity|].
  assert (Z : heap y (nxt y) = None) by (apply (j_new _ _ _ J); lia).
  assert (B : forall q w, mine c q = Some w -> q <> nxt y) by (intros q w Q ->; rewrite (j_mine _ _ _ J _ _ Q) in Z; discriminate).
  assert (O : forall s' q, s' <> s -> f_data (fl y s') = Some q -> q <> nxt y).
  { intros s' q N D ->. pose proof (j_slot _ _ _ J s' N) as S. unfold slot_ok in S. destruct (given c s') as [|w|r m].
    - destruct S; congruence. - destruct S as (r & _ & D' & H' & _). congruence. - destruct S as (_ & D' & _). congruence. }
  split; cbn [mine given heap nxt fl].
  - intros q w Q. rewrite put_other by (eapply B; eassumption). now apply (j_mine _ _ _ J).
  - intros s'. destruct (slot_dec s' s) as [->|N].
    + unfold slot_ok. cbn [mine given heap fl]. rewrite setg_same, setf_same. exists (nxt y). cbn [f_const f_data]. rewrite put_same. repeat split.
      destruct (mine c (nxt y)) as [w|] eqn:Q; [|reflexivity]. exfalso. exact (B _ _ Q eq_refl).
    + apply (slot_frame y c s _ _ s' N (j_slot _ _ _ J s' N)); cbn [mine given heap fl].
      * now apply setf_other. * now apply setg_other.
      * intros q w D H' M'. split; [|exact M']. rewrite put_other; [exact H'|]. eapply O; eassumption.
      * eauto.
  - intros s1 s2 q. destruct (slot_dec s1 s) as [->|N1], (slot_dec s2 s) as [->|N2]; [reflexivity| | |];
      rewrite ?setf_same, ?setf_other by assumption; cbn [f_data]; intros D1 D2.
    + exfalso. apply (O s2 q N2 D2). congruence. + exfalso. apply (O s1 q N1 D1). congruence.
    + exact (j_apart _ _ _ J s1 s2 q N1 N2 D1 D2).
  - intros q w Q. destruct (Nat.eq_dec q (nxt y)) as [->|N].
    + right. exists s. rewrite setf_same. reflexivity.
    + rewrite put_other in Q by exact N. destruct (j_all _ _ _ J q w Q) as [|(s' & N' & D')]; [now left|right]. exists s'. now rewrite setf_other.
  - intros q Lq. rewrite put_other by lia. apply (j_new _ _ _ J). lia.
Qed.
Lemma take_borrow x c s n p v : Inv x c -> mine c p = Some v -> (n <= length v)%nat ->
  exists y, take x s n p BORROW = Some y /\ Inv y (mkC (mine c) (set_given (given c) s (Lent p n))).
Proof.
  intros I M L. destruct (drop x c s I) as (y & E & J & F & X & _). unfold take. rewrite E. cbn [dupop]. eexists. split; [reflexivity|].
  split; cbn [mine given heap nxt fl].
  - apply J.
  - intros s'. destruct (slot_dec s' s) as [->|N].
    + unfold slot_ok. cbn [mine given heap fl]. rewrite setg_same, setf_same. cbn [f_const f_data f_n]. repeat split. eauto.
    + apply (slot_frame y c s _ _ s' N (j_slot _ _ _ J s' N)); cbn [mine given heap fl]; [now apply setf_other|now apply setg_other|auto|eauto].
  - intros s1 s2 q. destruct (slot_dec s1 s) as [->|N1], (slot_dec s2 s) as [->|N2]; [reflexivity| | |];
      rewrite ?setf_same, ?setf_other by assumption; cbn [f_data]; intros D1 D2; try discriminate.
    exact (j_apart _ _ _ J s1 s2 q N1 N2 D1 D2).
  - intros q w Q. destruct (j_all _ _ _ J q w Q) as [|(s' & N' & D')]; [now left|right]. exists s'. now rewrite setf_other.
  - apply J.
Qed.
Lemma take_steal x c s n p v : Inv x c -> mine c p = Some v ->
  (forall s' m, given c s' = Lent p m -> s' = s) ->
  exists y, take x s n p STEAL = Some y /\ Inv y (mkC (put (mine c) p None) (set_given (given c) s (Own v))).
Proof.
  intros I M U. destruct (drop x c s I) as (y & E & J & F & X & _). unfold take. rewrite E. cbn [dupop]. eexists. split; [reflexivity|].
  assert (O : forall s' q, s' <> s -> f_data (fl y s') = Some q -> q <> p).
  { intros s' q N D ->. pose proof (j_slot _ _ _ J s' N) as S. unfold slot_ok in S. destruct (given c s') as [|w|r m].
    - destruct S; congruence. - destruct S as (r & _ & D' & H' & M'). congruence. - destruct S as (_ & D' & _). congruence. }
  split; cbn [mine given heap nxt fl].
  - intros q w Q. destruct (Nat.eq_dec q p) as [->|N]; [rewrite put_same in Q; discriminate|]. rewrite put_other in Q by exact N. now apply (j_mine _ _ _ J).
  - intros s'. destruct (slot_dec s' s) as [->|N].
    + unfold slot_ok. cbn [mine given heap fl]. rewrite setg_same, setf_same. cbn [f_const f_data]. exists p. rewrite put_same.
      repeat split. now apply (j_mine _ _ _ J).
    + apply (slot_frame y c s _ _ s' N (j_slot _ _ _ J s' N)); cbn [mine given heap fl]; [now apply setf_other|now apply setg_other| |].
      * intros q w D H' M'. split; [exact H'|]. rewrite put_other; [exact M'|]. eapply O; eassumption.
      * intros q m w G Q. exists w. split; [|reflexivity]. rewrite put_other; [exact Q|]. intros ->. apply N. exact (U s' m G).
  - intros s1 s2 q. destruct (slot_dec s1 s) as [->|N1], (slot_dec s2 s) as [->|N2]; [reflexivity| | |];
      rewrite ?setf_same, ?setf_other by assumption; cbn [f_data]; intros D1 D2.
    + exfalso. apply (O s2 q N2 D2). congruence. + exfalso. apply (O s1 q N1 D1). congruence.
    + exact (j_apart _ _ _ J s1 s2 q N1 N2 D1 D2).
  - intros q w Q. destruct (Nat.eq_dec q p) as [->|N]; [right; exists s; now rewrite setf_same|].
    rewrite put_other by exact N. destruct (j_all _ _ _ J q w Q) as [|(s' & N' & D')]; [now left|right]. exists s'. now rewrite setf_other.
  - apply J.
Qed.

Lemma alloc_inv x c v : Inv x c -> Inv (fst (malloc x v)) (mkC (put (mine c) (nxt x) (Some v)) (given c)).
Proof.
  intros I. assert (Z : heap x (nxt x) = None) by (apply (i_new _ _ I); lia). split; cbn [malloc fst mine given heap nxt fl].
  - intros q w Q. destruct (Nat.eq_dec q (nxt x)) as [->|N]; [rewrite put_same in *; exact Q|]. rewrite put_other in * by exact N. now apply (i_mine _ _ I).
  - intros s. pose proof (i_slot _ _ I s) as S. unfold slot_ok in *. cbn [mine given heap fl]. destruct (given c s) as [|w|p n]; [exact S| |].
    + destruct S as (p & A & B & C & E). exists p. assert (p <> nxt x) by congruence. rewrite !put_other by assumption. auto.
    + destruct S as (A & B & C & w & M & L). repeat split; auto. exists w. split; [|exact L]. rewrite put_other; [exact M|].
      intros ->. rewrite (i_mine _ _ I _ _ M) in Z. discriminate.
  - apply I.
  - intros q w Q. destruct (Nat.eq_dec q (nxt x)) as [->|N]; [rewrite put_same in *; now left|]. rewrite put_other in * by exact N. now apply (i_all _ _ I).
  - intros q L. rewrite put_other by lia. apply (i_new _ _ I). lia.
Qed.
Lemma free_inv x c p v : Inv x c -> mine c p = Some v -> ~ lent c p ->
  exists y, free x p = Some y /\ Inv y (mkC (put (mine c) p None) (given c)).
Proof.
  intros I M U. unfold free. rewrite (i_mine _ _ I p v M). eexists. split; [reflexivity|].
  split; cbn [mine given heap nxt fl].
  - intros q w Q. destruct (Nat.eq_dec q p) as [->|N]; [rewrite put_same in *; exact Q|]. rewrite put_other in * by exact N. now apply (i_mine _ _ I).
  - intros s. pose proof (i_slot _ _ I s) as S. unfold slot_ok in *. cbn [mine given heap fl]. destruct (given c s) as [|w|q n] eqn:G; [exact S| |].
    + destruct S as (q & A & B & C & E). exists q. assert (q <> p) by congruence. rewrite !put_other by assumption. auto.
    + destruct S as (A & B & C & w & Mq & L). repeat split; auto. exists w. split; [|exact L]. rewrite put_other; [exact Mq|].
      intros ->. apply U. exists s, n. exact G.
  - apply I.
  - intros q w Q. destruct (Nat.eq_dec q p) as [->|N]; [rewrite put_same in *; discriminate|]. rewrite put_other in * by exact N. now apply (i_all _ _ I).
  - intros q L. destruct (Nat.eq_dec q p) as [->|N]; [apply put_same|]. rewrite put_other by exact N. now apply (i_new _ _ I).
Qed.
Lemma write_inv x c p v w : Inv x c -> mine c p = Some v -> length w = length v ->
  Inv (mkS (put (heap x) p (Some w)) (nxt x) (fl x)) (mkC (put (mine c) p (Some w)) (given c)).
Proof.
  intros I M Lw. split; cbn [mine given heap nxt fl].
  - intros q u Q. destruct (Nat.eq_dec q p) as [->|N]; [rewrite put_same in *; exact Q|]. rewrite put_other in * by exact N. now apply (i_mine _ _ I).
  - intros s. pose proof (i_slot _ _ I s) as S. unfold slot_ok in *. cbn [mine given heap fl]. destruct (given c s) as [|u|q n]; [exact S| |].
    + destruct S as (q & A & B & C & E). exists q. assert (q <> p) by congruence. rewrite !put_other by assumption. auto.
    + destruct S as (A & B & C & u & Mq & L). repeat split; auto. destruct (Nat.eq_dec q p) as [->|N].
      * exists w. rewrite put_same. split; [reflexivity|]. rewrite M in Mq. injection Mq as ->. lia.
      * exists u. rewrite put_other by exact N. auto.
  - apply I.
  - intros q u Q. destruct (Nat.eq_dec q p) as [->|N]; [rewrite put_same in *; now left|]. rewrite put_other in * by exact N. now apply (i_all _ _ I).
  - intros q L. destruct (Nat.eq_dec q p) as [->|N].
    + exfalso. pose proof (i_new _ _ I p L). rewrite (i_mine _ _ I _ _ M) in *. discriminate.
    + rewrite put_other by exact N. now apply (i_new _ _ I).
Qed.
(** Invariants only look at the caller's blocks pointwise. *)
Lemma inv_ext x c m g : Inv x c -> (forall p, m p = mine c p) -> (forall s, g s = given c s) -> Inv x (mkC m g).
Proof.
  intros I A B. split; cbn [mine given].
  - intros p v. rewrite A. apply I.
  - intros s. pose proof (i_slot _ _ I s) as S. unfold slot_ok in *. cbn [mine given]. rewrite B. destruct (given c s); [exact S| |].
    + destruct S as (p & S). exists p. now rewrite A. + now rewrite A.
  - apply I. - intros p v. rewrite A. apply I. - apply I.
Qed.
Lemma center_inv x c lims gain : Inv x c -> exists y, center_configs x lims gain = Some y /\
  Inv y (mkC (mine c) (set_given (set_given (given c) Ref (Own (map center lims))) Gain (Own (map (center_gain gain) lims)))).
Proof.
  intros I. unfold center_configs. cbn [malloc]. set (a := map center lims). set (b := map (center_gain gain) lims).
  pose proof (alloc_inv x c a I) as I1. cbn [malloc fst] in I1.
  pose proof (alloc_inv _ _ b I1) as I2. cbn [malloc fst mine given nxt] in I2.
  assert (Z : mine c (nxt x) = None).
  { destruct (mine c (nxt x)) as [w|] eqn:Q; [|reflexivity]. pose proof (i_new _ _ I (nxt x) (le_n _)). rewrite (i_mine _ _ I _ _ Q) in *. discriminate. }
  assert (Z' : mine c (S (nxt x)) = None).
  { destruct (mine c (S (nxt x))) as [w|] eqn:Q; [|reflexivity]. pose proof (i_new _ _ I (S (nxt x)) ltac:(lia)). rewrite (i_mine _ _ I _ _ Q) in *. discriminate. }
  assert (NL : forall s m p, mine c p = None -> given c s <> Lent p m).
  { intros s m p Zp G. pose proof (i_slot _ _ I s) as S. unfold slot_ok in S. rewrite G in S. destruct S as (_ & _ & _ & v & M & _). congruence. }
  set (x2 := mkS _ _ _) in I2. set (c2 := mkC _ _) in I2.
  assert (M1 : mine c2 (nxt x) = Some a) by (cbn [c2 mine]; rewrite put_other by lia; apply put_same).
  destruct (take_steal x2 c2 Ref (length lims) (nxt x) a I2 M1) as (y & E & I3).
  { intros s m G. exfalso. exact (NL s m _ Z G). }
  change (nxt {| heap := put (heap x) (nxt x) (Some a); nxt := S (nxt x); fl := fl x |}) with (S (nxt x)).
  fold x2. cbn [fl] in E |- *. fold x2 in E. unfold x2 in E at 1. fold x2 in E. rewrite E.
  match type of I3 with Inv _ ?cc => set (c3 := cc) in I3 end.
  assert (M2 : mine c3 (S (nxt x)) = Some b) by (cbn [c3 mine c2]; rewrite put_other by lia; apply put_same).
  destruct (take_steal y c3 Gain (length lims) (S (nxt x)) b I3 M2) as (z & E2 & I4).
  { intros s m. cbn [c3 given c2]. destruct (slot_dec s Ref) as [->|N]; [rewrite setg_same; discriminate|]. rewrite setg_other by exact N.
    intros G. exfalso. exact (NL s m _ Z' G). }
  rewrite E2. exists z. split; [reflexivity|]. eapply inv_ext; [exact I4| |].
  - intros p. cbn [mine c3 c2]. destruct (Nat.eq_dec p (S (nxt x))) as [->|N]; [now rewrite put_same|]. rewrite put_other by exact N.
    destruct (Nat.eq_dec p (nxt x)) as [->|N']; [now rewrite put_same|]. now rewrite !put_other by assumption.
  - reflexivity.
Qed.

Lemma reach_inv x c : reach (x, c) -> Inv x c.
Proof.
  intros R. remember (x, c) as a eqn:E. revert x c E. induction R as [h n H|a b R IH S]; intros x c E.
  - inversion E; subst. split; cbn; try discriminate; auto.
  - subst b. destruct a as [x0 c0]. specialize (IH x0 c0 eq_refl). inversion S; subst.
    + now apply alloc_inv.
    + destruct (mine c0 p) as [v|] eqn:M; [|congruence]. destruct (free_inv x0 c0 p v IH M) as (y & E & I); [assumption|]. congruence.
    + eapply write_inv; eassumption.
    + destruct (take_copy x0 c0 s n p v IH) as (y & E & I); auto. congruence.
    + destruct (take_steal x0 c0 s n p v IH) as (y & E & I); auto. congruence.
    + destruct (take_borrow x0 c0 s n p v IH) as (y & E & I); auto. congruence.
    + destruct (center_inv x0 c0 lims gain IH) as (y & E & I). congruence.
Qed.

(** ** The contract *)
Lemma own_safe x c : reach (x, c) -> forall s n p v, mine c p = Some v -> (n <= length v)%nat ->
  take x s n p COPY <> None /\ take x s n p BORROW <> None /\
  ((forall s' m, given c s' = Lent p m -> s' = s) -> take x s n p STEAL <> None) /\
  (~ lent c p -> free x p <> None) /\ (forall lims gain, center_configs x lims gain <> None).
Proof.
  intros R s n p v M L. pose proof (reach_inv x c R) as I. repeat split.
  - destruct (take_copy x c s n p v I M L) as (y & -> & _). discriminate.
  - destruct (take_borrow x c s n p v I M L) as (y & -> & _). discriminate.
  - intros U. destruct (take_steal x c s n p v I M U) as (y & -> & _). discriminate.
  - intros U. destruct (free_inv x c p v I M U) as (y & -> & _). discriminate.
  - intros lims gain. destruct (center_inv x c lims gain I) as (y & -> & _). discriminate.
Qed.
Lemma own_values x c : reach (x, c) -> (forall s, seen x s = holds c s) /\ (forall p v, mine c p = Some v -> heap x p = Some v).
Proof.
  intros R. pose proof (reach_inv x c R) as I. split; [|apply I]. intros s. pose proof (i_slot _ _ I s) as S. unfold slot_ok in S. unfold seen, holds.
  destruct (given c s) as [|v|p n].
  - destruct S as [-> _]. reflexivity.
  - destruct S as (p & -> & _ & H & _). exact H.
  - destruct S as (-> & _ & _ & v & M & _). rewrite M. now apply (i_mine _ _ I).
Qed.
Lemma own_destroy x c : reach (x, c) -> exists h, parm_destroy x = Some h /\
  forall p v, h p = Some v <-> mine c p = Some v \/ (f_data (fl x Seed) = Some p /\ given c Seed = Own v).
Proof.
  intros R. pose proof (reach_inv x c R) as I. unfold parm_destroy.
  destruct (drop x c Gain I) as (y & E & J & F & X & K). rewrite E.
  assert (D : exists h, (match checked_free y (f_data (fl x Ref)) with Some z => Some (heap z) | None => None end) = Some h /\
    (forall p, f_data (fl x Ref) <> Some p -> h p = heap y p) /\ (forall p, f_data (fl x Ref) = Some p -> h p = None)).
  { destruct (f_data (fl x Ref)) as [p|] eqn:D; cbn [checked_free].
    - destruct (data_own x c Ref p I D) as (v & G & H & M). unfold free.
      rewrite K, H; [|intros D'; pose proof (i_apart _ _ I _ _ _ D D'); discriminate].
      eexists. split; [reflexivity|]. cbn [heap]. split; [intros q N; apply put_other; congruence|intros q Q; injection Q as <-; apply put_same].
    - eexists. split; [reflexivity|]. split; [auto|discriminate]. }
  destruct D as (h & -> & D1 & D2). exists h. split; [reflexivity|]. intros p v.
  destruct (f_data (fl x Ref)) as [r|] eqn:DR.
  all: assert (G : heap y p = Some v <-> mine c p = Some v \/ (f_data (fl x Seed) = Some p /\ given c Seed = Own v) \/ (f_data (fl x Ref) = Some p /\ heap x p = Some v)).
  1,3: split; [intros H|intros [M|[[S G]|[S H]]]].
  1,5: destruct (j_all _ _ _ J p v H) as [M|(s & N & D)]; [now left|right]; rewrite F in D;
     assert (HX : heap x p = Some v) by (rewrite <- K; [exact H|intros D'; exact (N (i_apart _ _ I _ _ _ D D'))]);
     destruct s; [right; auto|congruence|left; split; [exact D|]]; destruct (data_own x c Seed p I D) as (w & Gw & Hw & _); congruence.
  1,4: now apply (j_mine _ _ _ J).
  1,3: destruct (data_own x c Seed p I S) as (w & Gw & Hw & _); rewrite K; [congruence|intros D'; pose proof (i_apart _ _ I _ _ _ S D'); discriminate].
  1,2: rewrite K; [exact H|intros D'; pose proof (i_apart _ _ I _ _ _ S D'); discriminate].
  - destruct (Nat.eq_dec r p) as [->|N].
    + rewrite (D2 p eq_refl). split; [discriminate|]. intros [M|[S _]].
      * destruct (data_own x c Ref p I DR) as (w & _ & _ & M'). congruence.
      * pose proof (i_apart _ _ I _ _ _ S DR). discriminate.
    + rewrite D1 by congruence. rewrite G, DR. split; [intros [|[|[Q _]]]; auto; congruence|tauto].
  - rewrite D1 by congruence. rewrite G, DR. split; [intros [|[|[Q _]]]; auto; congruence|tauto].
Qed.

Lemma nth_read x c s v i : reach (x, c) -> holds c s = Some v -> read x (f_const (fl x s)) i = nth_error v i.
Proof.
  intros R H. destruct (own_values x c R) as [V _]. specialize (V s). rewrite H in V. unfold seen in V. unfold read.
  destruct (f_const (fl x s)) as [p|]; [|discriminate]. now rewrite V.
Qed.
Open Scope R_scope.
Lemma dqnull_ok x c r g : reach (x, c) -> holds c Ref = Some r -> holds c Gain = Some g ->
  forall q k, (k + length q <= length r)%nat -> (k + length q <= length g)%nat ->
  exists l, dqnull x q k = Some l /\ length l = length q /\
    forall i, (i < length q)%nat -> nth i l 0 = - nth (k + i) g 0 * (nth i q 0 - nth (k + i) r 0).
Proof.
  intros R Hr Hg q. induction q as [|a q IH]; intros k Lr Lg; cbn [dqnull length] in *.
  - exists []. split; [reflexivity|]. split; [reflexivity|]. intros i L. lia.
  - destruct (IH (S k) ltac:(lia) ltac:(lia)) as (l & E & Ln & V).
    rewrite (nth_read x c Gain g k R Hg), (nth_read x c Ref r k R Hr), E.
    rewrite (nth_error_nth' g 0) by lia. rewrite (nth_error_nth' r 0) by lia.
    eexists. split; [reflexivity|]. split; [cbn [length]; lia|]. intros [|i] L.
    + rewrite Nat.add_0_r. reflexivity.
    + cbn [nth]. rewrite V by lia. now replace (S k + i)%nat with (k + S i)%nat by lia.
Qed.
Lemma null_ok x c q r g : reach (x, c) -> holds c Ref = Some r -> holds c Gain = Some g ->
  (length q <= length r)%nat -> (length q <= length g)%nat ->
  exists l, null_motion x q = Some (Some l) /\ length l = length q /\
    forall i, (i < length q)%nat -> nth i l 0 = - nth i g 0 * (nth i q 0 - nth i r 0).
Proof.
  intros R Hr Hg Lr Lg. destruct (dqnull_ok x c r g R Hr Hg q 0 Lr Lg) as (l & E & Ln & V). exists l. unfold null_motion.
  destruct (own_values x c R) as [W _]. specialize (W Ref). rewrite Hr in W. unfold seen in W.
  destruct (f_const (fl x Ref)); [|discriminate]. rewrite E. auto.
Qed.
Lemma null_none x c q : reach (x, c) -> given c Ref = Nothing -> null_motion x q = Some None.
Proof.
  intros R G. pose proof (i_slot _ _ (reach_inv x c R) Ref) as S. unfold slot_ok in S. rewrite G in S. unfold null_motion. now rewrite (proj1 S).
Qed.
Lemma null_bad x c q : reach (x, c) -> given c Ref <> Nothing -> given c Gain = Nothing -> q <> [] -> null_motion x q = None.
Proof.
  intros R G G' Q. pose proof (i_slot _ _ (reach_inv x c R) Ref) as S. pose proof (i_slot _ _ (reach_inv x c R) Gain) as S'.
  unfold slot_ok in S, S'. rewrite G' in S'. unfold null_motion.
  assert (C : exists p, f_const (fl x Ref) = Some p) by (destruct (given c Ref); [congruence|destruct S as (p & A & _); eauto|destruct S as (A & _); eauto]).
  destruct C as (p & ->). destruct q as [|a q]; [congruence|]. cbn [dqnull]. now rewrite (proj1 S').
Qed.

(** ** Witnesses: one block of the caller at address 0 *)
Definition h1 : ptr -> option (list R) := fun p => match p with O => Some [1] | _ => None end.
Definition c1 (s : slot) (g : expect) : caller := mkC h1 (set_given (fun _ => Nothing) s g).
Lemma w_copy s : exists x, reach (x, c1 s (Own [1])) /\ take (parm_create h1 1%nat) s 1%nat 0%nat COPY = Some x.
Proof.
  assert (R : reach (parm_create h1 1%nat, mkC h1 (fun _ => Nothing))).
  { apply r_new. intros [|p] L; [lia|reflexivity]. }
  destruct (take_copy _ _ s 1%nat 0%nat [1] (reach_inv _ _ R) eq_refl (le_n _)) as (x & E & _).
  exists x. split; [|exact E]. eapply r_step; [exact R|]. exact (st_copy (parm_create h1 1%nat) (mkC h1 (fun _ => Nothing)) s 1%nat 0%nat [1] x eq_refl (le_n _) E).
Qed.
Lemma leak : exists x c h, reach (x, c) /\ parm_destroy x = Some h /\ exists p, h p <> None /\ mine c p = None.
Proof.
  destruct (w_copy Seed) as (x & R & E). destruct (own_destroy x _ R) as (h & D & H).
  exists x, (c1 Seed (Own [1])), h. split; [exact R|]. split; [exact D|].
  pose proof (i_slot _ _ (reach_inv _ _ R) Seed) as S. unfold slot_ok in S. cbn [c1 given] in S. rewrite setg_same in S.
  destruct S as (p & _ & A & _ & M). exists p. split; [|exact M]. rewrite (proj2 (H p [1])); [discriminate|]. right. split; [exact A|reflexivity].
Qed.
Lemma null_crash : exists x c q, reach (x, c) /\ holds c Ref = Some [1] /\ null_motion x q = None.
Proof.
  destruct (w_copy Ref) as (x & R & E). exists x, (c1 Ref (Own [1])), [1]. split; [exact R|]. split; [reflexivity|].
  apply (null_bad x _ _ R); cbn; discriminate || reflexivity.
Qed.
Lemma svd_default : tol_angle_svd default_tols = 0 /\ tol_trans_svd default_tols = 0 /\
  0 < tol_angle default_tols /\ 0 < tol_trans default_tols.
Proof. unfold default_tols. cbn [tol_angle tol_trans tol_angle_svd tol_trans_svd]. pose proof PI_RGT_0. repeat split; lra. Qed.
