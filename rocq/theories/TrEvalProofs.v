(** Evaluating a list of segments, and gluing functions given segment by segment. *)
From Coq Require Import List Reals Arith Lia Lra Bool.
From Verif Require Import TrModel TrSpec.
Import ListNotations.
Open Scope R_scope.

Lemma Rle_b_true a b : Rle_b a b = true <-> a <= b.
Proof. unfold Rle_b. destruct (Rle_dec a b); split; auto; try discriminate; tauto. Qed.
Lemma Rle_b_false a b : Rle_b a b = false <-> b < a.
Proof. unfold Rle_b. destruct (Rle_dec a b); split; try discriminate; auto; lra. Qed.
Lemma Rlt_b_true a b : Rlt_b a b = true <-> a < b.
Proof. unfold Rlt_b. destruct (Rlt_dec a b); split; auto; try discriminate; tauto. Qed.
Lemma Rlt_b_false a b : Rlt_b a b = false <-> b <= a.
Proof. unfold Rlt_b. destruct (Rlt_dec a b); split; try discriminate; auto; lra. Qed.

Ltac rcase :=
  match goal with
  | |- context [Rle_b ?a ?b] => destruct (Rle_b a b) eqn:?
  | |- context [Rlt_b ?a ?b] => destruct (Rlt_b a b) eqn:?
  end.
Ltac rb :=
  repeat match goal with
  | H : Rle_b _ _ = true |- _ => apply Rle_b_true in H
  | H : Rle_b _ _ = false |- _ => apply Rle_b_false in H
  | H : Rlt_b _ _ = true |- _ => apply Rlt_b_true in H
  | H : Rlt_b _ _ = false |- _ => apply Rlt_b_false in H
  end.

Lemma Forall2_impl {A B} (P Q : A -> B -> Prop) : (forall a b, P a b -> Q a b) ->
  forall l m, Forall2 P l m -> Forall2 Q l m.
Proof. intros H l m F. induction F; constructor; auto. Qed.

(** ** The loop over the segments *)
Section Evaluation.
Variable ev : nat -> st -> R -> option (bool * st).
Variables (n : nat) (lo hi : nat -> R) (good : st -> Prop) (post miss : nat -> st -> R -> st).
Hypothesis ev_in : forall k s t, (k < n)%nat -> good s -> lo k <= t <= hi k -> ev k s t = Some (true, post k s t).
Hypothesis ev_out : forall k s t, (k < n)%nat -> good s -> t < lo k \/ hi k < t ->
  ev k s t = Some (false, miss k s t) /\ good (miss k s t) /\ forall j u, post j (miss k s t) u = post j s u.
Hypothesis strict : forall k, (k < n)%nat -> lo k < hi k.
Hypothesis joined : forall k, (S k < n)%nat -> hi k = lo (S k).

Lemma lo_mono : forall k j, (k <= j)%nat -> (j < n)%nat -> lo k <= lo j.
Proof.
  intros k j H; induction H as [|j H IH]; intros Hj; [lra|].
  specialize (IH ltac:(lia)). pose proof (strict j ltac:(lia)). rewrite (joined j Hj) in H0. lra.
Qed.

Lemma loop_in : forall left k s t, (k + left = n)%nat -> (0 < left)%nat -> good s -> lo k <= t <= hi (n - 1) ->
  exists j, (k <= j < n)%nat /\ lo j <= t <= hi j /\ (j = k \/ lo j < t) /\
    eval_loop ev left k s t = Some (true, post j s t, Some j).
Proof.
  induction left as [|left IH]; intros k s t Hk Hl Hs Ht; [lia|].
  cbn [eval_loop]. destruct (Rle_dec t (hi k)) as [H|H].
  - exists k. rewrite (ev_in k s t) by (auto; lia || lra). cbn [obind]. repeat split; auto; lia || lra.
  - destruct (ev_out k s t) as (E & G & P); [lia|auto|lra|]. rewrite E. cbn [obind].
    destruct left as [|left].
    { exfalso. replace (n - 1)%nat with k in Ht by lia. lra. }
    destruct (IH (S k) (miss k s t) t) as (j & J1 & J2 & J3 & J4); auto; try lia.
    { rewrite <- (joined k) by lia. lra. }
    exists j. rewrite J4, P. repeat split; auto; try lia; try lra.
    right. destruct J3 as [->|J3]; auto. rewrite <- (joined k) by lia. lra.
Qed.

(** outside: every segment is tried *)
Fixpoint missed (left k : nat) (s : st) (t : R) : st :=
  match left with O => s | S l => missed l (S k) (miss k s t) t end.
Lemma loop_out : forall left k s t, (k + left = n)%nat -> good s ->
  (forall j, (k <= j < n)%nat -> t < lo j \/ hi j < t) ->
  eval_loop ev left k s t = Some (false, missed left k s t, None).
Proof.
  induction left as [|left IH]; intros k s t Hk Hs Ht; [reflexivity|].
  cbn [eval_loop missed].
  destruct (ev_out k s t) as (E & G & P); [lia|auto|apply Ht; lia|]. rewrite E. cbn [obind].
  apply IH; auto; [lia|]. intros j Hj. apply Ht. lia.
Qed.

Lemma hi_mono : forall d j, (j + d = n - 1)%nat -> (0 < n)%nat -> hi j <= hi (n - 1).
Proof.
  induction d; intros j Hj Hn; [replace j with (n-1)%nat by lia; lra|].
  specialize (IHd (S j) ltac:(lia) Hn). rewrite (joined j) by lia. pose proof (strict (S j) ltac:(lia)). lra.
Qed.

Definition cursor (it : option nat) : nat := match it with Some k => k | None => O end.

Lemma list_eval_in : forall it s t, (cursor it < n)%nat -> good s -> lo (cursor it) <= t <= hi (n - 1) ->
  exists j, (cursor it <= j < n)%nat /\ lo j <= t <= hi j /\ (j = cursor it \/ lo j < t) /\
    list_eval ev n it s t = Some (true, post j s t, Some j).
Proof.
  intros it s t Hk Hs Ht. unfold list_eval. fold (cursor it). destruct (Nat.leb_spec n (cursor it)); [lia|].
  apply loop_in; auto; lia.
Qed.
Lemma list_eval_out : forall it s t, (cursor it < n)%nat -> good s -> t < lo (cursor it) \/ hi (n - 1) < t ->
  list_eval ev n it s t = Some (false, missed (n - cursor it) (cursor it) s t, None).
Proof.
  intros it s t Hk Hs Ht. unfold list_eval. fold (cursor it). destruct (Nat.leb_spec n (cursor it)); [lia|].
  apply loop_out; auto; [lia|].
  intros j Hj. destruct Ht as [Ht|Ht].
  - left. pose proof (lo_mono (cursor it) j ltac:(lia) ltac:(lia)). lra.
  - right. pose proof (hi_mono (n - 1 - j) j ltac:(lia) ltac:(lia)). lra.
Qed.

(** ** Sequences of calls *)
Definition answered (c : st * R) (o : bool * st) : Prop :=
  exists j, (j < n)%nat /\ lo j <= snd c <= hi j /\ o = (true, post j (fst c) (snd c)).

Lemma list_eval_any : forall it s t, (cursor it < n)%nat -> good s ->
  (exists j, (j < n)%nat /\ lo j <= t <= hi j /\ list_eval ev n it s t = Some (true, post j s t, Some j)) \/
  ((t < lo (cursor it) \/ hi (n - 1) < t) /\ exists s', list_eval ev n it s t = Some (false, s', None)).
Proof.
  intros it s t Hk Hs.
  destruct (Rlt_dec t (lo (cursor it))) as [H|H].
  { right. split; auto. eexists. apply list_eval_out; auto. }
  destruct (Rlt_dec (hi (n - 1)) t) as [H'|H'].
  { right. split; auto. eexists. apply list_eval_out; auto. }
  left. destruct (list_eval_in it s t Hk Hs ltac:(lra)) as (j & J1 & J2 & _ & J4). exists j. repeat split; auto; lia || lra.
Qed.

Lemma calls_any : forall h it, (cursor it < n)%nat -> Forall (fun c => good (fst c)) h ->
  exists out it', calls (list_eval ev n) it h = Some (out, it') /\ (cursor it' < n)%nat /\ Forall2 (fun c o => answered c o \/ fst o = false) h out.
Proof.
  induction h as [|[s t] h IH]; intros it Hk Hg; cbn [calls].
  - exists [], it. auto.
  - apply Forall_cons_iff in Hg. destruct Hg as (G & Hg). cbn [fst] in G.
    destruct (list_eval_any it s t Hk G) as [(j & J1 & J2 & ->)|(_ & s' & ->)].
    + destruct (IH (Some j) J1 Hg) as (out & it' & -> & C & F). exists ((true, post j s t) :: out), it'.
      split; auto. split; auto. constructor; auto. left. exists j. auto.
    + destruct (IH None ltac:(cbn; lia) Hg) as (out & it' & -> & C & F). exists ((false, s') :: out), it'.
      split; auto.
Qed.

Lemma calls_forward : forall h it, (cursor it < n)%nat -> Forall (fun c => good (fst c)) h ->
  Forall (fun c => lo (cursor it) <= snd c <= hi (n - 1)) h ->
  (forall i, (S i < length h)%nat -> nth i (map snd h) 0 <= nth (S i) (map snd h) 0) ->
  exists out it', calls (list_eval ev n) it h = Some (out, it') /\ Forall2 answered h out.
Proof.
  induction h as [|[s t] h IH]; intros it Hk Hg Ht Hm; cbn [calls].
  - exists [], it. auto.
  - apply Forall_cons_iff in Hg. destruct Hg as (G & Hg). apply Forall_cons_iff in Ht. destruct Ht as (T & Ht).
    cbn [fst snd] in *.
    destruct (list_eval_in it s t Hk G T) as (j & J1 & J2 & _ & ->).
    assert (M : Forall (fun c => t <= snd c) h).
    { apply Forall_forall. intros c Hc. apply (In_nth _ _ (s, t)) in Hc. destruct Hc as (i & Hi & <-).
      clear - Hm Hi. induction i as [|i IH].
      - specialize (Hm 0%nat ltac:(cbn; lia)). cbn [map nth snd] in Hm.
        rewrite <- (map_nth snd). cbn [snd]. erewrite nth_indep; [apply Hm|]. rewrite map_length. auto.
      - specialize (IH ltac:(lia)). specialize (Hm (S i) ltac:(cbn; lia)). cbn [map nth] in Hm.
        rewrite <- (map_nth snd) in *. rewrite (nth_indep _ 0 (snd (s, t))) in Hm by (rewrite map_length; lia).
        rewrite (nth_indep (map snd h) 0 (snd (s, t)) (n := S i)) in Hm by (rewrite map_length; lia). lra. }
    destruct (IH (Some j)) as (out & it' & -> & F); auto; try (cbn; lia).
    + rewrite Forall_forall in *. intros c Hc. specialize (Ht c Hc). specialize (M c Hc). cbn [cursor]. lra.
    + intros i Hi. apply (Hm (S i)). cbn. lia.
    + exists ((true, post j s t) :: out), it'. split; auto. constructor; auto. exists j. repeat split; cbn; auto; lia || lra.
Qed.

End Evaluation.

(** ** Gluing *)
Section Glue.
Variables (n : nat) (lo hi : nat -> R).
Hypothesis npos : (0 < n)%nat.
Hypothesis strict : forall k, (k < n)%nat -> lo k < hi k.
Hypothesis joined : forall k, (S k < n)%nat -> hi k = lo (S k).

(** the first segment that reaches to t; the last if there is none *)
Fixpoint ix_from (left k : nat) (t : R) : nat :=
  match left with
  | O => k
  | S l => if Rle_b t (hi k) then k else ix_from l (S k) t
  end.
Definition ix (t : R) : nat := ix_from (n - 1) 0 t.

Lemma ix_from_spec : forall left k t, (k + left = n - 1)%nat -> (k = 0%nat \/ lo k < t) ->
  let j := ix_from left k t in
  (k <= j < n)%nat /\ (j = 0%nat \/ lo j < t) /\ (j = (n - 1)%nat \/ t <= hi j).
Proof.
  induction left as [|left IH]; intros k t Hk Hl; cbn [ix_from].
  - repeat split; auto; lia.
  - rcase; rb.
    + repeat split; auto; lia.
    + destruct (IH (S k) t) as (A & B & C); [lia|right; rewrite <- joined by lia; lra|].
      repeat split; auto; lia.
Qed.
Lemma ix_spec : forall t, (ix t < n)%nat /\ (ix t = 0%nat \/ lo (ix t) < t) /\ (ix t = (n - 1)%nat \/ t <= hi (ix t)).
Proof. intros t. destruct (ix_from_spec (n - 1) 0 t) as (A & B & C); [lia|auto|]. unfold ix. repeat split; auto; lia. Qed.
Lemma ix_in : forall t, lo 0 <= t <= hi (n - 1) -> lo (ix t) <= t <= hi (ix t).
Proof.
  intros t Ht. destruct (ix_spec t) as (A & B & C). split.
  - destruct B as [->|B]; lra.
  - destruct C as [->|C]; lra.
Qed.
Lemma glo_mono : forall k j, (k <= j)%nat -> (j < n)%nat -> lo k <= lo j.
Proof. intros. apply (lo_mono n lo hi); auto. Qed.
Lemma glo_lt : forall k j, (k < j)%nat -> (j < n)%nat -> hi k <= lo j.
Proof. intros k j H Hj. rewrite joined by lia. apply glo_mono; lia. Qed.

(** the index is determined by the interval *)
Lemma ix_unique : forall t k, (k < n)%nat -> (k = 0%nat \/ lo k < t) -> (k = (n - 1)%nat \/ t <= hi k) -> ix t = k.
Proof.
  intros t k Hk H1 H2. destruct (ix_spec t) as (A & B & C).
  destruct (Nat.lt_trichotomy (ix t) k) as [H|[H|H]]; auto; exfalso.
  - pose proof (glo_lt _ _ H Hk). destruct C as [C|C]; [lia|]. destruct H1 as [H1|H1]; [lia|]. lra.
  - pose proof (glo_lt _ _ H A). destruct H2 as [H2|H2]; [lia|]. destruct B as [B|B]; [lia|]. lra.
Qed.

Section Values.
Context {A : Type}.
Variable val : nat -> R -> A.
Hypothesis cont : forall k, (S k < n)%nat -> val k (hi k) = val (S k) (hi k).
Lemma val_le : forall t j k, (j <= k)%nat -> (k < n)%nat -> lo j <= t <= hi j -> lo k <= t <= hi k -> val j t = val k t.
Proof.
  intros t j k H Hk Hj Hk'. destruct (Nat.eq_dec j k) as [->|N]; auto.
  destruct (Nat.eq_dec (S j) k) as [<-|N'].
  - assert (t = hi j) as -> by (rewrite <- joined in Hk' by lia; lra). apply cont; auto.
  - exfalso. pose proof (glo_lt (S j) k ltac:(lia) Hk). pose proof (strict (S j) ltac:(lia)).
    rewrite <- joined in H1 by lia. lra.
Qed.
Lemma val_same : forall t j k, (j < n)%nat -> (k < n)%nat -> lo j <= t <= hi j -> lo k <= t <= hi k -> val j t = val k t.
Proof.
  intros t j k Hj Hk A1 A2. destruct (Nat.le_ge_cases j k); [apply val_le; auto|symmetry; apply val_le; auto].
Qed.
Lemma val_ix : forall t j, (j < n)%nat -> lo j <= t <= hi j -> val (ix t) t = val j t.
Proof.
  intros t j Hj Ht. apply val_same; auto; [apply ix_spec|]. apply ix_in. split.
  - eapply Rle_trans; [apply (glo_mono 0 j); lia|lra].
  - eapply Rle_trans; [apply Ht|]. apply (hi_mono n lo hi strict joined (n - 1 - j)); lia.
Qed.
End Values.

(** bounds on differences add up *)
Lemma glue_diff : forall (f : nat -> R -> R) (a b : R),
  (forall k, (S k < n)%nat -> f k (hi k) = f (S k) (hi k)) ->
  (forall k t u, (k < n)%nat -> lo k <= t <= u -> u <= hi k -> a * (u - t) <= f k u - f k t <= b * (u - t)) ->
  forall t u, lo 0 <= t <= u -> u <= hi (n - 1) ->
  a * (u - t) <= f (ix u) u - f (ix t) t <= b * (u - t).
Proof.
  intros f a b Hc Hd.
  assert (G : forall d j t u, (j + d < n)%nat -> lo j <= t <= hi j -> lo (j + d) <= u <= hi (j + d) -> t <= u ->
             a * (u - t) <= f (j + d)%nat u - f j t <= b * (u - t)).
  { induction d; intros j t u H1 H2 H3 H4.
    - rewrite Nat.add_0_r in *. apply Hd; auto; lra || lia.
    - replace (j + S d)%nat with (S j + d)%nat in * by lia.
      pose proof (Hd j t (hi j) ltac:(lia) ltac:(lra) ltac:(lra)) as E1.
      pose proof (glo_mono (S j) (S j + d) ltac:(lia) ltac:(lia)) as E2.
      rewrite <- (joined j) in E2 by lia.
      assert (E3 := IHd (S j) (hi j) u ltac:(lia)). rewrite <- (joined j) in E3 by lia.
      pose proof (strict (S j) ltac:(lia)) as E4. rewrite <- (joined j) in E4 by lia.
      specialize (E3 ltac:(lra) ltac:(lra) ltac:(lra)). rewrite <- Hc in E3 by lia. lra. }
  intros t u H1 H2.
  pose proof (ix_in t ltac:(lra)) as I1. pose proof (ix_in u ltac:(lra)) as I2.
  destruct (ix_spec t) as (T1 & T2 & T3). destruct (ix_spec u) as (U1 & U2 & U3).
  assert (ix t <= ix u)%nat as L.
  { destruct (Nat.le_gt_cases (ix t) (ix u)); auto. exfalso. pose proof (glo_lt _ _ H T1).
    destruct T2 as [T2|T2]; [lia|]. lra. }
  replace (ix u) with (ix t + (ix u - ix t))%nat in * by lia. apply G; auto; lra || lia.
Qed.

(** derivatives *)
Lemma derivable_local (f g : R -> R) t l d : 0 < d -> (forall u, Rabs (u - t) < d -> f u = g u) ->
  derivable_pt_lim f t l -> derivable_pt_lim g t l.
Proof.
  intros Hd E D eps He. destruct (D eps He) as (d0 & H0).
  assert (0 < Rmin d0 d) as P by (apply Rmin_pos; [apply cond_pos|auto]).
  exists (mkposreal _ P). intros h Hh Hl. cbn [pos] in Hl.
  rewrite <- (E (t + h)), <- (E t).
  - apply H0; auto. eapply Rlt_le_trans; [apply Hl|apply Rmin_l].
  - replace (t - t) with 0 by lra. rewrite Rabs_R0. lra.
  - replace (t + h - t) with h by lra. eapply Rlt_le_trans; [apply Hl|apply Rmin_r].
Qed.
Lemma derivable_glued (f g F : R -> R) t l d : 0 < d ->
  (forall u, Rabs (u - t) < d -> u <= t -> F u = f u) -> (forall u, Rabs (u - t) < d -> t <= u -> F u = g u) ->
  derivable_pt_lim f t l -> derivable_pt_lim g t l -> derivable_pt_lim F t l.
Proof.
  intros Hd Ef Eg Df Dg eps He. destruct (Df eps He) as (d1 & H1). destruct (Dg eps He) as (d2 & H2).
  assert (0 < Rmin (Rmin d1 d2) d) as P by (repeat apply Rmin_pos; try apply cond_pos; auto).
  exists (mkposreal _ P). intros h Hh Hl. cbn [pos] in Hl.
  assert (Rabs h < d1 /\ Rabs h < d2 /\ Rabs h < d) as (L1 & L2 & L3).
  { pose proof (Rmin_l (Rmin d1 d2) d). pose proof (Rmin_r (Rmin d1 d2) d).
    pose proof (Rmin_l d1 d2). pose proof (Rmin_r d1 d2). repeat split; lra. }
  assert (Z : Rabs (t - t) < d) by (replace (t - t) with 0 by lra; rewrite Rabs_R0; lra).
  assert (Y : Rabs (t + h - t) < d) by (replace (t + h - t) with h by lra; auto).
  destruct (Rle_dec (t + h) t).
  - rewrite (Ef (t + h)), (Ef t) by (auto; lra). apply H1; auto.
  - rewrite (Eg (t + h)), (Eg t) by (auto; lra). apply H2; auto.
Qed.

Lemma glue_derivable : forall (f g : nat -> R -> R),
  (forall k, (S k < n)%nat -> f k (hi k) = f (S k) (hi k)) ->
  (forall k, (S k < n)%nat -> g k (hi k) = g (S k) (hi k)) ->
  (forall k t, (k < n)%nat -> (k = 0%nat \/ lo k <= t) -> (k = (n - 1)%nat \/ t <= hi k) -> derivable_pt_lim (f k) t (g k t)) ->
  forall t, derivable_pt_lim (fun u => f (ix u) u) t (g (ix t) t).
Proof.
  intros f g Hf Hg Hd t. destruct (ix_spec t) as (A & B & C). set (j := ix t) in *.
  assert (L : exists d, 0 < d /\ (forall u, Rabs (u - t) < d -> u <= t -> ix u = j)).
  { destruct B as [B|B].
    - exists 1. split; [lra|]. intros u _ Hu. apply ix_unique; auto. destruct C as [C|C]; [auto|right; lra].
    - exists (t - lo j). split; [lra|]. intros u Hu Hu'. apply ix_unique; auto.
      + right. apply Rabs_def2 in Hu. lra.
      + destruct C as [C|C]; [auto|right; lra]. }
  destruct L as (d1 & P1 & L).
  destruct (Req_dec t (hi j)) as [Et|Nt].
  - destruct (Nat.eq_dec j (n - 1)) as [J|J].
    + apply derivable_glued with (f := f j) (g := f j) (d := d1); auto.
      * intros u Hu Hu'. rewrite L; auto.
      * intros u Hu Hu'. rewrite (ix_unique u j); auto. destruct B; [auto|right; lra].
      * apply Hd; auto. destruct B; [auto|right; lra].
      * apply Hd; auto. destruct B; [auto|right; lra].
    + assert (SJ : (S j < n)%nat) by lia. pose proof (strict (S j) SJ) as E. rewrite <- (joined j SJ) in E.
      apply derivable_glued with (f := f j) (g := f (S j)) (d := Rmin d1 (hi (S j) - hi j)).
      * apply Rmin_pos; lra.
      * intros u Hu Hu'. rewrite L; auto. eapply Rlt_le_trans; [apply Hu|apply Rmin_l].
      * intros u Hu Hu'. destruct (Req_dec u t) as [->|N].
        { change (ix t) with j. rewrite Et. apply Hf; auto. }
        rewrite (ix_unique u (S j)); auto.
        -- right. rewrite <- (joined j) by auto. lra.
        -- right. assert (Rabs (u - t) < hi (S j) - hi j) by (eapply Rlt_le_trans; [apply Hu|apply Rmin_r]).
           apply Rabs_def2 in H. lra.
      * apply Hd; auto; try (right; lra); destruct B; [auto|right; lra].
      * rewrite Et, (Hg j SJ). apply Hd; auto; right; rewrite <- ?(joined j) by auto; lra.
  - destruct C as [C|C].
    + apply derivable_glued with (f := f j) (g := f j) (d := d1); auto.
      * intros u Hu Hu'. rewrite L; auto.
      * intros u Hu Hu'. rewrite (ix_unique u j); auto. destruct B; [auto|right; lra].
      * apply Hd; auto. destruct B; [auto|right; lra].
      * apply Hd; auto. destruct B; [auto|right; lra].
    + apply derivable_glued with (f := f j) (g := f j) (d := Rmin d1 (hi j - t)).
      * apply Rmin_pos; lra.
      * intros u Hu Hu'. rewrite L; auto. eapply Rlt_le_trans; [apply Hu|apply Rmin_l].
      * intros u Hu Hu'. rewrite (ix_unique u j); auto.
        -- destruct B as [B|B]; [auto|right; lra].
        -- right. assert (Rabs (u - t) < hi j - t) as H by (eapply Rlt_le_trans; [apply Hu|apply Rmin_r]).
           apply Rabs_def2 in H. lra.
      * apply Hd; auto. destruct B; [auto|right; lra].
      * apply Hd; auto. destruct B; [auto|right; lra].
Qed.
End Glue.
