From Coq Require Import ZArith List Bool Lia ZifyBool PeanoNat.
From Verif Require Import BitsModel BitsProofs RefModel RefSpec.
Import ListNotations.
Open Scope Z_scope.

Fixpoint sumf (f : thread -> Z) (l : list thread) : Z :=
  match l with [] => 0 | th :: r => f th + sumf f r end.

Lemma sumf_set f : forall l t th th', nth_error l t = Some th ->
  sumf f (set_nth l t th') = sumf f l - f th + f th'.
Proof.
  induction l as [|x r IH]; intros [|t] th th' H; cbn in *; try discriminate.
  - injection H as ->. lia.
  - rewrite (IH t th th' H). lia.
Qed.

Lemma sumf_nonneg f l : (forall th, 0 <= f th) -> 0 <= sumf f l.
Proof. intros H. induction l as [|x r IH]; cbn; [lia|]. specialize (H x). lia. Qed.

Lemma sumf_ge f l t th : (forall th, 0 <= f th) -> nth_error l t = Some th -> f th <= sumf f l.
Proof.
  intros Hf. revert t. induction l as [|x r IH]; intros [|t] H; cbn in *; try discriminate.
  - injection H as ->. pose proof (sumf_nonneg f r Hf). lia.
  - specialize (IH t H). pose proof (Hf x). lia.
Qed.

Definition heldz (th : thread) : Z := Z.of_nat (held th).
Lemma heldz_nonneg th : 0 <= heldz th. Proof. unfold heldz. lia. Qed.

(** a decrement that saw 1 and has not freed yet *)
Definition pend (th : thread) : Z :=
  match pc th with
  | Stored Destroy old | Ret Destroy old => if old =? 1 then 1 else 0
  | _ => 0
  end.
Lemma pend_nonneg th : 0 <= pend th.
Proof. unfold pend. destruct (pc th); try lia; destruct k; try lia; destruct (old =? 1); lia. Qed.

Definition in_cs (th : thread) : bool :=
  match pc th with Locked _ | HaveOld _ _ | HaveTmp _ _ _ | Stored _ _ => true | _ => false end.

Definition local (c : Z) (th : thread) : Prop :=
  match pc th with
  | Idle => True
  | AtomicOp k => (0 < held th)%nat /\ mutex_build th = false
  | WaitLock k => (0 < held th)%nat /\ mutex_build th = true
  | Locked k => (0 < held th)%nat /\ mutex_build th = true
  | HaveOld k old => (0 < held th)%nat /\ mutex_build th = true /\ old = c
  | HaveTmp k old tmp => (0 < held th)%nat /\ mutex_build th = true /\ old = c /\ tmp = c
  | Stored k old => mutex_build th = true /\ 1 <= old
  | Ret k old => 1 <= old
  end.

Record inv (b : bool) (s : state) : Prop := mkInv {
  i_style : forall t th, nth_error (thr s) t = Some th -> mutex_build th = b;
  i_cnt : cnt s = sumf heldz (thr s);
  i_max : sumf heldz (thr s) < 2 ^ 32;
  i_lock : forall t th, nth_error (thr s) t = Some th -> (in_cs th = true <-> lock s = Some t);
  i_local : forall t th, nth_error (thr s) t = Some th -> local (cnt s) th;
  i_free : Z.b2z (freed s) + sumf pend (thr s) = if sumf heldz (thr s) =? 0 then 1 else 0 }.

Lemma references_sum s : references s = sumf heldz (thr s).
Proof. unfold references. induction (thr s) as [|x r IH]; cbn; [reflexivity|]. rewrite IH. reflexivity. Qed.

Lemma init_inv b n : inv b (init (repeat b (S n))).
Proof.
  assert (Hnth : forall t th, nth_error (thr (init (repeat b (S n)))) t = Some th ->
     pc th = Idle /\ mutex_build th = b).
  { cbn [init repeat thr]. intros [|t] th H; cbn in H; [injection H as <-; auto|].
    apply nth_error_In in H. apply in_map_iff in H. destruct H as (x & <- & Hx).
    apply repeat_spec in Hx. subst. auto. }
  assert (Hs : sumf heldz (thr (init (repeat b (S n)))) = 1).
  { cbn [init repeat thr sumf].
    assert (E : sumf heldz (map (mkTh 0 Idle) (repeat b n)) = 0).
    { clear Hnth. induction n as [|n IH]; [reflexivity|].
      cbn [repeat map sumf]. rewrite IH. reflexivity. }
    rewrite E. reflexivity. }
  assert (Hp : sumf pend (thr (init (repeat b (S n)))) = 0).
  { clear Hs. revert Hnth. generalize (thr (init (repeat b (S n)))). intros l H.
    induction l as [|x r IH]; cbn; [reflexivity|].
    rewrite IH. 2: { intros t th Ht. apply (H (S t)). exact Ht. }
    unfold pend. destruct (H O x eq_refl) as [-> _]. reflexivity. }
  split.
  - intros t th H. apply (Hnth t th H).
  - rewrite Hs. reflexivity.
  - rewrite Hs. reflexivity.
  - intros t th H. destruct (Hnth t th H) as [E _]. unfold in_cs. rewrite E. cbn [init lock].
    split; discriminate.
  - intros t th H. destruct (Hnth t th H) as [E _]. unfold local. rewrite E. exact I.
  - rewrite Hs, Hp. reflexivity.
Qed.

(** threads after updating one *)
Lemma set_nth_cases {A} (l : list A) t th' u x : nth_error (set_nth l t th') u = Some x ->
  (u = t /\ x = th') \/ (u <> t /\ nth_error l u = Some x).
Proof.
  intros H. destruct (Nat.eq_dec u t) as [->|Hne].
  - left. split; [reflexivity|].
    assert (t < length l)%nat.
    { rewrite <- (set_nth_length l t th'). apply nth_error_Some. congruence. }
    rewrite set_nth_eq in H by assumption. congruence.
  - right. split; [exact Hne|]. rewrite set_nth_ne in H by auto. exact H.
Qed.

(** A step that changes one thread only. *)
Lemma inv_update b s t th th' c' lk' fr' :
  inv b s -> nth_error (thr s) t = Some th ->
  mutex_build th' = b ->
  c' = sumf heldz (thr s) - heldz th + heldz th' ->
  sumf heldz (thr s) - heldz th + heldz th' < 2 ^ 32 ->
  (in_cs th' = true <-> lk' = Some t) ->
  (forall u uh, u <> t -> nth_error (thr s) u = Some uh -> (in_cs uh = true <-> lk' = Some u)) ->
  local c' th' ->
  (forall u uh, u <> t -> nth_error (thr s) u = Some uh -> local c' uh) ->
  Z.b2z fr' + (sumf pend (thr s) - pend th + pend th') =
     (if sumf heldz (thr s) - heldz th + heldz th' =? 0 then 1 else 0) ->
  inv b (mkSt c' lk' fr' (set_nth (thr s) t th')).
Proof.
  intros I Ht Hb Hc Hm Hl Hlo Hloc Hloco Hf.
  split; cbn [thr cnt lock freed].
  - intros u uh Hu. destruct (set_nth_cases _ _ _ _ _ Hu) as [[-> ->]|[_ H]]; [exact Hb|].
    apply (i_style b s I u uh H).
  - rewrite (sumf_set heldz _ t th th' Ht). exact Hc.
  - rewrite (sumf_set heldz _ t th th' Ht). exact Hm.
  - intros u uh Hu. destruct (set_nth_cases _ _ _ _ _ Hu) as [[-> ->]|[Hne H]]; [exact Hl|].
    apply Hlo; auto.
  - intros u uh Hu. destruct (set_nth_cases _ _ _ _ _ Hu) as [[-> ->]|[Hne H]]; [exact Hloc|].
    apply (Hloco u); auto.
  - rewrite (sumf_set heldz _ t th th' Ht), (sumf_set pend _ t th th' Ht). exact Hf.
Qed.

Lemma local_cnt c c' th : in_cs th = false -> local c th -> local c' th.
Proof. unfold in_cs, local. destruct (pc th); try discriminate; auto. Qed.

(** While a thread owns a reference the object is alive. *)
Lemma alive b s t th : inv b s -> nth_error (thr s) t = Some th -> (0 < held th)%nat ->
  freed s = false /\ 1 <= cnt s < 2 ^ 32 /\ sumf pend (thr s) = 0.
Proof.
  intros I Ht Hh. pose proof (sumf_ge heldz _ _ _ heldz_nonneg Ht) as Hge.
  pose proof (i_free b s I) as Hf. pose proof (sumf_nonneg pend (thr s) pend_nonneg) as Hp.
  pose proof (i_cnt b s I) as Hc. pose proof (i_max b s I).
  assert (Hz : heldz th = Z.of_nat (held th)) by reflexivity.
  replace (sumf heldz (thr s) =? 0) with false in Hf by lia.
  destruct (freed s); cbn [Z.b2z] in Hf; [lia|]. repeat split; lia.
Qed.

Lemma no_other_cs b s t th u uh : inv b s -> nth_error (thr s) t = Some th -> in_cs th = true ->
  u <> t -> nth_error (thr s) u = Some uh -> in_cs uh = false.
Proof.
  intros I Ht Hc Hne Hu. destruct (in_cs uh) eqn:E; [|reflexivity].
  apply (i_lock b s I u uh Hu) in E. apply (i_lock b s I t th Ht) in Hc. congruence.
Qed.

Lemma no_cs_unlocked b s : inv b s -> b = false -> forall u uh, nth_error (thr s) u = Some uh -> in_cs uh = false.
Proof.
  intros I Hb u uh Hu. pose proof (i_local b s I u uh Hu) as L. pose proof (i_style b s I u uh Hu) as S.
  unfold local, in_cs in *. destruct (pc uh); try reflexivity; destruct L as (L1 & L2); intuition congruence.
Qed.

Ltac hz th := try match goal with |- context [heldz (mkTh (held th) ?p ?m)] =>
  change (heldz (mkTh (held th) p m)) with (heldz th) end.

Lemma step_inv b s l : inv b s ->
  step s l <> Bad /\ forall s', step s l = Next s' -> references s' < 2 ^ 32 -> inv b s'.
Proof.
  intros I. destruct l as [t k|t u|t]; cbn [step].
  - (* Begin *)
    destruct (nth_error (thr s) t) as [th|] eqn:Ht; [|split; [discriminate|discriminate]].
    destruct (pc th) eqn:Epc; try (split; discriminate).
    destruct (0 <? held th)%nat eqn:Eh; [|split; discriminate].
    split; [discriminate|]. intros s' [= <-] Hr.
    pose proof (i_style b s I t th Ht) as Hst.
    pose proof (i_cnt b s I). pose proof (i_max b s I). pose proof (i_free b s I) as Hf.
    assert (Hp : pend th = 0) by (unfold pend; rewrite Epc; reflexivity).
    assert (Hcs : in_cs th = false) by (unfold in_cs; rewrite Epc; reflexivity).
    assert (Hnl : lock s <> Some t).
    { intros E. apply (i_lock b s I t th Ht) in E. congruence. }
    unfold set_pc. refine (inv_update b s t th _ _ _ _ I Ht _ _ _ _ _ _ _ _); hz th.
    + exact Hst.
    + lia.
    + lia.
    + unfold in_cs. cbn [pc]. destruct (mutex_build th); split; try discriminate; contradiction.
    + intros v vh _ Hv. apply (i_lock b s I v vh Hv).
    + unfold local. cbn [pc held mutex_build]. destruct (mutex_build th) eqn:Em; cbn; split; auto; lia.
    + intros v vh _ Hv. apply (i_local b s I v vh Hv).
    + replace (sumf heldz (thr s) - heldz th + heldz th) with (sumf heldz (thr s)) by lia. rewrite Hp.
      replace (pend _) with 0 by (unfold pend; cbn [pc]; destruct (mutex_build th); reflexivity). lia.
  - (* Give *)
    destruct (nth_error (thr s) t) as [th|] eqn:Ht; [|split; [discriminate|discriminate]].
    destruct (nth_error (thr s) u) as [uh|] eqn:Hu; [|split; [discriminate|discriminate]].
    destruct (pc th) eqn:Epc; try (split; discriminate).
    destruct ((0 <? held th)%nat && negb (t =? u)%nat) eqn:E; [|split; discriminate].
    split; [discriminate|]. intros s' [= <-] _.
    assert (Htu : u <> t) by lia.
    set (th' := mkTh (pred (held th)) Idle (mutex_build th)).
    set (uh' := mkTh (S (held uh)) (pc uh) (mutex_build uh)).
    assert (Hu1 : nth_error (set_nth (thr s) t th') u = Some uh) by (rewrite set_nth_ne; auto).
    assert (Hsum : sumf heldz (set_nth (set_nth (thr s) t th') u uh') = sumf heldz (thr s)).
    { rewrite (sumf_set heldz _ u uh uh' Hu1), (sumf_set heldz _ t th th' Ht).
      unfold heldz, th', uh'. cbn [held]. lia. }
    assert (Hpend : sumf pend (set_nth (set_nth (thr s) t th') u uh') = sumf pend (thr s)).
    { rewrite (sumf_set pend _ u uh uh' Hu1), (sumf_set pend _ t th th' Ht).
      assert (pend uh' = pend uh) by reflexivity.
      assert (pend th' = pend th) by (unfold pend, th'; cbn [pc]; rewrite Epc; reflexivity). lia. }
    assert (Hall : forall v vh, nth_error (set_nth (set_nth (thr s) t th') u uh') v = Some vh ->
        exists vo, nth_error (thr s) v = Some vo /\ mutex_build vh = mutex_build vo /\
          in_cs vh = in_cs vo /\ (forall c, local c vo -> local c vh)).
    { intros v vh Hv. destruct (set_nth_cases _ _ _ _ _ Hv) as [[-> ->]|[Hne Hv']].
      - exists uh. repeat split; auto. unfold local, uh'. cbn [pc held mutex_build].
        destruct (pc uh); auto; intuition lia.
      - destruct (set_nth_cases _ _ _ _ _ Hv') as [[-> ->]|[Hne2 Hv2]].
        + exists th. repeat split; auto.
          * unfold in_cs, th'. cbn [pc]. rewrite Epc. reflexivity.
        + exists vh. repeat split; auto. }
    split; cbn [thr cnt lock freed].
    + intros v vh Hv. destruct (Hall v vh Hv) as (vo & Hvo & -> & _). apply (i_style b s I v vo Hvo).
    + rewrite Hsum. apply (i_cnt b s I).
    + rewrite Hsum. apply (i_max b s I).
    + intros v vh Hv. destruct (Hall v vh Hv) as (vo & Hvo & _ & -> & _). apply (i_lock b s I v vo Hvo).
    + intros v vh Hv. destruct (Hall v vh Hv) as (vo & Hvo & _ & _ & HL). apply HL. apply (i_local b s I v vo Hvo).
    + rewrite Hsum, Hpend. apply (i_free b s I).
  - (* Tick *)
    destruct (nth_error (thr s) t) as [th|] eqn:Ht; [|split; discriminate].
    pose proof (i_style b s I t th Ht) as Hst.
    pose proof (i_cnt b s I) as Hcnt. pose proof (i_max b s I) as Hmax. pose proof (i_free b s I) as Hf.
    pose proof (i_local b s I t th Ht) as Hloc. unfold local in Hloc.
    pose proof (i_lock b s I t th Ht) as Hlk. unfold in_cs in Hlk.
    assert (Hp : pend th = pend th) by reflexivity. unfold pend at 2 in Hp.
    pose proof (sumf_ge heldz _ _ _ heldz_nonneg Ht) as Hge.
    assert (Hhz : heldz th = Z.of_nat (held th)) by reflexivity.
    assert (Hold : forall v vh, v <> t -> nth_error (thr s) v = Some vh -> (in_cs vh = true <-> lock s = Some v))
      by (intros v vh _ Hv; apply (i_lock b s I v vh Hv)).
    destruct (pc th) eqn:Epc.
    + split; discriminate.
    + (* AtomicOp *)
      destruct Hloc as [Hh Hb]. destruct (alive b s t th I Ht Hh) as (Ef & Hc1 & Hpz).
      rewrite Ef. split; [discriminate|]. intros s' [= <-] Hr.
      rewrite references_sum in Hr. cbn [thr] in Hr. rewrite (sumf_set heldz _ t th _ Ht) in Hr.
      assert (Hbf : b = false) by congruence.
      assert (Hz' : heldz (mkTh (held_after k (held th)) (Ret k (cnt s)) (mutex_build th))
                    = heldz th + delta k).
      { unfold heldz. cbn [held]. destruct k; cbn [held_after delta]; lia. }
      rewrite Hz' in Hr.
      refine (inv_update b s t th _ _ _ _ I Ht _ _ _ _ _ _ _ _); rewrite ?Hz'.
      * exact Hst.
      * unfold wrap32. rewrite Z.mod_small; [lia|]. destruct k; cbn [delta] in *; lia.
      * exact Hr.
      * exact Hlk.
      * exact Hold.
      * unfold local; cbn [pc]. lia.
      * intros v vh Hne Hv. apply local_cnt with (cnt s); [|apply (i_local b s I v vh Hv)].
        apply (no_cs_unlocked b s I Hbf v vh Hv).
      * rewrite Hp, Hpz. unfold pend. cbn [pc Z.b2z].
        destruct k; cbn [delta].
        -- replace (sumf heldz (thr s) - heldz th + (heldz th + 1) =? 0) with false by lia. reflexivity.
        -- destruct (cnt s =? 1) eqn:E1.
           ++ replace (sumf heldz (thr s) - heldz th + (heldz th + -1) =? 0) with true by lia. reflexivity.
           ++ replace (sumf heldz (thr s) - heldz th + (heldz th + -1) =? 0) with false by lia. reflexivity.
    + (* WaitLock *)
      destruct (lock s) as [w|] eqn:El; [split; discriminate|].
      split; [discriminate|]. intros s' [= <-] Hr. unfold set_pc.
      refine (inv_update b s t th _ _ _ _ I Ht _ _ _ _ _ _ _ _); hz th.
      * exact Hst.
      * lia.
      * lia.
      * split; reflexivity.
      * intros v vh Hne Hv. specialize (Hold v vh Hne Hv). split; [intros E; apply Hold in E; congruence|congruence].
      * exact Hloc.
      * intros v vh _ Hv. apply (i_local b s I v vh Hv).
      * replace (sumf heldz (thr s) - heldz th + heldz th) with (sumf heldz (thr s)) by lia. rewrite Hp.
        replace (pend _) with 0 by reflexivity. lia.
    + (* Locked *)
      destruct Hloc as [Hh Hb]. destruct (alive b s t th I Ht Hh) as (Ef & Hc1 & Hpz).
      rewrite Ef in Hf |- *. split; [discriminate|]. intros s' [= <-] Hr. unfold set_pc.
      refine (inv_update b s t th _ _ _ _ I Ht _ _ _ _ _ _ _ _); hz th.
      * exact Hst.
      * lia.
      * lia.
      * exact Hlk.
      * exact Hold.
      * repeat split; assumption.
      * intros v vh _ Hv. apply (i_local b s I v vh Hv).
      * replace (sumf heldz (thr s) - heldz th + heldz th) with (sumf heldz (thr s)) by lia. rewrite Hp.
        replace (pend _) with 0 by reflexivity. lia.
    + (* HaveOld *)
      destruct Hloc as (Hh & Hb & Ho). destruct (alive b s t th I Ht Hh) as (Ef & Hc1 & Hpz).
      rewrite Ef in Hf |- *. split; [discriminate|]. intros s' [= <-] Hr. unfold set_pc.
      refine (inv_update b s t th _ _ _ _ I Ht _ _ _ _ _ _ _ _); hz th.
      * exact Hst.
      * lia.
      * lia.
      * exact Hlk.
      * exact Hold.
      * repeat split; assumption.
      * intros v vh _ Hv. apply (i_local b s I v vh Hv).
      * replace (sumf heldz (thr s) - heldz th + heldz th) with (sumf heldz (thr s)) by lia. rewrite Hp.
        replace (pend _) with 0 by reflexivity. lia.
    + (* HaveTmp *)
      destruct Hloc as (Hh & Hb & Ho & Htmp). destruct (alive b s t th I Ht Hh) as (Ef & Hc1 & Hpz).
      rewrite Ef. split; [discriminate|]. intros s' [= <-] Hr.
      rewrite references_sum in Hr. cbn [thr] in Hr. rewrite (sumf_set heldz _ t th _ Ht) in Hr.
      assert (Hz' : heldz (mkTh (held_after k (held th)) (Stored k old) (mutex_build th))
                    = heldz th + delta k).
      { unfold heldz. cbn [held]. destruct k; cbn [held_after delta]; lia. }
      rewrite Hz' in Hr. subst tmp.
      refine (inv_update b s t th _ _ _ _ I Ht _ _ _ _ _ _ _ _); rewrite ?Hz'.
      * exact Hst.
      * unfold wrap32. rewrite Z.mod_small; [lia|]. destruct k; cbn [delta] in *; lia.
      * exact Hr.
      * exact Hlk.
      * exact Hold.
      * unfold local; cbn [pc mutex_build]. split; [assumption|lia].
      * intros v vh Hne Hv. apply local_cnt with (cnt s); [|apply (i_local b s I v vh Hv)].
        apply (no_other_cs b s t th v vh I Ht); auto. unfold in_cs. rewrite Epc. reflexivity.
      * rewrite Hp, Hpz. unfold pend. cbn [pc Z.b2z].
        destruct k; cbn [delta].
        -- replace (sumf heldz (thr s) - heldz th + (heldz th + 1) =? 0) with false by lia. reflexivity.
        -- destruct (old =? 1) eqn:E1.
           ++ replace (sumf heldz (thr s) - heldz th + (heldz th + -1) =? 0) with true by lia. reflexivity.
           ++ replace (sumf heldz (thr s) - heldz th + (heldz th + -1) =? 0) with false by lia. reflexivity.
    + (* Stored *)
      split; [discriminate|]. intros s' [= <-] Hr. unfold set_pc.
      refine (inv_update b s t th _ _ _ _ I Ht _ _ _ _ _ _ _ _); hz th.
      * exact Hst.
      * lia.
      * lia.
      * split; discriminate.
      * intros v vh Hne Hv. assert (E : in_cs vh = false).
        { apply (no_other_cs b s t th v vh I Ht); auto. unfold in_cs. rewrite Epc. reflexivity. }
        rewrite E. split; discriminate.
      * exact (proj2 Hloc).
      * intros v vh _ Hv. apply (i_local b s I v vh Hv).
      * replace (sumf heldz (thr s) - heldz th + heldz th) with (sumf heldz (thr s)) by lia. rewrite <- Hf. unfold pend at 2 3. rewrite Epc. cbn [pc]. lia.
    + (* Ret *)
      assert (Ho1 : 1 <= old) by exact Hloc.
      destruct k.
      * replace (old =? 0) with false by lia. split; [discriminate|]. intros s' [= <-] Hr. unfold set_pc.
        refine (inv_update b s t th _ _ _ _ I Ht _ _ _ _ _ _ _ _); hz th.
        -- exact Hst.
        -- lia.
        -- lia.
        -- exact Hlk.
        -- exact Hold.
        -- exact Logic.I.
        -- intros v vh _ Hv. apply (i_local b s I v vh Hv).
        -- replace (sumf heldz (thr s) - heldz th + heldz th) with (sumf heldz (thr s)) by lia. rewrite Hp.
           replace (pend _) with 0 by reflexivity. lia.
      * replace (old =? 0) with false by lia. destruct (old =? 1) eqn:E1.
        -- assert (Hge2 : pend th <= sumf pend (thr s)) by (apply sumf_ge with t; [exact pend_nonneg|exact Ht]).
           assert (Ef : freed s = false).
           { destruct (freed s); [|reflexivity]. cbn [Z.b2z] in Hf. destruct (_ =? 0) in Hf; lia. }
           rewrite Ef in *. split; [discriminate|]. intros s' [= <-] Hr. unfold set_pc.
           refine (inv_update b s t th _ _ _ _ I Ht _ _ _ _ _ _ _ _); hz th.
           ++ exact Hst.
           ++ lia.
           ++ lia.
           ++ exact Hlk.
           ++ exact Hold.
           ++ exact Logic.I.
           ++ intros v vh _ Hv. apply (i_local b s I v vh Hv).
           ++ replace (sumf heldz (thr s) - heldz th + heldz th) with (sumf heldz (thr s)) by lia. rewrite Hp.
              replace (pend _) with 0 by reflexivity. cbn [Z.b2z] in *. lia.
        -- split; [discriminate|]. intros s' [= <-] Hr. unfold set_pc.
           refine (inv_update b s t th _ _ _ _ I Ht _ _ _ _ _ _ _ _); hz th.
           ++ exact Hst.
           ++ lia.
           ++ lia.
           ++ exact Hlk.
           ++ exact Hold.
           ++ exact Logic.I.
           ++ intros v vh _ Hv. apply (i_local b s I v vh Hv).
           ++ replace (sumf heldz (thr s) - heldz th + heldz th) with (sumf heldz (thr s)) by lia. rewrite Hp.
              replace (pend _) with 0 by reflexivity. lia.
Qed.

Lemma reach_inv b n s : reach (repeat b n) s -> inv b s.
Proof.
  intros H. remember (repeat b n) as st eqn:Est. induction H as [Hne|s l s' H IH Hs Hr].
  - subst. destruct n as [|n]; [cbn in Hne; congruence|]. apply init_inv.
  - apply (proj2 (step_inv b s l IH) s' Hs Hr).
Qed.

Lemma ref_never_bad b n s l : reach (repeat b n) s -> step s l <> Bad.
Proof. intros H. apply (step_inv b s l (reach_inv b n s H)). Qed.

Lemma ref_alive b n s : reach (repeat b n) s -> 0 < references s ->
  freed s = false /\ cnt s = references s.
Proof.
  intros H Hr. pose proof (reach_inv b n s H) as I. rewrite references_sum in *.
  split; [|apply (i_cnt b s I)]. pose proof (i_free b s I) as Hf.
  pose proof (sumf_nonneg pend (thr s) pend_nonneg).
  replace (_ =? 0) with false in Hf by lia. destruct (freed s); [cbn [Z.b2z] in Hf; lia|reflexivity].
Qed.

Lemma quiet_pend s : quiet s -> sumf pend (thr s) = 0.
Proof.
  unfold quiet. generalize (thr s). intros l H. induction l as [|x r IH]; cbn; [reflexivity|].
  rewrite IH by (intros; apply H; right; assumption).
  unfold pend. rewrite (H x (or_introl eq_refl)). reflexivity.
Qed.

Lemma ref_freed_at_end b n s : reach (repeat b n) s -> quiet s ->
  (freed s = true <-> references s = 0).
Proof.
  intros H Hq. pose proof (reach_inv b n s H) as I. pose proof (i_free b s I) as Hf.
  rewrite (quiet_pend s Hq) in Hf. rewrite references_sum.
  destruct (sumf heldz (thr s) =? 0) eqn:E; destruct (freed s); cbn [Z.b2z] in Hf; lia.
Qed.

(** The event "this step frees the object". *)
Lemma ref_freed_once b n s l s' : reach (repeat b n) s -> step s l = Next s' ->
  freed s = true -> freed s' = true.
Proof.
  intros H Hs Hf. destruct l as [t k|t u|t]; cbn [step] in Hs.
  - destruct (nth_error (thr s) t) as [th|]; [|discriminate]. destruct (pc th); try discriminate.
    destruct (_ <? _)%nat; [|discriminate]. injection Hs as <-. exact Hf.
  - destruct (nth_error (thr s) t) as [th|]; [|discriminate].
    destruct (nth_error (thr s) u) as [uh|]; [|discriminate]. destruct (pc th); try discriminate.
    destruct (_ && _); [|discriminate]. injection Hs as <-. exact Hf.
  - destruct (nth_error (thr s) t) as [th|]; [|discriminate]. rewrite Hf in Hs.
    destruct (pc th); try discriminate.
    + destruct (lock s); [discriminate|]. injection Hs as <-. reflexivity.
    + injection Hs as <-. reflexivity.
    + destruct k; destruct (old =? 0); try discriminate.
      * injection Hs as <-. reflexivity.
      * destruct (old =? 1); try discriminate. injection Hs as <-. reflexivity.
Qed.

(** mixed builds lose an update: thread 0 (atomics) and thread 1 (mutex) *)
Definition mixed_schedule : list label :=
  [ Begin 0 Copy; Tick 0; Tick 0; Give 0 1;          (* one reference each, count 2 *)
    Begin 1 Copy; Tick 1; Tick 1; Tick 1;            (* thread 1 has loaded 2 *)
    Begin 0 Copy; Tick 0; Tick 0;                    (* thread 0 copies: count 3, it owns 2 *)
    Tick 1; Tick 1; Tick 1;                          (* thread 1 stores 3: 4 references, count 3 *)
    Begin 0 Destroy; Tick 0; Tick 0;
    Begin 0 Destroy; Tick 0; Tick 0;
    Begin 1 Destroy; Tick 1; Tick 1; Tick 1; Tick 1; Tick 1; Tick 1 ].

Lemma run_reach styles : forall sched s s', reach styles s -> run s sched = Next s' ->
  (forall pre post, sched = pre ++ post -> forall s1, run s pre = Next s1 -> references s1 < 2 ^ 32) ->
  reach styles s'.
Proof.
  induction sched as [|l r IH]; intros s s' H Hr Hb; cbn in Hr.
  - injection Hr as <-. exact H.
  - destruct (step s l) as [| |s1] eqn:E; try discriminate.
    apply (IH s1 s'); auto.
    + apply reach_step with s l; auto. apply (Hb [l] r eq_refl). cbn. rewrite E. reflexivity.
    + intros pre post -> s2 H2. apply (Hb (l :: pre) post eq_refl). cbn. rewrite E. exact H2.
Qed.

(** boolean version of the side condition *)
Fixpoint run_bounded (s : state) (sched : list label) : bool :=
  match sched with
  | [] => true
  | l :: r => match step s l with
              | Next s' => (references s' <? 2 ^ 32) && run_bounded s' r
              | _ => true
              end
  end.
Lemma run_reach_b styles : forall sched s s', reach styles s -> run s sched = Next s' ->
  run_bounded s sched = true -> reach styles s'.
Proof.
  induction sched as [|l r IH]; intros s s' H Hr Hb; cbn [run run_bounded] in Hr, Hb.
  - injection Hr as <-. exact H.
  - destruct (step s l) as [| |s1] eqn:E; try discriminate.
    apply andb_true_iff in Hb. destruct Hb as [Hb1 Hb2].
    apply (IH s1 s'); auto. apply reach_step with s l; auto. apply Z.ltb_lt. exact Hb1.
Qed.

Lemma mixed_refuted : exists s, reach [false; true] s /\ freed s = true /\ 0 < references s /\
  step s (Begin 1 Destroy) <> Disabled.
Proof.
  assert (H : exists s, run (init [false; true]) mixed_schedule = Next s) by (vm_compute; eauto).
  destruct H as [s Hs]. exists s. split.
  - apply run_reach_b with mixed_schedule (init [false; true]).
    + apply reach_init. discriminate.
    + exact Hs.
    + vm_compute. reflexivity.
  - revert Hs. vm_compute. intros [= <-]. repeat split; discriminate.
Qed.
