(** Numbering of frames and configuration variables. *)
From Coq Require Import ZArith String List Bool Reals Lia Sorted.
From Verif Require Import TfModel SgModel SgMapProofs SgIndexProofs.
Import ListNotations.
Open Scope Z_scope.

(** ** Positions in lists *)
Fixpoint index_of (n : string) (l : list string) : option nat :=
  match l with
  | [] => None
  | x :: r => if String.eqb n x then Some O else option_map S (index_of n r)
  end.
Lemma index_of_nth n l i : index_of n l = Some i -> nth_error l i = Some n.
Proof.
  revert i. induction l as [|x r IH]; cbn; [discriminate|]. intros i.
  destruct (String.eqb_spec n x) as [->|N]; [intros [= <-]; reflexivity|].
  destruct (index_of n r); cbn; [|discriminate]. intros [= <-]. cbn. auto.
Qed.
Lemma nth_index_of n l i : NoDup l -> nth_error l i = Some n -> index_of n l = Some i.
Proof.
  revert i. induction l as [|x r IH]; intros i D E; [now destruct i|]. cbn.
  inversion D; subst. destruct i; cbn in E.
  - injection E as ->. now rewrite String.eqb_refl.
  - destruct (String.eqb_spec n x) as [->|N].
    + exfalso. apply H1. eapply nth_error_In; eauto.
    + now rewrite (IH i).
Qed.
Lemma index_of_in n l : In n l <-> exists i, index_of n l = Some i.
Proof.
  induction l as [|x r IH]; cbn.
  - split; [tauto|intros [i X]; discriminate].
  - destruct (String.eqb_spec n x) as [->|N].
    + split; [exists O; auto|auto].
    + rewrite IH. split.
      * intros [X|[i X]]; [congruence|]. exists (S i). now rewrite X.
      * intros [i X]. right. destruct (index_of n r); [eauto|discriminate].
Qed.
Lemma index_of_nin n l : ~ In n l <-> index_of n l = None.
Proof.
  rewrite index_of_in. destruct (index_of n l); split; intros; try discriminate; auto.
  - exfalso. eauto.
  - intros [i X]. discriminate.
Qed.
Lemma index_of_app n l1 l2 :
  index_of n (l1 ++ l2) = match index_of n l1 with
                          | Some i => Some i
                          | None => option_map (Nat.add (length l1)) (index_of n l2)
                          end.
Proof.
  induction l1 as [|x r IH]; cbn; [now destruct (index_of n l2)|].
  destruct (String.eqb n x); auto. rewrite IH.
  destruct (index_of n r); cbn; auto. destruct (index_of n l2); auto.
Qed.
Lemma index_of_lt n l i : index_of n l = Some i -> (i < length l)%nat.
Proof. intros H. apply nth_error_Some. rewrite (index_of_nth _ _ _ H). discriminate. Qed.

(** ** Numbering *)
Definition core (f : frame) : frame := set_cidx (set_pid (set_fid f None) None) None.
Definition pid_of (l : list string) (j : nat) (f : frame) : Z :=
  if String.eqb (f_parent f) "" then FRAME_ROOT
  else match index_of (f_parent f) (firstn j l) with Some k => Z.of_nat k | None => FRAME_NONE end.
Definition add_cfg (m : smap frame) (acc : list string) (n : string) : list string :=
  match mfind n m with
  | Some f => if is_joint (f_type f) && negb (existsb (String.eqb (f_cfg f)) acc) then acc ++ [f_cfg f] else acc
  | None => acc
  end.
Definition cfg_list (m : smap frame) (l : list string) : list string := fold_left (add_cfg m) l [].
Definition ojoin {A} (o : option (option A)) : option A := match o with Some x => x | None => None end.

Record ix_inv (m0 : smap frame) (lm0 : smap (option limits)) (l1 : list string) (x : ixst) : Prop := {
  iv_sorted : sorted (ix_map x);
  iv_find : forall n, option_map core (mfind n (ix_map x)) = option_map core (mfind n m0);
  iv_done : forall j n f, nth_error l1 j = Some n -> mfind n (ix_map x) = Some f ->
     f_fid f = Some (Z.of_nat j) /\ f_pid f = Some (pid_of l1 j f) /\
     (is_joint (f_type f) = true ->
        exists c, index_of (f_cfg f) (ix_crmap x) = Some c /\ f_cidx f = Some c);
  iv_todo : forall n f, ~ In n l1 -> mfind n (ix_map x) = Some f -> f_fid f = Some FRAME_NONE;
  iv_crmap : ix_crmap x = cfg_list m0 l1;
  iv_crnd : NoDup (ix_crmap x);
  iv_cmap : forall c, mfind c (ix_cmap x) = index_of c (ix_crmap x);
  iv_limits : ix_limits x = map (fun c => lptr c lm0) (ix_crmap x);
  iv_lmap : forall c, ojoin (mfind c (ix_lmap x)) = ojoin (mfind c lm0);
  iv_lsorted : sorted (ix_lmap x) }.

Lemma core_eq f g : core f = core g ->
  f_type f = f_type g /\ f_name f = f_name g /\ f_parent f = f_parent g /\ f_cfg f = f_cfg g /\
  f_off f = f_off g /\ f_axis f = f_axis g /\ f_E f = f_E g /\ f_R f = f_R g /\ f_S f = f_S g /\
  f_inertial f = f_inertial g /\ f_geoms f = f_geoms g /\ f_addr f = f_addr g.
Proof. intros H. repeat split; [exact (f_equal f_type H)|exact (f_equal f_name H)|exact (f_equal f_parent H)|exact (f_equal f_cfg H)|exact (f_equal f_off H)|exact (f_equal f_axis H)|exact (f_equal f_E H)|exact (f_equal f_R H)|exact (f_equal f_S H)|exact (f_equal f_inertial H)|exact (f_equal f_geoms H)|exact (f_equal f_addr H)]. Qed.
Lemma some_inj {A} (a b : A) : Some a = Some b -> a = b.
Proof. congruence. Qed.
Lemma core_fid f x : core (set_fid f x) = core f. Proof. reflexivity. Qed.
Lemma core_pid f x : core (set_pid f x) = core f. Proof. reflexivity. Qed.
Lemma core_cidx f x : core (set_cidx f x) = core f. Proof. reflexivity. Qed.

Lemma lptr_join c lm : lptr c lm = match ojoin (mfind c lm) with Some _ => Some c | None => None end.
Proof. unfold lptr. destruct (mfind c lm) as [[|]|]; reflexivity. Qed.

Lemma pid_of_app l j f n : (j < length l)%nat -> pid_of (l ++ n) j f = pid_of l j f.
Proof. intros H. unfold pid_of. rewrite firstn_app. replace (j - length l)%nat with O by lia. cbn. now rewrite app_nil_r. Qed.
Lemma pid_of_end l f n : pid_of (l ++ [n]) (length l) f =
  if String.eqb (f_parent f) "" then FRAME_ROOT
  else match index_of (f_parent f) l with Some k => Z.of_nat k | None => FRAME_NONE end.
Proof. unfold pid_of. rewrite firstn_app, Nat.sub_diag, firstn_all. cbn. now rewrite app_nil_r. Qed.

Lemma index_step_ok m0 lm0 l1 x n : ix_inv m0 lm0 l1 x ->
  ~ In n l1 -> n <> ""%string -> mfind n m0 <> None -> closed m0 -> sorted m0 ->
  (forall f, mfind n m0 = Some f -> f_parent f <> n) ->
  exists x', index_step (length l1) n x = Ok x' /\ ix_inv m0 lm0 (l1 ++ [n]) x'.
Proof.
  intros I Nin Ne Fn Cl Sm Self.
  pose proof (iv_find _ _ _ _ I n) as En.
  destruct (mfind n m0) as [f00|] eqn:F00; [|congruence].
  destruct (mfind n (ix_map x)) as [f0|] eqn:F0; [|discriminate].
  apply some_inj in En. apply core_eq in En as Ec.
  destruct Ec as (Et & Enm & Ep & Ecf & Eo & Ea & EE & ER & ES & Ei & Eg & Ead).
  unfold index_step. rewrite F0. cbn [from bind].
  set (f1 := set_fid f0 (Some (Z.of_nat (length l1)))).
  set (m1 := mset n f1 (ix_map x)).
  assert (P1 : f_parent f1 = f_parent f00) by exact Ep.
  assert (Pid : (if in_global f1 then Ok FRAME_ROOT
        else bind (from (mfind (f_parent f1) m1)) (fun p => from (f_fid p)))
        = Ok (pid_of (l1 ++ [n]) (length l1) f1)).
  { rewrite pid_of_end. unfold in_global. destruct (String.eqb_spec (f_parent f1) "") as [|Np]; auto.
    unfold m1. rewrite mfind_mset_other by (rewrite P1; apply Self; auto).
    destruct (Cl _ _ F00) as [C|C]; [congruence|].
    rewrite P1. pose proof (iv_find _ _ _ _ I (f_parent f00)) as Epp.
    destruct (mfind (f_parent f00) m0) as [p0|]; [|congruence].
    destruct (mfind (f_parent f00) (ix_map x)) as [p|] eqn:Fp; [|discriminate].
    cbn [from bind].
    destruct (index_of (f_parent f00) l1) as [k|] eqn:K.
    - apply index_of_nth in K. now rewrite (proj1 (iv_done _ _ _ _ I _ _ _ K Fp)).
    - apply index_of_nin in K. now rewrite (iv_todo _ _ _ _ I _ _ K Fp). }
  rewrite Pid. cbn [bind].
  set (pid := pid_of (l1 ++ [n]) (length l1) f1) in *.
  assert (Lt : pid < Z.of_nat (length l1)).
  { unfold pid. rewrite pid_of_end. unfold FRAME_ROOT, FRAME_NONE.
    destruct (String.eqb (f_parent f1) ""); [lia|].
    destruct (index_of (f_parent f1) l1) eqn:K; [|lia]. apply index_of_lt in K. lia. }
  replace (pid <? Z.of_nat (length l1)) with true by (symmetry; now apply Z.ltb_lt).
  cbn [negb].
  set (f2 := set_pid f1 (Some pid)).
  assert (T2 : f_type f2 = f_type f00) by exact Et.
  assert (C2 : f_cfg f2 = f_cfg f00) by exact Ecf.
  (* common part of the new invariant *)
  assert (COM : forall f3 cr cm lm lims,
     core f3 = core f0 -> f_fid f3 = Some (Z.of_nat (length l1)) -> f_pid f3 = Some pid ->
     (is_joint (f_type f3) = true -> exists c, index_of (f_cfg f3) cr = Some c /\ f_cidx f3 = Some c) ->
     (forall c i, index_of c (ix_crmap x) = Some i -> index_of c cr = Some i) ->
     cr = cfg_list m0 (l1 ++ [n]) -> NoDup cr ->
     (forall c, mfind c cm = index_of c cr) ->
     lims = map (fun c => lptr c lm0) cr ->
     (forall c, ojoin (mfind c lm) = ojoin (mfind c lm0)) -> sorted lm ->
     ix_inv m0 lm0 (l1 ++ [n]) (mkIX (mset n f3 m1) lm lims cm cr)).
  { intros f3 cr cm lm lims K3 K4 K5 K6 K7 K8 K9 K10 K11 K12 K13.
    assert (FM : forall k, mfind k (mset n f3 m1) = if String.eqb k n then Some f3 else mfind k (ix_map x)).
    { intros k. rewrite mfind_mset. destruct (String.eqb_spec k n); auto. unfold m1. now apply mfind_mset_other. }
    constructor; cbn [ix_map ix_crmap ix_cmap ix_limits ix_lmap]; auto.
    - apply sorted_mset, sorted_mset, (iv_sorted _ _ _ _ I).
    - intros k. rewrite FM. destruct (String.eqb_spec k n) as [->|Nk]; [|apply (iv_find _ _ _ _ I)].
      rewrite F00. cbn. now rewrite K3, En.
    - intros j k f Hj Hf. rewrite FM in Hf. destruct (String.eqb_spec k n) as [->|Nk].
      + injection Hf as <-.
        assert (j = length l1).
        { destruct (lt_eq_lt_dec j (length l1)) as [[H|H]|H]; auto.
          - rewrite nth_error_app1 in Hj by lia. exfalso. apply Nin. eapply nth_error_In; eauto.
          - rewrite nth_error_app2 in Hj by lia. destruct (j - length l1)%nat as [|[|]] eqn:X; [lia|discriminate|discriminate]. }
        subst j. split; [auto|split; [|auto]]. rewrite K5. f_equal. unfold pid.
        apply core_eq in K3 as (_ & _ & K3 & _). unfold pid_of. rewrite K3. reflexivity.
      + assert (Hl : (j < length l1)%nat).
        { destruct (lt_eq_lt_dec j (length l1)) as [[H|H]|H]; auto.
          - subst j. rewrite nth_error_app2, Nat.sub_diag in Hj by lia. cbn in Hj. congruence.
          - rewrite nth_error_app2 in Hj by lia. destruct (j - length l1)%nat as [|[|]] eqn:X; [lia|discriminate|discriminate]. }
        rewrite nth_error_app1 in Hj by lia.
        destruct (iv_done _ _ _ _ I j k f Hj Hf) as (A1 & A2 & A3).
        rewrite pid_of_app by lia. split; auto. split; auto.
        intros J. destruct (A3 J) as (c & Ic & Fc). exists c. auto.
    - intros k f Hk Hf. rewrite in_app_iff in Hk. rewrite FM in Hf.
      destruct (String.eqb_spec k n) as [->|Nk]; [exfalso; apply Hk; right; now left|].
      apply (iv_todo _ _ _ _ I k f); auto. }
  assert (CL : cfg_list m0 (l1 ++ [n]) = add_cfg m0 (cfg_list m0 l1) n).
  { unfold cfg_list. now rewrite fold_left_app. }
  unfold add_cfg in CL. rewrite F00, <- (iv_crmap _ _ _ _ I), <- T2, <- C2 in CL.
  destruct (is_joint (f_type f2)) eqn:J.
  - destruct (mhas (f_cfg f2) (ix_cmap x)) eqn:H.
    + apply mhas_iff in H as [ci H]. rewrite H. cbn [from bind]. eexists. split; [reflexivity|].
      pose proof H as H'. rewrite (iv_cmap _ _ _ _ I) in H'.
      assert (X : existsb (String.eqb (f_cfg f2)) (ix_crmap x) = true) by (apply existsb_in, index_of_in; eauto).
      rewrite X in CL. cbn in CL.
      apply COM; auto.
      * intros _. exists ci. split; auto.
      * apply (iv_crnd _ _ _ _ I).
      * apply (iv_cmap _ _ _ _ I).
      * apply (iv_limits _ _ _ _ I).
      * apply (iv_lmap _ _ _ _ I).
      * apply (iv_lsorted _ _ _ _ I).
    + cbn [ix_cmap ix_lmap ix_limits ix_crmap]. rewrite mfind_mset_same. cbn [from bind].
      eexists. split; [reflexivity|].
      apply mhas_false in H. rewrite (iv_cmap _ _ _ _ I) in H. apply index_of_nin in H as Hni.
      assert (X : existsb (String.eqb (f_cfg f2)) (ix_crmap x) = false) by now apply existsb_nin.
      rewrite X in CL. cbn in CL.
      apply COM; auto.
      * intros _. exists (length (ix_crmap x)). split; auto. change (f_cfg (set_cidx f2 (Some (length (ix_crmap x))))) with (f_cfg f2). rewrite index_of_app, H. cbn. rewrite String.eqb_refl. cbn. now rewrite Nat.add_0_r.
      * intros c i Hc. rewrite index_of_app, Hc. reflexivity.
      * apply NoDup_incl_NoDup with (l := f_cfg f2 :: ix_crmap x).
        { constructor; auto. apply (iv_crnd _ _ _ _ I). }
        { rewrite app_length. cbn. lia. }
        { intros y [<-|Y]; apply in_or_app; [right; now left|now left]. }
      * intros c. rewrite mfind_mset, index_of_app, (iv_cmap _ _ _ _ I).
        change (index_of c [f_cfg f2]) with (if String.eqb c (f_cfg f2) then Some O else None).
        destruct (String.eqb_spec c (f_cfg f2)) as [Hc|Nc].
        { rewrite Hc, H. cbn [option_map]. now rewrite Nat.add_0_r. }
        now destruct (index_of c (ix_crmap x)).
      * rewrite map_app, (iv_limits _ _ _ _ I). cbn. f_equal. f_equal. rewrite !lptr_join.
        now rewrite (iv_lmap _ _ _ _ I).
      * intros c. rewrite <- (iv_lmap _ _ _ _ I c). unfold lmap_touch.
        destruct (mhas (f_cfg f2) (ix_lmap x)) eqn:HL; auto.
        apply mhas_false in HL. rewrite mfind_mset.
        destruct (String.eqb_spec c (f_cfg f2)) as [->|]; auto. now rewrite HL.
      * unfold lmap_touch. destruct (mhas _ _); [|apply sorted_mset]; apply (iv_lsorted _ _ _ _ I).
  - eexists. split; [reflexivity|]. cbn in CL.
    apply COM; auto.
    + change (is_joint (f_type f2) = true -> exists c, index_of (f_cfg f2) (ix_crmap x) = Some c /\ f_cidx f2 = Some c). congruence.
    + apply (iv_crnd _ _ _ _ I).
    + apply (iv_cmap _ _ _ _ I).
    + apply (iv_limits _ _ _ _ I).
    + apply (iv_lmap _ _ _ _ I).
    + apply (iv_lsorted _ _ _ _ I).
Qed.

Lemma index_loop_ok m0 lm0 : closed m0 -> sorted m0 ->
  forall l2 l1 x, ix_inv m0 lm0 l1 x -> NoDup (l1 ++ l2) -> ~ In ""%string (l1 ++ l2) ->
  (forall n, In n l2 -> mfind n m0 <> None) ->
  (forall n f, In n l2 -> mfind n m0 = Some f -> f_parent f <> n) ->
  exists x', index_loop (length l1) l2 x = Ok x' /\ ix_inv m0 lm0 (l1 ++ l2) x'.
Proof.
  intros Cl Sm l2. induction l2 as [|n r IH]; intros l1 x I D E F Self.
  { exists x. rewrite app_nil_r. auto. }
  cbn [index_loop].
  destruct (index_step_ok m0 lm0 l1 x n I) as (x1 & E1 & I1); auto.
  - intros X. apply NoDup_remove_2 in D. apply D, in_or_app. auto.
  - intros ->. apply E, in_or_app. right. now left.
  - apply F. now left.
  - intros f. apply Self. now left.
  - rewrite E1. cbn [bind].
    destruct (IH (l1 ++ [n]) x1 I1) as (x' & E2 & I2).
    + now rewrite <- app_assoc.
    + now rewrite <- app_assoc.
    + intros k K. apply F. now right.
    + intros k f K. apply Self. now right.
    + rewrite <- app_assoc in I2. cbn in I2. rewrite app_length in E2. cbn in E2.
      replace (length l1 + 1)%nat with (S (length l1)) in E2 by lia. eauto.
Qed.
