(** Inverse kinematics solvers: the test of a solution, limits, and what a return value of 0 means. *)
From Coq Require Import ZArith String List Bool Reals Lia Lra.
From Verif Require Import TrModel TfModel TfSpec TfProofs TfRepProofs TfExpModel TfExpSpec SgModel SgSpec SgKinSpec
  SgClaims2 SgClaims3 RkModel IkModel IkProofs IkPose IkSpec IkObj WkModel WkRateModel IkSolveModel IkSolveSpec.
Import ListNotations.
Open Scope R_scope.

Lemma Rlt_b_true a b : Rlt_b a b = true <-> a < b.
Proof. unfold Rlt_b. destruct (Rlt_dec a b); split; intros; try lra; congruence. Qed.
Lemma Rlt_b_false a b : Rlt_b a b = false <-> b <= a.
Proof. unfold Rlt_b. destruct (Rlt_dec a b); split; intros; try lra; congruence. Qed.

(** ** The two errors *)
Lemma err2_ok Ea Er phi : unit_qutr Ea -> unit_qutr Er -> turn_to (place (TfModel.eq Ea) (ev Ea)) (TfModel.eq Er) phi ->
  err2 Ea Er = (phi / 2, dist (ev Ea) (ev Er)).
Proof.
  intros A B T. unfold err2. f_equal.
  - destruct (err_min Ea Er phi A B T) as (k & K & E). change (TfModel.eq (qutr_cmul Ea Er)) with (qmul (qconj (TfModel.eq Ea)) (TfModel.eq Er)).
    assert (Q : qminimize (qmul (qconj (TfModel.eq Ea)) (TfModel.eq Er)) = fst (qerr_of Ea Er)).
    { unfold qerr_of, qminimize. assert (qcmul (TfModel.eq Ea) (TfModel.eq Er) = qmul (qconj (TfModel.eq Ea)) (TfModel.eq Er)) as -> by
        (destruct (TfModel.eq Ea), (TfModel.eq Er); tfc; f_equal; ring).
      destruct (Rlt_dec _ 0); reflexivity. }
    rewrite Q, E. destruct T as [P _]. exact (polar_angle k (phi / 2) K ltac:(lra)).
  - assert (V : ev (qutr_cmul Ea Er) = qrot (qconj (TfModel.eq Ea)) (minus3 (ev Er) (ev Ea))).
    { change (ev (qutr_cmul Ea Er)) with (qutr_tf (qutr_conj Ea) (ev Er)). rewrite qutr_tf_eq. unfold qutr_conj, minus3. cbn [ev TfModel.eq].
      destruct (ev Er), (ev Ea), (TfModel.eq Ea). tfc. f_equal; ring. }
    rewrite V. unfold vnorm, dist. f_equal.
    change (vdot (qrot (qconj (TfModel.eq Ea)) (minus3 (ev Er) (ev Ea))) (qrot (qconj (TfModel.eq Ea)) (minus3 (ev Er) (ev Ea))))
      with (dot (qrot (qconj (TfModel.eq Ea)) (minus3 (ev Er) (ev Ea))) (qrot (qconj (TfModel.eq Ea)) (minus3 (ev Er) (ev Ea)))).
    rewrite (rm_dot _ (qrot_rotation _ (qutr_conj_unit _ A))). unfold dist2, minus3. destruct (ev Er), (ev Ea). tfc. ring.
Qed.

Definition within (p : ik_parm) (E Er : QV) : Prop :=
  fst (err2 E Er) < ip_angle p /\ snd (err2 E Er) < ip_trans p.
Lemma s_check_0 p Er E : s_check p Er E = 0%Z <-> within p E Er.
Proof.
  unfold s_check, within. destruct (err2 E Er) as [a b]. cbn [fst snd].
  destruct (Rlt_b a (ip_angle p)) eqn:A; cbn [andb]; [destruct (Rlt_b b (ip_trans p)) eqn:B|].
  - apply Rlt_b_true in A, B. tauto.
  - apply Rlt_b_false in B. split; [discriminate|lra].
  - apply Rlt_b_false in A. split; [discriminate|lra].
Qed.
Lemma s_check_codes p Er E : s_check p Er E = 0%Z \/ s_check p Er E = 3%Z.
Proof. unfold s_check. destruct (err2 E Er). destruct (_ && _); auto. Qed.

Lemma within_reaches g cfg tip p E Er : unit_qutr E -> unit_qutr Er ->
  (forall x, located g cfg tip x (place (TfModel.eq E) (ev E) x)) ->
  within p E Er <-> reaches g cfg tip Er (1 / 2) (ip_angle p) (ip_trans p).
Proof.
  intros U Ur L. destruct (turn_exists (TfModel.eq E) (ev E) (TfModel.eq Er) U Ur) as [phi T].
  unfold within. rewrite (err2_ok E Er phi U Ur T). cbn [fst snd]. split.
  - intros [A B] f Lf. assert (F : forall x, f x = place (TfModel.eq E) (ev E) x) by (intros x; eapply located_fun; eauto).
    rewrite F, place_zero by exact U. split; [exact B|]. intros phi' T'. apply (turn_ext _ _ _ _ F) in T'.
    pose proof (err2_ok E Er phi' U Ur T') as Q. rewrite (err2_ok E Er phi U Ur T) in Q. injection Q as Q. lra.
  - intros H. destruct (H _ L) as [D A]. rewrite place_zero in D by exact U. specialize (A phi T). split; [lra|exact D].
Qed.

(** ** Limits *)
Lemma fclamp_in x a b : a <= b -> a <= fclamp x a b <= b.
Proof. intros H. unfold fclamp. repeat destruct (Rlt_dec _ _); lra. Qed.
Lemma fclamp_id x a b : a <= x <= b -> fclamp x a b = x.
Proof. intros H. unfold fclamp. repeat destruct (Rlt_dec _ _); lra. Qed.
Lemma ordered_tl l r : ordered (l :: r) -> ordered r.
Proof. intros H a b I. apply H. now right. Qed.
Section Limits.
  Variables (s : sg).
  Notation seen := (Forall2 (fun c l => sg_get_limit s LPos c = Ok l)).
  Lemma clamp_ok ids lims x : seen ids lims -> ordered lims -> length x = length ids ->
    exists x', clamp_all s ids x = Ok x' /\ in_limits lims x'.
  Proof.
    intros S. revert x. induction S as [|c l ids lims H S IH]; intros x O L; destruct x as [|a x]; try discriminate L; cbn [clamp_all].
    - exists []. split; [reflexivity|constructor].
    - rewrite H. cbn [bind]. destruct (IH x (ordered_tl _ _ O)) as (x' & E & I); [now injection L|]. rewrite E. cbn [bind].
      eexists. split; [reflexivity|]. constructor; [|exact I]. destruct l as [[m M]|]; [|exact Logic.I]. apply fclamp_in. apply O. now left.
  Qed.
  Lemma clamp_id ids lims x : seen ids lims -> in_limits lims x -> clamp_all s ids x = Ok x.
  Proof.
    intros S. revert x. induction S as [|c l ids lims H S IH]; intros x I; inversion I as [|? a ? y Ha Iy]; subst; [reflexivity|].
    cbn [clamp_all]. rewrite H. cbn [bind]. rewrite (IH y Iy). cbn [bind]. do 2 f_equal. destruct l as [[m M]|]; [now apply fclamp_id|reflexivity].
  Qed.
  Lemma bounds_ok ids lims : seen ids lims -> bounds s ids = Ok lims.
  Proof. induction 1 as [|c l ids lims H S IH]; [reflexivity|]. cbn [bounds]. rewrite H. cbn [bind]. now rewrite IH. Qed.
  Lemma rand_ok ids lims us : seen ids lims -> ordered lims -> Forall (fun u => 0 <= u <= 1) us ->
    exists x, rand_config s ids us = Ok x /\ in_limits lims x.
  Proof.
    intros S. revert us. induction S as [|c l ids lims H S IH]; intros us O U; cbn [rand_config].
    - exists []. split; [reflexivity|constructor].
    - rewrite H. cbn [bind]. destruct (IH (tl us) (ordered_tl _ _ O)) as (x' & E & I); [destruct U; [constructor|assumption]|].
      assert (U0 : 0 <= hd 0 us <= 1) by (destruct U; cbn [hd]; lra).
      destruct l as [[m M]|]; rewrite E; cbn [bind]; eexists; (split; [reflexivity|]); constructor; auto.
      unfold frand_minmax. assert (m <= M) by (apply O; now left). nra.
  Qed.
  Lemma frand_range u a b : a <= b -> 0 <= u <= 1 -> a <= frand_minmax u a b <= b.
  Proof. intros H U. unfold frand_minmax. nra. Qed.
  Lemma frand_onto x a b : a <= x <= b -> exists u, 0 <= u <= 1 /\ frand_minmax u a b = x.
  Proof.
    intros H. unfold frand_minmax. destruct (Req_dec a b) as [<- | N]; [exists 0; split; [lra|]; lra|].
    exists ((x - a) / (b - a)). assert (P : 0 < / (b - a)) by (apply Rinv_0_lt_compat; lra). split; [|field; lra].
    split; [apply Rmult_le_pos; lra|]. apply (Rmult_le_reg_r (b - a)); [lra|]. unfold Rdiv. rewrite Rmult_assoc, Rinv_l by lra. lra.
  Qed.
  Lemma rand_turns ids lims us : seen ids lims -> ordered lims -> Forall (fun u => 0 <= u <= 1) us ->
    exists x, rand_config s ids us = Ok x /\ in_turns lims x.
  Proof.
    intros S. revert us. induction S as [|c l ids lims H S IH]; intros us O U; cbn [rand_config].
    - exists []. split; [reflexivity|constructor].
    - rewrite H. cbn [bind]. destruct (IH (tl us) (ordered_tl _ _ O)) as (x' & E & I); [destruct U; [constructor|assumption]|].
      assert (U0 : 0 <= hd 0 us <= 1) by (destruct U; cbn [hd]; lra). pose proof PI_RGT_0.
      destruct l as [[m M]|]; rewrite E; cbn [bind]; eexists; (split; [reflexivity|]); constructor; auto; apply frand_range; try lra.
      apply O; now left.
  Qed.
  Lemma rand_onto ids lims x : seen ids lims -> in_turns lims x ->
    exists us, Forall (fun u => 0 <= u <= 1) us /\ rand_config s ids us = Ok x.
  Proof.
    intros S. revert x. induction S as [|c l ids lims H S IH]; intros x I; inversion I as [|? a ? y Ha Iy]; subst.
    - exists []. split; [constructor|reflexivity].
    - destruct (IH y Iy) as (us & U & E).
      destruct l as [[m M]|]; destruct (frand_onto _ _ _ Ha) as (u & U0 & Eu); exists (u :: us); (split; [now constructor|]);
      cbn [rand_config tl hd]; rewrite H; cbn [bind]; rewrite E; cbn [bind]; now rewrite Eu.
  Qed.
  Lemma in_limits_len lims x : in_limits lims x -> length x = length lims.
  Proof. intros H. induction H; cbn; congruence. Qed.
  Lemma seen_len ids lims : seen ids lims -> length lims = length ids.
  Proof. intros H. induction H; cbn; congruence. Qed.
End Limits.
Lemma to_list_len n x : length (to_list n x) = n.
Proof. unfold to_list. now rewrite map_length, seq_length. Qed.

(** ** Return value 0 *)
Section Sound.
  Variables (gesdd : nat -> nat -> (nat -> nat -> R) -> LaModel.svdres) (junk : nat -> R) (M0 : MatModel.mem).
  Variables (s : sg) (ss : ssg) (p : ik_parm) (fr : Z) (Er : QV) (fk : list QV) (nlopt : list (option (R * R)) -> list R -> list R).
  Variable lims : list (option (R * R)).
  Hypothesis Sn : Forall2 (fun c l => sg_get_limit s LPos c = Ok l) (ss_configs ss) lims.
  Hypothesis Od : ordered lims.

  (** a configuration within the limits that passes the test *)
  Definition good (q : list R) : Prop :=
    in_limits lims q /\ exists fk' E, obj_pose s ss fr q fk = Ok (fk', E) /\ within p E Er.

  Lemma check_spec it x y x' it' c : length x = nq ss -> solve_check s ss p fr Er fk it x y = Ok (x', it', c) ->
    in_limits lims x' /\ it' = S it /\
    (c = 1%Z /\ good x' /\ fold_right (fun a b => a * a + b) 0 y < ip_dq p \/ c = (-1)%Z /\ (ip_max p < it')%nat \/ c = 0%Z /\ (it' <= ip_max p)%nat).
  Proof.
    intros L H. unfold solve_check in H. destruct (clamp_ok s _ lims x Sn Od L) as (x1 & E & I). rewrite E in H. cbn [bind] in H.
    destruct (obj_pose s ss fr x1 fk) as [[f Ea]| | |] eqn:O; cbn [bind] in H; try discriminate H.
    destruct (err2 Ea Er) as [a b] eqn:W. injection H as <- <- Hc. split; [exact I|]. split; [reflexivity|].
    destruct (Rlt_b a (ip_angle p)) eqn:A; cbn [andb] in Hc;
      [destruct (Rlt_b b (ip_trans p)) eqn:B; cbn [andb] in Hc;
        [destruct (Rlt_b (fold_right _ 0 y) (ip_dq p)) eqn:Dq; cbn [andb] in Hc|]|].
    - left. apply Rlt_b_true in A, B, Dq. split; [auto|]. split; [split; [exact I|exists f, Ea; split; [exact O|]]|exact Dq].
      unfold within. rewrite W. auto.
    - right. destruct (Nat.ltb_spec (ip_max p) (S it)); [left|right]; split; auto; lia.
    - right. destruct (Nat.ltb_spec (ip_max p) (S it)); [left|right]; split; auto; lia.
    - right. destruct (Nat.ltb_spec (ip_max p) (S it)); [left|right]; split; auto; lia.
  Qed.
  Lemma norm_pos y : 0 <= fold_right (fun a b : R => a * a + b) 0 y.
  Proof. induction y as [|a y IH]; cbn; [lra|nra]. Qed.

  Lemma jp_spec fuel : forall dt px0 k it x it' c,
    jp_loop gesdd junk M0 s ss p fr Er fk fuel dt px0 k it = Ok (x, it', c) ->
    in_limits lims x /\ (it < it')%nat /\ (it' <= Nat.max (S it) (S (ip_max p)))%nat /\ (c = 1%Z /\ good x /\ 0 < ip_dq p \/ c = (-1)%Z /\ (ip_max p < it')%nat).
  Proof.
    induction fuel as [|fuel IH]; intros dt px0 k it x it' c H; cbn [jp_loop] in H; [discriminate|].
    destruct (bs23 _ _ _ _ _ _ _ _ _ dt px0 k) as [r| | |]; cbn [bind] in H; try discriminate H.
    destruct (Rlt_b _ _); [now apply IH in H|].
    cbv zeta in H.
    destruct (solve_check s ss p fr Er fk it _ _) as [[[x1 it1] c1]| | |] eqn:K; cbn [bind] in H; try discriminate H.
    apply check_spec in K as (I & -> & Hc); [|apply to_list_len].
    destruct (Z.eqb_spec c1 0) as [->|N].
    - apply IH in H as (I' & L & B & R). destruct Hc as [[E _]|[[E _]|[_ Hc]]]; [discriminate E|discriminate E|].
      split; [exact I'|]. split; [lia|]. split; [lia|exact R].
    - injection H as <- <- <-. split; [exact I|]. split; [lia|]. split; [lia|]. destruct Hc as [(E & G & Dq)|[E|[E _]]]; [left|right; exact E|congruence].
      split; [exact E|]. split; [exact G|]. eapply Rle_lt_trans; [apply norm_pos|exact Dq].
  Qed.

  Lemma jpinv_spec fuel q_sub it x it' c : ik_jpinv gesdd junk M0 s ss p fr Er fk fuel q_sub it = Ok (x, it', c) ->
    in_limits lims x /\ (it < it')%nat /\ (it' <= Nat.max (S it) (S (ip_max p)))%nat /\ (c = 0%Z /\ good x /\ 0 < ip_dq p \/ c = 3%Z /\ (ip_max p < it')%nat).
  Proof.
    unfold ik_jpinv. destruct (solve_sys _ _ _ _ _ _ _ _ _ (of_list q_sub)) as [k0| | |]; cbn [bind]; try discriminate.
    destruct (jp_loop _ _ _ _ _ _ _ _ _ _ _ _ _ _) as [[[x1 it1] c1]| | |] eqn:J; cbn [bind]; try discriminate.
    intros H. injection H as <- <- <-. apply jp_spec in J as (I & L & B & Hc). split; [exact I|]. split; [exact L|]. split; [exact B|].
    destruct Hc as [(-> & G)|[-> H]]; [left|right]; auto.
  Qed.

  Lemma nlopt_spec q_sub x c : keeps_bounds nlopt -> in_limits lims q_sub -> ik_nlopt s ss p fr Er fk nlopt q_sub = Ok (x, c) ->
    in_limits lims x /\ (c = 0%Z \/ c = 3%Z) /\ exists fk' E, obj_pose s ss fr x fk = Ok (fk', E) /\ (c = 0%Z <-> within p E Er).
  Proof.
    intros K I H. unfold ik_nlopt in H. rewrite (bounds_ok _ _ _ Sn) in H. cbn [bind] in H.
    destruct (obj_pose s ss fr (nlopt lims q_sub) fk) as [[f E]| | |] eqn:O; cbn [bind] in H; try discriminate H.
    injection H as <- <-. split; [now apply K|]. split; [apply s_check_codes|]. exists f, E. split; [exact O|apply s_check_0].
  Qed.

  Lemma tries_spec fuel rs : Forall (Forall (fun u => 0 <= u <= 1)) rs -> (ip_algo p = SQP -> keeps_bounds nlopt) ->
    forall q_sub it x it' c, (ip_algo p = SQP -> in_limits lims q_sub) ->
    tries gesdd junk M0 s ss p fr Er fk nlopt fuel rs q_sub it = Ok (x, it', c) ->
    in_limits lims x /\ (c = 0%Z \/ c = 3%Z) /\ (c = 0%Z -> good x) /\
    (ip_algo p = SQP -> it' = it /\ (good x -> c = 0%Z)) /\
    (ip_algo p <> SQP -> (it' <= Nat.max (S it) (S (ip_max p)) + length rs)%nat /\ (c = 0%Z -> 0 < ip_dq p) /\ (c = 3%Z -> ip_max p < it')%nat).
  Proof.
    intros Hr K. induction Hr as [|us rs Hu Hr IH]; intros q_sub it x it' c I H.
    - cbn [tries] in H. destruct (match ip_algo p with SQP => _ | _ => _ end) as [[[q1 it1] r1]| | |] eqn:T; cbn [bind] in H; try discriminate H.
      injection H as <- <- <-. destruct (ip_algo p).
      + apply jpinv_spec in T as (J & L & B & C). split; [exact J|]. split; [intuition|]. split; [intuition congruence|]. split; [discriminate|]. intros _. cbn [length]. split; [lia|]. intuition congruence.
      + apply jpinv_spec in T as (J & L & B & C). split; [exact J|]. split; [intuition|]. split; [intuition congruence|]. split; [discriminate|]. intros _. cbn [length]. split; [lia|]. intuition congruence.
      + destruct (ik_nlopt _ _ _ _ _ _ _ _) as [[q2 r2]| | |] eqn:N; cbn [bind] in T; try discriminate T. injection T as <- <- <-.
        apply nlopt_spec in N as (J & C & f & E & O & W); [|auto|auto]. split; [exact J|]. split; [exact C|].
        split; [intros Hc; split; [exact J|exists f, E; split; [exact O|now apply W]]|]. split; [|congruence]. intros _. split; [reflexivity|].
        intros (_ & f' & E' & O' & W'). apply W. congruence.
    - cbn [tries] in H. destruct (match ip_algo p with SQP => _ | _ => _ end) as [[[q1 it1] r1]| | |] eqn:T; cbn [bind] in H; try discriminate H.
      destruct (rand_ok s _ lims us Sn Od Hu) as (xr & Er' & Ir).
      destruct (Z.eqb_spec r1 0) as [->|Nr].
      + injection H as <- <- <-. destruct (ip_algo p).
        * apply jpinv_spec in T as (J & L & B & C). split; [exact J|]. split; [intuition|]. split; [intuition congruence|]. split; [discriminate|]. intros _. cbn [length]. split; [lia|]. intuition congruence.
        * apply jpinv_spec in T as (J & L & B & C). split; [exact J|]. split; [intuition|]. split; [intuition congruence|]. split; [discriminate|]. intros _. cbn [length]. split; [lia|]. intuition congruence.
        * destruct (ik_nlopt _ _ _ _ _ _ _ _) as [[q2 r2]| | |] eqn:N; cbn [bind] in T; try discriminate T. injection T as <- <- ->.
          apply nlopt_spec in N as (J & C & f & E & O & W); [|auto|auto]. split; [exact J|]. split; [exact C|].
          split; [intros Hc; split; [exact J|exists f, E; split; [exact O|now apply W]]|]. split; [|congruence]. intros _. split; [reflexivity|].
          intros (_ & f' & E' & O' & W'). apply W. congruence.
      + rewrite Er' in H. cbn [bind] in H. apply IH in H as (J & C & G & Q & P); [|auto].
        split; [exact J|]. split; [exact C|]. split; [exact G|]. split.
        * intros A. destruct (Q A) as [-> Q']. split; [|exact Q']. rewrite A in T. destruct (ik_nlopt _ _ _ _ _ _ _ _) as [[q2 r2]| | |]; cbn [bind] in T; try discriminate T. now injection T as <- <- <-.
        * intros A. destruct (P A) as (P1 & P2 & P3). split; [|split; [exact P2|exact P3]]. cbn [length].
          assert (B : (it1 <= Nat.max (S it) (S (ip_max p)))%nat); [|lia].
          destruct (ip_algo p); [| |congruence]; now apply jpinv_spec in T.
  Qed.
End Sound.
