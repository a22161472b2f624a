(** Trapezoidal trajectories do not do what they should. *)
From Coq Require Import List Reals Arith ZArith Lia Lra Bool.
From Verif Require Import TrModel TrSpec TrEvalProofs TrLinProofs.
Import ListNotations.
Open Scope R_scope.

Lemma axis_case x y dqm ddqm sg : 0 < dqm * sg -> 0 < ddqm * sg -> (sg = 1 \/ sg = -1) -> 0 <= (y - x) * sg ->
  let tai := sqrt ((y - x) / ddqm) in
  let r := if Rlt_b (dqm * sg) (tai * ddqm * sg)
    then (dqm / ddqm, ((y - x) - dqm * (dqm / ddqm)) / dqm + 2 * (dqm / ddqm)) else (tai, 2 * tai) in
  0 <= fst r /\ 2 * fst r <= snd r /\ (x <> y -> 0 < fst r).
Proof.
  intros H1 H2 Hs H3 tai r.
  assert (N1 : dqm <> 0) by (intros ->; lra). assert (N2 : ddqm <> 0) by (intros ->; lra).
  assert (P : dqm / ddqm = (dqm * sg) / (ddqm * sg)) by (field; split; auto; destruct Hs; lra).
  assert (Q : (y - x) / ddqm = ((y - x) * sg) / (ddqm * sg)) by (field; split; auto; destruct Hs; lra).
  assert (T0 : 0 <= tai) by apply sqrt_pos.
  assert (D0 : 0 < dqm / ddqm) by (rewrite P; apply Rdiv_lt_0_compat; lra).
  assert (E0 : 0 <= (y - x) / ddqm) by (rewrite Q; apply Rmult_le_pos; [lra|left; apply Rinv_0_lt_compat; lra]).
  assert (T2 : tai * tai = (y - x) / ddqm) by (apply sqrt_sqrt; auto).
  unfold r. destruct (Rlt_b (dqm * sg) (tai * ddqm * sg)) eqn:C; cbn [fst snd].
  - apply Rlt_b_true in C. split; [lra|]. split; [|lra].
    assert (TB : dqm / ddqm < tai).
    { rewrite P. apply (Rmult_lt_reg_r (ddqm * sg)); auto. unfold Rdiv. rewrite Rmult_assoc, Rinv_l by lra. lra. }
    assert (0 <= ((y - x) - dqm * (dqm / ddqm)) / dqm); [|lra].
    replace (((y - x) - dqm * (dqm / ddqm)) / dqm) with (((y - x) / ddqm - (dqm / ddqm) * (dqm / ddqm)) * (/ (dqm / ddqm))) by (field; auto).
    apply Rmult_le_pos; [nra|left; apply Rinv_0_lt_compat; lra].
  - split; auto. split; [lra|]. intros Hxy. apply sqrt_lt_R0. rewrite Q. apply Rdiv_lt_0_compat; auto.
    destruct Hs as [-> | ->]; lra.
Qed.

Lemma trap_axis_spec x y a b c d : a < 0 < b -> c < 0 < d ->
  let r := trap_axis x y a b c d in 0 <= fst r /\ 2 * fst r <= snd r /\ (x <> y -> 0 < fst r).
Proof.
  intros H1 H2. unfold trap_axis. destruct (Rle_b x y) eqn:E.
  - apply Rle_b_true in E. apply axis_case; try lra.
  - apply Rle_b_false in E. apply axis_case; try lra.
Qed.

Lemma trap_times_spec : forall q0 q1 a b c d ta dt,
  length q1 = length q0 -> length a = length q0 -> length b = length q0 -> length c = length q0 -> length d = length q0 ->
  (forall i, (i < length q0)%nat -> joint a i < 0 < joint b i) -> (forall i, (i < length q0)%nat -> joint c i < 0 < joint d i) ->
  0 <= ta -> 2 * ta <= dt ->
  let r := trap_times ta dt q0 q1 a b c d in
  ta <= fst r /\ 2 * fst r <= snd r /\ (forall i, joint q0 i <> joint q1 i -> 0 < fst r).
Proof.
  induction q0 as [|x q0 IH]; intros q1 a b c d ta dt L1 La Lb Lc Ld Hv Ha Hta Hdt;
    destruct q1 as [|y q1], a as [|a1 a], b as [|b1 b], c as [|c1 c], d as [|d1 d]; cbn in L1, La, Lb, Lc, Ld; try discriminate; cbn [trap_times].
  - cbn. split; [lra|]. split; auto. intros [|i]; cbn; congruence.
  - pose proof (trap_axis_spec x y a1 b1 c1 d1 (Hv 0%nat ltac:(cbn; lia)) (Ha 0%nat ltac:(cbn; lia))) as (A1 & A2 & A3).
    destruct (trap_axis x y a1 b1 c1 d1) as [tai dti]. cbn [fst snd] in *.
    pose proof (aa_max_l ta tai). pose proof (aa_max_r ta tai). pose proof (aa_max_l dt dti). pose proof (aa_max_r dt dti).
    assert (2 * aa_max ta tai <= aa_max dt dti) by (destruct (aa_max_case ta tai) as [E|E]; rewrite E in *; lra).
    destruct (IH q1 a b c d (aa_max ta tai) (aa_max dt dti)) as (I1 & I2 & I3); try lia; try lra; auto.
    { intros i Hi. apply (Hv (S i)). cbn. lia. }
    { intros i Hi. apply (Ha (S i)). cbn. lia. }
    split; [lra|]. split; auto. intros [|i]; unfold joint; cbn [nth]; intros Hi; [specialize (A3 Hi); lra|apply (I3 i Hi)].
Qed.

Lemma fill_ptr_len n v old : length v = n -> length old = n -> fill_ptr n v (Some old) = Some (Some v).
Proof. intros A B. cbn. rewrite fill_len by auto. reflexivity. Qed.

Lemma ddq_eval_in n c s t : length (sa_q0 c) = n -> length (sa_dq0 c) = n -> length (sa_ddq c) = n -> full_buffers n s ->
  sa_t0 c <= t <= sa_t1 c ->
  let tt := t - sa_t0 c in
  ddq_eval c s t = Some (true, mkSt n
    (Some (zip Rplus (sa_q0 c) (zip (fun d a => tt * d - tt * tt * a / 2) (sa_dq0 c) (sa_ddq c))))
    (Some (zip (fun d a => d - tt * a) (sa_dq0 c) (sa_ddq c))) (s_ddq s)).
Proof.
  intros A B C (F1 & (q & F2 & F2') & (dq & F3 & F3') & _) Ht tt. unfold ddq_eval.
  assert (Rle_b (sa_t0 c) t = true) as -> by (apply Rle_b_true; lra).
  assert (Rle_b t (sa_t1 c) = true) as -> by (apply Rle_b_true; lra). cbn [andb].
  rewrite A, F1, Nat.min_id, F2, F3. fold tt.
  rewrite fill_ptr_len by (rewrite ?zip_length; lia). cbn [obind].
  rewrite fill_ptr_len by (rewrite ?zip_length; lia). reflexivity.
Qed.

Section Trap.
Variables (n : nat) (L : limit) (w0 w1 : list R) (i : nat).
Hypothesis HV : velocity_limits n L.
Hypothesis HA : acceleration_limits n L.
Hypothesis H0 : length w0 = n.
Hypothesis H1 : length w1 = n.
Hypothesis Hi : (i < n)%nat.
Hypothesis Hd : joint w0 i <> joint w1 i.

Lemma joint_map f v k : (k < length v)%nat -> joint (map f v) k = f (joint v k).
Proof. intros. unfold joint. rewrite nth_indep with (d' := f 0) by (rewrite map_length; auto). apply map_nth. Qed.
Lemma joint_rep k m : joint (repeat 0 m) k = 0.
Proof. unfold joint. revert k. induction m; intros [|k]; cbn; auto. Qed.

Lemma trap_wrong s : full_buffers n s ->
  exists segs D ta, trap_generate [w0; w1] L = Some (segs, D) /\ 0 < ta /\ 2 * ta <= D /\
    (forall t, 0 < t <= ta -> exists s' it q, trap_eval segs None s t = Some (true, s', it) /\ s_q s' = Some q /\
      (joint q i - joint w0 i) * (joint w1 i - joint w0 i) < 0) /\
    (exists s' it q d, trap_eval segs None s D = Some (true, s', it) /\ s_q s' = Some q /\ s_dq s' = Some d /\
      0 < (joint q i - joint w1 i) * (joint w1 i - joint w0 i) /\ 0 < joint d i * (joint w1 i - joint w0 i)).
Proof.
  intros FB.
  destruct HV as (V1 & V2 & V3), HA as (A1 & A2 & A3).
  pose proof (trap_times_spec w0 w1 (min_dq L) (max_dq L) (min_ddq L) (max_ddq L) 0 0) as S.
  destruct S as (S1 & S2 & S3); try lia; try lra.
  { intros k Hk. apply V3. lia. }
  { intros k Hk. apply A3. lia. }
  specialize (S3 i Hd).
  unfold trap_generate. cbn [trap_segs]. unfold trap_new. rewrite H0, H1, Nat.min_id.
  destruct (trap_times 0 0 w0 w1 (min_dq L) (max_dq L) (min_ddq L) (max_ddq L)) as [ta dt]. cbn [fst snd] in *.
  set (den := ta * ta + ta * (dt - 2 * ta)).
  assert (DEN : 0 < den) by (unfold den; nra).
  set (ddq := zip (fun a b => (b - a) / den) w0 w1).
  set (cdq := map (fun a => a * ta) ddq).
  set (cq0 := zip (fun q a => q + a * ta * ta / 2) w0 ddq).
  assert (LQ : length ddq = n) by (unfold ddq; rewrite zip_length; lia).
  assert (LC : length cdq = n) by (unfold cdq; rewrite map_length; lia).
  assert (LC0 : length cq0 = n) by (unfold cq0; rewrite zip_length; lia).
  assert (JD : joint ddq i = (joint w1 i - joint w0 i) / den) by (unfold ddq; rewrite zip_joint; auto; lia).
  assert (JC : joint cdq i = joint ddq i * ta) by (unfold cdq; rewrite joint_map; auto; lia).
  assert (JC0 : joint cq0 i = joint w0 i + joint ddq i * ta * ta / 2) by (unfold cq0; rewrite zip_joint; auto; lia).
  rewrite firstn_len by auto.
  set (sa := mkSA w0 (repeat 0 n) ddq 0 (0 + ta)).
  set (sc := mkSD cq0 cdq (0 + ta) (0 + dt - ta)).
  set (sd := mkSA _ cdq (map Ropp ddq) (0 + dt - ta) (0 + dt)).
  exists [SegDdq sa; SegDq sc; SegDdq sd], dt, ta. cbn [map seg_end last sa_t1 sd trap_segs]. rewrite Rplus_0_l.
  split; auto. split; auto. split; auto.
  assert (PD : 0 < joint ddq i * (joint w1 i - joint w0 i)).
  { rewrite JD. unfold Rdiv. replace ((joint w1 i - joint w0 i) * / den * (joint w1 i - joint w0 i))
      with (Rsqr (joint w1 i - joint w0 i) * / den) by (unfold Rsqr; ring).
    apply Rmult_lt_0_compat; [apply Rsqr_pos_lt; lra|apply Rinv_0_lt_compat; auto]. }
  split.
  - intros t Ht. unfold trap_eval, list_eval. cbn [length Nat.leb Nat.sub eval_loop]. unfold seg_ev at 1. cbn [nth_error obind].
    rewrite (ddq_eval_in n sa s t) by (auto; cbn; rewrite ?repeat_length; auto; lra).
    cbn [obind]. do 3 eexists. split; [reflexivity|]. split; [reflexivity|]. cbn [sa sa_q0 sa_dq0 sa_ddq sa_t0].
    rewrite zip_joint by (rewrite ?zip_length, ?repeat_length; lia).
    rewrite zip_joint by (rewrite ?repeat_length; lia). rewrite joint_rep.
    assert (0 < t * t) by nra. nra.
  - unfold trap_eval, list_eval. cbn [length Nat.leb Nat.sub eval_loop].
    assert (E1 : seg_ev [SegDdq sa; SegDq sc; SegDdq sd] 0 s dt = Some (false, s)).
    { unfold seg_ev. cbn [nth_error obind]. unfold ddq_eval. cbn [sa sa_t0 sa_t1].
      assert (Rle_b dt (0 + ta) = false) as -> by (apply Rle_b_false; lra). rewrite andb_false_r. reflexivity. }
    rewrite E1. cbn [obind].
    destruct FB as (F1 & (q & F2 & F2') & (dq & F3 & F3') & (aq & F4 & F4')).
    assert (E2 : exists q', length q' = n /\ seg_ev [SegDdq sa; SegDq sc; SegDdq sd] 1 s dt = Some (false, mkSt n (Some q') (s_dq s) (s_ddq s))).
    { unfold seg_ev. cbn [nth_error obind]. unfold dq_eval. cbn [sc sd_t0 sd_t1 sd_q0 sd_dq].
      assert (Rle_b dt (0 + dt - ta) = false) as -> by (apply Rle_b_false; lra). rewrite andb_false_r.
      rewrite F1, LC0, Nat.min_id, F2, fill_ptr_len by (rewrite ?zip_length; lia). cbn [obind].
      eexists. split; [|reflexivity]. rewrite zip_length. lia. }
    destruct E2 as (q' & LQ' & E2). rewrite E2. cbn [obind].
    set (s2 := mkSt n (Some q') (s_dq s) (s_ddq s)).
    assert (FB2 : full_buffers n s2) by (split; [reflexivity|]; cbn; split; [|split]; eexists; eauto).
    unfold seg_ev. cbn [nth_error obind].
    rewrite (ddq_eval_in n sd s2 dt) by (auto; cbn; rewrite ?zip_length, ?map_length; auto; try lra; lia).
    cbn [obind]. do 4 eexists. split; [reflexivity|]. split; [reflexivity|]. split; [reflexivity|].
    cbn [sd sa_q0 sa_dq0 sa_ddq sa_t0]. replace (dt - (0 + dt - ta)) with ta by ring.
    rewrite !zip_joint by (rewrite ?zip_length, ?map_length; lia).
    rewrite joint_map by lia. rewrite JC0, JC.
    assert (E : joint w0 i + joint ddq i * ta * ta / 2 + joint ddq i * ta * (dt - 2 * ta) + (ta * (joint ddq i * ta) - ta * ta * - joint ddq i / 2) - joint w1 i
      = joint ddq i * (ta * ta)).
    { assert (joint ddq i * den = joint w1 i - joint w0 i) by (rewrite JD; field; lra). unfold den in *. lra. }
    rewrite E. split; [|replace (joint ddq i * ta - ta * - joint ddq i) with (joint ddq i * (2 * ta)) by ring];
      rewrite Rmult_assoc, (Rmult_comm _ (joint w1 i - joint w0 i)), <- Rmult_assoc; apply Rmult_lt_0_compat; auto; nra.
Qed.

Lemma trap_eval_null s t : s_n s = n -> s_dq s = None ->
  exists segs D ta, trap_generate [w0; w1] L = Some (segs, D) /\ 0 < ta /\ 2 * ta <= D /\
    (0 <= t <= ta -> trap_eval segs None s t = None).
Proof.
  intros F1 F3.
  destruct HV as (V1 & V2 & V3), HA as (A1 & A2 & A3).
  pose proof (trap_times_spec w0 w1 (min_dq L) (max_dq L) (min_ddq L) (max_ddq L) 0 0) as S.
  destruct S as (S1 & S2 & S3); try lia; try lra.
  { intros k Hk. apply V3. lia. }
  { intros k Hk. apply A3. lia. }
  specialize (S3 i Hd).
  unfold trap_generate. cbn [trap_segs]. unfold trap_new. rewrite H0, H1, Nat.min_id.
  destruct (trap_times 0 0 w0 w1 (min_dq L) (max_dq L) (min_ddq L) (max_ddq L)) as [ta dt]. cbn [fst snd] in *.
  do 2 eexists. exists ta. split; [reflexivity|]. cbn [map seg_end last sa_t1]. rewrite Rplus_0_l. split; auto. split; auto.
  intros Ht. unfold trap_eval, list_eval. cbn [length Nat.leb Nat.sub eval_loop]. unfold seg_ev at 1. cbn [nth_error obind].
  unfold ddq_eval at 1. cbn [sa_t0 sa_t1 sa_q0].
  assert (Rle_b 0 t = true) as -> by (apply Rle_b_true; lra).
  assert (Rle_b t (0 + ta) = true) as -> by (apply Rle_b_true; lra). cbn [andb].
  rewrite firstn_len, H0, F1, Nat.min_id, F3 by auto. unfold fill_ptr at 1.
  destruct (Nat.eqb_spec n 0); [lia|]. reflexivity.
Qed.
End Trap.

(** joint A: 10 units at speed at most 1, acceleration at most 10; joint B: 25 units at speed at most 100,
    acceleration at most 1 *)
Definition trapL := mkLim [-1; -100] [1; 100] [-10; -1] [10; 1].
Lemma trapL_ok : velocity_limits 2 trapL /\ acceleration_limits 2 trapL.
Proof. split; (split; [reflexivity|split; [reflexivity|]]); intros [|[|i]] Hi; cbn; try lra; lia. Qed.

Lemma trap_too_fast : exists segs D s' it d, trap_generate [[0; 0]; [10; 25]] trapL = Some (segs, D) /\
  trap_eval segs None (state_alloc 2) (101 / 20) = Some (true, s', it) /\ s_dq s' = Some d /\ 1 < joint d 0.
Proof.
  assert (T : trap_times 0 0 [0; 0] [10; 25] (min_dq trapL) (max_dq trapL) (min_ddq trapL) (max_ddq trapL) = (5, 101 / 10)).
  { unfold trapL. cbn [min_dq max_dq min_ddq max_ddq trap_times]. unfold trap_axis.
    assert (Rle_b 0 10 = true) as -> by (apply Rle_b_true; lra).
    assert (Rle_b 0 25 = true) as -> by (apply Rle_b_true; lra).
    replace ((10 - 0) / 10) with (1 * 1) by lra. replace ((25 - 0) / 1) with (5 * 5) by lra. rewrite !sqrt_square by lra.
    assert (Rlt_b (1 * 1) (1 * 10 * 1) = true) as -> by (apply Rlt_b_true; lra).
    assert (Rlt_b (100 * 1) (5 * 1 * 1) = false) as -> by (apply Rlt_b_false; lra).
    unfold aa_max. replace ((10 - 0 - 1 * (1 / 10)) / 1 + 2 * (1 / 10)) with (101 / 10) by lra.
    assert (Rlt_b (1 / 10) 0 = false) as -> by (apply Rlt_b_false; lra).
    assert (Rlt_b (101 / 10) 0 = false) as -> by (apply Rlt_b_false; lra).
    assert (Rlt_b 5 (1 / 10) = false) as -> by (apply Rlt_b_false; lra).
    assert (Rlt_b (2 * 5) (101 / 10) = true) as -> by (apply Rlt_b_true; lra). reflexivity. }
  unfold trap_generate. cbn [trap_segs]. unfold trap_new. rewrite T. cbn [length Nat.min firstn repeat zip map].
  do 5 eexists. split; [reflexivity|].
  unfold trap_eval, list_eval. cbn [length Nat.leb Nat.sub eval_loop]. unfold seg_ev. cbn [nth_error obind].
  unfold ddq_eval at 1. cbn [sa_t0 sa_t1].
  assert (Rle_b (101 / 20) (0 + 5) = false) as -> by (apply Rle_b_false; lra). rewrite andb_false_r. cbn [obind].
  unfold dq_eval at 1. cbn [sd_t0 sd_t1 sd_q0 sd_dq length Nat.min state_alloc s_n s_q s_dq zeros repeat].
  assert (Rle_b (0 + 5) (101 / 20) = true) as -> by (apply Rle_b_true; lra).
  assert (Rle_b (101 / 20) (0 + 101 / 10 - 5) = true) as -> by (apply Rle_b_true; lra).
  cbn [andb]. cbn -[IZR Rplus Rmult Rminus Rdiv]. split; [reflexivity|]. split; [reflexivity|].
  unfold joint. cbn [nth]. lra.
Qed.
