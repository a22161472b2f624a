(** The trajectory theorems in the form in which Properties_Tr.v states them, and the examples. *)
From Coq Require Import List Reals Arith ZArith Lia Lra Bool.
From Verif Require Import TrModel TrSpec TrEvalProofs TrLinProofs TrPbProofs TrPbMotionProofs TrCheckProofs TrTrapProofs.
Import ListNotations.
Open Scope R_scope.

(** ** Linear trajectories *)
Lemma lin_split n pts L : velocity_limits n L -> way_points n pts -> distinct_steps pts -> (2 <= length pts)%nat ->
  exists w0 r, pts = w0 :: r /\ length w0 = n /\ Forall (fun w => length w = n) r /\ r <> [] /\
    lin_generate pts L = Some (lin_segs 0 w0 r L, last (times 0 w0 r L) 0).
Proof.
  intros HV (Hne & HF) HD HL. destruct pts as [|w0 r]; [congruence|]. exists w0, r.
  inversion HF; subst. repeat split; auto.
  - intros ->. cbn in HL. lia.
  - unfold lin_generate. f_equal. f_equal. rewrite (last_end (length w0) L r 0 w0); auto. intros ->. cbn in HL. lia.
Qed.

Definition lin_answer (n : nat) (q dq : R -> list R) (s : st) (t : R) : st :=
  mkSt n (Some (q t)) (option_map (fun _ => dq t) (s_dq s)) (s_ddq s).

Lemma lin_claim n pts L : velocity_limits n L -> way_points n pts -> distinct_steps pts -> (2 <= length pts)%nat ->
  exists segs D T q dq, lin_generate pts L = Some (segs, D) /\ 0 < D /\ straight_moves n pts L D T q dq /\
    (forall s t, buffers n s -> 0 <= t <= D -> exists k, lin_eval segs None s t = Some (true, lin_answer n q dq s t, Some k)) /\
    (forall s t, buffers n s -> t < 0 \/ D < t -> exists s', lin_eval segs None s t = Some (false, s', None)).
Proof.
  intros HV HW HD HL. destruct (lin_split n pts L HV HW HD HL) as (w0 & r & -> & H0 & Hr & Hne & G).
  exists (lin_segs 0 w0 r L), (last (times 0 w0 r L) 0), (times 0 w0 r L), (lin_q L w0 r), (lin_dq L w0 r).
  split; auto. split; [apply (D_pos n); auto|]. split; [apply lin_straight; auto|]. split.
  - intros s t Hs Ht. apply lin_fresh; auto.
  - intros s t Hs Ht. eexists. apply lin_outside with (n := n); auto.
Qed.

Lemma lin_one_point n L w s it t : length w = n -> exists segs D, lin_generate [w] L = Some (segs, D) /\ lin_eval segs it s t = None.
Proof.
  intros _. do 2 eexists. split; [reflexivity|]. unfold lin_eval, list_eval. cbn [lin_segs length]. 
  destruct it; reflexivity.
Qed.

Lemma lin_drops : pts_from [[0]; [1]; [1 + 1 / 2000]] = [[0]; [1]].
Proof.
  unfold pts_from. cbn [fold_left pt_add]. unfold state_eq at 1. cbn [last length Nat.eqb veq andb].
  unfold feq, aa_epsilon, Rle_b. destruct (Rle_dec _ _) as [H|H].
  - rewrite Rabs_left in H by lra. lra.
  - cbn [andb]. cbn [app pt_add]. unfold state_eq. cbn [last length Nat.eqb veq andb]. unfold feq, aa_epsilon, Rle_b.
    destruct (Rle_dec _ _) as [K|K]; [reflexivity|]. exfalso. apply K. rewrite Rabs_left by lra. lra.
Qed.

Lemma lin_hist n pts L : velocity_limits n L -> way_points n pts -> distinct_steps pts -> (2 <= length pts)%nat ->
  exists segs D T q dq, lin_generate pts L = Some (segs, D) /\ straight_moves n pts L D T q dq /\
  (forall h, Forall (fun c => buffers n (fst c)) h -> Forall (fun c => 0 <= snd c <= D) h ->
     (forall i, (S i < length h)%nat -> nth i (map snd h) 0 <= nth (S i) (map snd h) 0) ->
     exists out it, calls (lin_eval segs) None h = Some (out, it) /\
       Forall2 (fun c o => fst o = true /\ s_q (snd o) = Some (q (snd c))) h out) /\
  (forall h, Forall (fun c => buffers n (fst c)) h ->
     exists out it, calls (lin_eval segs) None h = Some (out, it) /\
       Forall2 (fun c o => fst o = true -> 0 <= snd c <= D /\ s_q (snd o) = Some (q (snd c))) h out /\
       forall s t, buffers n s -> 0 <= t <= D -> exists b s' it', lin_eval segs it s t = Some (b, s', it') /\
         (b = true -> s_q s' = Some (q t)) /\ (b = false -> it' = None)).
Proof.
  intros HV HW HD HL. destruct (lin_split n pts L HV HW HD HL) as (w0 & r & -> & H0 & Hr & Hne & G).
  exists (lin_segs 0 w0 r L), (last (times 0 w0 r L) 0), (times 0 w0 r L), (lin_q L w0 r), (lin_dq L w0 r).
  split; auto. split; [apply lin_straight; auto|]. split.
  - intros h A B C. eapply lin_forward; eauto.
  - intros h A. eapply lin_any; eauto.
Qed.

Lemma lin_backwards n pts L s s' : velocity_limits n L -> way_points n pts -> distinct_steps pts -> (3 <= length pts)%nat ->
  buffers n s -> buffers n s' ->
  exists segs D s1 s2, lin_generate pts L = Some (segs, D) /\ 0 <= D /\
    calls (lin_eval segs) None [(s, D); (s', 0)] = Some ([(true, s1); (false, s2)], None).
Proof.
  intros HV HW HD HL Hs Hs'. destruct (lin_split n pts L HV HW HD ltac:(lia)) as (w0 & r & -> & H0 & Hr & Hne & G).
  destruct (lin_back n L w0 r HV H0 Hr Hne HD s s' Hs Hs') as (s1 & k & s2 & E1 & E2); [cbn in HL; lia|].
  do 2 eexists. exists s1, s2. split; [exact G|]. split; [left; apply (D_pos n); auto|].
  cbn [calls]. rewrite E1, E2. reflexivity.
Qed.

(** ** Parabolic blends *)
Lemma pb_claim n pts L fuel segs D : velocity_limits n L -> acceleration_limits n L -> way_points n pts ->
  pb_generate fuel pts L = Some (segs, D) ->
  exists q dq ddq, blended n pts L D q dq /\
    (forall s t, full_buffers n s -> 0 <= t <= D ->
       exists k, pb_eval segs None s t = Some (true, mkSt n (Some (q t)) (Some (dq t)) (Some (ddq t)), Some k)) /\
    (forall s t, full_buffers n s -> t < 0 \/ D < t -> pb_eval segs None s t = Some (false, s, None)) /\
    (forall t i, (i < n)%nat -> joint (min_ddq L) i <= joint (ddq t) i <= joint (max_ddq L) i) /\
    (exists B : list R, forall t i, 0 <= t <= D -> (i < n)%nat -> ~ In t B ->
       derivable_pt_lim (fun u => joint (dq u) i) t (joint (ddq t) i)) /\
    (exists T : list R, length T = length pts /\ (forall k, (k < length pts)%nat -> 0 <= nth k T 0 <= D) /\
       (forall k, (S k < length pts)%nat -> nth k T 0 < nth (S k) T 0) /\
       forall k i, (0 < k)%nat -> (S k < length pts)%nat -> (i < n)%nat ->
         Rabs (joint (q (nth k T 0)) i - joint (nth k pts []) i) <=
         (Rabs (joint (nth (S k) pts []) i - joint (nth k pts []) i) + Rabs (joint (nth k pts []) i - joint (nth (k - 1) pts []) i)) / 4).
Proof.
  intros HV HA HP G. destruct (pb_generate_spec n L pts fuel segs D HV HA HP G) as (l & U & A & -> & ->).
  exists (pb_q_at n pts l), (pb_dq_at n pts l), (pb_ddq_at n pts l).
  split; [apply pb_blended; auto|]. split; [intros; eapply pb_fresh; eauto|]. split; [intros; eapply pb_outside; eauto|].
  split; [intros; eapply pb_acc_bounds; eauto|]. split; [eapply pb_acc_deriv; eauto|eapply pb_near; eauto].
Qed.

Lemma pb_hist n pts L fuel segs D : velocity_limits n L -> acceleration_limits n L -> way_points n pts ->
  pb_generate fuel pts L = Some (segs, D) ->
  exists q dq, blended n pts L D q dq /\
  (forall h, Forall (fun c => full_buffers n (fst c)) h -> Forall (fun c => 0 <= snd c <= D) h ->
     (forall i, (S i < length h)%nat -> nth i (map snd h) 0 <= nth (S i) (map snd h) 0) ->
     exists out it, calls (pb_eval segs) None h = Some (out, it) /\
       Forall2 (fun c o => fst o = true /\ s_q (snd o) = Some (q (snd c)) /\ s_dq (snd o) = Some (dq (snd c))) h out) /\
  (forall h, Forall (fun c => full_buffers n (fst c)) h ->
     exists out it, calls (pb_eval segs) None h = Some (out, it) /\
       Forall2 (fun c o => fst o = true -> 0 <= snd c <= D /\ s_q (snd o) = Some (q (snd c)) /\ s_dq (snd o) = Some (dq (snd c))) h out /\
       forall s t, full_buffers n s -> 0 <= t <= D -> exists b s' it', pb_eval segs it s t = Some (b, s', it') /\
         (b = true -> s_q s' = Some (q t) /\ s_dq s' = Some (dq t)) /\ (b = false -> it' = None)).
Proof.
  intros HV HA HP G. destruct (pb_generate_spec n L pts fuel segs D HV HA HP G) as (l & U & A & -> & ->).
  exists (pb_q_at n pts l), (pb_dq_at n pts l). split; [apply pb_blended; auto|]. split.
  - intros h X Y Z. eapply pb_forward; eauto.
  - intros h X. eapply pb_any; eauto.
Qed.

Lemma pb_backwards n pts L fuel segs D s s' : velocity_limits n L -> acceleration_limits n L -> way_points n pts ->
  (2 <= length pts)%nat -> pb_generate fuel pts L = Some (segs, D) -> full_buffers n s -> full_buffers n s' ->
  exists s1 s2, calls (pb_eval segs) None [(s, D); (s', 0)] = Some ([(true, s1); (false, s2)], None).
Proof.
  intros HV HA HP HL G Hs Hs'. destruct (pb_generate_spec n L pts fuel segs D HV HA HP G) as (l & U & A & -> & ->).
  destruct (pb_back n L pts l HP U A s s' Hs Hs' ltac:(lia)) as (s1 & k & s2 & E1 & E2).
  exists s1, s2. cbn [calls]. rewrite E1, E2. reflexivity.
Qed.

(** two way points: the generator returns after at most two rounds *)
Lemma axis_scale x a b k : 0 < k -> axis_time (k * x) a b = k * axis_time x a b.
Proof.
  intros Hk. unfold axis_time, Rlt_b. destruct (Rlt_dec (k * x) 0), (Rlt_dec x 0); unfold Rdiv; try ring; nra.
Qed.
Lemma limit_scale k : 0 < k -> forall mag mn mx m m', m' <= Rmax dbl_min (k * m) ->
  pb_limit_loop m' (map (Rmult k) mag) mn mx <= Rmax dbl_min (k * pb_limit_loop m mag mn mx).
Proof.
  intros Hk. induction mag as [|x mag IH]; intros [|a mn] [|b mx] m m' H; cbn [map pb_limit_loop]; auto.
  apply IH. rewrite axis_scale by auto. unfold Rlt_b. destruct (Rlt_dec m' _), (Rlt_dec m _); auto.
  - apply Rmax_r.
  - eapply Rle_trans; [|apply Rmax_r]. nra.
  - eapply Rle_trans; [exact H|]. apply Rmax_lub; [apply Rmax_l|]. eapply Rle_trans; [|apply Rmax_r]. nra.
Qed.
Lemma zip_map_l f g (a b : list R) : (forall x y, f (g x) y = g (f x y)) -> zip f (map g a) b = map g (zip f a b).
Proof. intros H. revert b. induction a as [|x a IH]; intros [|y b]; cbn; auto. rewrite H, IH. auto. Qed.

Lemma zip_div dt f : forall a b : list R, dt <> 0 -> f <> 0 ->
  zip (fun a b => (b - a) / (dt / f)) a b = map (Rmult f) (zip (fun a b => (b - a) / dt) a b).
Proof. intros a b Hd Hf. revert b. induction a as [|x a IH]; intros [|y b]; cbn; auto. f_equal; [field; auto|apply IH]. Qed.

Section Two.
Variables (n : nat) (w0 w1 : list R) (L : limit).
Hypothesis HV : velocity_limits n L.
Hypothesis HA : acceleration_limits n L.
Hypothesis H0 : length w0 = n.
Hypothesis H1 : length w1 = n.
Let v (dt : R) := zip (fun a b => (b - a) / dt) w0 w1.
Let z := zeros n.
Let B0 dt := pb_limit (v dt) z (min_ddq L) (max_ddq L).
Let B1 dt := pb_limit z (v dt) (min_ddq L) (max_ddq L).

Lemma v_scale dt f : dt <> 0 -> f <> 0 -> v (dt / f) = map (Rmult f) (v dt).
Proof. apply zip_div. Qed.
Lemma zip_sub_zeros_r : forall (a : list R) f, zip Rminus (map (Rmult f) a) (zeros (length a)) = map (Rmult f) (zip Rminus a (zeros (length a))).
Proof. induction a as [|x a IH]; intros f; cbn; auto. f_equal; [ring|]. apply IH. Qed.
Lemma zip_sub_zeros_l : forall (a : list R) f, zip Rminus (zeros (length a)) (map (Rmult f) a) = map (Rmult f) (zip Rminus (zeros (length a)) a).
Proof. induction a as [|x a IH]; intros f; cbn; auto. f_equal; [ring|]. apply IH. Qed.
Lemma v_len dt : length (v dt) = n. Proof. unfold v. rewrite zip_length, H0, H1. apply Nat.min_id. Qed.

Lemma B0_scale dt f : 0 < dt -> 0 < f -> B0 (dt / f) <= Rmax dbl_min (f * B0 dt).
Proof.
  intros Hd Hf. unfold B0, pb_limit. rewrite v_scale by lra. unfold z. rewrite <- (v_len dt) at 1 2. rewrite zip_sub_zeros_r.
  rewrite v_len. apply limit_scale; auto. apply Rmax_l.
Qed.
Lemma B1_scale dt f : 0 < dt -> 0 < f -> B1 (dt / f) <= Rmax dbl_min (f * B1 dt).
Proof.
  intros Hd Hf. unfold B1, pb_limit. rewrite v_scale by lra. unfold z. rewrite <- (v_len dt) at 1 2. rewrite zip_sub_zeros_l.
  rewrite v_len. apply limit_scale; auto. apply Rmax_l.
Qed.
Lemma B_pos dt : dbl_min <= B0 dt /\ dbl_min <= B1 dt.
Proof.
  destruct HA as (A1 & A2 & _). unfold B0, B1, pb_limit.
  assert (Lz : length z = n) by apply zeros_len. pose proof (v_len dt).
  split; (apply pb_limit_loop_spec; rewrite zip_length; lia).
Qed.

Lemma two_update q0 t0 t0' b0 b0' dt dtl dd dd' :
  exists c0 c1, pb_update_all None [mkPB w0 q0 dd t0 dt b0; mkPB w1 z dd' t0' dtl b0'] L = [c0; c1] /\
    pb_q c0 = w0 /\ pb_dt c0 = dt /\ pb_b c0 = B0 dt /\ pb_q c1 = w1 /\ pb_dq c1 = z /\ pb_dt c1 = dtl /\ pb_b c1 = B1 dt.
Proof.
  cbn [pb_update_all hd_error]. unfold pb_update. cbn [pb_q pb_dt pb_dq pb_b pb_t].
  do 2 eexists. split; [reflexivity|]. cbn [pb_q pb_dt pb_dq pb_b pb_t]. rewrite H0. auto 10.
Qed.

Lemma two_returns : exists segs D, pb_generate 2 [w0; w1] L = Some (segs, D).
Proof.
  assert (LOOP : pb_loop 2 (pb_init [w0; w1] L) L <> None).
  2:{ unfold pb_generate. destruct (pb_loop 2 (pb_init [w0; w1] L) L); [|congruence]. cbn [obind]. eauto. }
  cbn [pb_init hd_error]. unfold pb_new. rewrite H0, H1. fold z. pose (dt0 := pb_limit w1 w0 (min_dq L) (max_dq L)).
  assert (DT : dbl_min <= dt0).
  { destruct HV as (V1 & V2 & _). unfold dt0, pb_limit. apply pb_limit_loop_spec; rewrite zip_length; lia. }
  pose proof dbl_min_pos as MP. pose proof dbl_max_pos as XP. fold dt0.
  cbn [pb_loop]. 
  destruct (two_update z 0 0 0 0 dt0 dbl_max z z) as (c0 & c1 & -> & Q0 & T0 & b0 & Q1 & D1 & T1 & b1).
  set (f := pb_overlaps None [c0; c1]). destruct (existsb fst f) eqn:EX; [|discriminate].
  cbn [pb_overlaps hd_error] in f. 
  set (o0 := pb_overlap None c0 (Some c1)) in *. set (o1 := pb_overlap (Some c0) c1 None) in *.
  set (s0 := pb_scale None c0 (Some c1)) in *. set (s1 := pb_scale (Some c0) c1 None) in *.
  unfold f. cbn [pb_stretch]. rewrite Q0, T0.
  destruct (B_pos dt0) as (P0 & P1).
  (* the scales *)
  assert (SC : forall m b, 0 < m -> m <= dt0 -> m < b -> 0 < sqrt (m / b) /\ sqrt (m / b) <= 1 /\ sqrt (m / b) * sqrt (m / b) * b <= dt0).
  { intros m b Hm Hd Hb. assert (0 < m / b) by (apply Rdiv_lt_0_compat; lra).
    split; [apply sqrt_lt_R0; auto|]. split.
    - rewrite <- sqrt_1. apply sqrt_le_1; try lra. apply (Rmult_le_reg_r b); try lra. unfold Rdiv. rewrite Rmult_assoc, Rinv_l by lra. lra.
    - rewrite sqrt_sqrt by lra. unfold Rdiv. rewrite Rmult_assoc, Rinv_l by lra. lra. }
  assert (MIN : forall a, 0 < a -> 0 < aa_min a dt0 <= dt0 /\ 0 < aa_min dt0 a <= dt0).
  { intros a Ha. unfold aa_min, Rlt_b. destruct (Rlt_dec a dt0), (Rlt_dec dt0 a); lra. }
  assert (S0 : 0 < s0 /\ s0 <= 1 /\ (o0 = true -> s0 * s0 * B0 dt0 <= dt0)).
  { unfold s0, pb_scale. fold o0. destruct o0 eqn:O0; [|repeat split; try lra; discriminate].
    rewrite T0, b0. destruct (MIN dbl_max XP) as ((M1 & M2) & _).
    assert (dt0 < B0 dt0).
    { unfold o0, pb_overlap in O0. cbn [orb] in O0. apply andb_true_iff in O0 as (O0 & _). apply Rlt_b_true in O0. rewrite T0, b0 in O0. auto. }
    destruct (SC (aa_min dbl_max dt0) (B0 dt0)) as (X & Y & Z); try lra; auto. }
  assert (S1 : 0 < s1 /\ s1 <= 1 /\ (o1 = true -> s1 * s1 * B1 dt0 <= dt0)).
  { unfold s1, pb_scale. fold o1. destruct o1 eqn:O1; [|repeat split; try lra; discriminate].
    rewrite T0, T1, b1. destruct (MIN dbl_max XP) as (_ & (M1 & M2)).
    assert (dt0 < B1 dt0).
    { unfold o1, pb_overlap in O1. rewrite orb_false_r in O1. apply andb_true_iff in O1 as (O1 & _). apply Rlt_b_true in O1. rewrite T0, b1 in O1. auto. }
    destruct (SC (aa_min dt0 dbl_max) (B1 dt0)) as (X & Y & Z); try lra; auto. }
  set (g := aa_min s1 s0).
  assert (G : 0 < g <= 1 /\ g <= s0 /\ g <= s1) by (unfold g, aa_min, Rlt_b; destruct (Rlt_dec s1 s0); lra).
  assert (GG : g * g <= s0 * s0 /\ g * g <= s1 * s1 /\ g * g <= 1) by (destruct G as (? & ? & ?); repeat split; nra).
  assert (FB : forall b, dbl_min <= b -> (s0 * s0 * b <= dt0 \/ s1 * s1 * b <= dt0 \/ b <= dt0) -> g * b * g <= dt0).
  { intros b Hb C. replace (g * b * g) with (g * g * b) by ring. destruct GG as (G1 & G2 & G3).
    assert (0 < b) by lra.
    destruct C as [C|[C|C]]; [apply Rmult_le_compat_r with (r := b) in G1|apply Rmult_le_compat_r with (r := b) in G2
      |apply Rmult_le_compat_r with (r := b) in G3]; lra. }
  assert (FIT0 : o0 = true \/ B0 dt0 <= dt0 -> B0 (dt0 / g) <= dt0 / g).
  { intros C. assert (DG : dt0 <= dt0 / g).
    { apply (Rmult_le_reg_r g); try lra. unfold Rdiv. rewrite Rmult_assoc, Rinv_l by lra. nra. }
    eapply Rle_trans; [apply B0_scale; lra|]. apply Rmax_lub; [lra|].
    apply (Rmult_le_reg_r g); try lra. unfold Rdiv. rewrite (Rmult_assoc dt0), Rinv_l by lra.
    rewrite Rmult_1_r. apply FB; auto. destruct C as [C|C]; [left; apply S0; auto|auto]. }
  assert (FIT1 : o1 = true \/ B1 dt0 <= dt0 -> B1 (dt0 / g) <= dt0 / g).
  { intros C. assert (DG : dt0 <= dt0 / g).
    { apply (Rmult_le_reg_r g); try lra. unfold Rdiv. rewrite Rmult_assoc, Rinv_l by lra. nra. }
    eapply Rle_trans; [apply B1_scale; lra|]. apply Rmax_lub; [lra|].
    apply (Rmult_le_reg_r g); try lra. unfold Rdiv. rewrite (Rmult_assoc dt0), Rinv_l by lra.
    rewrite Rmult_1_r. apply FB; auto. destruct C as [C|C]; [right; left; apply S1; auto|auto]. }
  assert (EX' : o0 = true \/ o1 = true).
  { unfold f in EX. cbn [existsb fst] in EX. apply orb_true_iff in EX as [EX|EX]; auto. rewrite orb_false_r in EX. auto. }
  assert (C0 : o0 = true \/ B0 dt0 <= dt0).
  { destruct EX' as [X|O1]; auto. destruct (Rle_dec (B0 dt0) dt0) as [X|X]; auto. left.
    unfold o1, pb_overlap in O1. rewrite orb_false_r, T0, b0, b1 in O1. apply andb_true_iff in O1 as (O1 & O1').
    apply Rlt_b_true in O1, O1'. unfold o0, pb_overlap. cbn [orb]. rewrite T0, b0, b1.
    apply andb_true_iff; split; apply Rlt_b_true; lra. }
  assert (C1 : o1 = true \/ B1 dt0 <= dt0).
  { destruct EX' as [O0|X]; auto. destruct (Rle_dec (B1 dt0) dt0) as [X|X]; auto. left.
    unfold o0, pb_overlap in O0. cbn [orb] in O0. rewrite T0, b0, b1 in O0. apply andb_true_iff in O0 as (O0 & O0').
    apply Rlt_b_true in O0, O0'. unfold o1, pb_overlap. rewrite orb_false_r, T0, b0, b1.
    apply andb_true_iff; split; apply Rlt_b_true; lra. }
  specialize (FIT0 C0). specialize (FIT1 C1).
  destruct c1 as [q1 dq1 ddq1 t1 dt1 bb1]. cbn [pb_q pb_dq pb_dt] in *. subst q1 dq1.
  destruct (two_update (pb_dq c0) (pb_t c0) t1 (pb_b c0) bb1 (dt0 / g) dt1 (pb_ddq c0) ddq1)
    as (e0 & e1 & -> & Q0' & T0' & b0' & Q1' & D1' & T1' & b1').
  cbn [pb_overlaps hd_error existsb fst].
  assert (pb_overlap None e0 (Some e1) = false) as ->.
  { unfold pb_overlap. cbn [orb]. apply andb_false_iff. left. rewrite T0', b0'. apply Rlt_b_false. lra. }
  assert (pb_overlap (Some e0) e1 None = false) as ->.
  { unfold pb_overlap. rewrite orb_false_r. apply andb_false_iff. left. rewrite T0', b1'. apply Rlt_b_false. lra. }
  discriminate.
Qed.
End Two.

(** ** Checks *)
Lemma lin_checked n pts L : velocity_limits n L -> way_points n pts -> distinct_steps pts -> (2 <= length pts)%nat ->
  exists segs D T q dq, lin_generate pts L = Some (segs, D) /\ straight_moves n pts L D T q dq /\
    forall g dt fuel, 0 < dt -> D < INR fuel * dt ->
      exists v it, seg_list_check (S fuel) (lin_eval segs) n None dt (positions g) = Some (v, it) /\ sampled g q D dt v.
Proof.
  intros HV HW HD HL. destruct (lin_split n pts L HV HW HD HL) as (w0 & r & -> & H0 & Hr & Hne & G).
  exists (lin_segs 0 w0 r L), (last (times 0 w0 r L) 0), (times 0 w0 r L), (lin_q L w0 r), (lin_dq L w0 r).
  split; auto. split; [apply lin_straight; auto|]. intros g dt fuel Hdt Hf. apply lin_check; auto.
Qed.
Lemma pb_checked n pts L fuel segs D : velocity_limits n L -> acceleration_limits n L -> way_points n pts ->
  pb_generate fuel pts L = Some (segs, D) -> exists q dq, blended n pts L D q dq /\
    forall g dt steps, 0 < dt -> D < INR steps * dt ->
      exists v it, seg_list_check (S steps) (pb_eval segs) n None dt (positions g) = Some (v, it) /\ sampled g q D dt v.
Proof.
  intros HV HA HP G. destruct (pb_generate_spec n L pts fuel segs D HV HA HP G) as (l & U & A & -> & ->).
  exists (pb_q_at n pts l), (pb_dq_at n pts l). split; [apply pb_blended; auto|].
  intros g dt steps Hdt Hf. apply (pb_check n L pts l HP U A); auto.
Qed.
Lemma lin_check_stale n pts L s fn dt fuel : velocity_limits n L -> way_points n pts -> distinct_steps pts -> (3 <= length pts)%nat ->
  buffers n s ->
  exists segs D s1 it, lin_generate pts L = Some (segs, D) /\ lin_eval segs None s D = Some (true, s1, it) /\
    seg_list_check (S fuel) (lin_eval segs) n it dt fn = Some (0%Z, None).
Proof.
  intros HV HW HD HL Hs. destruct (lin_split n pts L HV HW HD ltac:(lia)) as (w0 & r & -> & H0 & Hr & Hne & G).
  destruct (lin_back n L w0 r HV H0 Hr Hne HD s (state_alloc n) Hs) as (s1 & k & s2 & E1 & E2); [apply state_alloc_buffers|cbn in HL; lia|].
  do 2 eexists. exists s1, (Some k). split; [exact G|]. split; [exact E1|].
  unfold seg_list_check. cbn [check_loop]. rewrite E2. reflexivity.
Qed.
Lemma sampled_end_free q D dt : 0 < dt -> (forall k, INR k * dt <> D) ->
  sampled (fun t _ => if Req_EM_T t D then 1%Z else 0%Z) q D dt 0.
Proof. intros Hd Hk. left. split; auto. intros k _. destruct (Req_EM_T _ D) as [E|E]; auto. destruct (Hk k E). Qed.
Lemma sampled_fun g q D dt a b : sampled g q D dt a -> sampled g q D dt b -> a = b.
Proof.
  intros [(-> & A)|(A0 & k & A1 & A2 & A3)] [(-> & B)|(B0 & j & B1 & B2 & B3)]; auto.
  - rewrite A in B2 by auto. congruence.
  - rewrite B in A2 by auto. congruence.
  - destruct (Nat.lt_trichotomy k j) as [H|[H|H]].
    + rewrite B3 in A2 by auto. congruence.
    + subst. auto.
    + rewrite A3 in B2 by auto. congruence.
Qed.
Lemma lin_check_end n pts L dt : velocity_limits n L -> way_points n pts -> distinct_steps pts -> (2 <= length pts)%nat -> 0 < dt ->
  exists segs D, lin_generate pts L = Some (segs, D) /\ forall fuel, (forall k, INR k * dt <> D) -> D < INR fuel * dt ->
    exists it, seg_list_check (S fuel) (lin_eval segs) n None dt
      (positions (fun t _ => if Req_EM_T t D then 1%Z else 0%Z)) = Some (0%Z, it).
Proof.
  intros HV HW HD HL Hdt. destruct (lin_checked n pts L HV HW HD HL) as (segs & D & T & q & dq & G & _ & C).
  exists segs, D. split; auto. intros fuel Hk Hf. destruct (C (fun t _ => if Req_EM_T t D then 1%Z else 0%Z) dt fuel Hdt Hf) as (v & it & E & S).
  exists it. rewrite E. f_equal. f_equal. eapply sampled_fun; [exact S|]. apply sampled_end_free; auto.
Qed.

(** ** Evaluating without velocity or acceleration buffers *)
Lemma pb_no_buffers n pts L fuel segs D s t : velocity_limits n L -> acceleration_limits n L -> way_points n pts ->
  pb_generate fuel pts L = Some (segs, D) -> (0 < n)%nat -> 0 <= t <= D ->
  s_n s = n -> s_dq s = None \/ s_ddq s = None -> pb_eval segs None s t = None.
Proof.
  intros HV HA HP G Hn Ht H1 H2. destruct (pb_generate_spec n L pts fuel segs D HV HA HP G) as (l & U & A & -> & ->).
  apply (pb_eval_null n L pts l HP U A); auto.
Qed.

(** ** The continuity check raises a false alarm *)
Definition L1 : limit := mkLim [-1] [1] [-2] [2].
Lemma L1_ok : velocity_limits 1 L1 /\ acceleration_limits 1 L1.
Proof. split; (split; [reflexivity|split; [reflexivity|]]); intros [|i] Hi; cbn; try lra; lia. Qed.

Ltac cmp b v := assert (b = v) as -> by (first [apply Rlt_b_true; lra | apply Rlt_b_false; lra | apply Rle_b_true; lra | apply Rle_b_false; lra]).

Lemma c0_segs : lin_generate [[0]; [1]; [3]] L1 = Some ([mkSD [0] [1] 0 1; mkSD [1] [1] 1 3], 3).
Proof.
  unfold lin_generate, L1. cbn [lin_segs]. unfold dq_new. cbn [length Nat.min firstn zip lin_time min_dq max_dq]. unfold axis_time.
  replace (1 - 0) with 1 by lra. replace (3 - 1) with 2 by lra.
  cmp (Rlt_b 1 0) false. cmp (Rlt_b 2 0) false. unfold aa_max. 
  cmp (Rlt_b (1 / 1) 0) false. cmp (Rlt_b (2 / 1) 0) false.
  cbn [map sd_t1 last]. repeat f_equal; lra.
Qed.

Lemma dq1_in q d t0 t1 x y z t : t0 <= t <= t1 -> dq_eval (mkSD [q] [d] t0 t1) (mkSt 1 (Some [x]) (Some [y]) z) t
  = Some (true, mkSt 1 (Some [q + (t - t0) * d]) (Some [d]) z).
Proof.
  intros H. unfold dq_eval. cbn [sd_t0 sd_t1 sd_q0 sd_dq]. cmp (Rle_b t0 t) true. cmp (Rle_b t t1) true. reflexivity.
Qed.
Lemma dq1_out q d t0 t1 x y z t : t < t0 \/ t1 < t -> dq_eval (mkSD [q] [d] t0 t1) (mkSt 1 (Some [x]) y z) t
  = Some (false, mkSt 1 (Some [q + d * (t1 - t0)]) y z).
Proof.
  intros H. unfold dq_eval. cbn [sd_t0 sd_t1 sd_q0 sd_dq].
  assert (Rle_b t0 t && Rle_b t t1 = false) as -> by (apply andb_false_iff; destruct H; [left|right]; apply Rle_b_false; lra).
  reflexivity.
Qed.

Lemma c0_alarm : lin_check_c0 3 [mkSD [0] [1] 0 1; mkSD [1] [1] 1 3] 1 None (4 / 5) (9 / 10) (1 / 1000) = Some 1%Z.
Proof.
  unfold lin_check_c0, lin_eval, state_alloc, zeros. cbn [repeat length].
  set (l := [mkSD [0] [1] 0 1; mkSD [1] [1] 1 3]).
  assert (E0 : forall x y z t, 0 <= t <= 1 -> list_eval (lin_ev l) 2 None (mkSt 1 (Some [x]) (Some [y]) z) t =
    Some (true, mkSt 1 (Some [t]) (Some [1]) z, Some 0%nat)).
  { intros. unfold list_eval. cbn [Nat.leb Nat.sub eval_loop]. unfold lin_ev at 1. unfold l at 1. cbn [nth_error obind].
    rewrite dq1_in by lra. cbn [obind]. do 6 f_equal. lra. }
  assert (E1 : forall x y z t, 0 <= t <= 1 -> list_eval (lin_ev l) 2 (Some 0%nat) (mkSt 1 (Some [x]) (Some [y]) z) t =
    Some (true, mkSt 1 (Some [t]) (Some [1]) z, Some 0%nat)) by exact E0.
  assert (E2 : forall x y z t, 1 < t <= 3 -> list_eval (lin_ev l) 2 (Some 0%nat) (mkSt 1 (Some [x]) (Some [y]) z) t =
    Some (true, mkSt 1 (Some [t]) (Some [1]) z, Some 1%nat)).
  { intros. unfold list_eval. cbn [Nat.leb Nat.sub eval_loop]. unfold lin_ev at 1. unfold l at 1. cbn [nth_error obind].
    rewrite dq1_out by lra. cbn [obind]. unfold lin_ev at 1. unfold l at 1. cbn [nth_error obind].
    rewrite dq1_in by lra. cbn [obind]. do 6 f_equal. lra. }
  assert (E3 : forall x y z t, t < 1 -> list_eval (lin_ev l) 2 (Some 1%nat) (mkSt 1 (Some [x]) y z) t =
    Some (false, mkSt 1 (Some [3]) y z, None)).
  { intros. unfold list_eval. cbn [Nat.leb Nat.sub eval_loop]. unfold lin_ev at 1. unfold l at 1. cbn [nth_error obind].
    rewrite dq1_out by lra. cbn [obind]. do 6 f_equal. lra. }
  change (length l) with 2%nat.
  rewrite E0 by lra. cbn [obind c0_loop]. rewrite E1 by lra. cbn [obind]. rewrite E1 by lra. cbn [obind].
  unfold pos_diff at 1. cbn [s_q zip firstn fold_left].
  assert (Rlt_b (9 / 10) (0 + Rabs (4 / 5 - 0)) = false) as -> by (apply Rlt_b_false; rewrite Rabs_right by lra; lra).
  rewrite E2 by lra. cbn [obind]. rewrite E3 by lra. cbn [obind].
  unfold pos_diff at 1. cbn [s_q zip firstn fold_left].
  assert (Rlt_b (9 / 10) (0 + Rabs (4 / 5 + 4 / 5 - 3)) = true) as -> by (apply Rlt_b_true; rewrite Rabs_left by lra; lra).
  reflexivity.
Qed.

(** ** Examples *)
Definition ex_pts : list (list R) := [[0]; [1]; [3]].
Lemma ex_points : way_points 1 ex_pts /\ distinct_steps ex_pts.
Proof.
  split; [split; [discriminate|repeat constructor]|].
  intros [|[|j]] Hj; cbn in *; try lia; intros H; injection H; lra.
Qed.
Lemma ex_pb : exists segs D, pb_generate 1 [[0]; [1]; [0]] L1 = Some (segs, D).
Proof.
  assert (LIM : forall x y a b, 0 < a -> b = - a -> Rabs (x - y) / a >= 1 / 2 -> pb_limit [x] [y] [b] [a] = Rabs (x - y) / a).
  { intros x y a b Ha -> Hx. unfold pb_limit. cbn [zip pb_limit_loop]. unfold axis_time.
    assert (S : dbl_min < 1 / 4).
    { Transparent dbl_min. unfold dbl_min. Opaque dbl_min. replace (1 / 4) with (/ 2 ^ 2) by lra.
      apply Rinv_lt_contravar; [apply Rmult_lt_0_compat; apply pow_lt; lra|]. apply Rlt_pow; try lra. lia. }
    unfold Rlt_b. destruct (Rlt_dec (x - y) 0).
    - rewrite Rabs_left in * by lra. replace ((x - y) / - a) with (- (x - y) / a) by (field; lra).
      destruct (Rlt_dec dbl_min _); lra.
    - rewrite Rabs_right in * by lra. destruct (Rlt_dec dbl_min _); lra. }
  unfold pb_generate, pb_loop, L1. cbn [pb_init hd_error]. unfold pb_new. cbn [length zeros repeat min_dq max_dq].
  rewrite (LIM 1 0 1 (-1)), (LIM 0 1 1 (-1)) by (try lra; rewrite ?(Rabs_right (1 - 0)), ?(Rabs_left (0 - 1)) by lra; lra).
  rewrite (Rabs_right (1 - 0)), (Rabs_left (0 - 1)) by lra.
  replace ((1 - 0) / 1) with 1 by lra. replace (- (0 - 1) / 1) with 1 by lra.
  cbn [pb_update_all hd_error]. unfold pb_update. cbn [pb_q pb_dq pb_dt pb_t pb_b length zeros repeat zip min_ddq max_ddq].
  replace ((1 - 0) / 1) with 1 by lra. replace ((0 - 1) / 1) with (-1) by lra.
  rewrite (LIM 1 0 2 (-2)), (LIM (-1) 1 2 (-2)), (LIM 0 (-1) 2 (-2)) by (try lra; rewrite ?(Rabs_right (1 - 0)), ?(Rabs_left (-1 - 1)), ?(Rabs_right (0 - -1)) by lra; lra).
  rewrite ?(Rabs_right (1 - 0)), ?(Rabs_left (-1 - 1)), ?(Rabs_right (0 - -1)) by lra.
  cbn [pb_overlaps hd_error existsb fst]. unfold pb_overlap. cbn [pb_dt pb_b orb].
  cmp (Rlt_b 1 ((1 - 0) / 2)) false. cmp (Rlt_b 1 (- (-1 - 1) / 2)) false. cmp (Rlt_b 1 ((0 - -1) / 2)) false.
  cbn [andb orb obind]. eauto.
Qed.

Lemma c0_claim : exists pts L segs D T q dq, velocity_limits 1 L /\ way_points 1 pts /\ distinct_steps pts /\
  lin_generate pts L = Some (segs, D) /\ straight_moves 1 pts L D T q dq /\
  (forall t u, 0 <= t <= u -> u <= D -> u - t <= 4 / 5 -> Rabs (joint (q u) 0 - joint (q t) 0) <= 4 / 5) /\
  lin_check_c0 3 segs 1 None (4 / 5) (9 / 10) (1 / 1000) = Some 1%Z.
Proof.
  destruct (lin_claim 1 ex_pts L1) as (segs & D & T & q & dq & G & _ & S & _); try apply L1_ok; try apply ex_points; [cbn; lia|].
  pose proof c0_segs as G'. fold ex_pts in G'. rewrite G' in G. injection G as <- <-.
  exists ex_pts, L1. do 2 eexists. exists T, q, dq. split; [apply L1_ok|]. split; [apply ex_points|]. split; [apply ex_points|].
  split; [exact G'|]. split; [exact S|]. split; [|exact c0_alarm].
  intros t u H1 H2 H3. pose proof (sm_speed _ _ _ _ _ _ _ S t u 0%nat H1 H2 ltac:(lia)) as B. cbn in B. apply Rabs_le. lra.
Qed.

Lemma lin_eval_q_claim n pts L : velocity_limits n L -> way_points n pts -> distinct_steps pts -> (2 <= length pts)%nat ->
  exists segs D T q dq, lin_generate pts L = Some (segs, D) /\ straight_moves n pts L D T q dq /\
  forall t b c, 0 <= t <= D -> length b = n -> length c = n ->
    (exists k, lin_eval segs None (st_q n b) t = Some (true, st_q n (q t), Some k)) /\
    (exists k, lin_eval segs None (st_dq n b c) t = Some (true, st_dq n (q t) (dq t), Some k)).
Proof.
  intros HV HW HD HL. destruct (lin_claim n pts L HV HW HD HL) as (segs & D & T & q & dq & G & _ & S & E & _).
  exists segs, D, T, q, dq. split; auto. split; auto. intros t b c Ht Hb Hc. split.
  - destruct (E (st_q n b) t) as (k & E'); [split; [reflexivity|]; split; [exists b; auto|exact I]|auto|]. exists k. exact E'.
  - destruct (E (st_dq n b c) t) as (k & E'); [split; [reflexivity|]; split; [exists b; auto|exact Hc]|auto|]. exists k. exact E'.
Qed.
Lemma pb_eval_q_claim n pts L fuel segs D : velocity_limits n L -> acceleration_limits n L -> way_points n pts ->
  pb_generate fuel pts L = Some (segs, D) -> (0 < n)%nat -> forall t b c, 0 <= t <= D ->
  pb_eval segs None (st_q n b) t = None /\ pb_eval segs None (st_dq n b c) t = None.
Proof. intros HV HA HP G Hn t b c Ht. split; eapply pb_no_buffers; eauto; cbn; auto. Qed.
Lemma trap_eval_q_claim n L w0 w1 i : velocity_limits n L -> acceleration_limits n L ->
  length w0 = n -> length w1 = n -> (i < n)%nat -> joint w0 i <> joint w1 i -> forall b t,
  exists segs D ta, trap_generate [w0; w1] L = Some (segs, D) /\ 0 < ta /\ 2 * ta <= D /\
    (0 <= t <= ta -> trap_eval segs None (st_q n b) t = None).
Proof. intros HV HA H0 H1 Hi Hd b t. eapply trap_eval_null; eauto. Qed.

Lemma check_example : exists segs, lin_generate ex_pts L1 = Some (segs, 3) /\ 3 < INR 7 * (1 / 2) /\ (forall k, INR k * 2 <> 3).
Proof.
  eexists. split; [exact c0_segs|]. split; [cbn; lra|]. intros k H.
  rewrite INR_IZR_INZ in H. assert (IZR (Z.of_nat k * 2) = IZR 3) by (rewrite mult_IZR; exact H). apply eq_IZR in H0. lia.
Qed.
