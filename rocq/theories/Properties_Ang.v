(** C111: modulo and angle normalisation.  C112: circular statistics.  C113: statistics without outliers.
    C114: range checks. *)
From Coq Require Import List ZArith Reals Lra Lia Psatz.
Import ListNotations.
From Verif Require Import AtanModel AtanProofs AngModel AngSpec AngProofs AngStat.
Open Scope R_scope.

(** * C111 *)
(** aa_fmodulo: the residue with the sign of the divisor, the same for congruent numbers only; aa_fremainder: the
    residue with the sign of the dividend *)
Theorem C111_modulo : forall a b, b <> 0 ->
  (Congruent b (fmodulo a b) a /\ (0 < b -> 0 <= fmodulo a b < b) /\ (b < 0 -> b < fmodulo a b <= 0)) /\
  (forall c, fmodulo a b = fmodulo c b <-> Congruent b a c) /\
  (Congruent b (fremainder a b) a /\ Rabs (fremainder a b) < Rabs b /\ 0 <= fremainder a b * a).
Proof.
  intros a b H. exact (conj (fmodulo_spec a b H) (conj (fun c => fmodulo_eq a b c H) (fmod_spec a b H))).
Qed.
Print Assumptions C111_modulo.
(** aa_ang_norm_2pi: in [0,2pi), the same angle, and one number for each angle *)
Theorem C111_norm_2pi : forall a,
  0 <= ang_norm_2pi a < 2 * PI /\ SameAngle (ang_norm_2pi a) a /\
  (forall b, ang_norm_2pi a = ang_norm_2pi b <-> SameAngle a b).
Proof. intros a. destruct (norm_2pi_spec a) as [A B]. exact (conj A (conj B (norm_2pi_eq a))). Qed.
Print Assumptions C111_norm_2pi.
(** aa_ang_norm_pi: in [-pi,pi], the same angle, the one nearest zero; and, unless the angle is half a turn, inside the
    open interval and one number for each angle *)
Theorem C111_norm_pi : forall a,
  (- PI <= ang_norm_pi a <= PI /\ SameAngle (ang_norm_pi a) a /\ Shortest (ang_norm_pi a)) /\
  (cos a <> -1 -> - PI < ang_norm_pi a < PI /\ forall b, SameAngle a b -> ang_norm_pi a = ang_norm_pi b).
Proof.
  intros a. split; [exact (norm_pi_spec a)|]. intros N. exact (conj (norm_pi_open a N) (fun b => norm_pi_eq a b N)).
Qed.
Print Assumptions C111_norm_pi.
(** half a turn is not in the documented open interval, and is given two different numbers *)
Theorem C111_norm_pi_open_refuted :
  (exists a, ~ (- PI < ang_norm_pi a < PI)) /\
  (exists a b, SameAngle a b /\ ang_norm_pi a <> ang_norm_pi b).
Proof.
  pose proof PI_RGT_0. split.
  - exists PI. rewrite norm_pi_PI. lra.
  - exists PI, (3 * PI). split; [|rewrite norm_pi_PI, norm_pi_3PI; lra].
    apply same_congruent. exists (-1)%Z. lra.
Qed.
Print Assumptions C111_norm_pi_open_refuted.
(** aa_ang_delta: turning the second angle by it gives the first, and no smaller turn does *)
Theorem C111_delta : forall a b,
  - PI <= ang_delta a b <= PI /\ SameAngle (b + ang_delta a b) a /\ Shortest (ang_delta a b).
Proof. exact delta_spec. Qed.
Print Assumptions C111_delta.
Theorem C111_degrees : forall a,
  deg2rad (rad2deg a) = a /\ rad2deg (deg2rad a) = a /\ rad2deg PI = 180.
Proof. intros a. pose proof PI_RGT_0. unfold deg2rad, rad2deg. repeat split; field; lra. Qed.
Print Assumptions C111_degrees.
Example C111_nonvacuous : fmodulo (-1) 3 = 2 /\ fremainder (-1) 3 = -1 /\ ang_norm_2pi (- (PI / 2)) = 3 * PI / 2.
Proof.
  pose proof PI_RGT_0. split; [|split].
  - destruct (C111_modulo (-1) 3 ltac:(lra)) as ((A & B & _) & _ & _).
    apply (residue_unique 3); [|left; lra]. eapply congruent_trans; [exact A|]. exists (-1)%Z. lra.
  - unfold fremainder, fmod, trunc. destruct (Rle_dec 0 (-1 / 3)); [lra|].
    rewrite (Int_part_eq (- (-1 / 3)) 0) by lra. simpl. lra.
  - destruct (C111_norm_2pi (- (PI / 2))) as (A & B & _).
    apply (residue_unique (2 * PI)); [|left; lra]. apply same_congruent in B.
    eapply congruent_trans; [exact B|]. exists (-1)%Z. lra.
Qed.

(** * C112 *)
(** aa_stat_circ_mean: a mean direction in (-pi,pi]; every other mean direction is the same angle unless the samples
    cancel out *)
Theorem C112_circ_mean : forall x, x <> [] ->
  MeanDirection x (circ_mean x) /\ - PI < circ_mean x <= PI /\
  (0 < resultant x -> forall m, MeanDirection x m -> SameAngle m (circ_mean x)).
Proof.
  intros x N. exact (conj (circ_mean_direction x N) (conj (circ_mean_bound x) (fun P m => direction_unique x m N P))).
Qed.
Print Assumptions C112_circ_mean.
(** turning all samples turns the mean *)
Theorem C112_circ_mean_turn : forall x c, x <> [] -> 0 < resultant x ->
  SameAngle (circ_mean (map (fun v => v + c) x)) (circ_mean x + c).
Proof.
  intros x c N P. set (y := map (fun v => v + c) x).
  assert (Ny : y <> []) by (unfold y; destruct x; [congruence|discriminate]).
  assert (T : forall a, total (fun v => cos (v - a)) y = total (fun v => cos (v - (a - c))) x).
  { intros a. unfold y. clear. induction x as [|v x IH]; simpl; [reflexivity|]. rewrite IH. do 2 f_equal. ring. }
  assert (M : MeanDirection x (circ_mean y - c)).
  { intros a. pose proof (circ_mean_direction y Ny (a + c)) as Q. rewrite !T in Q.
    replace (a + c - c) with a in Q by ring. exact Q. }
  apply (direction_unique x _ N P) in M. apply same_congruent in M. destruct M as [k E].
  apply same_congruent. exists k. lra.
Qed.
Print Assumptions C112_circ_mean_turn.
(** aa_stat_circ_std is sqrt 2 times the circular standard deviation *)
Theorem C112_circ_std : forall x, x <> [] ->
  (0 < resultant x -> circ_std x = Ret (sqrt 2 * circ_deviation x)) /\ (resultant x = 0 -> circ_std x = Off).
Proof. exact circ_std_eq. Qed.
Print Assumptions C112_circ_std.
(** so it is too large for every set of angles that are not all the same and do not cancel out *)
Theorem C112_circ_std_refuted :
  (forall x s, x <> [] -> 0 < resultant x < 1 -> circ_std x = Ret s -> circ_deviation x < s) /\
  (exists x, x <> [] /\ 0 < resultant x < 1).
Proof.
  split.
  - intros x s N [P Q] E. destruct (circ_std_eq x N) as [A _]. rewrite A in E by exact P. injection E as <-.
    assert (D : 0 < circ_deviation x).
    { apply sqrt_lt_R0. apply ln_increasing in Q; [|exact P]. rewrite ln_1 in Q. lra. }
    assert (S : 1 < sqrt 2) by (rewrite <- sqrt_1 at 1; apply sqrt_lt_1_alt; lra). nra.
  - exists [0; PI / 2]. split; [discriminate|]. unfold resultant. simpl.
    rewrite cos_0, sin_0, cos_PI2, sin_PI2.
    assert (E : (1 + (0 + 0)) * (1 + (0 + 0)) + (0 + (1 + 0)) * (0 + (1 + 0)) = 2) by ring. rewrite E.
    assert (0 < sqrt 2) by (apply sqrt_lt_R0; lra).
    assert (sqrt 2 * sqrt 2 = 2) by (apply sqrt_sqrt; lra). nra.
Qed.
Print Assumptions C112_circ_std_refuted.
Theorem C112_mean_std : forall x, x <> [] -> stat_mean x = mean x /\ stat_std x = deviation x.
Proof. intros x N. exact (conj (stat_mean_ok x) (stat_std_ok x N)). Qed.
Print Assumptions C112_mean_std.
Theorem C112_z_score : forall v mu sigma, sigma <> 0 ->
  z2x (x2z v mu sigma) mu sigma = v /\ x2z (z2x v mu sigma) mu sigma = v.
Proof. intros v mu sigma H. unfold z2x, x2z. split; field; exact H. Qed.
Print Assumptions C112_z_score.
Example C112_nonvacuous : circ_mean [PI / 2; PI / 2] = PI / 2 /\ 0 < resultant [PI / 2; PI / 2] /\
  circ_std [PI / 2; PI / 2] = Ret 0.
Proof.
  pose proof PI_RGT_0.
  assert (R1 : resultant [PI / 2; PI / 2] = 1).
  { unfold resultant. simpl. rewrite cos_PI2, sin_PI2.
    replace ((0 + (0 + 0)) * (0 + (0 + 0)) + (1 + (1 + 0)) * (1 + (1 + 0))) with (2 * 2) by ring.
    rewrite sqrt_square by lra. lra. }
  split; [|split].
  - rewrite circ_mean_eq by discriminate. simpl. rewrite cos_PI2, sin_PI2.
    replace (1 + (1 + 0)) with (2 * sin (PI / 2)) by (rewrite sin_PI2; ring).
    replace (0 + (0 + 0)) with (2 * cos (PI / 2)) by (rewrite cos_PI2; ring).
    apply atan2_pol; lra.
  - lra.
  - destruct (C112_circ_std [PI / 2; PI / 2] ltac:(discriminate)) as [A _]. rewrite A by lra.
    unfold circ_deviation. rewrite R1, ln_1, Rmult_0_r, sqrt_0, Rmult_0_r. reflexivity.
Qed.

(** * C113 *)
(** aa_stat_excluded_mean_std: an estimate after at least one exclusion; it stops when the number of samples kept
    repeats or the passes are used up; or the process aborts, when a pass keeps fewer than two samples *)
Theorem C113_excluded : forall x zmin zmax n r, (2 <= length x)%nat -> excluded_mean_std x zmin zmax n = r ->
  (r = Abort /\ exists k' mu' sigma' before' kept, Estimate zmin zmax x k' mu' sigma' before' /\
     Kept (fun v => zmin * sigma' <= v - mu' <= zmax * sigma') x kept /\ (length kept < 2)%nat) \/
  exists k' mu' sigma' before' kept,
    Estimate zmin zmax x k' mu' sigma' before' /\
    Estimate zmin zmax x (S k') (mean kept) (spread mu' kept) kept /\
    ((r = Ret (mean kept, spread mu' kept, k') /\ (0 < k')%nat /\ length kept = length before') \/
     (r = Ret (mean kept, spread mu' kept, S k') /\ S k' = Nat.max 1 n)) /\
    (S k' <= Nat.max 1 n)%nat.
Proof. exact excluded_ok. Qed.
Print Assumptions C113_excluded.
(** the deviation it stores is that of the samples kept only if the mean did not move, and too large otherwise *)
Theorem C113_spread : forall x mu, (2 <= length x)%nat ->
  deviation x <= spread mu x /\ (mu = mean x -> spread mu x = deviation x) /\
  (mu <> mean x -> deviation x < spread mu x).
Proof. exact spread_deviation. Qed.
Print Assumptions C113_spread.
(** without outliers: mean and deviation of all samples *)
Theorem C113_no_outliers : forall x zmin zmax n, (2 <= length x)%nat ->
  Forall (fun v => zmin * deviation x <= v - mean x <= zmax * deviation x) x ->
  excluded_mean_std x zmin zmax n = Ret (mean x, deviation x, 1%nat).
Proof. exact excluded_none. Qed.
Print Assumptions C113_no_outliers.
(** the deviation stored is not the deviation of the samples the stored mean was computed from *)
Theorem C113_deviation_refuted : exists x zmin zmax n mu sigma iter kept,
  excluded_mean_std x zmin zmax n = Ret (mu, sigma, iter) /\
  Kept (fun v => zmin * deviation x <= v - mean x <= zmax * deviation x) x kept /\
  mu = mean kept /\ deviation kept = 0 /\ 0 < sigma.
Proof.
  set (x := [0; 0; 0; 4]).
  assert (M : mean x = 1) by (unfold mean, x; simpl; lra).
  assert (D : deviation x = 2).
  { unfold deviation. rewrite M. unfold x. simpl.
    replace ((0 - 1) * (0 - 1) + ((0 - 1) * (0 - 1) + ((0 - 1) * (0 - 1) + ((4 - 1) * (4 - 1) + 0)))) with (3 * (2 * 2)) by ring.
    replace (3 * (2 * 2) / (1 + 1 + 1 + 1 - 1)) with (2 * 2) by field. apply sqrt_square. lra. }
  assert (K : Kept (fun v => -1 * deviation x <= v - mean x <= 1 * deviation x) x [0; 0; 0]).
  { rewrite M, D. unfold x. do 3 (apply Kept_in; [lra|]). apply Kept_out; [lra|]. constructor. }
  assert (MK : mean [0; 0; 0] = 0) by (unfold mean; simpl; lra).
  assert (DK : deviation [0; 0; 0] = 0).
  { unfold deviation. rewrite MK. simpl.
    replace ((0 - 0) * (0 - 0) + ((0 - 0) * (0 - 0) + ((0 - 0) * (0 - 0) + 0))) with 0 by ring.
    unfold Rdiv. rewrite Rmult_0_l. apply sqrt_0. }
  destruct (ex_pass_next (mean x) (deviation x) (-1) 1 x) as (kp & Kp & P).
  assert (kp = [0; 0; 0]) by (eapply kept_fun; eauto). subst kp.
  exists x, (-1), 1, 1%nat, (mean [0; 0; 0]), (spread (mean x) [0; 0; 0]), 1%nat, [0; 0; 0].
  split.
  { unfold excluded_mean_std. change (length x <? 2)%nat with false.
    cbv [ex_loop]. rewrite stat_mean_ok, stat_std_ok by discriminate.
    destruct (ex_pass x (mean x) (-1 * deviation x) (1 * deviation x) 0 0 0) as [[j1 am] as_].
    destruct P as [-> P]. destruct (P ltac:(simpl; lia)) as [P1 P2].
    change (Nat.ltb 1 (length [0; 0; 0])) with true. cbv [negb].
    change (Nat.eqb 0 (length [0; 0; 0])) with false. rewrite P1, P2. reflexivity. }
  split; [exact K|]. split; [reflexivity|]. split; [exact DK|].
  destruct (spread_deviation [0; 0; 0] (mean x) ltac:(simpl; lia)) as (_ & _ & S).
  rewrite M, MK, DK in S. rewrite M. apply S. lra.
Qed.
Print Assumptions C113_deviation_refuted.
(** aa_stat_excluded_circ_mean_std: the same with angles; mean directions and sqrt 2 times the circular deviation of
    the samples kept *)
Theorem C113_excluded_circ : forall x zmin zmax n mu sigma iter, x <> [] ->
  excluded_circ_mean_std x zmin zmax n = Ret (mu, sigma, iter) ->
  exists k' mu' sigma' before' kept,
    CircEstimate zmin zmax x k' mu' sigma' before' /\
    CircEstimate zmin zmax x (S k') mu sigma kept /\
    ((iter = k' /\ (0 < k')%nat /\ length kept = length before') \/ (iter = S k' /\ S k' = Nat.max 1 n)) /\
    (S k' <= Nat.max 1 n)%nat.
Proof. exact excluded_circ_ok. Qed.
Print Assumptions C113_excluded_circ.
(** two samples with a window that holds neither abort the process *)
Theorem C113_abort_refuted : exists x zmin zmax n,
  (2 <= length x)%nat /\ zmin < 0 < zmax /\ excluded_mean_std x zmin zmax n = Abort.
Proof.
  set (x := [-1; 1]). exists x, (- (1 / 2)), (1 / 2), 1%nat. split; [simpl; lia|]. split; [lra|].
  assert (M : mean x = 0) by (unfold mean, x; simpl; lra).
  assert (D : 0 < deviation x < 2).
  { assert (E : deviation x = sqrt 2).
    { unfold deviation. rewrite M. unfold x. simpl. f_equal. field. }
    rewrite E. split; [apply sqrt_lt_R0; lra|].
    replace 2 with (sqrt (2 * 2)) at 2 by (apply sqrt_square; lra). apply sqrt_lt_1_alt; lra. }
  assert (K : Kept (fun v => - (1 / 2) * deviation x <= v - mean x <= 1 / 2 * deviation x) x []).
  { rewrite M. unfold x at 3. apply Kept_out; [intros [A1 A2]; lra|]. apply Kept_out; [intros [A1 A2]; lra|]. constructor. }
  unfold excluded_mean_std. change (length x <? 2)%nat with false. cbv [ex_loop].
  rewrite stat_mean_ok, stat_std_ok by discriminate.
  destruct (ex_pass_next (mean x) (deviation x) (- (1 / 2)) (1 / 2) x) as (kp & Kp & P).
  assert (kp = []) by (eapply kept_fun; eauto). subst kp.
  destruct (ex_pass x (mean x) (- (1 / 2) * deviation x) (1 / 2 * deviation x) 0 0 0) as [[j1 am] as_].
  destruct P as [-> _]. reflexivity.
Qed.
Print Assumptions C113_abort_refuted.
Example C113_nonvacuous :
  excluded_mean_std [-1; 1] (-2) 2 5 = Ret (mean [-1; 1], deviation [-1; 1], 1%nat) /\
  excluded_circ_mean_std [0; 0] (-1) 1 1 = Ret (0, 0, 1%nat).
Proof.
  split.
  - apply C113_no_outliers; [simpl; lia|].
    assert (M : mean [-1; 1] = 0) by (unfold mean; simpl; lra).
    assert (D : 1 <= deviation [-1; 1]).
    { unfold deviation. rewrite M. simpl.
      replace (((-1 - 0) * (-1 - 0) + ((1 - 0) * (1 - 0) + 0)) / (1 + 1 - 1)) with 2 by field.
      rewrite <- sqrt_1 at 1. apply sqrt_le_1_alt. lra. }
    rewrite M. repeat constructor; lra.
  - pose proof PI_RGT_0.
    assert (A0 : atan2 0 2 = 0) by (replace 0 with (2 * sin 0) at 1 by (rewrite sin_0; ring);
      replace 2 with (2 * cos 0) at 2 by (rewrite cos_0; ring); apply atan2_pol; lra).
    assert (R1 : resultant [0; 0] = 1).
    { unfold resultant. simpl. rewrite cos_0, sin_0.
      replace ((1 + (1 + 0)) * (1 + (1 + 0)) + (0 + (0 + 0)) * (0 + (0 + 0))) with (2 * 2) by ring.
      rewrite sqrt_square by lra. lra. }
    assert (M0 : circ_mean [0; 0] = 0).
    { rewrite circ_mean_eq by discriminate. simpl. rewrite cos_0, sin_0.
      replace (0 + (0 + 0)) with 0 by ring. replace (1 + (1 + 0)) with 2 by ring. exact A0. }
    assert (S0 : sqrt 2 * circ_deviation [0; 0] = 0) by (unfold circ_deviation; rewrite R1, ln_1, Rmult_0_r, sqrt_0; ring).
    assert (D0 : ang_delta 0 0 = 0).
    { assert (Z : ang_norm_pi 0 = 0).
      { destruct (norm_pi_spec 0) as (_ & B & C). specialize (C 0 B). rewrite Rabs_R0 in C.
        pose proof (Rabs_pos (ang_norm_pi 0)) as Q. destruct (Req_dec (ang_norm_pi 0) 0); [assumption|].
        pose proof (Rabs_pos_lt _ H0). lra. }
      unfold ang_delta. rewrite Z. replace (0 - 0) with 0 by ring. exact Z. }
    unfold excluded_circ_mean_std.
    destruct (circ_std_eq [0; 0] ltac:(discriminate)) as [A _]. rewrite A, M0, S0 by lra.
    cbv [cx_loop cx_pass].
    rewrite D0, !Rmult_0_r. destruct (Rle_dec 0 0) as [_|F]; [|lra].
    change (Nat.ltb 1 2) with true. cbv [negb]. rewrite cos_0, sin_0.
    replace ((0 + 0 + 0) / INR 2) with 0 by (simpl; field). replace ((0 + 1 + 1) / INR 2) with 1 by (simpl; field).
    assert (A1 : atan2 0 1 = 0) by (rewrite <- sin_0 at 1; rewrite <- cos_0 at 1; apply atan2_sincos; lra).
    destruct (Rlt_dec 0 (0 * 0 + 1 * 1)) as [_|F]; [|lra].
    change (Nat.eqb 0 2) with false.
    replace (0 * 0 + 1 * 1) with 1 by ring. rewrite ln_1, A1, !Rmult_0_r, sqrt_0. reflexivity.
Qed.

(** * C114 *)
(** aa_fclamp, aa_clamp, aa_vclamp: the number in the range nearest the argument *)
Theorem C114_clamp : forall v lo hi, lo <= hi ->
  (lo <= fclamp v lo hi <= hi /\ forall w, lo <= w <= hi -> Rabs (fclamp v lo hi - v) <= Rabs (w - v)) /\
  (forall l, 0 <= l -> - l <= clamp v l <= l /\ forall w, - l <= w <= l -> Rabs (clamp v l - v) <= Rabs (w - v)) /\
  (forall vs, vclamp vs lo hi = map (fun a => fclamp a lo hi) vs).
Proof.
  intros v lo hi H. split; [exact (fclamp_spec v lo hi H)|]. split.
  - intros l L. rewrite clamp_fclamp. apply fclamp_spec. lra.
  - intros vs. exact (vclamp_fclamp vs lo hi).
Qed.
Print Assumptions C114_clamp.
Theorem C114_deadzone : forall v lo hi d,
  (lo < v < hi -> fdeadzone v lo hi d = d) /\ (~ lo < v < hi -> fdeadzone v lo hi d = v).
Proof. exact deadzone_spec. Qed.
Print Assumptions C114_deadzone.
Theorem C114_sign : forall v,
  sign v * Rabs v = v /\ (sign v = 1 \/ sign v = 0 \/ sign v = -1) /\ (sign v = 0 <-> v = 0).
Proof. exact sign_spec. Qed.
Print Assumptions C114_sign.
(** aa_valid_f: 0 exactly inside the range, otherwise -1 *)
Theorem C114_valid_f : forall v lo hi,
  (valid_f v lo hi = 0%Z <-> lo <= v <= hi) /\ (valid_f v lo hi <> 0%Z -> valid_f v lo hi = (-1)%Z).
Proof. exact valid_f_spec. Qed.
Print Assumptions C114_valid_f.
(** aa_valid_v: -1 on a wrong size; otherwise one more than the index of the first value outside its bounds, or 0 *)
Definition Outside (values : list R) (min max : option (list R)) (i : nat) : Prop :=
  (exists m, min = Some m /\ nth i values 0 < nth i m 0) \/ (exists m, max = Some m /\ nth i m 0 < nth i values 0).
Theorem C114_valid_v : forall values n min max,
  (forall n', n <> n' -> valid_v values n min max n' = (-1)%Z) /\
  ((valid_v values n min max n = 0%Z /\ forall j, (j < n)%nat -> ~ Outside values min max j) \/
   exists j, (j < n)%nat /\ valid_v values n min max n = (Z.of_nat j + 1)%Z /\ Outside values min max j /\
     forall j', (j' < j)%nat -> ~ Outside values min max j').
Proof.
  intros values n min max. split.
  - intros n' N. unfold valid_v. destruct (Nat.eqb_spec n n'); [contradiction|reflexivity].
  - unfold valid_v. rewrite Nat.eqb_refl. cbv [negb].
    assert (G : (min = None /\ max = None) \/ match min, max with None, None => 0%Z | _, _ => valid_v_loop values min max n 0 end =
      valid_v_loop values min max n 0) by (destruct min, max; auto).
    destruct G as [[-> ->]|G].
    { left. split; [reflexivity|]. intros j _ [(m & E & _)|(m & E & _)]; discriminate. }
    rewrite G. destruct (valid_v_loop_spec values min max n 0) as [[Z A]|(j & L & Z & B & A)].
    + left. split; [exact Z|]. intros j L. apply A. lia.
    + right. exists j. split; [lia|]. split; [exact Z|]. split; [exact B|]. intros j' L'. apply A. lia.
Qed.
Print Assumptions C114_valid_v.
Example C114_nonvacuous : fclamp 3 0 1 = 1 /\ valid_f 3 0 1 = (-1)%Z /\
  valid_v [0; 3] 2 (Some [0; 0]) (Some [1; 1]) 2 = 2%Z.
Proof.
  split; [|split].
  - unfold fclamp. destruct (Rlt_dec 1 3); lra.
  - unfold valid_f. destruct (Rle_dec 0 3); [|reflexivity]. destruct (Rle_dec 3 1); [lra|reflexivity].
  - destruct (C114_valid_v [0; 3] 2 (Some [0; 0]) (Some [1; 1])) as [_ [[_ A]|(j & L & -> & B & _)]].
    + exfalso. apply (A 1%nat); [lia|]. right. exists [1; 1]. split; [reflexivity|simpl; lra].
    + destruct j as [|[|j]]; [|reflexivity|lia]. exfalso.
      destruct B as [(m & E & B)|(m & E & B)]; injection E as <-; simpl in B; lra.
Qed.
