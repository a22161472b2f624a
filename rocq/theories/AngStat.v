(** Proofs for AngModel: statistics of numbers and angles. *)
From Coq Require Import List ZArith Reals Lra Lia Psatz Bool.
Import ListNotations.
From Verif Require Import AtanModel AtanProofs AngModel AngSpec AngProofs.
Open Scope R_scope.

Lemma acc_total f x : forall a, acc f x a = a + total f x.
Proof. induction x as [|v x IH]; intros a; simpl; [lra|]. rewrite IH. ring. Qed.
Lemma acc_total0 f x : acc f x 0 = total f x.
Proof. rewrite acc_total. ring. Qed.
Lemma total_ext f g x : (forall v, f v = g v) -> total f x = total g x.
Proof. intros E. induction x; simpl; [reflexivity|]. now rewrite E, IHx. Qed.
Lemma len_pos (x : list R) : x <> [] -> 0 < INR (length x).
Proof. destruct x; [congruence|]. intros _. apply lt_0_INR. simpl. lia. Qed.

(** * Mean and deviation of numbers *)
Lemma stat_mean_ok x : stat_mean x = mean x.
Proof. unfold stat_mean, mean. now rewrite acc_total0. Qed.
Lemma vecstd_spread x mu : x <> [] -> vecstd x mu = spread mu x.
Proof.
  intros H. unfold vecstd, spread. rewrite acc_total0. destruct x as [|v x]; [congruence|].
  replace (length (v :: x) - 1)%nat with (length x) by (simpl; lia).
  replace (INR (length (v :: x)) - 1) with (INR (length x)); [reflexivity|].
  simpl length. rewrite S_INR. ring.
Qed.
Lemma stat_std_ok x : x <> [] -> stat_std x = deviation x.
Proof. intros H. unfold stat_std. rewrite stat_mean_ok. now apply vecstd_spread. Qed.
Lemma total_sq x c : total (fun v => (v - c) * (v - c)) x =
  total (fun v => v * v) x - 2 * c * total (fun v => v) x + INR (length x) * (c * c).
Proof.
  induction x as [|v x IH]; [simpl; ring|].
  change (length (v :: x)) with (S (length x)). rewrite S_INR. simpl. rewrite IH. ring.
Qed.
Lemma total_shift x c : x <> [] -> total (fun v => (v - c) * (v - c)) x =
  total (fun v => (v - mean x) * (v - mean x)) x + INR (length x) * ((mean x - c) * (mean x - c)).
Proof.
  intros H. rewrite !total_sq. pose proof (len_pos x H) as L.
  assert (E : total (fun v => v) x = INR (length x) * mean x) by (unfold mean; field; lra).
  rewrite E. ring.
Qed.
Lemma total_nonneg f x : (forall v, 0 <= f v) -> 0 <= total f x.
Proof. intros H. induction x; simpl; [lra|]. specialize (H a). lra. Qed.
Lemma spread_deviation x mu : (2 <= length x)%nat ->
  deviation x <= spread mu x /\ (mu = mean x -> spread mu x = deviation x) /\
  (mu <> mean x -> deviation x < spread mu x).
Proof.
  intros L. assert (N : x <> []) by (destruct x; [simpl in L; lia|congruence]).
  assert (P : 0 < INR (length x) - 1).
  { apply le_INR in L. simpl in L. lra. }
  pose proof (total_shift x mu N) as T. pose proof (len_pos x N) as LP.
  assert (Q : 0 <= total (fun v => (v - mean x) * (v - mean x)) x) by (apply total_nonneg; intros v; apply (Rle_0_sqr (v - mean x))).
  unfold deviation, spread. split; [|split].
  - apply sqrt_le_1_alt. apply Rmult_le_compat_r; [apply Rlt_le, Rinv_0_lt_compat; lra|]. rewrite T.
    pose proof (Rmult_le_pos _ _ (Rlt_le _ _ LP) (Rle_0_sqr (mean x - mu))) as W. unfold Rsqr in W. lra.
  - intros E. now rewrite E.
  - intros D. apply sqrt_lt_1_alt. split.
    + apply Rmult_le_pos; [exact Q|apply Rlt_le, Rinv_0_lt_compat; lra].
    + apply Rmult_lt_compat_r; [apply Rinv_0_lt_compat; lra|]. rewrite T.
      assert (D' : mean x - mu <> 0) by lra.
      pose proof (Rmult_lt_0_compat _ _ LP (Rsqr_pos_lt _ D')) as W. unfold Rsqr in W. lra.
Qed.

(** * Outliers *)
Lemma kept_fun P x : forall k, Kept P x k -> forall k', Kept P x k' -> k = k'.
Proof.
  induction 1 as [|v x k A H IH|v x k A H IH]; intros k' H'; inversion H'; subst; try contradiction.
  - reflexivity.
  - f_equal. auto.
  - auto.
Qed.
Lemma kept_all P x : Forall P x -> Kept P x x.
Proof. induction 1; now constructor. Qed.
Lemma kept_in P x k : Kept P x k -> Forall P k.
Proof. induction 1; auto. Qed.
Lemma ex_pass_ok mu lo hi x : forall j am as_, exists kept,
  Kept (fun v => lo <= v - mu <= hi) x kept /\
  ex_pass x mu lo hi j am as_ =
    ((j + length kept)%nat, am + total (fun v => v) kept, as_ + total (fun v => (v - mu) * (v - mu)) kept).
Proof.
  induction x as [|v x IH]; intros j am as_.
  - exists []. split; [constructor|]. simpl. f_equal; [f_equal|]; [lia|ring|ring].
  - simpl. destruct (Rle_dec lo (v - mu)) as [A|A]; [destruct (Rle_dec (v - mu) hi) as [B|B]|].
    + destruct (IH (S j) (am + v) (as_ + (v - mu) * (v - mu))) as (k & K & E). exists (v :: k).
      split; [constructor; [lra|exact K]|]. rewrite E. simpl. f_equal; [f_equal|]; [lia|ring|ring].
    + destruct (IH j am as_) as (k & K & E). exists k. split; [apply Kept_out; [lra|exact K]|exact E].
    + destruct (IH j am as_) as (k & K & E). exists k. split; [apply Kept_out; [lra|exact K]|exact E].
Qed.
Lemma ex_pass_next mu sigma zmin zmax x : exists kept,
  Kept (fun v => zmin * sigma <= v - mu <= zmax * sigma) x kept /\
  (let '(j1, am, as_) := ex_pass x mu (zmin * sigma) (zmax * sigma) 0 0 0 in
   j1 = length kept /\ ((2 <= length kept)%nat -> am / INR j1 = mean kept /\ sqrt (as_ / INR (j1 - 1)) = spread mu kept)).
Proof.
  destruct (ex_pass_ok mu (zmin * sigma) (zmax * sigma) x 0 0 0) as (kept & K & E).
  exists kept. split; [exact K|]. rewrite E. split; [reflexivity|]. intros L.
  rewrite !Rplus_0_l. split; [reflexivity|].
  rewrite Nat.add_0_l. unfold spread. rewrite minus_INR by lia. reflexivity.
Qed.
(** [last] is how the loop ends: the count repeated, or the passes are used up *)
Lemma ex_loop_ok zmin zmax x fuel : forall mu sigma iter j k before r,
  Estimate zmin zmax x k mu sigma before -> ((0 < k)%nat /\ j = length before \/ k = 0%nat /\ j = 0%nat) -> k = iter ->
  ex_loop fuel x zmin zmax mu sigma iter j = r ->
  (r = Abort /\ exists k' mu' sigma' before' kept, Estimate zmin zmax x k' mu' sigma' before' /\
     Kept (fun v => zmin * sigma' <= v - mu' <= zmax * sigma') x kept /\ (length kept < 2)%nat) \/
  exists k' mu' sigma' before' kept,
    Estimate zmin zmax x k' mu' sigma' before' /\
    Estimate zmin zmax x (S k') (mean kept) (spread mu' kept) kept /\
    ((r = Ret (mean kept, spread mu' kept, k') /\ (0 < k')%nat /\ length kept = length before') \/
     (r = Ret (mean kept, spread mu' kept, S k') /\ S k' = (Nat.max 1 fuel + iter)%nat)) /\
    (iter <= k')%nat /\ (S k' <= Nat.max 1 fuel + iter)%nat.
Proof.
  induction fuel as [|fuel IH]; intros mu sigma iter j k before r E J K R; simpl in R;
    destruct (ex_pass_next mu sigma zmin zmax x) as (kept & Kp & P);
    destruct (ex_pass x mu (zmin * sigma) (zmax * sigma) 0 0 0) as [[j1 am] as_]; destruct P as [P1 P2];
    (destruct (Nat.ltb 1 j1) eqn:B; simpl in R;
     [apply Nat.ltb_lt in B | apply Nat.ltb_ge in B; left; split; [now symmetry|];
        exists k, mu, sigma, before, kept; split; [exact E|]; split; [exact Kp|lia]]);
    (assert (L : (2 <= length kept)%nat) by lia); destruct (P2 L) as [Q1 Q2]; rewrite Q1, Q2 in R;
    pose proof (Est_next zmin zmax x k mu sigma before kept E Kp L) as E'.
  - right. exists k, mu, sigma, before, kept. split; [exact E|]. split; [exact E'|].
    destruct (Nat.eqb_spec j j1) as [X|X].
    + split; [left|lia]. subst r. split; [congruence|]. destruct J as [[J0 J]|[J1 J2]]; [|exfalso; lia].
      split; [lia|congruence].
    + split; [right|lia]. subst r. split; [now subst|lia].
  - destruct (Nat.eqb_spec j j1) as [X|X].
    + right. exists k, mu, sigma, before, kept. split; [exact E|]. split; [exact E'|].
      split; [left|lia]. subst r. split; [congruence|]. destruct J as [[J0 J]|[J1 J2]]; [|exfalso; lia].
      split; [lia|congruence].
    + destruct fuel as [|fuel'].
      * right. exists k, mu, sigma, before, kept. split; [exact E|]. split; [exact E'|].
        split; [right|lia]. subst r. split; [now subst|lia].
      * destruct (IH (mean kept) (spread mu kept) (S iter) j1 (S k) kept r E' (or_introl (conj (Nat.lt_0_succ k) P1)) (f_equal S K) R)
          as [A|(k' & mu' & sigma' & before' & kept' & F1 & F2 & F3 & F4 & F5)]; [left; exact A|].
        right. exists k', mu', sigma', before', kept'. split; [exact F1|]. split; [exact F2|].
        split; [|lia]. destruct F3 as [F3|[F3 F6]]; [now left|right]. split; [exact F3|lia].
Qed.

Lemma excluded_ok x zmin zmax n r : (2 <= length x)%nat -> excluded_mean_std x zmin zmax n = r ->
  (r = Abort /\ exists k' mu' sigma' before' kept, Estimate zmin zmax x k' mu' sigma' before' /\
     Kept (fun v => zmin * sigma' <= v - mu' <= zmax * sigma') x kept /\ (length kept < 2)%nat) \/
  exists k' mu' sigma' before' kept,
    Estimate zmin zmax x k' mu' sigma' before' /\
    Estimate zmin zmax x (S k') (mean kept) (spread mu' kept) kept /\
    ((r = Ret (mean kept, spread mu' kept, k') /\ (0 < k')%nat /\ length kept = length before') \/
     (r = Ret (mean kept, spread mu' kept, S k') /\ S k' = Nat.max 1 n)) /\
    (S k' <= Nat.max 1 n)%nat.
Proof.
  intros L R. unfold excluded_mean_std in R.
  assert (N : x <> []) by (destruct x; [simpl in L; lia|congruence]).
  replace (length x <? 2)%nat with false in R by (symmetry; apply Nat.ltb_ge; lia).
  rewrite stat_mean_ok, stat_std_ok in R by exact N.
  destruct (ex_loop_ok zmin zmax x n _ _ _ _ 0 x r (Est_first zmin zmax x) (or_intror (conj eq_refl eq_refl)) eq_refl R)
    as [A|(k' & mu' & sigma' & before' & kept' & F1 & F2 & F3 & F4 & F5)]; [now left|right].
  exists k', mu', sigma', before', kept'. rewrite Nat.add_0_r in *. tauto.
Qed.
Lemma excluded_none x zmin zmax n : (2 <= length x)%nat ->
  Forall (fun v => zmin * deviation x <= v - mean x <= zmax * deviation x) x ->
  excluded_mean_std x zmin zmax n = Ret (mean x, deviation x, 1%nat).
Proof.
  intros L A. unfold excluded_mean_std.
  assert (N : x <> []) by (destruct x; [simpl in L; lia|congruence]).
  replace (length x <? 2)%nat with false by (symmetry; apply Nat.ltb_ge; lia).
  rewrite stat_mean_ok, stat_std_ok by exact N.
  apply kept_all in A.
  destruct (ex_pass_next (mean x) (deviation x) zmin zmax x) as (kept & Kp & P).
  assert (kept = x) by (eapply kept_fun; eauto). subst kept.
  assert (SD : spread (mean x) x = deviation x) by reflexivity.
  assert (B : (1 <? length x)%nat = true) by (apply Nat.ltb_lt; lia).
  destruct n as [|[|n]]; simpl;
    destruct (ex_pass x (mean x) (zmin * deviation x) (zmax * deviation x) 0 0 0) as [[j1 am] as_] eqn:EP;
    destruct P as [-> P2]; destruct (P2 L) as [Q1 Q2]; rewrite B; cbv [negb];
    rewrite Q1, Q2, SD; (destruct (length x) as [|l] eqn:EL; [lia|]); cbv [Nat.eqb]; try reflexivity.
  destruct n as [|n]; simpl; rewrite EP; rewrite B; cbv [negb]; rewrite Nat.eqb_refl, Q1, Q2, SD; reflexivity.
Qed.

(** * Angles *)
Lemma cos_diff_total x a : total (fun v => cos (v - a)) x = cos a * total cos x + sin a * total sin x.
Proof. induction x as [|v x IH]; simpl; [ring|]. rewrite IH, cos_minus. ring. Qed.
Lemma cos_total_le x a : total (fun v => cos (v - a)) x <= INR (length x).
Proof.
  induction x as [|v x IH]; [simpl; lra|]. change (length (v :: x)) with (S (length x)). rewrite S_INR.
  simpl. pose proof (COS_bound (v - a)). lra.
Qed.
(** length of the sum of the unit vectors *)
Definition len2 (x : list R) : R := sqrt (total cos x * total cos x + total sin x * total sin x).
Lemma len2_sq x : len2 x * len2 x = total cos x * total cos x + total sin x * total sin x.
Proof. apply sqrt_sqrt. pose proof (Rle_0_sqr (total cos x)). pose proof (Rle_0_sqr (total sin x)). unfold Rsqr in *. lra. Qed.
Lemma len2_pos x : 0 <= len2 x.
Proof. apply sqrt_pos. Qed.
Lemma circ_mean_eq x : x <> [] -> circ_mean x = atan2 (total sin x) (total cos x).
Proof.
  intros N. unfold circ_mean. rewrite !acc_total0. pose proof (len_pos x N) as L.
  assert (P : 0 < / INR (length x)) by now apply Rinv_0_lt_compat.
  rewrite <- (atan2_scale (/ INR (length x)) (total sin x) (total cos x) P). f_equal; unfold Rdiv; ring.
Qed.
Lemma circ_mean_polar x : x <> [] ->
  len2 x * cos (circ_mean x) = total cos x /\ len2 x * sin (circ_mean x) = total sin x.
Proof.
  intros N. rewrite circ_mean_eq by exact N.
  destruct (Rle_lt_or_eq_dec 0 (len2 x) (len2_pos x)) as [P|P].
  - apply atan2_polar; [exact P|]. symmetry. apply len2_sq.
  - pose proof (len2_sq x) as Q. rewrite <- P in *.
    assert (total cos x = 0) by nra. assert (total sin x = 0) by nra. split; lra.
Qed.
Lemma circ_mean_total x a : x <> [] -> total (fun v => cos (v - a)) x = len2 x * cos (a - circ_mean x).
Proof.
  intros N. destruct (circ_mean_polar x N) as [A B]. rewrite cos_diff_total, cos_minus, <- A, <- B. ring.
Qed.
Lemma circ_mean_direction x : x <> [] -> MeanDirection x (circ_mean x).
Proof.
  intros N a. rewrite !circ_mean_total by exact N. rewrite Rminus_eq_0, cos_0.
  pose proof (COS_bound (a - circ_mean x)). pose proof (len2_pos x). nra.
Qed.
Lemma circ_mean_bound x : - PI < circ_mean x <= PI.
Proof. apply atan2_bound. Qed.
Lemma direction_unique x m : x <> [] -> 0 < resultant x -> MeanDirection x m -> SameAngle m (circ_mean x).
Proof.
  intros N P M. specialize (M (circ_mean x)). rewrite !circ_mean_total in M by exact N.
  rewrite Rminus_eq_0, cos_0 in M.
  assert (L : 0 < len2 x).
  { unfold resultant in P. fold (len2 x) in P. destruct (Rle_lt_or_eq_dec 0 (len2 x) (len2_pos x)) as [|E]; [assumption|].
    rewrite <- E in P. unfold Rdiv in P. rewrite Rmult_0_l in P. lra. }
  pose proof (COS_bound (m - circ_mean x)) as [_ B].
  assert (C1 : cos (m - circ_mean x) = 1) by nra.
  assert (S1 : sin (m - circ_mean x) = 0).
  { pose proof (sin2_cos2 (m - circ_mean x)) as Q. unfold Rsqr in Q. rewrite C1 in Q. nra. }
  set (d := m - circ_mean x) in *. replace m with (circ_mean x + d) by (unfold d; ring).
  split; rewrite ?cos_plus, ?sin_plus, C1, S1; ring.
Qed.
Lemma len2_le x : x <> [] -> len2 x <= INR (length x).
Proof.
  intros N. pose proof (cos_total_le x (circ_mean x)) as H. rewrite circ_mean_total in H by exact N.
  rewrite Rminus_eq_0, cos_0 in H. lra.
Qed.
Lemma resultant_bound x : x <> [] -> 0 <= resultant x <= 1.
Proof.
  intros N. pose proof (len_pos x N) as L. pose proof (len2_le x N). pose proof (len2_pos x).
  unfold resultant. fold (len2 x). split.
  - apply Rmult_le_pos; [assumption|]. apply Rlt_le, Rinv_0_lt_compat. lra.
  - apply (Rmult_le_reg_r (INR (length x))); [exact L|]. unfold Rdiv. rewrite Rmult_assoc, Rinv_l by lra. lra.
Qed.
Lemma circ_r_eq x : x <> [] -> circ_r x = resultant x * resultant x.
Proof.
  intros N. pose proof (len_pos x N) as L. unfold circ_r, resultant. fold (len2 x). rewrite !acc_total0.
  unfold Rdiv. transitivity ((len2 x * len2 x) * (/ INR (length x) * / INR (length x))); [rewrite len2_sq; ring|ring].
Qed.
Lemma ln_le_0 r : 0 < r <= 1 -> ln r <= 0.
Proof. intros [P Q]. destruct Q as [Q| ->]; [|rewrite ln_1; lra]. apply ln_increasing in Q; [|exact P]. rewrite ln_1 in Q. lra. Qed.
Lemma sq_deviation r : 0 < r <= 1 -> sqrt (-2 * ln (r * r)) = sqrt 2 * sqrt (-2 * ln r).
Proof.
  intros B. pose proof (ln_le_0 r B). rewrite ln_mult by lra. rewrite <- sqrt_mult by lra. f_equal. ring.
Qed.
Lemma circ_std_eq x : x <> [] ->
  (0 < resultant x -> circ_std x = Ret (sqrt 2 * circ_deviation x)) /\ (resultant x = 0 -> circ_std x = Off).
Proof.
  intros N. unfold circ_std.
  assert (L : (length x =? 0)%nat = false) by (destruct x; [congruence|reflexivity]). rewrite L.
  rewrite circ_r_eq by exact N. pose proof (resultant_bound x N) as B. split.
  - intros P. destruct (Rlt_dec 0 (resultant x * resultant x)) as [Q|Q]; [|exfalso; apply Q; nra].
    f_equal. unfold circ_deviation. apply sq_deviation. lra.
  - intros E. rewrite E. destruct (Rlt_dec 0 (0 * 0)); [lra|reflexivity].
Qed.

Lemma cx_pass_ok mu lo hi x : forall j as_ ac, exists kept,
  Kept (fun v => lo <= ang_delta v mu <= hi) x kept /\
  cx_pass x mu lo hi j as_ ac = ((j + length kept)%nat, as_ + total sin kept, ac + total cos kept).
Proof.
  induction x as [|v x IH]; intros j as_ ac.
  - exists []. split; [constructor|]. simpl. f_equal; [f_equal|]; [lia|ring|ring].
  - simpl. destruct (Rle_dec lo (ang_delta v mu)) as [A|A]; [destruct (Rle_dec (ang_delta v mu) hi) as [B|B]|].
    + destruct (IH (S j) (as_ + sin v) (ac + cos v)) as (k & K & E). exists (v :: k).
      split; [constructor; [lra|exact K]|]. rewrite E. simpl. f_equal; [f_equal|]; [lia|ring|ring].
    + destruct (IH j as_ ac) as (k & K & E). exists k. split; [apply Kept_out; [lra|exact K]|exact E].
    + destruct (IH j as_ ac) as (k & K & E). exists k. split; [apply Kept_out; [lra|exact K]|exact E].
Qed.
Lemma cx_pass_next mu sigma zmin zmax x : exists kept,
  Kept (fun v => zmin * sigma <= ang_delta v mu <= zmax * sigma) x kept /\
  (let '(j1, as0, ac0) := cx_pass x mu (zmin * sigma) (zmax * sigma) 0 0 0 in
   j1 = length kept /\ ((2 <= length kept)%nat ->
     atan2 (as0 / INR j1) (ac0 / INR j1) = circ_mean kept /\
     as0 / INR j1 * (as0 / INR j1) + ac0 / INR j1 * (ac0 / INR j1) = resultant kept * resultant kept)).
Proof.
  destruct (cx_pass_ok mu (zmin * sigma) (zmax * sigma) x 0 0 0) as (kept & K & E).
  exists kept. split; [exact K|]. rewrite E. split; [reflexivity|]. intros L.
  assert (N : kept <> []) by (destruct kept; [simpl in L; lia|congruence]).
  rewrite !Rplus_0_l, Nat.add_0_l. split.
  - unfold circ_mean. now rewrite !acc_total0.
  - rewrite <- circ_r_eq by exact N. unfold circ_r. now rewrite !acc_total0.
Qed.
Lemma delta_difference m : Difference (fun v => ang_delta v m) m.
Proof. intros v. destruct (delta_spec v m) as (A & B & _). now split. Qed.
Lemma cx_loop_ok zmin zmax x fuel : forall mu sigma iter j k before r,
  CircEstimate zmin zmax x k mu sigma before -> ((0 < k)%nat /\ j = length before \/ k = 0%nat /\ j = 0%nat) -> k = iter ->
  cx_loop fuel x zmin zmax mu sigma iter j = r ->
  (r = Abort \/ r = Off) \/
  exists k' mu' sigma' before' kept m s,
    CircEstimate zmin zmax x k' mu' sigma' before' /\
    CircEstimate zmin zmax x (S k') m s kept /\
    ((r = Ret (m, s, k') /\ (0 < k')%nat /\ length kept = length before') \/
     (r = Ret (m, s, S k') /\ S k' = (Nat.max 1 fuel + iter)%nat)) /\
    (iter <= k')%nat /\ (S k' <= Nat.max 1 fuel + iter)%nat.
Proof.
  induction fuel as [|fuel IH]; intros mu sigma iter j k before r E J K R; simpl in R;
    destruct (cx_pass_next mu sigma zmin zmax x) as (kept & Kp & P);
    destruct (cx_pass x mu (zmin * sigma) (zmax * sigma) 0 0 0) as [[j1 as0] ac0]; destruct P as [P1 P2];
    (destruct (Nat.ltb 1 j1) eqn:B; simpl in R; [apply Nat.ltb_lt in B | left; left; now symmetry]);
    (assert (L : (2 <= length kept)%nat) by lia); destruct (P2 L) as [Q1 Q2]; rewrite Q1, Q2 in R;
    (assert (N : kept <> []) by (destruct kept; [simpl in L; lia|congruence]));
    pose proof (resultant_bound kept N) as RB;
    (destruct (Rlt_dec 0 (resultant kept * resultant kept)) as [RP|RP]; [|left; right; now symmetry]);
    (assert (RP' : 0 < resultant kept) by nra);
    rewrite sq_deviation in R by lra; fold (circ_deviation kept) in R;
    pose proof (CEst_next zmin zmax x k mu sigma before kept _ (circ_mean kept) E (delta_difference mu) Kp L
      (circ_mean_direction kept N) (circ_mean_bound kept) RP') as E'.
  - right. exists k, mu, sigma, before, kept, (circ_mean kept), (sqrt 2 * circ_deviation kept).
    split; [exact E|]. split; [exact E'|].
    destruct (Nat.eqb_spec j j1) as [X|X].
    + split; [left|lia]. subst r. split; [congruence|]. destruct J as [[J0 J]|[J1 J2]]; [|exfalso; lia].
      split; [lia|congruence].
    + split; [right|lia]. subst r. split; [now subst|lia].
  - destruct (Nat.eqb_spec j j1) as [X|X].
    + right. exists k, mu, sigma, before, kept, (circ_mean kept), (sqrt 2 * circ_deviation kept).
      split; [exact E|]. split; [exact E'|].
      split; [left|lia]. subst r. split; [congruence|]. destruct J as [[J0 J]|[J1 J2]]; [|exfalso; lia].
      split; [lia|congruence].
    + destruct fuel as [|fuel'].
      * right. exists k, mu, sigma, before, kept, (circ_mean kept), (sqrt 2 * circ_deviation kept).
        split; [exact E|]. split; [exact E'|].
        split; [right|lia]. subst r. split; [now subst|lia].
      * destruct (IH (circ_mean kept) (sqrt 2 * circ_deviation kept) (S iter) j1 (S k) kept r E'
            (or_introl (conj (Nat.lt_0_succ k) P1)) (f_equal S K) R)
          as [A|(k' & mu' & sigma' & before' & kept' & m & s & F1 & F2 & F3 & F4 & F5)]; [left; exact A|].
        right. exists k', mu', sigma', before', kept', m, s. split; [exact F1|]. split; [exact F2|].
        split; [|lia]. destruct F3 as [F3|[F3 F6]]; [now left|right]. split; [exact F3|lia].
Qed.
Lemma excluded_circ_ok x zmin zmax n mu sigma iter : x <> [] ->
  excluded_circ_mean_std x zmin zmax n = Ret (mu, sigma, iter) ->
  exists k' mu' sigma' before' kept,
    CircEstimate zmin zmax x k' mu' sigma' before' /\
    CircEstimate zmin zmax x (S k') mu sigma kept /\
    ((iter = k' /\ (0 < k')%nat /\ length kept = length before') \/ (iter = S k' /\ S k' = Nat.max 1 n)) /\
    (S k' <= Nat.max 1 n)%nat.
Proof.
  intros N R. unfold excluded_circ_mean_std in R.
  destruct (circ_std_eq x N) as [A B]. pose proof (resultant_bound x N) as RB.
  destruct (Rle_lt_or_eq_dec 0 (resultant x)) as [P|P]; [lra| |rewrite B in R by (symmetry; exact P); discriminate].
  rewrite A in R by exact P.
  destruct (cx_loop_ok zmin zmax x n _ _ _ _ 0 x _
    (CEst_first zmin zmax x (circ_mean x) (circ_mean_direction x N) (circ_mean_bound x))
    (or_intror (conj eq_refl eq_refl)) eq_refl R)
    as [[D|D]|(k' & mu' & sigma' & before' & kept' & m & s & F1 & F2 & F3 & F4 & F5)]; try discriminate.
  exists k', mu', sigma', before', kept'.
  destruct F3 as [(F3 & F6 & F7)|[F3 F6]]; injection F3 as -> -> ->; rewrite ?Nat.add_0_r in *; auto 10.
Qed.
