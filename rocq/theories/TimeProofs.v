From Coq Require Import ZArith Bool Lia ZifyBool.
From Verif Require Import TimeModel TimeSpec.
Open Scope Z_scope.
Ltac Zify.zify_post_hook ::= Z.to_euclidean_division_equations.

Lemma modulo_pos a b : 0 < b -> modulo a b = a mod b.
Proof.
  intros Hb. unfold modulo.
  destruct (Z.lt_ge_cases a 0) as [Ha|Ha].
  - assert (Hr : - b < Z.rem a b <= 0).
    { pose proof (Z.rem_bound_neg_pos a b). lia. }
    rewrite (Z.rem_mod_nonneg (Z.rem a b + b) b) by lia.
    rewrite <- (Z.mod_add (Z.rem a b + b) (Z.quot a b - 1) b) by lia. f_equal.
    pose proof (Z.quot_rem' a b). lia.
  - rewrite (Z.rem_mod_nonneg a b) by lia.
    pose proof (Z.mod_pos_bound a b Hb).
    rewrite Z.rem_mod_nonneg by lia.
    replace (a mod b + b) with (a mod b + 1 * b) by lia.
    rewrite Z.mod_add by lia. apply Z.mod_mod. lia.
Qed.

Lemma modulo_neg a b : b < 0 -> modulo a b = a mod b.
Proof.
  intros Hb. unfold modulo. rewrite <- (Z.opp_involutive (a mod b)).
  rewrite <- Z.mod_opp_opp by lia. rewrite <- modulo_pos by lia. unfold modulo.
  rewrite Z.rem_opp_opp by lia.
  replace (- Z.rem a b + - b) with (- (Z.rem a b + b)) by lia.
  rewrite Z.rem_opp_opp by lia. lia.
Qed.

Lemma modulo_ok a b : b <> 0 -> modulo a b = a mod b.
Proof. intros H. destruct (Z.lt_ge_cases b 0); [apply modulo_neg|apply modulo_pos]; lia. Qed.

Lemma make_norm_ok s n : normal (tm_make_norm s n) /\ instant (tm_make_norm s n) = s * 1000000000 + n.
Proof.
  unfold tm_make_norm, tm_make, normal, instant. cbn [tv_sec tv_nsec].
  rewrite modulo_ok by (unfold billion; lia). unfold billion.
  pose proof (Z.mod_pos_bound n 1000000000 ltac:(lia)). split; [assumption|].
  replace (n - n mod 1000000000) with ((n / 1000000000) * 1000000000)
    by (pose proof (Z.div_mod n 1000000000); lia).
  rewrite Z.quot_mul by lia. pose proof (Z.div_mod n 1000000000). lia.
Qed.

Lemma add_ok a b : normal (tm_add a b) /\ instant (tm_add a b) = instant a + instant b.
Proof. unfold tm_add. destruct (make_norm_ok (tv_sec a + tv_sec b) (tv_nsec a + tv_nsec b)) as [H1 H2].
  split; [exact H1|]. rewrite H2. unfold instant. lia. Qed.
Lemma sub_ok a b : normal (tm_sub a b) /\ instant (tm_sub a b) = instant a - instant b.
Proof. unfold tm_sub. destruct (make_norm_ok (tv_sec a - tv_sec b) (tv_nsec a - tv_nsec b)) as [H1 H2].
  split; [exact H1|]. rewrite H2. unfold instant. lia. Qed.

Lemma instant_inj a b : normal a -> normal b -> instant a = instant b -> a = b.
Proof.
  destruct a as [s1 n1], b as [s2 n2]. unfold normal, instant. cbn [tv_sec tv_nsec]. intros.
  assert (s1 = s2) by lia. assert (n1 = n2) by lia. subst. reflexivity.
Qed.

Lemma add_sub_cancel a b : normal a -> tm_sub (tm_add a b) b = a.
Proof.
  intros H. destruct (add_ok a b) as [A1 A2]. destruct (sub_ok (tm_add a b) b) as [S1 S2].
  apply instant_inj; auto. lia.
Qed.

Lemma cmp_ok a b : normal a -> normal b ->
  (tm_cmp a b < 0 <-> instant a < instant b) /\
  (tm_cmp a b = 0 <-> a = b) /\
  (tm_cmp a b > 0 <-> instant a > instant b).
Proof.
  intros Ha Hb.
  assert (E : tm_cmp a b = 0 <-> instant a = instant b).
  { unfold tm_cmp, normal, instant in *. destruct (_ =? _) eqn:?; cbn [negb]; lia. }
  split; [|split].
  - unfold tm_cmp, normal, instant in *. destruct (_ =? _) eqn:?; cbn [negb]; lia.
  - rewrite E. split; [apply instant_inj; assumption|congruence].
  - unfold tm_cmp, normal, instant in *. destruct (_ =? _) eqn:?; cbn [negb]; lia.
Qed.

Lemma min_max_ok a b : normal a -> normal b ->
  (tm_min a b = a \/ tm_min a b = b) /\ instant (tm_min a b) = Z.min (instant a) (instant b) /\
  (tm_max a b = a \/ tm_max a b = b) /\ instant (tm_max a b) = Z.max (instant a) (instant b).
Proof.
  intros Ha Hb. destruct (cmp_ok a b Ha Hb) as (H1 & H2 & H3). unfold tm_min, tm_max.
  destruct (tm_cmp a b <? 0) eqn:E1; destruct (0 <? tm_cmp a b) eqn:E2; try lia; repeat split; auto; lia.
Qed.

Lemma conv_ok t : normal t ->
  tm_usec t = instant t / 1000 /\ tm_msec t = instant t / 1000000.
Proof.
  unfold normal, instant, tm_usec, tm_msec. intros H. rewrite !Z.quot_div_nonneg by lia. split.
  - replace (tv_sec t * 1000000000 + tv_nsec t) with (tv_nsec t + (tv_sec t * 1000000) * 1000) by lia.
    rewrite Z.div_add by lia. lia.
  - replace (tv_sec t * 1000000000 + tv_nsec t) with (tv_nsec t + (tv_sec t * 1000) * 1000000) by lia.
    rewrite Z.div_add by lia. lia.
Qed.

Lemma isafter_ok now t : normal now -> normal t ->
  tm_isafter now t = true <-> instant t < instant now.
Proof. intros H1 H2. destruct (cmp_ok now t H1 H2) as (_ & _ & H3). unfold tm_isafter. lia. Qed.

Lemma future_ok now t : normal (tm_future now t) /\ instant (tm_future now t) = instant now + instant t.
Proof. unfold tm_future. destruct (add_ok t now) as [H1 H2]. split; [exact H1|lia]. Qed.

(** bounded ints *)
Lemma modulo_w_ok w a b r : modulo_w w a b = Some r -> r = a mod b.
Proof.
  unfold modulo_w. destruct (b =? 0) eqn:E; [discriminate|].
  destruct (negb _); [discriminate|]. destruct (fits w _); [|discriminate].
  intros [= <-]. apply (modulo_ok a b). lia.
Qed.

Lemma modulo_w_safe w a b : 1 < w -> - 2 ^ (w - 1) <= a < 2 ^ (w - 1) -> 0 < b -> b <= 2 ^ (w - 2) ->
  exists r, modulo_w w a b = Some r /\ 0 <= r < b.
Proof.
  intros Hw Ha Hb Hb2. assert (Hp : 2 ^ (w - 1) = 2 * 2 ^ (w - 2)).
  { rewrite <- Z.pow_succ_r by lia. f_equal. lia. }
  assert (Hq : fits w (Z.quot a b) = true).
  { unfold fits. pose proof (Z.quot_rem' a b).
    assert (Z.abs (Z.quot a b) <= Z.abs a).
    { rewrite <- Z.quot_abs by lia. rewrite (Z.abs_eq b) by lia.
      rewrite Z.quot_div_nonneg by lia. apply Z.div_le_upper_bound; [lia|]. nia. }
    assert (0 <= a -> 0 <= Z.quot a b) by (intros; apply Z.quot_pos; lia).
    assert (a <= 0 -> Z.quot a b <= 0).
    { intros. rewrite <- (Z.opp_involutive a), Z.quot_opp_l by lia.
      assert (0 <= Z.quot (- a) b) by (apply Z.quot_pos; lia). lia. }
    lia. }
  assert (Hr : - b < Z.rem a b < b).
  { assert (Z.abs (Z.rem a b) < Z.abs b) by (apply Z.rem_bound_abs; lia). lia. }
  exists (a mod b). split; [|apply Z.mod_pos_bound; lia].
  unfold modulo_w. replace (b =? 0) with false by lia. rewrite Hq. cbn [negb].
  replace (fits w (Z.rem a b + b)) with true by (unfold fits; lia).
  f_equal. apply (modulo_ok a b). lia.
Qed.

Lemma modulo_w_overflows w : 2 < w ->
  modulo_w w (2 ^ (w - 1) - 2) (2 ^ (w - 1) - 1) = None.
Proof.
  intros Hw. assert (Hp : 4 <= 2 ^ (w - 1)).
  { replace 4 with (2 ^ 2) by reflexivity. apply Z.pow_le_mono_r; lia. }
  unfold modulo_w. replace (2 ^ (w - 1) - 1 =? 0) with false by lia.
  rewrite Z.quot_small, Z.rem_small by lia. unfold fits.
  replace (2 ^ (w - 1) - 2 + (2 ^ (w - 1) - 1) <? 2 ^ (w - 1)) with false by lia.
  replace (negb ((- 2 ^ (w - 1) <=? 0) && (0 <? 2 ^ (w - 1)))) with false by lia.
  rewrite andb_false_r. reflexivity.
Qed.
