(** Truncated series against the functions they approximate. *)
From Coq Require Import Reals Lra Lia.
From Verif Require Import TfModel TfSpec AtanModel TfExpModel TfExpSpec.
Open Scope R_scope.

Lemma pow2_pos n : 0 < 2 ^ n.
Proof. apply pow_lt; lra. Qed.
Lemma sqrt_eps : sqrt eps = / 2 ^ 26.
Proof.
  unfold eps. apply Rsqr_inj; [apply sqrt_pos|left; apply Rinv_0_lt_compat, pow2_pos|].
  rewrite Rsqr_sqrt by (left; apply Rinv_0_lt_compat, pow2_pos).
  unfold Rsqr. rewrite <- Rinv_mult, <- pow_add. reflexivity.
Qed.
Lemma sqrt_sqrt_eps : sqrt (sqrt eps) = / 2 ^ 13.
Proof.
  rewrite sqrt_eps. apply Rsqr_inj; [apply sqrt_pos|left; apply Rinv_0_lt_compat, pow2_pos|].
  rewrite Rsqr_sqrt by (left; apply Rinv_0_lt_compat, pow2_pos).
  unfold Rsqr. rewrite <- Rinv_mult, <- pow_add. reflexivity.
Qed.


Lemma fact_R n z : Z.of_nat (fact n) = z -> INR (fact n) = IZR z.
Proof. intros <-. apply INR_IZR_INZ. Qed.

Lemma sin_approx_2 a : sin_approx a 2 = a - a ^ 3 / 6 + a ^ 5 / 120.
Proof.
  unfold sin_approx, sin_term. rewrite !tech5. unfold sum_f_R0.
  change (2 * 0 + 1)%nat with 1%nat. change (2 * 1 + 1)%nat with 3%nat. change (2 * 2 + 1)%nat with 5%nat.
  rewrite (fact_R 1 1), (fact_R 3 6), (fact_R 5 120) by reflexivity. simpl pow. field.
Qed.
Lemma sin_approx_3 a : sin_approx a 3 = a - a ^ 3 / 6 + a ^ 5 / 120 - a ^ 7 / 5040.
Proof.
  transitivity (sin_approx a 2 + sin_term a 3); [reflexivity|].
  rewrite sin_approx_2. unfold sin_term.
  change (2 * 3 + 1)%nat with 7%nat. rewrite (fact_R 7 5040) by reflexivity. simpl pow. field.
Qed.
Lemma cos_approx_2 a : cos_approx a 2 = 1 - a ^ 2 / 2 + a ^ 4 / 24.
Proof.
  unfold cos_approx, cos_term. rewrite !tech5. unfold sum_f_R0.
  change (2 * 0)%nat with 0%nat. change (2 * 1)%nat with 2%nat. change (2 * 2)%nat with 4%nat.
  rewrite (fact_R 0 1), (fact_R 2 2), (fact_R 4 24) by reflexivity. simpl pow. field.
Qed.
Lemma cos_approx_3 a : cos_approx a 3 = 1 - a ^ 2 / 2 + a ^ 4 / 24 - a ^ 6 / 720.
Proof.
  transitivity (cos_approx a 2 + cos_term a 3); [reflexivity|].
  rewrite cos_approx_2. unfold cos_term.
  change (2 * 3)%nat with 6%nat. rewrite (fact_R 6 720) by reflexivity. simpl pow. field.
Qed.

Lemma sin_poly a : 0 <= a <= 3 ->
  a - a ^ 3 / 6 + a ^ 5 / 120 - a ^ 7 / 5040 <= sin a <= a - a ^ 3 / 6 + a ^ 5 / 120.
Proof.
  intros [H1 H2]. assert (H3 : a <= 4) by lra.
  destruct (pre_sin_bound a 0 H1 H3) as [_ U]. destruct (pre_sin_bound a 1 H1 H3) as [L _].
  change (2 * (0 + 1))%nat with 2%nat in U. change (2 * 1 + 1)%nat with 3%nat in L.
  rewrite sin_approx_2 in U. rewrite sin_approx_3 in L. lra.
Qed.
Lemma cos_poly a : -2 <= a <= 2 ->
  1 - a ^ 2 / 2 + a ^ 4 / 24 - a ^ 6 / 720 <= cos a <= 1 - a ^ 2 / 2 + a ^ 4 / 24.
Proof.
  intros [H1 H2].
  destruct (pre_cos_bound a 0 H1 H2) as [_ U]. destruct (pre_cos_bound a 1 H1 H2) as [L _].
  change (2 * (0 + 1))%nat with 2%nat in U. change (2 * 1 + 1)%nat with 3%nat in L.
  rewrite cos_approx_2 in U. rewrite cos_approx_3 in L. lra.
Qed.

(** sinc, cos and 1/sinc series on [0,1]. *)
Lemma sinc_series_bound a : 0 < a <= 1 ->
  0 <= sinc_series2 (a * a) - sin a / a <= a ^ 6 / 5040.
Proof.
  intros H. destruct (sin_poly a) as [L U]; [lra|].
  assert (E : sinc_series2 (a * a) - sin a / a = (a - a ^ 3 / 6 + a ^ 5 / 120 - sin a) / a).
  { unfold sinc_series2, horner3. field. lra. }
  rewrite E. split.
  - apply Rmult_le_pos; [lra|]. left. apply Rinv_0_lt_compat. lra.
  - apply Rmult_le_reg_r with a; [lra|]. unfold Rdiv. rewrite Rmult_assoc, Rinv_l by lra. lra.
Qed.
Lemma cos_series_bound a : -1 <= a <= 1 ->
  0 <= cos_series2 (a * a) - cos a <= a ^ 6 / 720.
Proof.
  intros H. destruct (cos_poly a) as [L U]; [lra|].
  unfold cos_series2, horner3. split; lra.
Qed.
Lemma sin_pos_lower a : 0 <= a <= 1 -> a / 2 <= sin a <= a.
Proof.
  intros H. destruct (sin_poly a) as [L U]; [lra|].
  assert (a * a <= 1) by nra.
  assert (a ^ 3 = a * (a * a)) by ring. assert (a ^ 5 = a * (a * a) * (a * a)) by ring.
  assert (a ^ 7 = a * (a * a) * (a * a) * (a * a)) by ring.
  set (x := a * a) in *. assert (0 <= x) by (unfold x; nra).
  assert (0 <= a * x <= a) by nra. assert (0 <= a * x * x <= a * x) by nra.
  assert (0 <= a * x * x * x <= a * x * x) by nra. split; lra.
Qed.
Lemma invsinc_series_bound a : 0 < a <= 1 ->
  0 <= a / sin a - invsinc_series2 (a * a) <= a ^ 6 / 100.
Proof.
  intros H. destruct (sin_poly a) as [L U]; [lra|].
  destruct (sin_pos_lower a) as [P1 P2]; [lra|].
  set (x := a * a). assert (Hx : 0 < x <= 1) by (unfold x; nra).
  assert (E3 : a ^ 3 = a * x) by (unfold x; ring). assert (E5 : a ^ 5 = a * x * x) by (unfold x; ring).
  assert (E7 : a ^ 7 = a * x * x * x) by (unfold x; ring). assert (E6 : a ^ 6 = x * x * x) by (unfold x; ring).
  rewrite E3, E5, E7 in *. rewrite E6.
  set (I := invsinc_series2 x).
  assert (EI : I = 1 + x * (1/6 + x * (7/360))) by reflexivity.
  assert (HI : 1 <= I <= 2) by nra.
  assert (E : a / sin a - I = (a - I * sin a) / sin a) by (field; lra).
  assert (B1 : 0 <= a - I * sin a).
  { assert (I * sin a <= I * (a - a * x / 6 + a * x * x / 120)) by (apply Rmult_le_compat_l; lra).
    assert (E' : a - I * (a - a * x / 6 + a * x * x / 120) = a * (x * x * x) * (1/540 - 7 / 43200 * x)) by (rewrite EI; field).
    assert (0 <= a * (x * x * x)) by (apply Rmult_le_pos; [lra|]; nra).
    assert (0 <= a * (x * x * x) * (1/540 - 7 / 43200 * x)) by (apply Rmult_le_pos; lra). lra. }
  assert (B2 : a - I * sin a <= a / 2 * (x * x * x / 100)).
  { assert (I * (a - a * x / 6 + a * x * x / 120 - a * x * x * x / 5040) <= I * sin a) by (apply Rmult_le_compat_l; lra).
    assert (E' : a - I * (a - a * x / 6 + a * x * x / 120 - a * x * x * x / 5040)
       = a * (x * x * x) * (1/540 - 7 / 43200 * x + I / 5040)) by (rewrite EI; field).
    assert (0 <= a * (x * x * x)) by (apply Rmult_le_pos; [lra|]; nra).
    assert (a * (x * x * x) * (1/540 - 7 / 43200 * x + I / 5040) <= a * (x * x * x) * (1 / 200)) by (apply Rmult_le_compat_l; lra).
    lra. }
  rewrite E. split.
  - apply Rmult_le_pos; [exact B1|]. left. apply Rinv_0_lt_compat. lra.
  - apply Rmult_le_reg_r with (sin a); [lra|]. unfold Rdiv at 1. rewrite Rmult_assoc, Rinv_l by lra.
    assert (0 <= x * x * x / 100) by nra.
    assert (a / 2 * (x * x * x / 100) <= sin a * (x * x * x / 100)) by (apply Rmult_le_compat_r; lra). lra.
Qed.

(** Both branches of the code's sinc/cos stay within 2^-78/720 of the functions,
    for every angle. *)
Lemma sixth a : 0 <= a -> a < / 2 ^ 13 -> a ^ 6 <= tiny.
Proof.
  intros H0 H. unfold tiny.
  replace (/ 2 ^ 78) with ((/ 2 ^ 13) ^ 6) by (rewrite pow_inv; rewrite <- pow_mult; reflexivity).
  apply pow_incr. lra.
Qed.
Lemma small13 : / 2 ^ 13 < 1.
Proof. simpl. lra. Qed.
Lemma sq_lt_26 a : 0 <= a -> (a * a < / 2 ^ 26 <-> a < / 2 ^ 13).
Proof.
  intros H. assert (E : / 2 ^ 26 = / 2 ^ 13 * / 2 ^ 13) by (rewrite <- Rinv_mult, <- pow_add; reflexivity).
  assert (0 < / 2 ^ 13) by (apply Rinv_0_lt_compat, pow2_pos).
  rewrite E. split; intros; nra.
Qed.

Lemma sinccos2_close a : 0 < a ->
  0 <= fst (sinccos2 (a * a)) - sin a / a <= tiny / 5040 /\
  0 <= snd (sinccos2 (a * a)) - cos a <= tiny / 720.
Proof.
  intros H. unfold sinccos2. rewrite sqrt_eps. destruct (Rlt_dec (a * a) (/ 2 ^ 26)) as [B|B]; cbn [fst snd].
  - apply sq_lt_26 in B; [|lra]. pose proof small13. pose proof (sixth a ltac:(lra) B).
    pose proof (sinc_series_bound a ltac:(lra)). pose proof (cos_series_bound a ltac:(lra)).
    split; lra.
  - rewrite sqrt_square by lra. assert (0 < tiny) by (apply Rinv_0_lt_compat, pow2_pos).
    split; split; lra.
Qed.
Lemma sinccos2_0 : sinccos2 0 = (1, 1).
Proof.
  unfold sinccos2. rewrite sqrt_eps. destruct (Rlt_dec 0 (/ 2 ^ 26)) as [B|B].
  - unfold sinc_series2, cos_series2, horner3. f_equal; field.
  - exfalso. apply B. apply Rinv_0_lt_compat, pow2_pos.
Qed.
Lemma sinccos2_exact a : / 2 ^ 13 <= a -> sinccos2 (a * a) = (sin a / a, cos a).
Proof.
  intros H. assert (0 < / 2 ^ 13) by (apply Rinv_0_lt_compat, pow2_pos).
  unfold sinccos2. rewrite sqrt_eps. destruct (Rlt_dec (a * a) (/ 2 ^ 26)) as [B|B].
  - apply sq_lt_26 in B; lra.
  - rewrite sqrt_square by lra. reflexivity.
Qed.
Lemma sinccos_eq a : 0 <= a -> sinccos a = sinccos2 (a * a).
Proof.
  intros H. unfold sinccos, sinccos2, sinc_series, cos_series.
  destruct (Rlt_dec (a * a) (sqrt eps)); [reflexivity|]. now rewrite sqrt_square.
Qed.
