(** Facts about [atan2]. *)
From Coq Require Import Reals Lra Psatz.
From Verif Require Import AtanModel.
Open Scope R_scope.

Lemma cos_pos_atan t : 0 < cos (atan t).
Proof. pose proof (atan_bound t). apply cos_gt_0; lra. Qed.

Lemma sin_atan_eq t : sin (atan t) = t * cos (atan t).
Proof.
  pose proof (cos_pos_atan t). pose proof (tan_atan t) as E. unfold tan in E.
  rewrite <- E at 2. field. lra.
Qed.

(** For x <> 0: the unit vector of angle atan(y/x) is +-(x,y)/r. *)
Lemma atan_polar x y r : x <> 0 -> 0 < r -> x * x + y * y = r * r ->
  r * cos (atan (y / x)) = Rabs x /\ r * sin (atan (y / x)) = Rabs x * (y / x).
Proof.
  intros Hx Hr E. set (t := y / x).
  pose proof (cos_pos_atan t) as Hc. pose proof (sin_atan_eq t) as Hs.
  pose proof (sin2_cos2 (atan t)) as H1. unfold Rsqr in H1.
  assert (Hc2 : cos (atan t) * cos (atan t) * (r * r) = x * x).
  { assert (K : cos (atan t) * cos (atan t) * (1 + t * t) = 1) by (rewrite Hs in H1; nra).
    assert (T : r * r = x * x * (1 + t * t)) by (unfold t; field_simplify; nra).
    rewrite T. transitivity (x * x * (cos (atan t) * cos (atan t) * (1 + t * t))); [ring|]. rewrite K. ring. }
  assert (A : r * cos (atan t) = Rabs x).
  { assert (P : 0 < r * cos (atan t)) by nra.
    apply Rsqr_inj; [lra | apply Rabs_pos |].
    unfold Rsqr. rewrite <- Rabs_mult, Rabs_pos_eq by nra. nra. }
  split; [exact A|]. rewrite Hs, <- A. ring.
Qed.

Lemma atan2_polar x y r : 0 < r -> x * x + y * y = r * r ->
  r * cos (atan2 y x) = x /\ r * sin (atan2 y x) = y.
Proof.
  intros Hr E. unfold atan2.
  destruct (Rlt_dec 0 x) as [Hx|Hx].
  - destruct (atan_polar x y r) as [A B]; try lra. rewrite Rabs_pos_eq in A, B by lra.
    split; [exact A|]. rewrite B. field. lra.
  - destruct (Rlt_dec x 0) as [Hn|Hn].
    + destruct (atan_polar x y r) as [A B]; try lra. rewrite Rabs_left in A, B by lra.
      assert (B' : r * sin (atan (y / x)) = - y) by (rewrite B; field; lra).
      destruct (Rlt_dec y 0).
      * unfold Rminus. rewrite cos_plus, sin_plus, cos_neg, sin_neg, cos_PI, sin_PI.
        split; lra.
      * rewrite cos_plus, sin_plus, cos_PI, sin_PI. split; lra.
    + assert (x = 0) by lra. subst x.
      destruct (Rlt_dec 0 y).
      * rewrite cos_PI2, sin_PI2. assert (r = y) by nra. lra.
      * destruct (Rlt_dec y 0).
        -- rewrite cos_neg, sin_neg, cos_PI2, sin_PI2. assert (r = - y) by nra. lra.
        -- assert (y = 0) by lra. nra.
Qed.

Lemma atan_sign t : (0 <= t -> 0 <= atan t) /\ (t <= 0 -> atan t <= 0) /\ (t < 0 -> atan t < 0) /\ (0 < t -> 0 < atan t).
Proof.
  pose proof atan_0. repeat split; intros H0.
  - destruct H0 as [H0|<-]; [|lra]. apply atan_increasing in H0. lra.
  - destruct H0 as [H0| ->]; [|lra]. apply atan_increasing in H0. lra.
  - apply atan_increasing in H0. lra.
  - apply atan_increasing in H0. lra.
Qed.

Lemma atan2_bound y x : - PI < atan2 y x <= PI.
Proof.
  pose proof PI_RGT_0. unfold atan2. pose proof (atan_bound (y / x)).
  destruct (atan_sign (y / x)) as (S1 & S2 & S3 & S4).
  destruct (Rlt_dec 0 x); [lra|]. destruct (Rlt_dec x 0) as [Hn|Hn].
  - destruct (Rlt_dec y 0) as [Hy|Hy].
    + assert (0 < y / x).
      { replace (y / x) with ((- y) / (- x)) by (field; lra). apply Rdiv_lt_0_compat; lra. }
      specialize (S4 H1). lra.
    + assert (y / x <= 0).
      { replace (y / x) with (- (y / (- x))) by (field; lra).
        assert (0 <= y / - x); [|lra]. apply Rmult_le_pos; [lra|]. apply Rlt_le, Rinv_0_lt_compat. lra. }
      specialize (S2 H1). lra.
  - destruct (Rlt_dec 0 y); [lra|]. destruct (Rlt_dec y 0); lra.
Qed.

(** An angle in (-pi, pi] is determined by its cosine and sine. *)
Lemma angle_unique a b : - PI < a <= PI -> - PI < b <= PI -> cos a = cos b -> sin a = sin b -> a = b.
Proof.
  intros Ha Hb C S.
  assert (C1 : cos (a - b) = 1).
  { rewrite cos_minus, C, S. pose proof (sin2_cos2 b). unfold Rsqr in *. lra. }
  assert (S1 : sin ((a - b) / 2) = 0).
  { assert (E : a - b = 2 * ((a - b) / 2)) by field. rewrite E, cos_2a_sin in C1. nra. }
  set (h := (a - b) / 2) in *. pose proof PI_RGT_0.
  assert (Hh : - PI < h < PI) by (unfold h; lra).
  assert (h = 0); [|unfold h in *; lra].
  destruct (Rtotal_order h 0) as [L|[E|G]]; [|exact E|].
  - assert (sin (- h) > 0) by (apply sin_gt_0; lra). rewrite sin_neg in H0. lra.
  - assert (sin h > 0) by (apply sin_gt_0; lra). lra.
Qed.

Lemma atan2_sincos t : - PI < t <= PI -> atan2 (sin t) (cos t) = t.
Proof.
  intros H. apply angle_unique; [apply atan2_bound|exact H| |].
  - destruct (atan2_polar (cos t) (sin t) 1); [lra| |lra].
    pose proof (sin2_cos2 t). unfold Rsqr in *. lra.
  - destruct (atan2_polar (cos t) (sin t) 1); [lra| |lra].
    pose proof (sin2_cos2 t). unfold Rsqr in *. lra.
Qed.
Lemma atan2_scale k y x : 0 < k -> atan2 (k * y) (k * x) = atan2 y x.
Proof.
  intros Hk. destruct (Req_dec (x * x + y * y) 0) as [Z|Z].
  - assert (x = 0) by nra. assert (y = 0) by nra. subst. now rewrite !Rmult_0_r.
  - set (r := sqrt (x * x + y * y)).
    assert (Hr : 0 < r) by (apply sqrt_lt_R0; nra).
    assert (Er : r * r = x * x + y * y) by (apply sqrt_sqrt; nra).
    destruct (atan2_polar x y r Hr) as [A B]; [lra|].
    destruct (atan2_polar (k * x) (k * y) (k * r)) as [C D]; [nra|nra|].
    apply angle_unique; try apply atan2_bound.
    + apply (Rmult_eq_reg_l (k * r)); [rewrite C; nra|nra].
    + apply (Rmult_eq_reg_l (k * r)); [rewrite D; nra|nra].
Qed.
Lemma atan2_pol t r : 0 < r -> - PI < t <= PI -> atan2 (r * sin t) (r * cos t) = t.
Proof. intros. rewrite atan2_scale by assumption. now apply atan2_sincos. Qed.
