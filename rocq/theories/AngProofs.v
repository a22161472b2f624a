(** Proofs for AngModel: modulo and angles, ranges, statistics. *)
From Coq Require Import List ZArith Reals Lra Lia Psatz Bool.
Import ListNotations.
From Verif Require Import AtanModel AtanProofs AngModel AngSpec.
Open Scope R_scope.

(** * Modulo *)
Lemma trunc_pos t : 0 <= t -> 0 <= t - IZR (trunc t) < 1.
Proof. intros H. unfold trunc. destruct (Rle_dec 0 t); [|lra]. destruct (base_Int_part t). lra. Qed.
Lemma trunc_neg t : t < 0 -> -1 < t - IZR (trunc t) <= 0.
Proof.
  intros H. unfold trunc. destruct (Rle_dec 0 t); [lra|]. destruct (base_Int_part (- t)).
  rewrite opp_IZR. lra.
Qed.
Lemma fmod_frac x y : y <> 0 -> fmod x y = (x / y - IZR (trunc (x / y))) * y.
Proof. intros H. unfold fmod. field. exact H. Qed.
Lemma fmod_spec x y : y <> 0 -> Congruent y (fmod x y) x /\ Rabs (fmod x y) < Rabs y /\ 0 <= fmod x y * x.
Proof.
  intros H. split; [|split].
  - exists (- trunc (x / y))%Z. unfold fmod. rewrite opp_IZR. ring.
  - rewrite fmod_frac by exact H. rewrite Rabs_mult.
    assert (P : 0 < Rabs y) by now apply Rabs_pos_lt.
    assert (Q : Rabs (x / y - IZR (trunc (x / y))) < 1).
    { destruct (Rle_dec 0 (x / y)) as [L|L].
      - pose proof (trunc_pos _ L). rewrite Rabs_pos_eq; lra.
      - assert (x / y < 0) as L' by lra. pose proof (trunc_neg _ L'). rewrite Rabs_left1; lra. }
    nra.
  - rewrite fmod_frac by exact H. set (q := x / y). replace x with (q * y) by (unfold q; field; exact H).
    assert (P : 0 <= y * y) by nra.
    assert (Q : 0 <= (q - IZR (trunc q)) * q).
    { destruct (Rle_dec 0 q) as [L|L].
      - pose proof (trunc_pos _ L). nra.
      - assert (q < 0) as L' by lra. pose proof (trunc_neg _ L'). nra. }
    nra.
Qed.
Lemma fmodulo_frac a b : b <> 0 -> exists e k, fmodulo a b = e * b /\ 0 <= e < 1 /\ fmodulo a b = a + IZR k * b.
Proof.
  intros H. destruct (fmod_spec a b H) as ([k Ek] & L & _).
  unfold fmodulo.
  set (f := fmod a b) in *.
  assert (D : -1 < f / b < 1).
  { cut (Rabs (f / b) < 1); [intros A; apply Rabs_def2 in A; lra|]. unfold Rdiv. rewrite Rabs_mult.
    assert (P : 0 < Rabs b) by now apply Rabs_pos_lt.
    apply (Rmult_lt_reg_r (Rabs b)); [exact P|].
    rewrite Rmult_assoc, <- Rabs_mult, Rinv_l, Rabs_R1 by exact H. lra. }
  assert (E : (f + b) / b = f / b + 1) by (field; exact H).
  assert (G : 0 <= (f + b) / b) by lra.
  pose proof (trunc_pos _ G) as T.
  exists ((f + b) / b - IZR (trunc ((f + b) / b))), (k + 1 - trunc ((f + b) / b))%Z.
  split; [apply fmod_frac; exact H|]. split; [exact T|].
  unfold fmod. fold f. rewrite minus_IZR, plus_IZR. fold f. rewrite Ek. ring.
Qed.
Lemma fmodulo_spec a b : b <> 0 ->
  Congruent b (fmodulo a b) a /\ (0 < b -> 0 <= fmodulo a b < b) /\ (b < 0 -> b < fmodulo a b <= 0).
Proof.
  intros H. destruct (fmodulo_frac a b H) as (e & k & E1 & E2 & E3).
  split; [exists k; exact E3|]. rewrite E1. split; intros; nra.
Qed.
Lemma residue_unique b x y : Congruent b x y -> (0 <= x < b /\ 0 <= y < b) \/ (b < x <= 0 /\ b < y <= 0) -> x = y.
Proof.
  intros [k E] H.
  assert (k = 0%Z) as ->; [|lra].
  destruct (Z.eq_dec k 0) as [|N]; [assumption|exfalso].
  assert (K : (1 <= k)%Z \/ (k <= -1)%Z) by lia.
  destruct K as [K|K]; apply IZR_le in K; destruct H; nra.
Qed.
Lemma congruent_sym b x y : Congruent b x y -> Congruent b y x.
Proof. intros [k E]. exists (- k)%Z. rewrite opp_IZR. lra. Qed.
Lemma congruent_trans b x y z : Congruent b x y -> Congruent b y z -> Congruent b x z.
Proof. intros [k E] [l F]. exists (k + l)%Z. rewrite plus_IZR. lra. Qed.
Lemma fmodulo_eq a b c : b <> 0 -> (fmodulo a b = fmodulo c b <-> Congruent b a c).
Proof.
  intros H. destruct (fmodulo_spec a b H) as (A1 & A2 & A3). destruct (fmodulo_spec c b H) as (C1 & C2 & C3). split.
  - intros E. rewrite E in A1. eapply congruent_trans; [apply congruent_sym; exact A1|exact C1].
  - intros E. apply (residue_unique b).
    + eapply congruent_trans; [exact A1|]. eapply congruent_trans; [exact E|]. now apply congruent_sym.
    + destruct (Rlt_dec 0 b); [left; auto|right]. assert (b < 0) by lra. auto.
Qed.

(** * Angles *)
Lemma same_congruent a b : SameAngle a b <-> Congruent (2 * PI) a b.
Proof.
  split.
  - intros [C S].
    assert (C1 : cos (a - b) = 1).
    { rewrite cos_minus, C, S. pose proof (sin2_cos2 b). unfold Rsqr in *. lra. }
    assert (S1 : sin ((a - b) / 2) = 0).
    { assert (E : a - b = 2 * ((a - b) / 2)) by field. rewrite E, cos_2a_sin in C1. nra. }
    apply sin_eq_0_0 in S1. destruct S1 as [k E]. exists k. lra.
  - assert (P : forall (n : nat) x, SameAngle (x + INR n * (2 * PI)) x).
    { intros n x. replace (x + INR n * (2 * PI)) with (x + 2 * INR n * PI) by ring.
      split; [apply cos_period|apply sin_period]. }
    intros [k ->]. destruct (Z_le_gt_dec 0 k) as [K|K].
    + rewrite <- (Z2Nat.id k) by exact K. rewrite <- INR_IZR_INZ. apply P.
    + assert (E : b = b + IZR k * (2 * PI) + INR (Z.to_nat (- k)) * (2 * PI)).
      { rewrite INR_IZR_INZ, Z2Nat.id, opp_IZR by lia. ring. }
      destruct (P (Z.to_nat (- k)) (b + IZR k * (2 * PI))) as [C S]. rewrite <- E in C, S. split; congruence.
Qed.
Lemma two_pi_pos : 0 < 2 * PI.
Proof. pose proof PI_RGT_0. lra. Qed.
Lemma norm_2pi_spec a : 0 <= ang_norm_2pi a < 2 * PI /\ SameAngle (ang_norm_2pi a) a.
Proof.
  pose proof two_pi_pos. destruct (fmodulo_spec a (2 * PI)) as (A & B & _); [lra|].
  split; [apply B; lra|]. apply same_congruent. exact A.
Qed.
Lemma norm_2pi_eq a b : ang_norm_2pi a = ang_norm_2pi b <-> SameAngle a b.
Proof.
  pose proof two_pi_pos. unfold ang_norm_2pi. rewrite fmodulo_eq by lra. now rewrite same_congruent.
Qed.

Lemma nearest_spec t : Rabs (t - IZR (nearest t)) <= 1 / 2.
Proof.
  unfold nearest. destruct (base_Int_part t) as [L U].
  destruct (Rlt_dec (t - IZR (Int_part t)) (1 / 2)) as [A|A].
  { rewrite Rabs_pos_eq; lra. }
  destruct (Rlt_dec (1 / 2) (t - IZR (Int_part t))) as [B|B].
  { rewrite plus_IZR. rewrite Rabs_left1; lra. }
  destruct (Z.even (Int_part t)).
  { rewrite Rabs_pos_eq; lra. }
  rewrite plus_IZR. rewrite Rabs_left1; lra.
Qed.
Lemma norm_pi_congruent a : Congruent (2 * PI) (ang_norm_pi a) a.
Proof. exists (- nearest (a / (2 * PI)))%Z. unfold ang_norm_pi, remainder. rewrite opp_IZR. ring. Qed.
Lemma norm_pi_bound a : - PI <= ang_norm_pi a <= PI.
Proof.
  pose proof two_pi_pos. pose proof (nearest_spec (a / (2 * PI))) as N.
  assert (E : ang_norm_pi a = (a / (2 * PI) - IZR (nearest (a / (2 * PI)))) * (2 * PI)).
  { unfold ang_norm_pi, remainder. field. lra. }
  rewrite E. set (d := a / (2 * PI) - _) in *. clearbody d.
  assert (- (1 / 2) <= d <= 1 / 2) by (unfold Rabs in N; destruct (Rcase_abs d); lra). nra.
Qed.
Lemma bound_shortest a : - PI <= a <= PI -> Shortest a.
Proof.
  intros H b S. apply same_congruent in S. apply congruent_sym in S. destruct S as [k ->].
  destruct (Z.eq_dec k 0) as [->|N]; [rewrite Rmult_0_l, Rplus_0_r; lra|].
  pose proof PI_RGT_0.
  assert (A : Rabs a <= PI) by (apply Rabs_le; lra).
  assert (K : (1 <= k)%Z \/ (k <= -1)%Z) by lia.
  destruct K as [K|K]; apply IZR_le in K.
  - rewrite (Rabs_pos_eq (a + _)) by nra. nra.
  - rewrite (Rabs_left1 (a + _)) by nra. nra.
Qed.
Lemma norm_pi_spec a : - PI <= ang_norm_pi a <= PI /\ SameAngle (ang_norm_pi a) a /\ Shortest (ang_norm_pi a).
Proof.
  split; [apply norm_pi_bound|]. split; [apply same_congruent, norm_pi_congruent|].
  apply bound_shortest, norm_pi_bound.
Qed.
Lemma norm_pi_open a : cos a <> -1 -> - PI < ang_norm_pi a < PI.
Proof.
  intros N. destruct (norm_pi_spec a) as (B & [C _] & _).
  destruct (Req_dec (ang_norm_pi a) PI) as [E|E]; [rewrite E, cos_PI in C; congruence|].
  destruct (Req_dec (ang_norm_pi a) (- PI)) as [E'|E']; [rewrite E', cos_neg, cos_PI in C; congruence|].
  lra.
Qed.
Lemma norm_pi_eq a b : cos a <> -1 -> SameAngle a b -> ang_norm_pi a = ang_norm_pi b.
Proof.
  intros N [C S]. pose proof (norm_pi_open a N) as A.
  assert (N' : cos b <> -1) by congruence. pose proof (norm_pi_open b N') as B.
  destruct (norm_pi_spec a) as (_ & [A1 A2] & _). destruct (norm_pi_spec b) as (_ & [B1 B2] & _).
  apply angle_unique; try lra; congruence.
Qed.
Lemma Int_part_eq t k : IZR k <= t < IZR k + 1 -> Int_part t = k.
Proof.
  intros H. unfold Int_part. assert (up t = k + 1)%Z; [|lia].
  symmetry. apply tech_up; rewrite plus_IZR; lra.
Qed.
Lemma norm_pi_PI : ang_norm_pi PI = PI.
Proof.
  pose proof PI_RGT_0. unfold ang_norm_pi, remainder.
  replace (PI / (2 * PI)) with (1 / 2) by (field; lra).
  unfold nearest. rewrite (Int_part_eq (1 / 2) 0) by lra.
  destruct (Rlt_dec (1 / 2 - 0) (1 / 2)); [lra|]. destruct (Rlt_dec (1 / 2) (1 / 2 - 0)); [lra|].
  simpl. lra.
Qed.
Lemma norm_pi_3PI : ang_norm_pi (3 * PI) = - PI.
Proof.
  pose proof PI_RGT_0. unfold ang_norm_pi, remainder.
  replace (3 * PI / (2 * PI)) with (3 / 2) by (field; lra).
  unfold nearest. rewrite (Int_part_eq (3 / 2) 1) by lra.
  destruct (Rlt_dec (3 / 2 - 1) (1 / 2)); [lra|]. destruct (Rlt_dec (1 / 2) (3 / 2 - 1)); [lra|].
  simpl. lra.
Qed.
Lemma delta_congruent a b : Congruent (2 * PI) (ang_delta a b) (a - b).
Proof.
  unfold ang_delta. eapply congruent_trans; [apply norm_pi_congruent|].
  destruct (norm_pi_congruent a) as [k ->]. destruct (norm_pi_congruent b) as [l ->].
  exists (k - l)%Z. rewrite minus_IZR. ring.
Qed.
Lemma delta_spec a b : - PI <= ang_delta a b <= PI /\ SameAngle (b + ang_delta a b) a /\ Shortest (ang_delta a b).
Proof.
  split; [apply norm_pi_bound|]. split; [|apply bound_shortest, norm_pi_bound].
  apply same_congruent. destruct (delta_congruent a b) as [k ->]. exists k. ring.
Qed.

(** * Ranges *)
Lemma fclamp_spec v lo hi : lo <= hi ->
  lo <= fclamp v lo hi <= hi /\ forall w, lo <= w <= hi -> Rabs (fclamp v lo hi - v) <= Rabs (w - v).
Proof.
  intros H. unfold fclamp. destruct (Rlt_dec hi v); [|destruct (Rlt_dec v lo)]; (split; [lra|]); intros w Hw.
  - rewrite !Rabs_left1; lra.
  - rewrite !Rabs_pos_eq; lra.
  - rewrite Rminus_eq_0, Rabs_R0. apply Rabs_pos.
Qed.
Lemma clamp_fclamp v l : clamp v l = fclamp v (- l) l.
Proof. reflexivity. Qed.
Lemma vclamp_fclamp v lo hi : vclamp v lo hi = map (fun a => fclamp a lo hi) v.
Proof. induction v; simpl; [reflexivity|]. now rewrite IHv. Qed.
Lemma deadzone_spec v lo hi d :
  (lo < v < hi -> fdeadzone v lo hi d = d) /\ (~ lo < v < hi -> fdeadzone v lo hi d = v).
Proof. unfold fdeadzone. destruct (Rlt_dec lo v), (Rlt_dec v hi); split; intros; try reflexivity; exfalso; tauto. Qed.
Lemma sign_spec v : sign v * Rabs v = v /\ (sign v = 1 \/ sign v = 0 \/ sign v = -1) /\ (sign v = 0 <-> v = 0).
Proof.
  unfold sign. destruct (Rlt_dec 0 v); [|destruct (Rlt_dec v 0)].
  - rewrite Rabs_pos_eq by lra. repeat split; try lra; auto.
  - rewrite Rabs_left1 by lra. repeat split; try lra; auto.
  - assert (v = 0) by lra. subst. rewrite Rabs_R0. repeat split; try lra; auto.
Qed.
Lemma valid_f_spec v lo hi : (valid_f v lo hi = 0%Z <-> lo <= v <= hi) /\ (valid_f v lo hi <> 0%Z -> valid_f v lo hi = (-1)%Z).
Proof.
  unfold valid_f. destruct (Rle_dec lo v), (Rle_dec v hi); split; try split; intros; try lia; try lra; try congruence.
Qed.
(** a sample outside the bounds *)
Definition bad (values : list R) (min max : option (list R)) (i : nat) : Prop :=
  (exists m, min = Some m /\ nth i values 0 < nth i m 0) \/ (exists m, max = Some m /\ nth i m 0 < nth i values 0).
Lemma valid_v_loop_spec values min max k : forall i,
  (valid_v_loop values min max k i = 0%Z /\ forall j, (i <= j < i + k)%nat -> ~ bad values min max j) \/
  exists j, (i <= j < i + k)%nat /\ valid_v_loop values min max k i = (Z.of_nat j + 1)%Z /\ bad values min max j /\
    forall j', (i <= j' < j)%nat -> ~ bad values min max j'.
Proof.
  induction k as [|k IH]; intros i.
  - left. split; [reflexivity|]. intros; lia.
  - assert (D : (bad values min max i /\ valid_v_loop values min max (S k) i = (Z.of_nat i + 1)%Z) \/
      (~ bad values min max i /\ valid_v_loop values min max (S k) i = valid_v_loop values min max k (S i))).
    { unfold bad; simpl. unfold at_.
      destruct min as [mi|]; [destruct (Rlt_dec (nth i values 0) (nth i mi 0))|];
        (destruct max as [ma|]; [destruct (Rlt_dec (nth i ma 0) (nth i values 0))|]);
        try (left; split; [left; exists mi; now split|reflexivity]);
        try (left; split; [right; exists ma; now split|reflexivity]);
        (right; split; [|reflexivity]); intros [(m & E & L)|(m & E & L)]; try discriminate; injection E as <-; tauto. }
    destruct D as [[B E]|[B E]].
    + right. exists i. split; [lia|]. split; [exact E|]. split; [exact B|]. intros; lia.
    + destruct (IH (S i)) as [[Z A]|(j & L & Z & Bj & A)].
      * left. split; [congruence|]. intros j Hj. destruct (Nat.eq_dec j i) as [->|]; [exact B|]. apply A. lia.
      * right. exists j. split; [lia|]. split; [congruence|]. split; [exact Bj|].
        intros j' Hj. destruct (Nat.eq_dec j' i) as [->|]; [exact B|]. apply A. lia.
Qed.
