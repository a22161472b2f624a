(** Constant-twist motions and pose exponentials: lemmas. *)
From Coq Require Import Reals Lra Lia Nsatz.
From Verif Require Import TfModel TfSpec TfProofs TfRotmatProofs TfRepProofs TfCalcProofs AtanModel AtanProofs
  TfExpModel TfExpSpec SeriesProofs TfExpProofs TfLogProofs.
Open Scope R_scope.

(** ** The flow of a twist *)
Definition flow_k (k : V3) (a : R) (v : V3) (t : R) (p : V3) : V3 :=
  plus3 (rodrigues k (a * t) p)
    (plus3 (times3 (sin (a * t) / a) v)
      (plus3 (times3 ((1 - cos (a * t)) / a) (xprod k v))
             (times3 ((t - sin (a * t) / a) * dot k v) k))).

Lemma dpl_trig a A B C D t :
  derivable_pt_lim (fun s => A * sin (a * s) + B * cos (a * s) + C * s + D) t
    (A * (a * cos (a * t)) - B * (a * sin (a * t)) + C).
Proof.
  assert (L : derivable_pt_lim (fun s => a * s) t a).
  { eapply dpl_eq; [|apply dpl_mult; [apply dpl_const|apply dpl_id]]. cbv beta; ring. }
  assert (S : derivable_pt_lim (fun s => sin (a * s)) t (a * cos (a * t))).
  { eapply dpl_eq; [|apply (derivable_pt_lim_comp (fun s => a * s) sin); [exact L|apply derivable_pt_lim_sin]]. cbv beta; ring. }
  assert (K : derivable_pt_lim (fun s => cos (a * s)) t (- (a * sin (a * t)))).
  { eapply dpl_eq; [|apply (derivable_pt_lim_comp (fun s => a * s) cos); [exact L|apply derivable_pt_lim_cos]]. cbv beta; ring. }
  eapply dpl_eq; [|apply dpl_plus; [apply dpl_plus; [apply dpl_plus|]|apply dpl_const]].
  2:{ apply dpl_mult; [apply dpl_const|exact S]. }
  2:{ apply dpl_mult; [apply dpl_const|exact K]. }
  2:{ apply dpl_mult; [apply dpl_const|apply dpl_id]. }
  cbv beta; ring.
Qed.

Ltac flowfin H :=
  match goal with |- ?l = ?r =>
    match goal with HH : ?a <> 0 |- _ =>
      apply Rmult_eq_reg_r with a; [|exact H];
      let b := fresh "b" in
      pose (b := / a); assert (a * b = 1) by (unfold b; apply Rinv_r; exact H);
      unfold Rdiv; change (/ a) with b; clearbody b; nsatz end end.
Lemma flow_k_ok k a v : unit3 k -> a <> 0 -> screw_flow v (times3 a k) (flow_k k a v).
Proof.
  intros U H. split.
  - intros p. unfold flow_k, rodrigues. rewrite Rmult_0_r, sin_0, cos_0. destruct p as [p1 p2 p3], k, v. tfc.
    f_equal; field; exact H.
  - intros t p. destruct k as [k1 k2 k3], v as [v1 v2 v3], p as [p1 p2 p3].
    unfold unit3, dot in U. cbn [vx vy vz] in U.
    assert (SC : sin (a * t) * sin (a * t) + cos (a * t) * cos (a * t) = 1).
    { pose proof (sin2_cos2 (a * t)) as Q. unfold Rsqr in Q. lra. }
    unfold vderiv, flow_k, rodrigues, plus3, times3, xprod, dot; cbn [vx vy vz].
    set (kp := k1 * p1 + k2 * p2 + k3 * p3). set (kv := k1 * v1 + k2 * v2 + k3 * v3).
    repeat split.
    + eapply dpl_ext; [|eapply dpl_eq; [|apply (dpl_trig a
        ((k2 * p3 - k3 * p2) + v1 / a - kv * k1 / a) (p1 - kp * k1 - (k2 * v3 - k3 * v2) / a) (kv * k1) (kp * k1 + (k2 * v3 - k3 * v2) / a))]].
      * intros s. cbv beta. unfold kp, kv. field. exact H.
      * unfold kp, kv. set (S := sin (a * t)) in *. set (C := cos (a * t)) in *. flowfin H.
    + eapply dpl_ext; [|eapply dpl_eq; [|apply (dpl_trig a
        ((k3 * p1 - k1 * p3) + v2 / a - kv * k2 / a) (p2 - kp * k2 - (k3 * v1 - k1 * v3) / a) (kv * k2) (kp * k2 + (k3 * v1 - k1 * v3) / a))]].
      * intros s. cbv beta. unfold kp, kv. field. exact H.
      * unfold kp, kv. set (S := sin (a * t)) in *. set (C := cos (a * t)) in *. flowfin H.
    + eapply dpl_ext; [|eapply dpl_eq; [|apply (dpl_trig a
        ((k1 * p2 - k2 * p1) + v3 / a - kv * k3 / a) (p3 - kp * k3 - (k1 * v2 - k2 * v1) / a) (kv * k3) (kp * k3 + (k1 * v2 - k2 * v1) / a))]].
      * intros s. cbv beta. unfold kp, kv. field. exact H.
      * unfold kp, kv. set (S := sin (a * t)) in *. set (C := cos (a * t)) in *. flowfin H.
Qed.

Definition flow_0 (v : V3) (t : R) (p : V3) : V3 := plus3 p (times3 t v).
Lemma flow_0_ok v : screw_flow v zero3 (flow_0 v).
Proof.
  split.
  - intros [p1 p2 p3]. destruct v as [v1 v2 v3]. unfold flow_0. tfc. f_equal; ring.
  - intros t [p1 p2 p3]. destruct v as [v1 v2 v3]. unfold vderiv, flow_0. tfc.
    repeat split; eapply dpl_eq; try (apply dpl_plus; [apply dpl_const|apply dpl_mult; [apply dpl_id|apply dpl_const]]);
      cbv beta; ring.
Qed.

(** A constant-twist motion is determined by its twist. *)
Lemma const_deriv f : (forall t, derivable_pt_lim f t 0) -> forall t, f t = f 0.
Proof.
  intros H t. destruct (Rtotal_order t 0) as [L|[->|L]]; [|reflexivity|].
  - destruct (MVT_cor2 f (fun _ => 0) t 0 L) as (c & E & _); [intros; apply H|]. lra.
  - destruct (MVT_cor2 f (fun _ => 0) 0 t L) as (c & E & _); [intros; apply H|]. lra.
Qed.

Lemma flow_unique v w F G : screw_flow v w F -> screw_flow v w G -> forall t p, F t p = G t p.
Proof.
  intros [F0 F1] [G0 G1] t p.
  set (D := fun s => (vx (F s p) - vx (G s p)) * (vx (F s p) - vx (G s p))
    + (vy (F s p) - vy (G s p)) * (vy (F s p) - vy (G s p))
    + (vz (F s p) - vz (G s p)) * (vz (F s p) - vz (G s p))).
  assert (K : forall s, derivable_pt_lim D s 0).
  { intros s. destruct (F1 s p) as (f1 & f2 & f3). destruct (G1 s p) as (g1 & g2 & g3). unfold D.
    eapply dpl_eq; [|apply dpl_plus; [apply dpl_plus|]; apply dpl_mult; apply dpl_minus; eassumption].
    cbv beta. destruct (F s p) as [a1 a2 a3], (G s p) as [b1 b2 b3], v as [v1 v2 v3], w as [w1 w2 w3]. tfc. ring. }
  pose proof (const_deriv D K t) as E. unfold D in E at 2. rewrite F0, G0 in E.
  replace ((vx p - vx p) * (vx p - vx p) + (vy p - vy p) * (vy p - vy p) + (vz p - vz p) * (vz p - vz p)) with 0 in E by ring.
  unfold D in E. destruct (sumsq0 _ _ _ E) as (A & B & C).
  destruct (F t p) as [a1 a2 a3], (G t p) as [b1 b2 b3]. cbn [vx vy vz] in *. f_equal; lra.
Qed.

(** ** Exponentials as flows *)

Lemma skew2_unit a x y k : a <> 0 ->
  skewsym_scal2 (x / a) (y / (a * a)) (times3 a k) = skewsym_scal2 x y k.
Proof. intros H. destruct k as [k1 k2 k3]. tfc. f_equal; field; exact H. Qed.

Lemma len_ak k a : unit3 k -> 0 <= a -> vdot (times3 a k) (times3 a k) = a * a.
Proof. intros U H. destruct k as [k1 k2 k3]. unfold unit3 in U. tfc. transitivity (a*a*(k1*k1+k2*k2+k3*k3)); [ring|]. rewrite U. ring. Qed.

Lemma sq_branch a : / 2 ^ 13 <= a -> ~ (a * a * (a * a) < eps).
Proof.
  intros H L. unfold eps in L. pose proof p13_pos as P.
  assert (/ 2 ^ 13 * / 2 ^ 13 <= a * a) by (apply Rmult_le_compat; lra).
  assert (/ 2 ^ 13 * / 2 ^ 13 * (/ 2 ^ 13 * / 2 ^ 13) <= a * a * (a * a)) by (apply Rmult_le_compat; nra).
  replace (/ 2 ^ 13 * / 2 ^ 13 * (/ 2 ^ 13 * / 2 ^ 13)) with (/ 2 ^ 52) in * by field. lra.
Qed.

Lemma rotmat_expv_axang k a : unit3 k -> / 2 ^ 13 <= a ->
  rotmat_expv (times3 a k) = axang2rotmat (mkA k a).
Proof.
  intros U H. pose proof p13_pos as P. unfold rotmat_expv. rewrite len_ak by (auto; lra).
  destruct (Rlt_dec _ _) as [L|_]; [destruct (sq_branch a H L)|].
  rewrite sqrt_square by lra. rewrite skew2_unit by lra. reflexivity.
Qed.
Lemma rotmat_expv_zero : rotmat_expv zero3 = ident3.
Proof.
  unfold rotmat_expv. replace (vdot zero3 zero3) with 0 by (tfc; ring).
  destruct (Rlt_dec _ _) as [L|N]; [|exfalso; apply N; unfold eps; pose proof (pow2_pos 52); rewrite !Rmult_0_l; now apply Rinv_0_lt_compat].
  tfc. f_equal; ring.
Qed.

Lemma tfmat_expv_flow k a v p : unit3 k -> / 2 ^ 13 <= a ->
  tfmat_tf (tfmat_expv (mkDX v (times3 a k))) p = flow_k k a v 1 p.
Proof.
  intros U H. pose proof p13_pos as P. unfold tfmat_expv. cbn [dxw dxv]. rewrite len_ak by (auto; lra).
  destruct (Rlt_dec _ _) as [L|_]; [destruct (sq_branch a H L)|].
  rewrite sqrt_square by lra. rewrite skew2_unit by lra.
  replace ((1 - cos a) / (a * a)) with ((1 - cos a) / a / a) by (field; lra).
  rewrite skew2_unit by lra. unfold flow_k, rodrigues. rewrite Rmult_1_r.
  generalize (sin a) (cos a). intros S C. unfold unit3 in U.
  assert (Hb : a * / a = 1) by (apply Rinv_r; lra). unfold Rdiv. set (b := / a) in *. clearbody b. clear H P.
  destruct k as [k1 k2 k3], v as [v1 v2 v3], p as [p1 p2 p3]. tfc.
  f_equal; nsatz.
Qed.
Lemma tfmat_expv_zero v p : tfmat_tf (tfmat_expv (mkDX v zero3)) p = flow_0 v 1 p.
Proof.
  unfold tfmat_expv. cbn [dxw dxv]. replace (vdot zero3 zero3) with 0 by (tfc; ring).
  destruct (Rlt_dec _ _) as [L|N]; [|exfalso; apply N; unfold eps; pose proof (pow2_pos 52); rewrite !Rmult_0_l; now apply Rinv_0_lt_compat].
  unfold flow_0. destruct v as [v1 v2 v3], p as [p1 p2 p3]. tfc. f_equal; ring.
Qed.

Lemma double_sc a : sin (2 * a) = 2 * sin a * cos a /\ cos (2 * a) = 1 - 2 * (sin a * sin a) /\ sin a * sin a + cos a * cos a = 1.
Proof. split; [apply sin_2a|split]. rewrite cos_2a_sin; ring. pose proof (sin2_cos2 a) as Q. unfold Rsqr in Q. lra. Qed.

Lemma qutr_expv_flow k a v p : unit3 k -> / 2 ^ 13 <= a ->
  qutr_tf (qutr_expv (mkDX v (times3 a k))) p = flow_k k (2 * a) (times3 2 v) 1 p.
Proof.
  intros U H. pose proof p13_pos as P. unfold qutr_expv. cbn [dxw dxv]. rewrite len_ak by (auto; lra).
  rewrite sqrt_eps. destruct (Rlt_dec _ _) as [L|_]; [apply sq_lt_26 in L; lra|].
  rewrite sqrt_square by lra. unfold flow_k, rodrigues. rewrite Rmult_1_r.
  destruct (double_sc a) as (E1 & E2 & E3). rewrite E1, E2. revert E3.
  generalize (sin a) (cos a). intros S C E3. unfold unit3 in U.
  rewrite qutr_tf_eq. cbn [eq ev].
  replace (vscale (S / a) (times3 a k)) with (times3 S k) by (destruct k; tfc; f_equal; field; lra).
  replace (vscale (vdot (times3 a k) v * ((2 - C * (2 * (S / a))) / (a * a))) (times3 a k))
    with (times3 (dot k v * (2 - C * (2 * (S / a)))) k) by (destruct k, v; tfc; f_equal; field; lra).
  replace (2 * S * C / (2 * a)) with (S * C * / a) by (field; lra).
  replace ((1 - (1 - 2 * (S * S))) / (2 * a)) with (S * S * / a) by (field; lra).
  unfold Rdiv. set (b := / a) in *. clearbody b. clear E1 E2 H P.
  destruct k as [k1 k2 k3], v as [v1 v2 v3], p as [p1 p2 p3]. tfc.
  f_equal; nsatz.
Qed.
Lemma qutr_expv_zero v p : qutr_tf (qutr_expv (mkDX v zero3)) p = flow_0 (times3 2 v) 1 p.
Proof.
  unfold qutr_expv. cbn [dxw dxv]. replace (vdot zero3 zero3) with 0 by (tfc; ring).
  destruct (Rlt_dec _ _) as [L|N]; [|exfalso; apply N; rewrite sqrt_eps; pose proof (pow2_pos 26); now apply Rinv_0_lt_compat].
  unfold flow_0, sinc_series2, cos_series2, horner3. destruct v as [v1 v2 v3], p as [p1 p2 p3]. tfc. f_equal; field.
Qed.

Lemma eps_branch a : / 2 ^ 26 <= a -> ~ (a * a < eps).
Proof.
  intros H L. unfold eps in L. pose proof (Rinv_0_lt_compat _ (pow2_pos 26)) as P.
  assert (/ 2 ^ 26 * / 2 ^ 26 <= a * a) by (apply Rmult_le_compat; lra).
  replace (/ 2 ^ 26 * / 2 ^ 26) with (/ 2 ^ 52) in * by field. lra.
Qed.
Lemma p26_pos : 0 < / 2 ^ 26.
Proof. apply Rinv_0_lt_compat, pow2_pos. Qed.

Lemma duqu_exp_pure r d : duqu_exp (mkD (pure r) (pure d)) =
  let '(k_r, c, k_d) :=
    if Rlt_dec (vdot r r) eps
    then (sinc_series2 (vdot r r), cos_series2 (vdot r r), horner3 (vdot r r) (- (1)/3) (1/30) (- (1)/840))
    else let phi := sqrt (vdot r r) in (sin phi / phi, cos phi, (cos phi - sin phi / phi) / vdot r r) in
  mkD (mkqv (vscale k_r r) c) (mkqv (vadd (vscale k_r d) (vscale (k_d * vdot r d) r)) (- k_r * vdot r d)).
Proof.
  unfold duqu_exp. cbn [dreal ddual]. 
  replace (qv (pure r)) with r by (destruct r; reflexivity).
  replace (qv (pure d)) with d by (destruct d; reflexivity).
  replace (qw (pure r)) with 0 by reflexivity. replace (qw (pure d)) with 0 by reflexivity.
  rewrite Rabs_R0. destruct (Rlt_dec 0 0) as [L|_]; [lra|].
  destruct (Rlt_dec (vdot r r) eps); reflexivity.
Qed.

Lemma duqu_exp_flow k a v p : unit3 k -> / 2 ^ 26 <= a ->
  duqu_tf (duqu_exp (mkD (pure (times3 a k)) (pure v))) p = flow_k k (2 * a) (times3 2 v) 1 p.
Proof.
  intros U H. pose proof p26_pos as P. rewrite duqu_exp_pure. rewrite len_ak by (auto; lra).
  destruct (Rlt_dec _ _) as [L|_]; [destruct (eps_branch a H L)|].
  cbv zeta. rewrite sqrt_square by lra. unfold flow_k, rodrigues. rewrite Rmult_1_r.
  destruct (double_sc a) as (E1 & E2 & E3). rewrite E1, E2. revert E3.
  generalize (sin a) (cos a). intros S C E3. unfold unit3 in U.
  replace (vscale (S / a) (times3 a k)) with (times3 S k) by (destruct k; tfc; f_equal; field; lra).
  replace (vscale ((C - S / a) / (a * a) * vdot (times3 a k) v) (times3 a k))
    with (times3 ((C - S / a) * dot k v) k) by (destruct k, v; tfc; f_equal; field; lra).
  replace (- (S / a) * vdot (times3 a k) v) with (- S * dot k v) by (destruct k, v; tfc; field; lra).
  replace (2 * S * C / (2 * a)) with (S * C * / a) by (field; lra).
  replace ((1 - (1 - 2 * (S * S))) / (2 * a)) with (S * S * / a) by (field; lra).
  unfold Rdiv. set (b := / a) in *. clearbody b. clear E1 E2 H P.
  destruct k as [k1 k2 k3], v as [v1 v2 v3], p as [p1 p2 p3]. tfc.
  f_equal; nsatz.
Qed.
Lemma duqu_exp_zero v p : duqu_tf (duqu_exp (mkD (pure zero3) (pure v))) p = flow_0 (times3 2 v) 1 p.
Proof.
  rewrite duqu_exp_pure. replace (vdot zero3 zero3) with 0 by (tfc; ring).
  destruct (Rlt_dec _ _) as [L|N]; [|exfalso; apply N; unfold eps; pose proof (pow2_pos 52); now apply Rinv_0_lt_compat].
  unfold flow_0, sinc_series2, cos_series2, horner3. destruct v as [v1 v2 v3], p as [p1 p2 p3]. tfc. f_equal; field.
Qed.

(** ** Unit results *)
Lemma rodrigues_unit_quat k a : unit3 k -> unitq (mkqv (times3 (sin a) k) (cos a)).
Proof.
  intros U. pose proof (sin2_cos2 a) as Q. unfold Rsqr in Q. unfold unit3 in U. destruct k as [k1 k2 k3]. tfc.
  transitivity (sin a * sin a * (k1*k1+k2*k2+k3*k3) + cos a * cos a); [ring|]. rewrite U. lra.
Qed.
Lemma qutr_expv_unit k a v : unit3 k -> / 2 ^ 13 <= a -> unit_qutr (qutr_expv (mkDX v (times3 a k))).
Proof.
  intros U H. pose proof p13_pos as P. unfold unit_qutr, qutr_expv. cbn [dxw dxv]. rewrite len_ak by (auto; lra).
  rewrite sqrt_eps. destruct (Rlt_dec _ _) as [L|_]; [apply sq_lt_26 in L; lra|].
  rewrite sqrt_square by lra. cbn [eq].
  replace (vscale (sin a / a) (times3 a k)) with (times3 (sin a) k) by (destruct k; tfc; f_equal; field; lra).
  now apply rodrigues_unit_quat.
Qed.
Lemma qutr_expv_unit0 v : unit_qutr (qutr_expv (mkDX v zero3)).
Proof.
  unfold unit_qutr, qutr_expv. cbn [dxw dxv]. replace (vdot zero3 zero3) with 0 by (tfc; ring).
  destruct (Rlt_dec _ _) as [L|N]; [|exfalso; apply N; rewrite sqrt_eps; pose proof (pow2_pos 26); now apply Rinv_0_lt_compat].
  unfold sinc_series2, cos_series2, horner3. tfc. ring.
Qed.
Lemma duqu_exp_unit k a v : unit3 k -> / 2 ^ 26 <= a ->
  unit_duqu (duqu_exp (mkD (pure (times3 a k)) (pure v))).
Proof.
  intros U H. pose proof p26_pos as P. rewrite duqu_exp_pure. rewrite len_ak by (auto; lra).
  destruct (Rlt_dec _ _) as [L|_]; [destruct (eps_branch a H L)|].
  cbv zeta. rewrite sqrt_square by lra.
  replace (vscale (sin a / a) (times3 a k)) with (times3 (sin a) k) by (destruct k; tfc; f_equal; field; lra).
  split; cbn [dreal ddual]; [now apply rodrigues_unit_quat|].
  assert (U2 := U). unfold unit3 in U2. destruct k as [k1 k2 k3], v as [v1 v2 v3]. tfc.
  generalize (sin a) (cos a). intros S C.
  transitivity (S * (C * (k1*v1+k2*v2+k3*v3) - S / a * (k1*v1+k2*v2+k3*v3)) * (k1*k1+k2*k2+k3*k3 - 1)); [field; lra|].
  rewrite U. ring.
Qed.
Lemma duqu_exp_unit0 v : unit_duqu (duqu_exp (mkD (pure zero3) (pure v))).
Proof.
  rewrite duqu_exp_pure. replace (vdot zero3 zero3) with 0 by (tfc; ring).
  destruct (Rlt_dec _ _) as [L|N]; [|exfalso; apply N; unfold eps; pose proof (pow2_pos 52); now apply Rinv_0_lt_compat].
  unfold sinc_series2, cos_series2, horner3. destruct v as [v1 v2 v3]. tfc. split; ring.
Qed.

(** ** Exponentials as time-one flows *)
Lemma flow_of_twist v w : exists F, screw_flow v w F.
Proof.
  destruct (direction w) as (k & U & E). destruct (Req_dec (len3 w) 0) as [Z|N].
  - apply len3_zero in Z. rewrite Z. exists (flow_0 v). apply flow_0_ok.
  - exists (flow_k k (len3 w) v). rewrite E at 1. now apply flow_k_ok.
Qed.


Lemma tfmat_expv_ok v w F : screw_flow v w F -> off_series (/ 2 ^ 13) w ->
  forall p, tfmat_tf (tfmat_expv (mkDX v w)) p = F 1 p.
Proof.
  intros HF [->|L] p.
  - rewrite tfmat_expv_zero. apply (flow_unique _ _ _ _ (flow_0_ok v) HF).
  - destruct (direction w) as (k & U & E). pose proof p13_pos. rewrite E at 1. rewrite tfmat_expv_flow by auto.
    eapply flow_unique; [|exact HF]. rewrite E at 1. apply flow_k_ok; [auto|lra].
Qed.
Lemma times_times a b v : times3 a (times3 b v) = times3 (a * b) v.
Proof. destruct v; tfc; f_equal; ring. Qed.
Lemma qutr_expv_ok v w F : screw_flow (times3 2 v) (times3 2 w) F -> off_series (/ 2 ^ 13) w ->
  forall p, qutr_tf (qutr_expv (mkDX v w)) p = F 1 p.
Proof.
  intros HF [->|L] p.
  - rewrite qutr_expv_zero. replace (times3 2 zero3) with zero3 in HF by (tfc; f_equal; ring).
    apply (flow_unique _ _ _ _ (flow_0_ok _) HF).
  - destruct (direction w) as (k & U & E). pose proof p13_pos. rewrite E at 1. rewrite qutr_expv_flow by auto.
    eapply flow_unique; [|exact HF]. rewrite E at 1. rewrite times_times. apply flow_k_ok; [auto|lra].
Qed.
Lemma duqu_exp_ok v w F : screw_flow (times3 2 v) (times3 2 w) F -> off_series (/ 2 ^ 26) w ->
  forall p, duqu_tf (duqu_exp (mkD (pure w) (pure v))) p = F 1 p.
Proof.
  intros HF [->|L] p.
  - rewrite duqu_exp_zero. replace (times3 2 zero3) with zero3 in HF by (tfc; f_equal; ring).
    apply (flow_unique _ _ _ _ (flow_0_ok _) HF).
  - destruct (direction w) as (k & U & E). pose proof p26_pos. rewrite E at 1. rewrite duqu_exp_flow by auto.
    eapply flow_unique; [|exact HF]. rewrite E at 1. rewrite times_times. apply flow_k_ok; [auto|lra].
Qed.

(** ** Integration of a constant velocity *)

(** Reparametrised flow: time dt of twist x is time one of dt x. *)
Lemma flow_scale v w F h : screw_flow v w F -> screw_flow (times3 h v) (times3 h w) (fun t => F (h * t)).
Proof.
  intros [F0 F1]. split.
  - intros p. rewrite Rmult_0_r. apply F0.
  - intros t p. destruct (F1 (h * t) p) as (f1 & f2 & f3).
    assert (L : derivable_pt_lim (fun s => h * s) t h).
    { eapply dpl_eq; [|apply dpl_mult; [apply dpl_const|apply dpl_id]]. cbv beta; ring. }
    repeat split; (eapply dpl_eq; [|apply (derivable_pt_lim_comp (fun s => h * s)
       (fun s => _ (F s p))); [exact L|eassumption]]);
    destruct (F (h * t) p), v, w; tfc; ring.
Qed.

Lemma qutr_svel_ok e v w dt F : unit_qutr e ->
  screw_flow (plus3 v (times3 (-1) (xprod w (ev e)))) w F ->
  off_series (/ 2 ^ 13) (times3 (dt / 2) w) ->
  forall p, qutr_tf (qutr_svel e (mkDX v w) dt) p = F dt (qutr_tf e p).
Proof.
  intros Ue HF O p. unfold qutr_svel, qv_vel2twist. cbn [dxv dxw].
  set (tv := cross_a (ev e) w v).
  replace (mkV (vx tv * (dt / 2)) (vy tv * (dt / 2)) (vz tv * (dt / 2))) with (times3 (dt / 2) tv)
    by (unfold times3; f_equal; ring).
  replace (mkV (vx w * (dt / 2)) (vy w * (dt / 2)) (vz w * (dt / 2))) with (times3 (dt / 2) w)
    by (unfold times3; f_equal; ring).
  rewrite qutr_mul_acts; [|destruct O as [Z|L]|exact Ue].
  - rewrite (qutr_expv_ok _ _ (fun t => F (dt * t))).
    + now rewrite Rmult_1_r.
    + rewrite !times_times. replace (2 * (dt / 2)) with dt by field.
      replace tv with (plus3 v (times3 (-1) (xprod w (ev e)))) by (unfold tv; destruct v, w, (ev e); tfc; f_equal; ring).
      now apply flow_scale.
    + exact O.
  - rewrite Z. apply qutr_expv_unit0.
  - destruct (direction (times3 (dt / 2) w)) as (k & U & E). rewrite E. now apply qutr_expv_unit.
Qed.

Lemma duqu_svel_ok s v w dt F : unit_duqu s ->
  screw_flow (plus3 v (times3 (-1) (xprod w (dtrans s)))) w F ->
  off_series (/ 2 ^ 26) (times3 (dt / 2) w) ->
  forall p, duqu_tf (duqu_svel s (mkDX v w) dt) p = F dt (duqu_tf s p).
Proof.
  intros Us HF O p. unfold duqu_svel, duqu_stwist, duqu_vel2twist, qv_vel2twist. cbn [dxv dxw].
  set (tv := cross_a (dtrans s) w v).
  replace (dsmul (dt / 2) (mkD (mkqv w 0) (mkqv tv 0))) with (mkD (pure (times3 (dt / 2) w)) (pure (times3 (dt / 2) tv)))
    by (clearbody tv; destruct w, tv; tfc; f_equal; f_equal; ring).
  rewrite duqu_mul_acts; [|destruct O as [Z|L]|exact Us].
  - rewrite (duqu_exp_ok _ _ (fun t => F (dt * t))).
    + now rewrite Rmult_1_r.
    + rewrite !times_times. replace (2 * (dt / 2)) with dt by field.
      replace tv with (plus3 v (times3 (-1) (xprod w (dtrans s)))) by (unfold tv; destruct v, w, (dtrans s); tfc; f_equal; ring).
      now apply flow_scale.
    + exact O.
  - rewrite Z. apply duqu_exp_unit0.
  - destruct (direction (times3 (dt / 2) w)) as (k & U & E). rewrite E. now apply duqu_exp_unit.
Qed.

Lemma tfmat_svel_ok T v w dt F :
  screw_flow (plus3 v (times3 (-1) (xprod w (tv T)))) w F ->
  off_series (/ 2 ^ 13) (times3 dt w) ->
  forall p, tfmat_tf (tfmat_svel T (mkDX v w) dt) p = F dt (tfmat_tf T p).
Proof.
  intros HF O p. unfold tfmat_svel. cbn [dxv dxw]. rewrite tfmat_mul_acts.
  replace (mkV (vx w * dt) (vy w * dt) (vz w * dt)) with (times3 dt w) by (unfold times3; f_equal; ring).
  rewrite (tfmat_expv_ok _ _ (fun t => F (dt * t))).
  - now rewrite Rmult_1_r.
  - replace (vsub _ _) with (times3 dt (plus3 v (times3 (-1) (xprod w (tv T)))))
      by (destruct v, w, (tv T); tfc; f_equal; ring).
    now apply flow_scale.
  - exact O.
Qed.
