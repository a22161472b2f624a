(** Which vectors turn by the same rotation; quaternions; where the nearest is missed. *)
From Coq Require Import Reals Lra Psatz ZArith List Arith Lia Bool.
From Verif Require Import AtanModel AtanProofs AngModel AngSpec AngProofs.
From Verif Require Import TfModel TfSpec TfProofs TfExpModel TfExpSpec TfExpProofs TfCalcProofs TfLnProofs TfConvProofs NrModel NrSpec NrProofs.
Import ListNotations.
Open Scope R_scope.

Definition e1 := mkV 1 0 0. Definition e2 := mkV 0 1 0. Definition e3 := mkV 0 0 1.

Lemma rod_axis k a : unit3 k -> rodrigues k a k = k.
Proof.
  unfold unit3. intros U. unfold rodrigues. rewrite U. destruct k as [x y z]. unfold plus3, times3, xprod. cbn [vx vy vz]. f_equal; ring.
Qed.
Lemma rod_trace k a : unit3 k ->
  vx (rodrigues k a e1) + vy (rodrigues k a e2) + vz (rodrigues k a e3) = 1 + 2 * cos a.
Proof.
  unfold unit3. intros U. transitivity (3 * cos a + (1 - cos a) * dot k k).
  - unfold rodrigues, plus3, times3, xprod, dot, e1, e2, e3. cbn [vx vy vz]. ring.
  - rewrite U. ring.
Qed.
Lemma rod_skew k a (f := rodrigues k a) :
  mkV (vz (f e2) - vy (f e3)) (vx (f e3) - vz (f e1)) (vy (f e1) - vx (f e2)) = times3 (2 * sin a) k.
Proof. unfold f, rodrigues, plus3, times3, xprod, dot, e1, e2, e3. cbn [vx vy vz]. f_equal; ring. Qed.

Lemma unit_dot1 k l : unit3 k -> unit3 l -> dot k l = 1 -> k = l.
Proof.
  unfold unit3. destruct k as [a b c], l as [x y z]. unfold dot. cbn [vx vy vz]. intros U V D.
  destruct (sumsq0 (a - x) (b - y) (c - z)) as (A & B & C); [nra|]. f_equal; lra.
Qed.
Lemma rod_unique k a l b : unit3 k -> unit3 l -> cos a <> 1 ->
  (forall p, rodrigues k a p = rodrigues l b p) ->
  (l = k /\ SameAngle b a) \/ (l = times3 (-1) k /\ SameAngle b (- a)).
Proof.
  intros U V N E.
  assert (C : cos b = cos a).
  { pose proof (rod_trace k a U) as T1. pose proof (rod_trace l b V) as T2. rewrite !E in T1. lra. }
  assert (K : dot l k = 1 \/ dot l k = -1).
  { pose proof (rod_axis k a U) as A. rewrite E in A.
    assert (D : dot k (rodrigues l b k) = cos b * dot k k + (1 - cos b) * (dot l k * dot l k)).
    { unfold rodrigues. destruct k as [x y z], l as [x' y' z']. unfold plus3, times3, xprod, dot. cbn [vx vy vz]. ring. }
    rewrite A in D. unfold unit3 in U. rewrite U in D.
    assert (Z : (1 - cos b) * ((1 - dot l k) * (1 + dot l k)) = 0) by lra.
    apply Rmult_integral in Z. destruct Z as [Z|Z]; [exfalso; lra|].
    apply Rmult_integral in Z. destruct Z; [left|right]; lra. }
  pose proof (rod_skew k a) as S1. pose proof (rod_skew l b) as S2. cbv zeta in S1, S2. rewrite !E in S1. rewrite S1 in S2.
  assert (SD : 2 * sin a = 2 * sin b * dot l k).
  { transitivity (dot (times3 (2 * sin a) k) k).
    - unfold unit3 in U. transitivity (2 * sin a * dot k k); [rewrite U; ring|]. unfold dot, times3; cbn [vx vy vz]; ring.
    - rewrite S2. unfold dot, times3; cbn [vx vy vz]; ring. }
  destruct K as [K|K]; rewrite K in SD.
  - left. split; [now apply unit_dot1|]. split; [exact C|lra].
  - right. split.
    + apply unit_dot1; [exact V|now apply unit3_neg|]. transitivity (- dot l k); [unfold dot, times3; cbn [vx vy vz]; ring|lra].
    + split; [rewrite cos_neg; exact C|rewrite sin_neg; lra].
Qed.

(** Vectors that turn alike differ by whole turns along the axis, unless nothing turns. *)
Lemma turns_axis u s w f : unit3 u -> cos s <> 1 -> turns (times3 s u) f -> turns w f ->
  exists k : Z, w = times3 (s + IZR k * (2 * PI)) u.
Proof.
  intros U N (k & a & Uk & Ek & Fk) (l & b & Ul & -> & Fl).
  assert (E : forall p, rodrigues u s p = rodrigues l b p).
  { intros p. rewrite <- Fl, Fk.
    assert (A : Rabs a = Rabs s).
    { pose proof (len3_times a k) as L1. pose proof (len3_times s u) as L2. rewrite (len3_unit k Uk) in L1. rewrite (len3_unit u U) in L2.
      rewrite <- Ek in L1. lra. }
    assert (S0 : s <> 0) by (intros ->; apply N, cos_0).
    destruct (Req_dec a s) as [->|M].
    - apply (f_equal (fun v => rodrigues v s p)). now apply (times_inj s).
    - assert (a = - s) by (revert A; unfold Rabs; destruct (Rcase_abs a), (Rcase_abs s); lra). subst a.
      rewrite <- (rod_flip u s). apply (f_equal (fun v => rodrigues v (- s) p)). apply (times_inj (- s)); [lra|].
      rewrite <- Ek. destruct u as [x y z]; unfold times3; cbn [vx vy vz]. f_equal; ring. }
  destruct (rod_unique u s l b U Ul N E) as [(-> & A)|(-> & A)]; apply same_congruent in A; destruct A as (m & ->).
  - exists m. reflexivity.
  - exists (- m)%Z. rewrite opp_IZR. destruct u as [x y z]; unfold times3; cbn [vx vy vz]. f_equal; ring.
Qed.

Lemma near_best_all rv near f : tf_eps <= len3 rv -> cos (len3 rv) <> 1 -> len3 rv + len3 near <= 7 * PI ->
  turns rv f -> forall w, turns w f -> dist2 near (rotvec_near rv near) <= dist2 near w.
Proof.
  intros H N B T w W. destruct (near_best_axis rv near H B) as (u & U & E & M).
  rewrite E in T. destruct (turns_axis u (len3 rv) w f U N T W) as (k & ->). apply M.
Qed.

(** ** From a quaternion *)
Lemma quat_axang q : unitq q -> -1 < qw q <= cos (/ 20000) -> exists k t, unit3 k /\ tf_eps <= t < 2 * PI /\
  quat2axang q = mkA k t /\ forall p, qrot q p = rodrigues k t p.
Proof.
  intros U W. pose proof PI_RGT_0 as PP. pose proof PI_4 as P4. pose proof PI2_1 as P1.
  pose proof (unit_len4 q U) as L. destruct (polar q ltac:(lra)) as (C & S & B).
  rewrite L, Rmult_1_l in C, S. set (phi := atan2 (len3 (qv q)) (qw q)) in *.
  assert (P : / 20000 <= phi).
  { destruct (Rle_dec (/ 20000) phi) as [|G]; [assumption|]. exfalso.
    assert (cos (/ 20000) < cos phi) by (apply cos_decreasing_1; lra). lra. }
  assert (PH : phi < PI). { destruct B as [_ [B|B]]; [exact B|]. exfalso. rewrite B, cos_PI in C. lra. }
  assert (SP : 0 < sin phi) by (apply sin_gt_0; lra).
  pose proof (axang_of_quat q U) as AQ.
  exists (axis (quat2axang q)), (2 * phi).
  assert (E : quat2axang q = mkA (axis (quat2axang q)) (2 * phi)) by reflexivity.
  assert (UA : unit3 (axis (quat2axang q))).
  { unfold quat2axang. cbn [axis]. change (vnorm (qv q)) with (len3 (qv q)).
    destruct (Rgt_dec (len3 (qv q)) 0) as [G|G]; [|lra].
    unfold unit3. transitivity (dot (qv q) (qv q) / (len3 (qv q) * len3 (qv q))).
    - unfold dot, vdivs. cbn [vx vy vz]. field. lra.
    - rewrite len3_sq. field. rewrite <- len3_sq. nra. }
  split; [exact UA|]. split; [unfold tf_eps; lra|]. split; [exact E|].
  intros p. rewrite <- AQ, E at 1. apply axang_forms. exact UA.
Qed.

Lemma quat_near q near : unitq q -> -1 < qw q <= cos (/ 20000) ->
  turns (quat2rotvec_near q near) (qrot q) /\
  (len3 near <= 5 * PI -> forall w, turns w (qrot q) -> dist2 near (quat2rotvec_near q near) <= dist2 near w).
Proof.
  intros U W. destruct (quat_axang q U W) as (k & t & Uk & T & E & F).
  unfold quat2rotvec_near. rewrite E. unfold axang2rotvec. cbn [axis angle]. change (vscale t k) with (times3 t k).
  pose proof tf_eps_pos as TP. pose proof PI_RGT_0 as PP.
  assert (L : len3 (times3 t k) = t) by (rewrite len3_times, (len3_unit k Uk), Rabs_right by lra; ring).
  assert (TT : turns (times3 t k) (qrot q)) by (exists k, t; auto).
  split; [apply near_turns; [lra|exact TT]|].
  intros N w TW. apply (near_best_all _ _ (qrot q)); try assumption; rewrite ?L; try lra.
  intros C. assert (S : SameAngle t 0).
  { split; [rewrite cos_0; exact C|]. rewrite sin_0. pose proof (sin2_cos2 t) as S. unfold Rsqr in S. rewrite C in S. nra. }
  apply same_congruent in S. destruct S as (m & S).
  assert (0 < m)%Z. { apply lt_IZR. apply (Rmult_lt_reg_r (2 * PI)); lra. }
  assert (m < 1)%Z. { apply lt_IZR. apply (Rmult_lt_reg_r (2 * PI)); lra. }
  lia.
Qed.

(** ** Missed *)
Lemma axis_zero : axis (rotvec2axang zero3) = zero3.
Proof.
  assert (Z : vdot zero3 zero3 = 0) by (unfold vdot, zero3; cbn [vx vy vz]; ring).
  unfold rotvec2axang. rewrite Z. destruct (Rlt_dec _ _) as [L|N].
  - unfold quat2axang, rotvec2quat. rewrite Z. destruct (sinccos2 (0 / 4)) as [sc c].
    assert (V : qv (mkqv (vscale (sc / 2) zero3) c) = zero3)
      by (unfold qv, mkqv, vscale, zero3; cbn [vx vy vz qx qy qz qw]; f_equal; ring).
    rewrite V. unfold vnorm. rewrite Z, sqrt_0. cbn [axis]. destruct (Rgt_dec 0 0) as [G|_]; [lra|reflexivity].
  - exfalso. apply N. pose proof tf_eps_pos. nra.
Qed.
Lemma near_zero near : rotvec_near zero3 near = zero3.
Proof.
  destruct (near_member zero3 near) as (I & _).
  assert (P : forall k, rotvec_permute zero3 k = zero3).
  { intros k. unfold rotvec_permute, axang2rotvec, axang_permute. cbn [axis angle]. rewrite axis_zero.
    unfold vscale, zero3. cbn [vx vy vz]. f_equal; ring. }
  unfold near_tries in I. rewrite !P in I. cbn [In] in I. intuition congruence.
Qed.
Lemma near_zero_missed : exists near f w, turns zero3 f /\ turns w f /\ len3 near <= 2 * PI /\
  dist2 near w < dist2 near (rotvec_near zero3 near).
Proof.
  pose proof PI_RGT_0 as PP.
  assert (U1 : unit3 e1) by (unfold unit3, dot, e1; cbn [vx vy vz]; ring).
  exists (times3 (2 * PI) e1), (fun p => rodrigues e1 0 p), (times3 (2 * PI) e1). split; [|split; [|split]].
  - exists e1, 0. split; [exact U1|]. split; [|reflexivity]. unfold zero3, times3, e1. cbn [vx vy vz]. f_equal; ring.
  - exists e1, (2 * PI). split; [exact U1|]. split; [reflexivity|]. intros p. apply rod_same, same_congruent. exists (-1)%Z. ring.
  - rewrite len3_times, (len3_unit _ U1), Rabs_right; lra.
  - rewrite near_zero. unfold dist2, times3, zero3, e1. cbn [vx vy vz]. nra.
Qed.

Lemma near_far_missed : exists rv near f w, turns rv f /\ turns w f /\
  dist2 near w < dist2 near (rotvec_near rv near).
Proof.
  pose proof PI_RGT_0 as PP. pose proof PI2_1 as P1.
  assert (U1 : unit3 e1) by (unfold unit3, dot, e1; cbn [vx vy vz]; ring).
  exists (times3 PI e1), (times3 (9 * PI) e1), (rodrigues e1 PI), (times3 (9 * PI) e1).
  split; [exists e1, PI; auto|]. split.
  { exists e1, (9 * PI). split; [exact U1|]. split; [reflexivity|]. intros p. apply rod_same, same_congruent. exists (-4)%Z. ring. }
  assert (L : len3 (times3 PI e1) = PI) by (rewrite len3_times, (len3_unit _ U1), Rabs_right by lra; ring).
  assert (H : tf_eps <= len3 (times3 PI e1)) by (rewrite L; unfold tf_eps; lra).
  destruct (tries_eq _ H) as (u & U & E & TR).
  destruct (near_member (times3 PI e1) (times3 (9 * PI) e1)) as (I & _). apply TR in I. destruct I as (k & K & ->).
  rewrite L in *. apply (times_inj PI) in E; [subst u|lra].
  rewrite !dist_axis by exact U1.
  assert (D : forall s, dot (times3 s e1) (times3 s e1) = s * s) by (intros; unfold dot, times3, e1; cbn [vx vy vz]; ring).
  assert (D' : forall s, dot (times3 s e1) e1 = s) by (intros; unfold dot, times3, e1; cbn [vx vy vz]; ring).
  rewrite D, D'. assert (IZR k <= 3) by (apply IZR_le; lia).
  set (s := PI + IZR k * (2 * PI)). assert (S : s <= 7 * PI) by (unfold s; nra). clearbody s.
  assert (0 < (9 * PI - s) * (9 * PI - s)) by (apply Rmult_lt_0_compat; lra). lra.
Qed.
