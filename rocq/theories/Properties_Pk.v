(** C115: inverse kinematics of the planar two link arm.  C116: colours from RGB to HSV. *)
From Coq Require Import List ZArith Reals Lra Lia Psatz.
From Verif Require Import AtanModel AtanProofs AngModel AngSpec AngProofs PkModel PkProofs.
Open Scope R_scope.

(** links of length l1 and l2 at the angles t1 and t2 to the x axis end at (x1,x2) *)
Definition EndsAt (l1 l2 t1 t2 x1 x2 : R) : Prop :=
  l1 * cos t1 + l2 * cos t2 = x1 /\ l1 * sin t1 + l2 * sin t2 = x2.

(** * C115 *)
(** a point off the x axis no nearer than the difference of the lengths and no farther than their sum: 0 is returned
    and both solutions stored put the arm's end at the point *)
Theorem C115_solves : forall l1 l2 x1 x2, 0 < l1 -> 0 < l2 -> x2 <> 0 ->
  (l1 - l2) * (l1 - l2) <= x1 * x1 + x2 * x2 <= (l1 + l2) * (l1 + l2) ->
  exists a0 a1 b0 b1, planar2_ik_theta2 l1 l2 x1 x2 = (0%Z, Some ((a0, a1), (b0, b1))) /\
    EndsAt l1 l2 a0 a1 x1 x2 /\ EndsAt l1 l2 b0 b1 x1 x2 /\
    - PI < a0 <= PI /\ - PI < a1 <= PI /\ - PI < b0 <= PI /\ - PI < b1 <= PI.
Proof.
  intros l1 l2 x1 x2 L1 L2 H B.
  destruct (planar2_ok l1 l2 x1 x2 L1 L2 H B) as (a0 & a1 & b0 & b1 & E & RA & RB & BD & _).
  exists a0, a1, b0, b1. exact (conj E (conj RA (conj RB BD))).
Qed.
Print Assumptions C115_solves.
(** there are no others: whatever angles put the end at a point off the x axis are one of the two *)
Theorem C115_complete : forall l1 l2 x1 x2 t1 t2, 0 < l1 -> 0 < l2 -> x2 <> 0 -> EndsAt l1 l2 t1 t2 x1 x2 ->
  exists a0 a1 b0 b1, planar2_ik_theta2 l1 l2 x1 x2 = (0%Z, Some ((a0, a1), (b0, b1))) /\
    ((SameAngle t1 a0 /\ SameAngle t2 a1) \/ (SameAngle t1 b0 /\ SameAngle t2 b1)).
Proof. exact planar2_complete. Qed.
Print Assumptions C115_complete.
(** a point no angles reach: 1 *)
Theorem C115_unreachable : forall l1 l2 x1 x2, 0 < l1 -> 0 < l2 -> x2 <> 0 ->
  (forall t1 t2, ~ EndsAt l1 l2 t1 t2 x1 x2) -> planar2_ik_theta2 l1 l2 x1 x2 = (1%Z, None).
Proof. exact planar2_none. Qed.
Print Assumptions C115_unreachable.
(** every point on the x axis fails, within reach or not *)
Theorem C115_axis_refuted :
  (forall l1 l2 x1, planar2_ik_theta2 l1 l2 x1 0 = (1%Z, None)) /\
  (exists l1 l2 x1 t1 t2, 0 < l1 /\ 0 < l2 /\ EndsAt l1 l2 t1 t2 x1 0).
Proof.
  split.
  - intros l1 l2 x1. unfold planar2_ik_theta2. destruct (Req_EM_T 0 0); [reflexivity|lra].
  - exists 1, 1, 1, (PI / 3), (- (PI / 3)). unfold EndsAt. rewrite cos_neg, sin_neg, cos_PI3. lra.
Qed.
Print Assumptions C115_axis_refuted.
Example C115_nonvacuous : exists a0 a1 b0 b1,
  planar2_ik_theta2 1 1 1 1 = (0%Z, Some ((a0, a1), (b0, b1))) /\
  ((SameAngle 0 a0 /\ SameAngle (PI / 2) a1) \/ (SameAngle 0 b0 /\ SameAngle (PI / 2) b1)).
Proof.
  apply C115_complete; try lra. unfold EndsAt. rewrite cos_0, sin_0, cos_PI2, sin_PI2. lra.
Qed.

(** * C116 *)
(** colours of nonnegative parts: the value is the largest part, the saturation is between 0 and 1 and is 0 for greys
    only, the hue is an angle in (-pi,pi]; red, green and blue pull it by their amount at 0, 120 and 240 degrees *)
Theorem C116_hsv : forall r g b, 0 <= r -> 0 <= g -> 0 <= b ->
  exists h s v, rgb2hsv r g b = Ret (h, s, v) /\
    (r <= v /\ g <= v /\ b <= v /\ (v = r \/ v = g \/ v = b)) /\
    0 <= s <= 1 /\ (s = 0 <-> r = g /\ g = b) /\ - PI < h <= PI /\
    s * v * cos h = r * cos 0 + g * cos (2 * (PI / 3)) + b * cos (2 * (2 * (PI / 3))) /\
    s * v * sin h = r * sin 0 + g * sin (2 * (PI / 3)) + b * sin (2 * (2 * (PI / 3))).
Proof.
  intros r g b Hr Hg Hb. destruct (rgb2hsv_eq r g b Hr Hg Hb) as (s & E & C & B & Z).
  exists (hue r g b), s, (value r g b). pose proof (value_ub r g b) as U. pose proof (value_in r g b) as I.
  destruct (hue_polar r g b) as [P1 P2].
  split; [exact E|]. split; [repeat split; tauto|]. split; [exact B|]. split; [|split; [apply atan2_bound|]].
  - split.
    + intros S0. rewrite S0, Rmult_0_l in C. apply chroma_0. now symmetry.
    + intros G. apply chroma_0 in G. rewrite G in C. apply Rmult_integral in C. destruct C as [C|C]; [exact C|]. exact (Z C).
  - rewrite C, P1, P2. rewrite cos_0, sin_0, (cos_2a (2 * (PI / 3))), (sin_2a (2 * (PI / 3))), cos_2PI3, sin_2PI3. pose proof sqrt3 as S3. split.
    + transitivity (1 / 2 * (2 * r - g - b)); [reflexivity|].
      replace (-1 / 2 * (-1 / 2) - sqrt 3 / 2 * (sqrt 3 / 2)) with (1 / 4 - sqrt 3 * sqrt 3 / 4) by field.
      rewrite S3. field.
    + field.
Qed.
Print Assumptions C116_hsv.
(** no two colours are converted to the same hue, saturation and value *)
Theorem C116_injective : forall r g b r' g' b', 0 <= r -> 0 <= g -> 0 <= b -> 0 <= r' -> 0 <= g' -> 0 <= b' ->
  rgb2hsv r g b = rgb2hsv r' g' b' -> r = r' /\ g = g' /\ b = b'.
Proof. exact rgb2hsv_inj. Qed.
Print Assumptions C116_injective.
(** mixing in white keeps the hue; brightening keeps hue and saturation; red to green to blue to red turns the hue by
    120 degrees *)
Theorem C116_symmetry : forall r g b, 0 <= r -> 0 <= g -> 0 <= b ->
  exists h s v, rgb2hsv r g b = Ret (h, s, v) /\
    (forall w, 0 <= w -> exists s', rgb2hsv (r + w) (g + w) (b + w) = Ret (h, s', v + w)) /\
    (forall k, 0 < k -> rgb2hsv (k * r) (k * g) (k * b) = Ret (h, s, k * v)) /\
    (~ (r = g /\ g = b) -> exists h', rgb2hsv b r g = Ret (h', s, v) /\ SameAngle h' (h + 2 * (PI / 3))).
Proof.
  intros r g b Hr Hg Hb. destruct (rgb2hsv_eq r g b Hr Hg Hb) as (s & E & C & B & Z).
  exists (hue r g b), s, (value r g b). split; [exact E|]. split; [|split].
  - intros w W. destruct (rgb2hsv_eq (r + w) (g + w) (b + w)) as (s' & E' & _); try lra.
    exists s'. rewrite E', hue_add. do 2 f_equal. unfold value, Rmax. repeat destruct (Rle_dec _ _); lra.
  - intros k K. destruct (rgb2hsv_eq (k * r) (k * g) (k * b)) as (s' & E' & C' & B' & Z'); try nra.
    assert (V : value (k * r) (k * g) (k * b) = k * value r g b).
    { unfold value. rewrite !RmaxRmult by lra. reflexivity. }
    assert (CC : chroma (k * r) (k * g) (k * b) = k * chroma r g b).
    { unfold chroma. replace (k * r * (k * r) + k * g * (k * g) + k * b * (k * b) - k * r * (k * g) - k * g * (k * b) - k * b * (k * r))
        with (k * k * (r * r + g * g + b * b - r * g - g * b - b * r)) by ring.
      rewrite sqrt_mult; [|nra|apply chroma_arg]. rewrite sqrt_square by lra. reflexivity. }
    rewrite E', hue_scale, V by exact K. do 2 f_equal. f_equal.
    rewrite V, CC, <- C in C'. destruct (Req_dec (value r g b) 0) as [V0|V0].
    + rewrite V0, Rmult_0_r in V. rewrite (Z V0), (Z' V). reflexivity.
    + apply (Rmult_eq_reg_r (k * value r g b)); [rewrite C'; ring|]. apply Rmult_integral_contrapositive. split; lra.
  - intros N. destruct (rgb2hsv_eq b r g) as (s' & E' & C' & B' & Z'); try assumption.
    exists (hue b r g). assert (CN : chroma r g b <> 0) by (intros Q; apply N, chroma_0, Q).
    split; [|apply hue_turn, CN].
    assert (V : value b r g = value r g b) by (unfold value, Rmax; repeat destruct (Rle_dec _ _); lra).
    assert (CC : chroma b r g = chroma r g b) by (unfold chroma; f_equal; ring).
    rewrite E', V. do 2 f_equal. f_equal. rewrite V, CC, <- C in C'.
    apply (Rmult_eq_reg_r (value r g b)); [exact C'|]. intros V0. rewrite V0, Rmult_0_r in C. congruence.
Qed.
Print Assumptions C116_symmetry.
Example C116_nonvacuous : rgb2hsv 1 0 0 = Ret (0, 1, 1).
Proof.
  destruct (rgb2hsv_eq 1 0 0) as (s & E & C & _); try lra.
  assert (V : value 1 0 0 = 1) by (unfold value, Rmax; repeat destruct (Rle_dec _ _); lra).
  assert (K : chroma 1 0 0 = 1).
  { unfold chroma. replace (1 * 1 + 0 * 0 + 0 * 0 - 1 * 0 - 0 * 0 - 0 * 1) with 1 by ring. apply sqrt_1. }
  assert (Hh : hue 1 0 0 = 0).
  { unfold hue. replace (sqrt 3 / 2 * (0 - 0)) with (sin 0) by (rewrite sin_0; ring).
    replace (1 / 2 * (2 * 1 - 0 - 0)) with (cos 0) by (rewrite cos_0; field). apply atan2_sincos. pose proof PI_RGT_0. lra. }
  rewrite V, K in C. assert (S : s = 1) by lra. rewrite E, V, Hh, S. reflexivity.
Qed.
