(** Proofs about the rotation matrix to quaternion conversion. *)

From Coq Require Import Reals Lra Psatz List.
From Coq Require Import Nsatz.
From Verif Require Import TfModel TfSpec TfProofs.
Open Scope R_scope.
(** ** Rotation matrix to quaternion *)

(** The ten products 4 q_i q_j written with matrix entries. *)
Definition quat_products (M : M33) (q : Q4) : Prop :=
  4 * (qx q * qx q) = 1 + m00 M - m11 M - m22 M /\
  4 * (qy q * qy q) = 1 + m11 M - m00 M - m22 M /\
  4 * (qz q * qz q) = 1 + m22 M - m00 M - m11 M /\
  4 * (qw q * qw q) = 1 + m00 M + m11 M + m22 M /\
  4 * (qx q * qy q) = m01 M + m10 M /\
  4 * (qx q * qz q) = m02 M + m20 M /\
  4 * (qy q * qz q) = m12 M + m21 M /\
  4 * (qx q * qw q) = m21 M - m12 M /\
  4 * (qy q * qw q) = m02 M - m20 M /\
  4 * (qz q * qw q) = m10 M - m01 M.

Lemma quat_products_ok M q : quat_products M q -> unitq q /\ quat2rotmat q = M.
Proof.
  intros (H1 & H2 & H3 & H4 & H5 & H6 & H7 & H8 & H9 & H10).
  split.
  - tfd. tfc. lra.
  - tfd. tfc. f_equal; lra.
Qed.
Lemma quat_products_neg M q : quat_products M q -> quat_products M (qneg q).
Proof.
  intros (H1 & H2 & H3 & H4 & H5 & H6 & H7 & H8 & H9 & H10).
  unfold quat_products. tfd. tfc. repeat split; lra.
Qed.

(** Rank-one identities between the products for a proper rotation. *)
Section Rank.
Variables a b c d e f g h i : R.
Hypothesis P : proper_rotation (mkM a b c d e f g h i).

Lemma rank_facts :
  (a*a + b*b + c*c = 1 /\ d*d + e*e + f*f = 1 /\ g*g + h*h + i*i = 1) /\
  (a*a + d*d + g*g = 1 /\ b*b + e*e + h*h = 1 /\ c*c + f*f + i*i = 1) /\
  (a*d + b*e + c*f = 0 /\ a*g + b*h + c*i = 0 /\ d*g + e*h + f*i = 0) /\
  (a*b + d*e + g*h = 0 /\ a*c + d*f + g*i = 0 /\ b*c + e*f + h*i = 0) /\
  (a = e*i - f*h /\ b = f*g - d*i /\ c = d*h - e*g /\
   d = h*c - i*b /\ e = i*a - g*c /\ f = g*b - h*a /\
   g = b*f - c*e /\ h = c*d - a*f /\ i = a*e - b*d).
Proof.
  pose proof (proper_rows _ P) as HR. pose proof (proper_cofactors _ P) as HC.
  destruct P as (H0 & H1 & H2 & H01 & H02 & H12 & Hd).
  tfc. injection HR; intros. repeat split; lra.
Qed.
End Rank.

Lemma from_w M r : proper_rotation M -> 0 < r -> r * r = 1 + m00 M + m11 M + m22 M ->
  quat_products M (mkQ ((m21 M - m12 M) * (/2 / r)) ((m02 M - m20 M) * (/2 / r))
                       ((m10 M - m01 M) * (/2 / r)) (r / 2)).
Proof.
  intros P Hr Hrr. destruct M as [a b c d e f g h i]. cbn [m00 m10 m20 m01 m11 m21 m02 m12 m22] in *.
  pose proof (rank_facts _ _ _ _ _ _ _ _ _ P) as
    ((A1 & A2 & A3) & (B1 & B2 & B3) & (C1 & C2 & C3) & (D1 & D2 & D3) & (E0 & E1 & E2 & E3 & E4 & E5 & E6 & E7 & E8)).
  clear P.
  assert (S : forall x y z, x * y = z * (r * r) -> 4 * (x * (/2/r) * (y * (/2 / r))) = z).
  { intros x y z E. replace (4 * (x * (/2/r) * (y * (/2 / r)))) with (x * y / (r*r)) by (field; lra).
    rewrite E. field. lra. }
  assert (S2 : forall x, 4 * (x * (/2/r) * (r / 2)) = x) by (intros; field; lra).
  unfold quat_products; cbn [m00 m10 m20 m01 m11 m21 m02 m12 m22 qx qy qz qw].
  rewrite Hrr in S.
  repeat split; try apply S2; try (apply S; nsatz).
  replace (4 * (r / 2 * (r / 2))) with (r * r) by field. lra.
Qed.

Lemma from_x M r : proper_rotation M -> 0 < r -> r * r = 1 + m00 M - m11 M - m22 M ->
  quat_products M (mkQ (r / 2) ((m01 M + m10 M) * (/2 / r)) ((m20 M + m02 M) * (/2 / r)) ((m21 M - m12 M) * (/2 / r))).
Proof.
  intros P Hr Hrr. destruct M as [a b c d e f g h i]. cbn [m00 m10 m20 m01 m11 m21 m02 m12 m22] in *.
  pose proof (rank_facts _ _ _ _ _ _ _ _ _ P) as
    ((A1 & A2 & A3) & (B1 & B2 & B3) & (C1 & C2 & C3) & (D1 & D2 & D3) & (E0 & E1 & E2 & E3 & E4 & E5 & E6 & E7 & E8)).
  clear P.
  assert (S : forall x y z, x * y = z * (r * r) -> 4 * (x * (/2/r) * (y * (/2 / r))) = z).
  { intros x y z E. replace (4 * (x * (/2/r) * (y * (/2 / r)))) with (x * y / (r*r)) by (field; lra).
    rewrite E. field. lra. }
  assert (S2 : forall x, 4 * (x * (/2/r) * (r / 2)) = x) by (intros; field; lra).
  assert (S3 : forall x, 4 * (r / 2 * (x * (/2/r))) = x) by (intros; field; lra).
  assert (S4 : 4 * (r / 2 * (r / 2)) = r * r) by field.
  unfold quat_products; cbn [m00 m10 m20 m01 m11 m21 m02 m12 m22 qx qy qz qw].
  rewrite Hrr in S.
  rewrite ?S4, ?S2, ?S3.
  repeat split; try lra; try (apply S; nsatz).
Qed.

Lemma from_y M r : proper_rotation M -> 0 < r -> r * r = 1 + m11 M - m22 M - m00 M ->
  quat_products M (mkQ ((m01 M + m10 M) * (/2 / r)) (r / 2) ((m12 M + m21 M) * (/2 / r)) ((m02 M - m20 M) * (/2 / r))).
Proof.
  intros P Hr Hrr. destruct M as [a b c d e f g h i]. cbn [m00 m10 m20 m01 m11 m21 m02 m12 m22] in *.
  pose proof (rank_facts _ _ _ _ _ _ _ _ _ P) as
    ((A1 & A2 & A3) & (B1 & B2 & B3) & (C1 & C2 & C3) & (D1 & D2 & D3) & (E0 & E1 & E2 & E3 & E4 & E5 & E6 & E7 & E8)).
  clear P.
  assert (S : forall x y z, x * y = z * (r * r) -> 4 * (x * (/2/r) * (y * (/2 / r))) = z).
  { intros x y z E. replace (4 * (x * (/2/r) * (y * (/2 / r)))) with (x * y / (r*r)) by (field; lra).
    rewrite E. field. lra. }
  assert (S2 : forall x, 4 * (x * (/2/r) * (r / 2)) = x) by (intros; field; lra).
  assert (S3 : forall x, 4 * (r / 2 * (x * (/2/r))) = x) by (intros; field; lra).
  assert (S4 : 4 * (r / 2 * (r / 2)) = r * r) by field.
  unfold quat_products; cbn [m00 m10 m20 m01 m11 m21 m02 m12 m22 qx qy qz qw].
  rewrite Hrr in S.
  rewrite ?S4, ?S2, ?S3.
  repeat split; try lra; try (apply S; nsatz).
Qed.

Lemma from_z M r : proper_rotation M -> 0 < r -> r * r = 1 + m22 M - m00 M - m11 M ->
  quat_products M (mkQ ((m20 M + m02 M) * (/2 / r)) ((m12 M + m21 M) * (/2 / r)) (r / 2) ((m10 M - m01 M) * (/2 / r))).
Proof.
  intros P Hr Hrr. destruct M as [a b c d e f g h i]. cbn [m00 m10 m20 m01 m11 m21 m02 m12 m22] in *.
  pose proof (rank_facts _ _ _ _ _ _ _ _ _ P) as
    ((A1 & A2 & A3) & (B1 & B2 & B3) & (C1 & C2 & C3) & (D1 & D2 & D3) & (E0 & E1 & E2 & E3 & E4 & E5 & E6 & E7 & E8)).
  clear P.
  assert (S : forall x y z, x * y = z * (r * r) -> 4 * (x * (/2/r) * (y * (/2 / r))) = z).
  { intros x y z E. replace (4 * (x * (/2/r) * (y * (/2 / r)))) with (x * y / (r*r)) by (field; lra).
    rewrite E. field. lra. }
  assert (S2 : forall x, 4 * (x * (/2/r) * (r / 2)) = x) by (intros; field; lra).
  assert (S3 : forall x, 4 * (r / 2 * (x * (/2/r))) = x) by (intros; field; lra).
  assert (S4 : 4 * (r / 2 * (r / 2)) = r * r) by field.
  unfold quat_products; cbn [m00 m10 m20 m01 m11 m21 m02 m12 m22 qx qy qz qw].
  rewrite Hrr in S.
  rewrite ?S4, ?S2, ?S3.
  repeat split; try lra; try (apply S; nsatz).
Qed.

Lemma sqrt_pos_sq x : 0 < x -> 0 < sqrt x /\ sqrt x * sqrt x = x.
Proof. intros. split; [now apply sqrt_lt_R0 | apply sqrt_sqrt; lra]. Qed.

Lemma rotmat2quat_ok M : proper_rotation M ->
  unitq (rotmat2quat M) /\ quat2rotmat (rotmat2quat M) = M.
Proof.
  intros P.
  assert (G : forall q, quat_products M q ->
     unitq (qnormalize q) /\ quat2rotmat (qnormalize q) = M).
  { intros q Hq. apply quat_products_ok in Hq as [U E]. rewrite (qnormalize_id q U). now split. }
  assert (G2 : forall q, quat_products M q -> quat_products M (qminimize q)).
  { intros q Hq. destruct (qminimize_cases q) as [[-> _] | [-> _]]; [assumption|].
    now apply quat_products_neg. }
  unfold rotmat2quat. cbv zeta.
  destruct (Rgt_dec (m00 M + m11 M + m22 M) 0) as [Ht|Ht].
  - apply G.
    destruct (sqrt_pos_sq (m00 M + m11 M + m22 M + 1)) as [S1 S2]; [lra|].
    apply from_w; [assumption|assumption|]. rewrite S2. ring.
  - apply G, G2.
    destruct (Rlt_dec (m00 M) (m11 M)); [destruct (Rlt_dec (m11 M) (m22 M)) | destruct (Rlt_dec (m00 M) (m22 M))].
    + destruct (sqrt_pos_sq (1 + m22 M - m00 M - m11 M)) as [S1 S2]; [lra|].
      now apply from_z.
    + destruct (sqrt_pos_sq (1 + m11 M - m22 M - m00 M)) as [S1 S2]; [lra|].
      now apply from_y.
    + destruct (sqrt_pos_sq (1 + m22 M - m00 M - m11 M)) as [S1 S2]; [lra|].
      now apply from_z.
    + destruct (sqrt_pos_sq (1 + m00 M - m11 M - m22 M)) as [S1 S2]; [lra|].
      now apply from_x.
Qed.

(** Two unit quaternions with the same matrix are equal up to sign. *)
Lemma quat2rotmat_inj a b : unitq a -> unitq b -> quat2rotmat a = quat2rotmat b ->
  a = b \/ a = qneg b.
Proof.
  intros Ha Hb E.
  assert (N : norm2 (qsub a b) * norm2 (qadd a b) = 0).
  { destruct a as [a1 a2 a3 a4], b as [b1 b2 b3 b4]. tfc. injection E; intros.
    assert (T : (a1*b1 + a2*b2 + a3*b3 + a4*b4)*(a1*b1 + a2*b2 + a3*b3 + a4*b4) = 1).
    { assert (X11: a1*a1 = b1*b1) by lra. assert (X22: a2*a2 = b2*b2) by lra.
      assert (X33: a3*a3 = b3*b3) by lra. assert (X44: a4*a4 = b4*b4) by lra.
      assert (X12: a1*a2 = b1*b2) by lra. assert (X13: a1*a3 = b1*b3) by lra.
      assert (X23: a2*a3 = b2*b3) by lra. assert (X14: a1*a4 = b1*b4) by lra.
      assert (X24: a2*a4 = b2*b4) by lra. assert (X34: a3*a4 = b3*b4) by lra.
      transitivity ((a1*a1)*(b1*b1) + (a2*a2)*(b2*b2) + (a3*a3)*(b3*b3) + (a4*a4)*(b4*b4)
        + 2*((a1*a2)*(b1*b2) + (a1*a3)*(b1*b3) + (a2*a3)*(b2*b3)
             + (a1*a4)*(b1*b4) + (a2*a4)*(b2*b4) + (a3*a4)*(b3*b4))); [ring|].
      rewrite X11, X22, X33, X44, X12, X13, X23, X14, X24, X34.
      transitivity ((b1*b1 + b2*b2 + b3*b3 + b4*b4)*(b1*b1 + b2*b2 + b3*b3 + b4*b4)); [ring|].
      rewrite Hb. ring. }
    transitivity (((a1*a1+a2*a2+a3*a3+a4*a4) + (b1*b1+b2*b2+b3*b3+b4*b4)) * ((a1*a1+a2*a2+a3*a3+a4*a4) + (b1*b1+b2*b2+b3*b3+b4*b4)) - 4 * ((a1*b1 + a2*b2 + a3*b3 + a4*b4)*(a1*b1 + a2*b2 + a3*b3 + a4*b4))); [ring|].
    rewrite T, Ha, Hb. ring. }
  assert (Z : forall q, norm2 q = 0 -> q = mkQ 0 0 0 0).
  { intros [x y z w]; tfc. intros. f_equal; nra. }
  apply Rmult_integral in N as [N|N]; apply Z in N.
  - left. destruct a as [a1 a2 a3 a4], b as [b1 b2 b3 b4]; tfc. injection N; intros. f_equal; lra.
  - right. destruct a as [a1 a2 a3 a4], b as [b1 b2 b3 b4]; tfc. injection N; intros. f_equal; lra.
Qed.

Lemma rotmat2quat_quat2rotmat q : unitq q ->
  rotmat2quat (quat2rotmat q) = q \/ rotmat2quat (quat2rotmat q) = qneg q.
Proof.
  intros U. destruct (rotmat2quat_ok _ (quat2rotmat_proper q U)) as [U2 E].
  apply quat2rotmat_inj; assumption.
Qed.

Lemma qnormalize_sign q : norm2 q <> 0 -> 0 <= qw q -> 0 <= qw (qnormalize q).
Proof.
  intros Hn Hw. unfold qnormalize, qdivs; cbn [qw].
  assert (0 < qnorm q).
  { rewrite qnorm_eq. apply sqrt_lt_R0. pose proof (norm2_nonneg q). lra. }
  apply Rle_mult_inv_pos; assumption.
Qed.

Lemma rotmat2quat_w_nonneg M : proper_rotation M -> 0 <= qw (rotmat2quat M).
Proof.
  intros P.
  assert (G : forall q, quat_products M q -> 0 <= qw q -> 0 <= qw (qnormalize q)).
  { intros q Hq Hw. apply quat_products_ok in Hq as [U E]. rewrite (qnormalize_id q U). assumption. }
  assert (G2 : forall q, quat_products M q -> 0 <= qw (qnormalize (qminimize q))).
  { intros q Hq. destruct (qminimize_cases q) as [[-> W] | [-> W]].
    - now apply G.
    - apply G; [now apply quat_products_neg|]. destruct q; cbn in *. lra. }
  unfold rotmat2quat. cbv zeta.
  destruct (Rgt_dec (m00 M + m11 M + m22 M) 0) as [Ht|Ht].
  - destruct (sqrt_pos_sq (m00 M + m11 M + m22 M + 1)) as [S1 S2]; [lra|].
    apply G; [|cbn [qw]; lra].
    apply from_w; [assumption|assumption|]. rewrite S2. ring.
  - apply G2.
    destruct (Rlt_dec (m00 M) (m11 M)); [destruct (Rlt_dec (m11 M) (m22 M)) | destruct (Rlt_dec (m00 M) (m22 M))].
    + destruct (sqrt_pos_sq (1 + m22 M - m00 M - m11 M)) as [S1 S2]; [lra|].
      now apply from_z.
    + destruct (sqrt_pos_sq (1 + m11 M - m22 M - m00 M)) as [S1 S2]; [lra|].
      now apply from_y.
    + destruct (sqrt_pos_sq (1 + m22 M - m00 M - m11 M)) as [S1 S2]; [lra|].
      now apply from_z.
    + destruct (sqrt_pos_sq (1 + m00 M - m11 M - m22 M)) as [S1 S2]; [lra|].
      now apply from_x.
Qed.
