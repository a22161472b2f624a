(** Proofs about the spatial transform model: algebra. *)

From Coq Require Import Reals Lra Psatz List.
From Coq Require Import Nsatz.
From Verif Require Import TfModel TfSpec.
Open Scope R_scope.

(** ** Tactics *)

Ltac tfd :=
  repeat match goal with
  | x : V3 |- _ => destruct x
  | x : Q4 |- _ => destruct x
  | x : M33 |- _ => destruct x
  | x : TF |- _ => destruct x
  | x : DQ |- _ => destruct x
  | x : QV |- _ => destruct x
  | x : DX |- _ => destruct x
  | x : AX |- _ => destruct x
  end.

Ltac tfc := cbv [
  vscale vadd vsub vneg vdivs vdot cross cross_a qv mkqv qscal qadd qsub qneg qdivs qident
  qdot qconj qinv qmul qmul_a qcmul qmulc_v qmulc qmul_vq qmul_qv_v qmul_qv qrot1 qrot
  m44_app qmatrix_l qmatrix_r qdiff2vel qvel2diff dmul dsmul dadd dsub dconj dcmul dmulc
  dtrans duqu_tf duqu_matrix_l_app duqu_matrix_r_app xyz2duqu duqu2pure pure2duqu
  qv_vel2twist qv_twist2vel duqu_vel2twist duqu_twist2vel duqu_twist2diff duqu_diff2vel
  duqu_diff2twist duqu_vel2diff tf_qv qutr_tf qutr_mul qutr_conj qutr_cmul qutr_mulc
  qutr_twist2vel qutr_diff2vel qutr_vel2diff mrot tfmat_tf mmul tfmat_mul mtrans tfmat_inv
  tfmat_rel rotmat_rel skew_sym skewsym_scal_c skewsym_scal2 unskewsym_scal
  rotmat_vel2diff tfmat_vel2diff mcols mcol0 mcol1 quat2rotmat qutr2duqu duqu2qutr qutr2tfmat
  duqu2tfmat axang2rotvec
  dot xprod plus3 times3 zero3 vecpart hamilton norm2 unitq pure conjugate ident3 col0 col1 col2
  proper_rotation unit_qutr unit_duqu proper_tfmat ident_qutr ident_duqu ident_tfmat nonzero3 unit3
  vx vy vz qx qy qz qw m00 m10 m20 m01 m11 m21 m02 m12 m22 tR tv dreal ddual eq ev dxv dxw
  axis angle c0 c1 c2 c3 ] in *.

Ltac tfeq := repeat match goal with |- mkV _ _ _ = mkV _ _ _ => f_equal
  | |- mkQ _ _ _ _ = mkQ _ _ _ _ => f_equal
  | |- mkM _ _ _ _ _ _ _ _ _ = mkM _ _ _ _ _ _ _ _ _ => f_equal
  | |- mkT _ _ = mkT _ _ => f_equal
  | |- mkD _ _ = mkD _ _ => f_equal
  | |- mkE _ _ = mkE _ _ => f_equal
  | |- mkDX _ _ = mkDX _ _ => f_equal
  | |- _ /\ _ => split end.

Ltac tfring := intros; tfd; tfc; tfeq; try ring; try field.
Ltac tfnsatz := intros; tfd; tfc; tfeq; try ring; try nsatz.

(** ** Quaternions *)

Lemma qmul_hamilton a b : qmul a b = hamilton a b.
Proof. tfring. Qed.
Lemma qmul_assoc a b c : qmul a (qmul b c) = qmul (qmul a b) c.
Proof. tfring. Qed.
Lemma qmul_ident_l a : qmul qident a = a.
Proof. tfring. Qed.
Lemma qmul_ident_r a : qmul a qident = a.
Proof. tfring. Qed.
Lemma norm2_mul a b : norm2 (qmul a b) = norm2 a * norm2 b.
Proof. tfring. Qed.
Lemma qconj_mul a b : qconj (qmul a b) = qmul (qconj b) (qconj a).
Proof. tfring. Qed.
Lemma qmul_conj_r a : qmul a (qconj a) = mkQ 0 0 0 (norm2 a).
Proof. tfring. Qed.
Lemma qmul_conj_l a : qmul (qconj a) a = mkQ 0 0 0 (norm2 a).
Proof. tfring. Qed.
Lemma qinv_r a : norm2 a <> 0 -> qmul a (qinv a) = qident.
Proof. intros H. tfd. tfc. tfeq; field; lra. Qed.
Lemma qinv_l a : norm2 a <> 0 -> qmul (qinv a) a = qident.
Proof. intros H. tfd. tfc. tfeq; field; lra. Qed.

Lemma qrot_sandwich q p : norm2 q = 1 ->
  pure (qrot q p) = hamilton (hamilton q (pure p)) (conjugate q).
Proof. tfnsatz. Qed.

Lemma hamilton_assoc a b c : hamilton a (hamilton b c) = hamilton (hamilton a b) c.
Proof. tfring. Qed.
Lemma conjugate_hamilton a b : conjugate (hamilton a b) = hamilton (conjugate b) (conjugate a).
Proof. tfring. Qed.
Lemma pure_inj a b : pure a = pure b -> a = b.
Proof. destruct a, b. unfold pure; cbn. congruence. Qed.
Lemma norm2_hamilton a b : norm2 (hamilton a b) = norm2 a * norm2 b.
Proof. tfring. Qed.
Lemma unitq_mul a b : unitq a -> unitq b -> unitq (qmul a b).
Proof. unfold unitq; intros Ha Hb; rewrite norm2_mul, Ha, Hb; ring. Qed.
Lemma unitq_conj a : unitq a -> unitq (qconj a).
Proof. intros; tfd; tfc; lra. Qed.
Lemma unitq_neg a : unitq a -> unitq (qneg a).
Proof. intros; tfd; tfc; lra. Qed.
Lemma unitq_ident : unitq qident.
Proof. tfc; lra. Qed.

Lemma qrot_mul a b p : unitq a -> unitq b -> qrot (qmul a b) p = qrot a (qrot b p).
Proof.
  intros Ha Hb. apply pure_inj.
  rewrite (qrot_sandwich a) by exact Ha. rewrite (qrot_sandwich b) by exact Hb.
  rewrite qrot_sandwich by (apply unitq_mul; assumption).
  rewrite qmul_hamilton, conjugate_hamilton, !hamilton_assoc. reflexivity.
Qed.

Lemma qrot_ident p : qrot qident p = p.
Proof. tfring. Qed.
Lemma qrot1_qrot q p : qrot1 q p = qrot q p.
Proof. tfring. Qed.
Lemma qrot_neg q p : qrot (qneg q) p = qrot q p.
Proof. tfring. Qed.
Lemma qrot_dot q a b : unitq q -> dot (qrot q a) (qrot q b) = dot a b.
Proof. tfnsatz. Qed.
Lemma qrot_cross q a b : unitq q -> qrot q (xprod a b) = xprod (qrot q a) (qrot q b).
Proof. tfnsatz. Qed.
Lemma qrot_rotation q : unitq q -> rotation_map (qrot q).
Proof.
  intros H. constructor; intros.
  - tfring.
  - tfring.
  - now apply qrot_dot.
  - now apply qrot_cross.
Qed.

Lemma qnorm_eq q : qnorm q = sqrt (norm2 q).
Proof. unfold qnorm. f_equal. Qed.
Lemma norm2_nonneg q : 0 <= norm2 q.
Proof. tfd; tfc; nra. Qed.
Lemma qnorm_mul a b : qnorm (qmul a b) = qnorm a * qnorm b.
Proof. rewrite !qnorm_eq, norm2_mul. apply sqrt_mult; apply norm2_nonneg. Qed.
Lemma norm2_divs q k : k <> 0 -> norm2 (qdivs q k) = norm2 q / (k * k).
Proof. intros. tfd; tfc. field. assumption. Qed.
Lemma qnormalize_unit q : norm2 q <> 0 -> unitq (qnormalize q).
Proof.
  intros H. pose proof (norm2_nonneg q).
  assert (Hs : sqrt (norm2 q) * sqrt (norm2 q) = norm2 q) by (apply sqrt_sqrt; assumption).
  unfold unitq, qnormalize. rewrite qnorm_eq, norm2_divs.
  - rewrite Hs. field. assumption.
  - intros E. rewrite E in Hs. lra.
Qed.
Lemma qnormalize_id q : unitq q -> qnormalize q = q.
Proof.
  intros H. unfold qnormalize. rewrite qnorm_eq, H, sqrt_1. tfring.
Qed.
Lemma qmulnorm_unit a b : unitq a -> unitq b -> qmulnorm a b = qmul a b.
Proof. intros. apply qnormalize_id. now apply unitq_mul. Qed.
Lemma qminimize_cases q : (qminimize q = q /\ 0 <= qw q) \/ (qminimize q = qneg q /\ qw q < 0).
Proof.
  unfold qminimize. destruct (Rlt_dec (qw q) 0).
  - right. split; [|assumption]. tfring.
  - left. split; [reflexivity | lra].
Qed.
Lemma qcmul_eq a b : qcmul a b = hamilton (conjugate a) b.
Proof. tfring. Qed.
Lemma qmulc_eq a b : qmulc a b = hamilton a (conjugate b).
Proof. tfring. Qed.
Lemma qmulc_v_eq a b : qmulc_v a b = vecpart (hamilton a (conjugate b)).
Proof. tfring. Qed.
Lemma qmul_a_eq a b c : qmul_a a b c = qadd c (hamilton a b).
Proof. tfring. Qed.
Lemma qmul_vq_eq v q : qmul_vq v q = hamilton (pure v) q.
Proof. tfring. Qed.
Lemma qmul_qv_eq q v : qmul_qv q v = hamilton q (pure v).
Proof. tfring. Qed.
Lemma qmatrix_l_eq a b : m44_app (qmatrix_l a) b = hamilton a b.
Proof. tfring. Qed.
Lemma qmatrix_r_eq a b : m44_app (qmatrix_r a) b = hamilton b a.
Proof. tfring. Qed.
Lemma qrel_spec q1 q2 : norm2 q2 <> 0 -> qmul (qrel q1 q2) q2 = q1.
Proof.
  intros. unfold qrel. rewrite <- qmul_assoc, qinv_l by assumption. apply qmul_ident_r.
Qed.

(** ** Matrices *)

Lemma mmul_assoc a b c : mmul a (mmul b c) = mmul (mmul a b) c.
Proof. tfring. Qed.
Lemma mrot_mul a b p : mrot (mmul a b) p = mrot a (mrot b p).
Proof. tfring. Qed.
Lemma mmul_ident_l a : mmul ident3 a = a.
Proof. tfring. Qed.
Lemma mmul_ident_r a : mmul a ident3 = a.
Proof. tfring. Qed.
Lemma qrot_mrot q p : qrot q p = mrot (quat2rotmat q) p.
Proof. tfring. Qed.
Lemma mrot_ext A B : (forall p, mrot A p = mrot B p) -> A = B.
Proof.
  intros H.
  pose proof (H (mkV 1 0 0)) as H1. pose proof (H (mkV 0 1 0)) as H2.
  pose proof (H (mkV 0 0 1)) as H3.
  tfd. tfc. injection H1; injection H2; injection H3; intros. f_equal; lra.
Qed.
Lemma quat2rotmat_mul a b : unitq a -> unitq b ->
  quat2rotmat (qmul a b) = mmul (quat2rotmat a) (quat2rotmat b).
Proof.
  intros Ha Hb. apply mrot_ext. intros p.
  rewrite mrot_mul, <- !qrot_mrot. now apply qrot_mul.
Qed.
Lemma quat2rotmat_conj a : quat2rotmat (qconj a) = mtrans (quat2rotmat a).
Proof. tfring. Qed.
Lemma quat2rotmat_neg a : quat2rotmat (qneg a) = quat2rotmat a.
Proof. tfring. Qed.
Lemma quat2rotmat_proper q : unitq q -> proper_rotation (quat2rotmat q).
Proof. tfnsatz. Qed.

(** ** Proper rotations: rows, cofactors *)

Lemma sumsq0 x y z : x*x + y*y + z*z = 0 -> x = 0 /\ y = 0 /\ z = 0.
Proof. intros. repeat split; nra. Qed.

Lemma proper_cofactors M : proper_rotation M ->
  m00 M = m11 M * m22 M - m21 M * m12 M /\
  m10 M = m21 M * m02 M - m01 M * m22 M /\
  m20 M = m01 M * m12 M - m11 M * m02 M /\
  m01 M = m12 M * m20 M - m22 M * m10 M /\
  m11 M = m22 M * m00 M - m02 M * m20 M /\
  m21 M = m02 M * m10 M - m12 M * m00 M /\
  m02 M = m10 M * m21 M - m20 M * m11 M /\
  m12 M = m20 M * m01 M - m00 M * m21 M /\
  m22 M = m00 M * m11 M - m10 M * m01 M.
Proof.
  intros H.
  assert (A : forall a b c : V3, dot a a = 1 -> dot b b = 1 -> dot c c = 1 -> dot b c = 0 ->
            dot a (xprod b c) = 1 -> a = xprod b c).
  { intros a b c Ha Hb Hc Hbc Hd.
    assert (E : (vx a - vx (xprod b c)) * (vx a - vx (xprod b c))
              + (vy a - vy (xprod b c)) * (vy a - vy (xprod b c))
              + (vz a - vz (xprod b c)) * (vz a - vz (xprod b c)) = 0).
    { assert (L : dot (xprod b c) (xprod b c) = dot b b * dot c c - dot b c * dot b c) by tfring.
      rewrite Hb, Hc, Hbc in L.
      transitivity (dot a a - 2 * dot a (xprod b c) + dot (xprod b c) (xprod b c)); [tfring|].
      rewrite Ha, Hd, L. ring. }
    apply sumsq0 in E as (E1 & E2 & E3). destruct a as [a1 a2 a3]; cbn [vx vy vz] in *.
    transitivity (mkV (vx (xprod b c)) (vy (xprod b c)) (vz (xprod b c))); [f_equal; lra|reflexivity]. }
  destruct H as (H0 & H1 & H2 & H01 & H02 & H12 & Hd).
  pose proof (A (col0 M) (col1 M) (col2 M) H0 H1 H2 H12 Hd) as E0.
  pose proof (A (col1 M) (col2 M) (col0 M) H1 H2 H0) as E1.
  pose proof (A (col2 M) (col0 M) (col1 M) H2 H0 H1 H01) as E2.
  assert (D1 : dot (col1 M) (xprod (col2 M) (col0 M)) = 1) by (rewrite <- Hd; tfring).
  assert (D2 : dot (col2 M) (xprod (col0 M) (col1 M)) = 1) by (rewrite <- Hd; tfring).
  assert (H20 : dot (col2 M) (col0 M) = 0) by (rewrite <- H02; tfring).
  specialize (E1 H20 D1). specialize (E2 D2).
  clear - E0 E1 E2. tfd. tfc. injection E0; injection E1; injection E2; intros.
  repeat split; assumption.
Qed.

Lemma proper_rows M : proper_rotation M -> mmul M (mtrans M) = ident3.
Proof.
  intros H. pose proof (proper_cofactors M H) as C.
  destruct H as (H0 & H1 & H2 & H01 & H02 & H12 & Hd).
  destruct M as [a b c d e f g h i]. tfc.
  destruct C as (C0 & C1 & C2 & C3 & C4 & C5 & C6 & C7 & C8).
  assert (F : forall x y, x = y -> forall k, k * x = k * y) by (intros; subst; reflexivity).
  f_equal.
  - pose proof (F _ _ C0 a); pose proof (F _ _ C3 d); pose proof (F _ _ C6 g); lra.
  - pose proof (F _ _ C0 b); pose proof (F _ _ C3 e); pose proof (F _ _ C6 h); lra.
  - pose proof (F _ _ C0 c); pose proof (F _ _ C3 f); pose proof (F _ _ C6 i); lra.
  - pose proof (F _ _ C1 a); pose proof (F _ _ C4 d); pose proof (F _ _ C7 g); lra.
  - pose proof (F _ _ C1 b); pose proof (F _ _ C4 e); pose proof (F _ _ C7 h); lra.
  - pose proof (F _ _ C1 c); pose proof (F _ _ C4 f); pose proof (F _ _ C7 i); lra.
  - pose proof (F _ _ C2 a); pose proof (F _ _ C5 d); pose proof (F _ _ C8 g); lra.
  - pose proof (F _ _ C2 b); pose proof (F _ _ C5 e); pose proof (F _ _ C8 h); lra.
  - pose proof (F _ _ C2 c); pose proof (F _ _ C5 f); pose proof (F _ _ C8 i); lra.
Qed.

Lemma proper_cols M : proper_rotation M -> mmul (mtrans M) M = ident3.
Proof.
  intros (H0 & H1 & H2 & H01 & H02 & H12 & Hd). tfd. tfc. f_equal; lra.
Qed.

Lemma det_mul A B :
  dot (col0 (mmul A B)) (xprod (col1 (mmul A B)) (col2 (mmul A B)))
  = dot (col0 A) (xprod (col1 A) (col2 A)) * dot (col0 B) (xprod (col1 B) (col2 B)).
Proof. tfring. Qed.

Lemma proper_iff M :
  proper_rotation M <->
  mmul (mtrans M) M = ident3 /\ dot (col0 M) (xprod (col1 M) (col2 M)) = 1.
Proof.
  split.
  - intros H. split; [now apply proper_cols|]. apply H.
  - intros [H D]. destruct M; tfc. injection H; intros. repeat split; lra.
Qed.

Lemma mtrans_mul A B : mtrans (mmul A B) = mmul (mtrans B) (mtrans A).
Proof. tfring. Qed.

Lemma proper_mul A B : proper_rotation A -> proper_rotation B -> proper_rotation (mmul A B).
Proof.
  rewrite !proper_iff. intros [HA DA] [HB DB]. split.
  - rewrite mtrans_mul, <- mmul_assoc, (mmul_assoc (mtrans A)), HA, mmul_ident_l. exact HB.
  - rewrite det_mul, DA, DB. ring.
Qed.
Lemma proper_trans A : proper_rotation A -> proper_rotation (mtrans A).
Proof.
  intros H. pose proof (proper_rows A H) as Hr. apply proper_iff. split.
  - replace (mtrans (mtrans A)) with A by tfring. exact Hr.
  - destruct H as (_ & _ & _ & _ & _ & _ & D). rewrite <- D. tfring.
Qed.
Lemma proper_ident : proper_rotation ident3.
Proof. tfc. repeat split; ring. Qed.
Lemma mrot_rotation M : proper_rotation M -> rotation_map (mrot M).
Proof.
  intros H. constructor; intros.
  - tfring.
  - tfring.
  - destruct H as (H0 & H1 & H2 & H01 & H02 & H12 & Hd). tfd. tfc. nsatz.
  - pose proof (proper_cofactors M H) as C. clear H. tfd. tfc.
    destruct C as (C0 & C1 & C2 & C3 & C4 & C5 & C6 & C7 & C8).
    f_equal.
    + rewrite C0, C3, C6 at 1. ring.
    + rewrite C1, C4, C7 at 1. ring.
    + rewrite C2, C5, C8 at 1. ring.
Qed.
