(** Model of amino's spatial transforms: src/tf/quat.c, src/tf/quat_ord.c,
    src/tf/quat_duqu.c, src/tf/quat_qutr.c, src/tf/tfmatrix.c, src/tf/conv.c
    and src/tf.c.

    Doubles are modelled as ideal real numbers: rounding, overflow, NaN and
    signed zeros are not modelled.  Division by zero is Coq's (unspecified,
    total) real division, so every theorem that divides states that the divisor
    is non-zero.  Array arguments are [AA_RESTRICT] in the code, so inputs and
    outputs do not overlap and a C function with output arrays becomes a pure
    function returning them.  [DBL_EPSILON] is 2^-52.  *)

From Coq Require Import Reals.
Open Scope R_scope.

(** ** Data *)

(** 3-vectors: double[3]. *)
Record V3 := mkV { vx : R; vy : R; vz : R }.

(** Quaternions: double[4], x,y,z,w (AA_TF_QUAT_X.. in
    include/amino/tf/spatial.h). *)
Record Q4 := mkQ { qx : R; qy : R; qz : R; qw : R }.

(** Rotation matrices: double[9], column major; [mRC] is the element in row R
    and column C, i.e. RREF(R,row,col) = R[col*3+row] (src/tf/tfmatrix.c:132). *)
Record M33 := mkM {
  m00 : R; m10 : R; m20 : R;
  m01 : R; m11 : R; m21 : R;
  m02 : R; m12 : R; m22 : R }.

(** Transformation matrices: double[12], rotation then translation
    (AA_TF_TFMAT_R, AA_TF_TFMAT_V). *)
Record TF := mkT { tR : M33; tv : V3 }.

(** Dual quaternions: double[8], real part then dual part
    (AA_TF_DUQU_REAL, AA_TF_DUQU_DUAL). *)
Record DQ := mkD { dreal : Q4; ddual : Q4 }.

(** Quaternion-translations: double[7], quaternion then translation
    (AA_TF_QUTR_Q, AA_TF_QUTR_V). *)
Record QV := mkE { eq : Q4; ev : V3 }.

(** Spatial velocities and twists: double[6], translational part first
    (AA_TF_DX_V = 0, AA_TF_DX_W = 3). *)
Record DX := mkDX { dxv : V3; dxw : V3 }.

(** Axis-angle: double[4], axis then angle. *)
Record AX := mkA { axis : V3; angle : R }.

(** ** Vectors *)

(** FOR_VEC(i) loops over the three elements. *)
Definition vscale (k : R) (a : V3) : V3 := mkV (k * vx a) (k * vy a) (k * vz a).
Definition vadd (a b : V3) : V3 := mkV (vx a + vx b) (vy a + vy b) (vz a + vz b).
Definition vsub (a b : V3) : V3 := mkV (vx a - vx b) (vy a - vy b) (vz a - vz b).
Definition vneg (a : V3) : V3 := mkV (- vx a) (- vy a) (- vz a).
Definition vdivs (a : V3) (k : R) : V3 := mkV (vx a / k) (vy a / k) (vz a / k).

(** AA_TF_DOTX / aa_tf_vdot: include/amino/tf/spatial.h:604-613,
    src/tf/quat_ord.c:85-89; dot3 is the same sum. *)
Definition vdot (a b : V3) : R := vx a * vx b + vy a * vy b + vz a * vz b.

(** AA_TF_CROSSX / aa_tf_cross: include/amino/tf/spatial.h:643-657,
    src/tf/quat.c:51-56. *)
Definition cross (a b : V3) : V3 :=
  mkV (vy a * vz b - vz a * vy b)
      (vz a * vx b - vx a * vz b)
      (vx a * vy b - vy a * vx b).

(** aa_tf_cross_a: src/tf/quat.c:59-68 (c += a x b). *)
Definition cross_a (a b c : V3) : V3 :=
  mkV (vx c + vy a * vz b - vz a * vy b)
      (vy c + vz a * vx b - vx a * vz b)
      (vz c + vx a * vy b - vy a * vx b).

(** aa_tf_vnorm: src/tf/quat_ord.c:103-107. *)
Definition vnorm (a : V3) : R := sqrt (vdot a a).

(** aa_tf_vnormalize: src/tf/quat_ord.c:116-121; vnormalize2:
    src/tf/tfmatrix.c:91-97. *)
Definition vnormalize (a : V3) : V3 := vdivs a (vnorm a).

(** aa_tf_vssd: src/tf/quat_ord.c:63-72. *)
Definition vssd (a b : V3) : R :=
  sqrt ((vx a - vx b) * (vx a - vx b) + (vy a - vy b) * (vy a - vy b)
        + (vz a - vz b) * (vz a - vz b)).

(** aa_tf_proj: src/tf.c:564-573. *)
Definition proj (a b : V3) : V3 := vscale (vdot a b / vdot b b) b.
(** aa_tf_proj_orth: src/tf.c:575-583. *)
Definition proj_orth (a b : V3) : V3 := vsub a (proj a b).

(** ** Ordinary quaternions: src/tf/quat_ord.c *)

(** The vector part q+AA_TF_QUAT_V of a quaternion. *)
Definition qv (q : Q4) : V3 := mkV (qx q) (qy q) (qz q).
Definition mkqv (v : V3) (w : R) : Q4 := mkQ (vx v) (vy v) (vz v) w.

(** FOR_QUAT(i) loops over the four elements; aa_tf_qscal 130-134, aa_tf_qadd
    and aa_tf_qsub: src/tf.c:101-109. *)
Definition qscal (q : Q4) (k : R) : Q4 := mkQ (qx q * k) (qy q * k) (qz q * k) (qw q * k).
Definition qadd (a b : Q4) : Q4 := mkQ (qx a + qx b) (qy a + qy b) (qz a + qz b) (qw a + qw b).
Definition qsub (a b : Q4) : Q4 := mkQ (qx a - qx b) (qy a - qy b) (qz a - qz b) (qw a - qw b).
Definition qneg (a : Q4) : Q4 := mkQ (- qx a) (- qy a) (- qz a) (- qw a).
Definition qdivs (q : Q4) (k : R) : Q4 := mkQ (qx q / k) (qy q / k) (qz q / k) (qw q / k).

(** aa_tf_quat_ident *)
Definition qident : Q4 := mkQ 0 0 0 1.

(** aa_tf_qdot: 57-61. *)
Definition qdot (a b : Q4) : R := qx a * qx b + qy a * qy b + qz a * qz b + qw a * qw b.
(** aa_tf_qnorm: 97-101. *)
Definition qnorm (q : Q4) : R := sqrt (qdot q q).
(** aa_tf_qvnorm: 109-114. *)
Definition qvnorm (q : Q4) : R := sqrt (qx q * qx q + qy q * qy q + qz q * qz q).
(** aa_tf_qnormalize: 136-141 (and 143-148, 168-173). *)
Definition qnormalize (q : Q4) : Q4 := qdivs q (qnorm q).
(** aa_tf_qminimize: 150-155 (and 157-164). *)
Definition qminimize (q : Q4) : Q4 := if Rlt_dec (qw q) 0 then qscal q (-1) else q.
(** aa_tf_qconj1 / aa_tf_qconj: 173-185. *)
Definition qconj (q : Q4) : Q4 := mkQ (- qx q) (- qy q) (- qz q) (qw q).
(** aa_tf_qinv: 188-194. *)
Definition qinv (q : Q4) : Q4 := qdivs (qconj q) (qdot q q).

(** aa_tf_qmul: 260-272. *)
Definition qmul (a b : Q4) : Q4 :=
  mkQ (qx a * qw b + qy a * qz b + qw a * qx b - qz a * qy b)
      (qz a * qx b + qw a * qy b + qy a * qw b - qx a * qz b)
      (qw a * qz b + qz a * qw b + qx a * qy b - qy a * qx b)
      (- (qy a * qy b + qx a * qx b + qz a * qz b - qw a * qw b)).

(** aa_tf_qmul_a: 274-286 (c += a b). *)
Definition qmul_a (a b c : Q4) : Q4 :=
  mkQ (qx c + qx a * qw b + qy a * qz b + qw a * qx b - qz a * qy b)
      (qy c + qz a * qx b + qw a * qy b + qy a * qw b - qx a * qz b)
      (qz c + qw a * qz b + qz a * qw b + qx a * qy b - qy a * qx b)
      (qw c - qy a * qy b - qx a * qx b - qz a * qz b + qw a * qw b).

(** aa_tf_qmulnorm: 289-294. *)
Definition qmulnorm (a b : Q4) : Q4 := qnormalize (qmul a b).

(** aa_tf_qcmul: 296-305. *)
Definition qcmul (a b : Q4) : Q4 :=
  mkQ ((qz a * qy b - qy a * qz b) + (qw a * qx b - qx a * qw b))
      ((qx a * qz b - qz a * qx b) + (qw a * qy b - qy a * qw b))
      ((qy a * qx b - qx a * qy b) + (qw a * qz b - qz a * qw b))
      ((qw a * qw b + qz a * qz b) + (qx a * qx b + qy a * qy b)).

(** aa_tf_qmulc_v: 309-318. *)
Definition qmulc_v (a b : Q4) : V3 :=
  mkV (qz a * qy b - qy a * qz b + qx a * qw b - qw a * qx b)
      (qx a * qz b - qz a * qx b + qy a * qw b - qw a * qy b)
      (qy a * qx b - qx a * qy b + qz a * qw b - qw a * qz b).

(** aa_tf_qmulc: 320-327. *)
Definition qmulc (a b : Q4) : Q4 :=
  mkqv (qmulc_v a b) ((qx a * qx b + qy a * qy b) + (qz a * qz b + qw a * qw b)).

(** aa_tf_qmul_vq: 329-339. *)
Definition qmul_vq (v : V3) (q : Q4) : Q4 :=
  mkQ (vy v * qz q - vz v * qy q + vx v * qw q)
      (vz v * qx q - vx v * qz q + vy v * qw q)
      (vx v * qy q - vy v * qx q + vz v * qw q)
      (- vdot (qv q) v).

(** aa_tf_qmul_qv_v: 341-348. *)
Definition qmul_qv_v (q : Q4) (v : V3) : V3 :=
  mkV (qy q * vz v - qz q * vy v + qw q * vx v)
      (qz q * vx v - qx q * vz v + qw q * vy v)
      (qx q * vy v - qy q * vx v + qw q * vz v).

(** aa_tf_qmul_qv: 350-355. *)
Definition qmul_qv (q : Q4) (v : V3) : Q4 :=
  mkqv (qmul_qv_v q v) (- vdot (qv q) v).

(** aa_tf_qrot1: 358-366. *)
Definition qrot1 (q : Q4) (v : V3) : V3 :=
  let a := vscale 2 (qmul_qv_v q v) in
  cross_a (qv q) a v.

(** aa_tf_qrot: 368-388. *)
Definition qrot (q : Q4) (p : V3) : V3 :=
  let k := mkV (vx p + vx p) (vy p + vy p) (vz p + vz p) in
  let a := mkV ((qy q * vz k - qz q * vy k) + qw q * vx k)
               ((qz q * vx k - qx q * vz k) + qw q * vy k)
               ((qx q * vy k - qy q * vx k) + qw q * vz k) in
  mkV (vx p + qy q * vz a - qz q * vy a)
      (vy p + qz q * vx a - qx q * vz a)
      (vz p + qx q * vy a - qy q * vx a).

(** A 4x4 matrix applied to a quaternion, given by its columns; used to model
    aa_tf_qmatrix_l 196-220 and aa_tf_qmatrix_r 222-246, whose result is used
    as a matrix acting on column vectors. *)
Record M44 := mkM44 { c0 : Q4; c1 : Q4; c2 : Q4; c3 : Q4 }.
Definition m44_app (M : M44) (p : Q4) : Q4 :=
  qadd (qadd (qscal (c0 M) (qx p)) (qscal (c1 M) (qy p)))
       (qadd (qscal (c2 M) (qz p)) (qscal (c3 M) (qw p))).
Definition qmatrix_l (q : Q4) : M44 :=
  mkM44 (mkQ (qw q) (qz q) (- qy q) (- qx q))
        (mkQ (- qz q) (qw q) (qx q) (- qy q))
        (mkQ (qy q) (- qx q) (qw q) (- qz q))
        (mkQ (qx q) (qy q) (qz q) (qw q)).
Definition qmatrix_r (q : Q4) : M44 :=
  mkM44 (mkQ (qw q) (- qz q) (qy q) (- qx q))
        (mkQ (qz q) (qw q) (- qx q) (- qy q))
        (mkQ (- qy q) (qx q) (qw q) (- qz q))
        (mkQ (qx q) (qy q) (qz q) (qw q)).

(** aa_tf_qrel: src/tf.c:94-99. *)
Definition qrel (q1 q2 : Q4) : Q4 := qmul q1 (qinv q2).

(** aa_tf_qdiff2vel: 505-510. *)
Definition qdiff2vel (q dq : Q4) : V3 := vscale 2 (qmulc_v dq q).
(** aa_tf_qvel2diff: 512-518. *)
Definition qvel2diff (q : Q4) (w : V3) : Q4 := qmul_vq (vdivs w 2) q.

(** ** Dual quaternions: src/tf/quat_duqu.c *)

(** aa_tf_duqu_mul: 81-95. *)
Definition dmul (a b : DQ) : DQ :=
  mkD (qmul (dreal a) (dreal b))
      (qmul_a (ddual a) (dreal b) (qmul (dreal a) (ddual b))).
(** aa_tf_duqu_smul: 98-104. *)
Definition dsmul (k : R) (x : DQ) : DQ := mkD (qscal (dreal x) k) (qscal (ddual x) k).
(** aa_tf_duqu_add, aa_tf_duqu_sub: 106-124. *)
Definition dadd (a b : DQ) : DQ := mkD (qadd (dreal a) (dreal b)) (qadd (ddual a) (ddual b)).
Definition dsub (a b : DQ) : DQ := mkD (qsub (dreal a) (dreal b)) (qsub (ddual a) (ddual b)).
(** aa_tf_duqu_conj: 126-140. *)
Definition dconj (s : DQ) : DQ := mkD (qconj (dreal s)) (qconj (ddual s)).
(** aa_tf_duqu_cmul, aa_tf_duqu_mulc: 143-159. *)
Definition dcmul (a b : DQ) : DQ := dmul (dconj a) b.
Definition dmulc (a b : DQ) : DQ := dmul a (dconj b).
(** aa_tf_duqu_normalize: 162-167. *)
Definition dnormalize (s : DQ) : DQ :=
  let n := qnorm (dreal s) in mkD (qdivs (dreal s) n) (qdivs (ddual s) n).
(** aa_tf_duqu_norm: 170-176. *)
Definition dnorm (s : DQ) : R * R :=
  let nr := qnorm (dreal s) in (nr, qdot (dreal s) (ddual s) / nr).
(** aa_tf_duqu_minimize: 187-193. *)
Definition dminimize (s : DQ) : DQ :=
  if Rlt_dec (qw (dreal s)) 0 then mkD (qscal (dreal s) (-1)) (qscal (ddual s) (-1)) else s.
(** aa_tf_duqu_trans: 290-295. *)
Definition dtrans (s : DQ) : V3 := vscale 2 (qmulc_v (ddual s) (dreal s)).
(** aa_tf_duqu_tf: 304-317. *)
Definition duqu_tf (s : DQ) (p : V3) : V3 :=
  let x := qadd (qmul_qv (dreal s) p) (qscal (ddual s) 2) in
  qmulc_v x (dreal s).
(** aa_tf_duqu_matrix_l, aa_tf_duqu_matrix_r: 46-68, as the linear map the
    8x8 matrix [[Q 0] [D Q]] represents. *)
Definition duqu_matrix_l_app (s p : DQ) : DQ :=
  mkD (m44_app (qmatrix_l (dreal s)) (dreal p))
      (qadd (m44_app (qmatrix_l (ddual s)) (dreal p)) (m44_app (qmatrix_l (dreal s)) (ddual p))).
Definition duqu_matrix_r_app (s p : DQ) : DQ :=
  mkD (m44_app (qmatrix_r (dreal s)) (dreal p))
      (qadd (m44_app (qmatrix_r (ddual s)) (dreal p)) (m44_app (qmatrix_r (dreal s)) (ddual p))).
(** aa_tf_xyz2duqu: 412-428. *)
Definition xyz2duqu (x y z : R) : DQ := mkD (mkQ 0 0 0 1) (mkQ (x/2) (y/2) (z/2) 0).
(** aa_tf_duqu2pure, aa_tf_pure2duqu: 506-523. *)
Definition duqu2pure (s : DQ) : DX := mkDX (qv (ddual s)) (qv (dreal s)).
Definition pure2duqu (v : DX) : DQ := mkD (mkqv (dxw v) 0) (mkqv (dxv v) 0).

(** aa_tf_qv_vel2twist: src/tf/quat_qutr.c:262-275. *)
Definition qv_vel2twist (v w dv : V3) : V3 * V3 := (w, cross_a v w dv).
(** aa_tf_qv_twist2vel: src/tf/quat_qutr.c:277-290. *)
Definition qv_twist2vel (v tw tv : V3) : V3 * V3 := (tw, cross_a tw v tv).

(** aa_tf_duqu_vel2twist: src/tf/quat_duqu.c:195-207. *)
Definition duqu_vel2twist (d : DQ) (dx : DX) : DQ :=
  let '(tw, tv) := qv_vel2twist (dtrans d) (dxw dx) (dxv dx) in
  mkD (mkqv tw 0) (mkqv tv 0).
(** aa_tf_duqu_twist2vel: 209-219. *)
Definition duqu_twist2vel (d t : DQ) : DX :=
  let '(w, dv) := qv_twist2vel (dtrans d) (qv (dreal t)) (qv (ddual t)) in mkDX dv w.
(** aa_tf_duqu_twist2diff: 221-227. *)
Definition duqu_twist2diff (d t : DQ) : DQ :=
  let dd := dmul t d in mkD (qdivs (dreal dd) 2) (qdivs (ddual dd) 2).
(** aa_tf_duqu_diff2vel: 248-260. *)
Definition duqu_diff2vel (d dd : DQ) : DX :=
  mkDX (vscale 2 (vadd (qmulc_v (ddual dd) (dreal d)) (qmulc_v (ddual d) (dreal dd))))
       (qdiff2vel (dreal d) (dreal dd)).
(** aa_tf_duqu_diff2twist: 229-236. *)
Definition duqu_diff2twist (d dd : DQ) : DQ := duqu_vel2twist d (duqu_diff2vel d dd).
(** aa_tf_duqu_vel2diff: 238-246. *)
Definition duqu_vel2diff (d : DQ) (dx : DX) : DQ := duqu_twist2diff d (duqu_vel2twist d dx).

(** ** Quaternion-translations: src/tf/quat_qutr.c *)

(** aa_tf_tf_qv: 47-82. *)
Definition tf_qv (q : Q4) (v p : V3) : V3 :=
  let k := mkV (vx p + vx p) (vy p + vy p) (vz p + vz p) in
  let a := mkV ((qy q * vz k - qz q * vy k) + qw q * vx k)
               ((qz q * vx k - qx q * vz k) + qw q * vy k)
               ((qx q * vy k - qy q * vx k) + qw q * vz k) in
  mkV (vx p + vx v + qy q * vz a - qz q * vy a)
      (vy p + vy v + qz q * vx a - qx q * vz a)
      (vz p + vz v + qx q * vy a - qy q * vx a).
(** aa_tf_qutr_tf: 84-90. *)
Definition qutr_tf (e : QV) (p : V3) : V3 := tf_qv (eq e) (ev e) p.
(** aa_tf_qv_chain, aa_tf_qutr_mul: 93-110. *)
Definition qutr_mul (a b : QV) : QV := mkE (qmul (eq a) (eq b)) (tf_qv (eq a) (ev a) (ev b)).
(** aa_tf_qv_chainnorm, aa_tf_qutr_mulnorm: 112-128. *)
Definition qutr_mulnorm (a b : QV) : QV :=
  mkE (qmulnorm (eq a) (eq b)) (tf_qv (eq a) (ev a) (ev b)).
(** aa_tf_qv_conj, aa_tf_qutr_conj: 130-144. *)
Definition qutr_conj (a : QV) : QV :=
  let qc := qconj (eq a) in mkE qc (vneg (qrot qc (ev a))).
(** aa_tf_qutr_cmul, aa_tf_qutr_mulc: 146-160. *)
Definition qutr_cmul (a b : QV) : QV := qutr_mul (qutr_conj a) b.
Definition qutr_mulc (a b : QV) : QV := qutr_mul a (qutr_conj b).
(** aa_tf_qutr_twist2vel: 248-254. *)
Definition qutr_twist2vel (e : QV) (t : DX) : DX :=
  let '(w, dv) := qv_twist2vel (ev e) (dxw t) (dxv t) in mkDX dv w.
(** aa_tf_qutr_diff2vel: 339-344.  A derivative of a quaternion-translation is
    represented, as in the code, by another double[7]. *)
Definition qutr_diff2vel (e de : QV) : DX := mkDX (ev de) (qdiff2vel (eq e) (eq de)).
(** aa_tf_qutr_vel2diff: 346-351. *)
Definition qutr_vel2diff (e : QV) (dx : DX) : QV := mkE (qvel2diff (eq e) (dxw dx)) (dxv dx).

(** ** Matrices: src/tf/tfmatrix.c *)

(** aa_tf_rotmat_rot: 539-546 (aa_tf_9, aa_tf_9rot: src/tf.c:77-80). *)
Definition mrot (M : M33) (p : V3) : V3 :=
  mkV (m00 M * vx p + m01 M * vy p + m02 M * vz p)
      (m10 M * vx p + m11 M * vy p + m12 M * vz p)
      (m20 M * vx p + m21 M * vy p + m22 M * vz p).
(** aa_tf_tfmat2_tf: 562-584 (aa_tf_12, aa_tf_93, aa_tf_tfmat_tf). *)
Definition tfmat_tf (T : TF) (p : V3) : V3 :=
  let M := tR T in
  mkV (vx (tv T) + m00 M * vx p + m01 M * vy p + m02 M * vz p)
      (vy (tv T) + m10 M * vx p + m11 M * vy p + m12 M * vz p)
      (vz (tv T) + m20 M * vx p + m21 M * vy p + m22 M * vz p).
(** aa_tf_rotmat_mul: 588-627 (aa_tf_9mul). *)
Definition mmul (A B : M33) : M33 :=
  mkM (m00 A * m00 B + m01 A * m10 B + m02 A * m20 B)
      (m10 A * m00 B + m11 A * m10 B + m12 A * m20 B)
      (m20 A * m00 B + m21 A * m10 B + m22 A * m20 B)
      (m00 A * m01 B + m01 A * m11 B + m02 A * m21 B)
      (m10 A * m01 B + m11 A * m11 B + m12 A * m21 B)
      (m20 A * m01 B + m21 A * m11 B + m22 A * m21 B)
      (m00 A * m02 B + m01 A * m12 B + m02 A * m22 B)
      (m10 A * m02 B + m11 A * m12 B + m12 A * m22 B)
      (m20 A * m02 B + m21 A * m12 B + m22 A * m22 B).
(** aa_tf_tfmat2_mul, aa_tf_tfmat_mul: 630-652 (aa_tf_12chain, aa_tf_93chain). *)
Definition tfmat_mul (A B : TF) : TF := mkT (mmul (tR A) (tR B)) (tfmat_tf A (tv B)).
(** aa_la_transpose2 for 3x3: src/la.c:170-176. *)
Definition mtrans (A : M33) : M33 :=
  mkM (m00 A) (m01 A) (m02 A) (m10 A) (m11 A) (m12 A) (m20 A) (m21 A) (m22 A).
(** aa_tf_93inv / aa_tf_12inv: src/tf.c:52-61; aa_tf_tfmat_inv1/inv2:
    src/tf/tfmatrix.c:505-519. *)
Definition tfmat_inv (T : TF) : TF :=
  let Ri := mtrans (tR T) in mkT Ri (mrot Ri (vneg (tv T))).
(** aa_tf_93rel / aa_tf_12rel: src/tf.c:63-74. *)
Definition tfmat_rel (T1 T2 : TF) : TF := tfmat_mul (tfmat_inv T1) T2.
(** aa_tf_9rel: src/tf.c:82-87. *)
Definition rotmat_rel (R1 R2 : M33) : M33 := mmul R1 (mtrans R2).

(** aa_tf_skew_sym: 134-151. *)
Definition skew_sym (u : V3) : M33 :=
  mkM 0 (vz u) (- vy u) (- vz u) 0 (vx u) (vy u) (- vx u) 0.
(** aa_tf_skewsym_scal_c: 163-204. *)
Definition skewsym_scal_c (u a b : V3) : M33 :=
  let bu0 := vx b * vx u in let bu1 := vy b * vy u in let bu2 := vz b * vz u in
  let bc0 := vx b * vy u in let bc1 := vy b * vz u in let bc2 := vz b * vx u in
  mkM (1 - bu2 - bu1) (vz a + bc0) (bc2 - vy a)
      (bc0 - vz a) (1 - bu2 - bu0) (vx a + bc1)
      (vy a + bc2) (bc1 - vx a) (1 - bu1 - bu0).
(** aa_tf_skewsym_scal2: 207-220. *)
Definition skewsym_scal2 (a b : R) (u : V3) : M33 :=
  skewsym_scal_c u (vscale a u) (vscale b u).
(** aa_tf_unskewsym_scal: 222-234. *)
Definition unskewsym_scal (c : R) (M : M33) : V3 :=
  mkV (c * (m21 M - m12 M)) (c * (m02 M - m20 M)) (c * (m10 M - m01 M)).
(** aa_tf_unskewsym: 236-248. *)
Definition unskewsym (M : M33) : V3 :=
  unskewsym_scal (sqrt (m00 M + m11 M + m22 M + 1) / 2) M.
(** aa_tf_rotmat_vel2diff: 435-442. *)
Definition rotmat_vel2diff (M : M33) (w : V3) : M33 := mmul (skew_sym w) M.
(** aa_tf_rotmat_diff2vel: 444-453. *)
Definition rotmat_diff2vel (M dM : M33) : V3 := unskewsym (mmul dM (mtrans M)).
(** aa_tf_tfmat_diff2vel, aa_tf_tfmat_vel2diff: 524-536. *)
Definition tfmat_diff2vel (T dT : TF) : DX := mkDX (tv dT) (rotmat_diff2vel (tR T) (tR dT)).
Definition tfmat_vel2diff (T : TF) (dx : DX) : TF :=
  mkT (rotmat_vel2diff (tR T) (dxw dx)) (dxv dx).
(** aa_tf_rotmat_xy / yz / zx: 100-130. *)
Definition mcols (a b c : V3) : M33 :=
  mkM (vx a) (vy a) (vz a) (vx b) (vy b) (vz b) (vx c) (vy c) (vz c).
Definition rotmat_xy (x y : V3) : M33 :=
  let a := vnormalize x in let b := vnormalize y in mcols a b (cross a b).
Definition rotmat_yz (y z : V3) : M33 :=
  let b := vnormalize y in let c := vnormalize z in mcols (cross b c) b c.
Definition rotmat_zx (z x : V3) : M33 :=
  let c := vnormalize z in let a := vnormalize x in mcols a (cross c a) c.
(** aa_tf_rotmat_normalize: 807-828. *)
Definition mcol0 (M : M33) : V3 := mkV (m00 M) (m10 M) (m20 M).
Definition mcol1 (M : M33) : V3 := mkV (m01 M) (m11 M) (m21 M).
Definition rotmat_normalize (M : M33) : M33 :=
  let a := mcol0 M in let b := mcol1 M in
  let c1 := vnormalize (cross a b) in
  let b1 := vnormalize (cross c1 a) in
  let a1 := vnormalize (cross b1 c1) in
  mcols a1 b1 c1.

(** ** Conversions: src/tf/conv.c *)

(** aa_tf_quat2rotmat: 114-129. *)
Definition quat2rotmat (q : Q4) : M33 :=
  let b := mkV (2 * qx q) (2 * qy q) (2 * qz q) in
  let a := mkV (qw q * vx b) (qw q * vy b) (qw q * vz b) in
  skewsym_scal_c (qv q) a b.

(** aa_tf_rotmat2quat: src/tf.c:254-291.  The index arithmetic
    u, v = (u+1)%3, w = (u+2)%3 is expanded into its three cases. *)
Definition rotmat2quat (M : M33) : Q4 :=
  let x := m00 M in let y := m11 M in let z := m22 M in
  let trace := x + y + z in
  qnormalize
    (if Rgt_dec trace 0 then
       let r := sqrt (trace + 1) in
       let s := /2 / r in
       mkQ ((m21 M - m12 M) * s) ((m02 M - m20 M) * s) ((m10 M - m01 M) * s) (r / 2)
     else
       let u2 := (* u = 2, v = 0, w = 1 *)
         let r := sqrt (1 + m22 M - m00 M - m11 M) in let s := /2 / r in
         mkQ ((m20 M + m02 M) * s) ((m12 M + m21 M) * s) (r / 2) ((m10 M - m01 M) * s) in
       let u1 := (* u = 1, v = 2, w = 0 *)
         let r := sqrt (1 + m11 M - m22 M - m00 M) in let s := /2 / r in
         mkQ ((m01 M + m10 M) * s) (r / 2) ((m12 M + m21 M) * s) ((m02 M - m20 M) * s) in
       let u0 := (* u = 0, v = 1, w = 2 *)
         let r := sqrt (1 + m00 M - m11 M - m22 M) in let s := /2 / r in
         mkQ (r / 2) ((m01 M + m10 M) * s) ((m20 M + m02 M) * s) ((m21 M - m12 M) * s) in
       qminimize
         (if Rlt_dec x y then (if Rlt_dec y z then u2 else u1)
          else (if Rlt_dec x z then u2 else u0))).

(** aa_tf_qv2duqu, aa_tf_qutr2duqu: 274-287. *)
Definition qutr2duqu (e : QV) : DQ := mkD (eq e) (qmul_vq (vdivs (ev e) 2) (eq e)).
(** aa_tf_duqu2qv, aa_tf_duqu2qutr: 289-301. *)
Definition duqu2qutr (s : DQ) : QV := mkE (dreal s) (dtrans s).
(** aa_tf_qv2tfmat, aa_tf_qutr2tfmat: 304-314. *)
Definition qutr2tfmat (e : QV) : TF := mkT (quat2rotmat (eq e)) (ev e).
(** aa_tf_tfmat2qv, aa_tf_tfmat2qutr: 316-327. *)
Definition tfmat2qutr (T : TF) : QV := mkE (rotmat2quat (tR T)) (tv T).
(** aa_tf_duqu2tfmat, aa_tf_tfmat2duqu: 48-61. *)
Definition duqu2tfmat (s : DQ) : TF := mkT (quat2rotmat (dreal s)) (dtrans s).
Definition tfmat2duqu (T : TF) : DQ := qutr2duqu (mkE (rotmat2quat (tR T)) (tv T)).

(** aa_tf_rotmat_mzlook, aa_tf_tfmat_mzlook: 330-357. *)
Definition rotmat_mzlook (eye target up : V3) : M33 :=
  let z := mkV (- vx target + vx eye) (- vy target + vy eye) (- vz target + vz eye) in
  let x := cross up z in
  let y := cross z x in
  mcols (vnormalize x) (vnormalize y) (vnormalize z).
Definition tfmat_mzlook (eye target up : V3) : TF := mkT (rotmat_mzlook eye target up) eye.
(** aa_tf_qutr_mzlook: 359-392. *)
Definition qutr_mzlook (eye target up : V3) : QV :=
  mkE (rotmat2quat (rotmat_mzlook eye target up)) eye.

(** aa_tf_xangle2rotmat, yangle, zangle: 63-112. *)
Definition xangle2rotmat (t : R) : M33 := mkM 1 0 0 0 (cos t) (sin t) 0 (- sin t) (cos t).
Definition yangle2rotmat (t : R) : M33 := mkM (cos t) 0 (- sin t) 0 1 0 (sin t) 0 (cos t).
Definition zangle2rotmat (t : R) : M33 := mkM (cos t) (sin t) 0 (- sin t) (cos t) 0 0 0 1.
(** aa_tf_xangle2quat, yangle, zangle: 132-160. *)
Definition xangle2quat (t : R) : Q4 := mkQ (sin (t/2)) 0 0 (cos (t/2)).
Definition yangle2quat (t : R) : Q4 := mkQ 0 (sin (t/2)) 0 (cos (t/2)).
Definition zangle2quat (t : R) : Q4 := mkQ 0 0 (sin (t/2)) (cos (t/2)).
(** aa_tf_axang2quat2, aa_tf_axang2quat: 198-215. *)
Definition axang2quat (a : AX) : Q4 :=
  let h := angle a / 2 in mkqv (vscale (sin h) (axis a)) (cos h).
(** aa_tf_axang2rotmat = aa_tf_rotmat_exp_aa: src/tf/tfmatrix.c:250-255,294-297. *)
Definition axang2rotmat (a : AX) : M33 :=
  skewsym_scal2 (sin (angle a)) (1 - cos (angle a)) (axis a).
(** aa_tf_axang2rotmat2: src/tf.c:383-390. *)
Definition axang2rotmat2 (a : AX) : M33 := quat2rotmat (axang2quat a).
(** aa_tf_axang_rot: src/tf.c:161-177. *)
Definition axang_rot (a : AX) (v : V3) : V3 :=
  let k := axis a in let c := cos (angle a) in let s := sin (angle a) in
  let kv := cross k v in let y := vdot k v * (1 - c) in
  mkV (vx v * c + vx kv * s + vx k * y)
      (vy v * c + vy kv * s + vy k * y)
      (vz v * c + vz kv * s + vz k * y).
(** aa_tf_axang_permute: src/tf.c:190-195. *)
Definition axang_permute (a : AX) (k : Z) : AX := mkA (axis a) (angle a + IZR k * 2 * PI).
(** aa_tf_axang2rotvec: src/tf.c:224-228. *)
Definition axang2rotvec (a : AX) : V3 := vscale (angle a) (axis a).

(** aa_tf_dhprox2tfmat: 394-420. *)
Definition dhprox2tfmat (alpha a d phi : R) : TF :=
  let sp := sin phi in let cp := cos phi in let sa := sin alpha in let ca := cos alpha in
  mkT (mkM cp (sp * ca) (sp * sa) (- sp) (cp * ca) (cp * sa) 0 (- sa) ca)
      (mkV a (- d * sa) (d * ca)).
(** aa_tf_dhprox2duqu: 422-451. *)
Definition dhprox2duqu (alpha a d phi : R) : DQ :=
  let sp := sin (phi/2) in let cp := cos (phi/2) in
  let sa := sin (alpha/2) in let ca := cos (alpha/2) in
  let d2 := d/2 in let a2 := a/2 in
  let x := sa * cp in let y := - (sa * sp) in let z := ca * sp in let w := ca * cp in
  mkD (mkQ x y z w)
      (mkQ (a2 * w + d2 * y) (- a2 * z - d2 * x) (a2 * y + d2 * w) (- a2 * x - d2 * z)).
(** aa_tf_dhprox2qv: 462-482. *)
Definition dhprox2qutr (alpha a d phi : R) : QV :=
  let sp := sin (phi/2) in let cp := cos (phi/2) in
  let sa := sin (alpha/2) in let ca := cos (alpha/2) in
  let sa2 := 2 * sa * ca in let ca2 := ca * ca - sa * sa in
  mkE (mkQ (sa * cp) (- sa * sp) (ca * sp) (ca * cp))
      (mkV a (- d * sa2) (d * ca2)).
(** aa_tf_dhdist2tfmat: 484-510. *)
Definition dhdist2tfmat (alpha a d phi : R) : TF :=
  let sp := sin phi in let cp := cos phi in let sa := sin alpha in let ca := cos alpha in
  mkT (mkM cp sp 0 (- sp * ca) (cp * ca) sa (sp * sa) (- cp * sa) ca)
      (mkV (a * cp) (a * sp) d).
(** aa_tf_dhdist2duqu: 512-541. *)
Definition dhdist2duqu (alpha a d phi : R) : DQ :=
  let sp := sin (phi/2) in let cp := cos (phi/2) in
  let sa := sin (alpha/2) in let ca := cos (alpha/2) in
  let d2 := d/2 in let a2 := a/2 in
  let x := sa * cp in let y := sa * sp in let z := ca * sp in let w := ca * cp in
  mkD (mkQ x y z w)
      (mkQ (a2 * w - d2 * y) (a2 * z + d2 * x) (- a2 * y + d2 * w) (- a2 * x - d2 * z)).
(** aa_tf_dhdist2qv: 552-574. *)
Definition dhdist2qutr (alpha a d phi : R) : QV :=
  let sp := sin (phi/2) in let cp := cos (phi/2) in
  let sa := sin (alpha/2) in let ca := cos (alpha/2) in
  let sp2 := 2 * sp * cp in let cp2 := cp * cp - sp * sp in
  mkE (mkQ (sa * cp) (sa * sp) (ca * sp) (ca * cp))
      (mkV (a * cp2) (a * sp2) d).

(** aa_tf_v9mul, aa_tf_v12chain: src/tf.c:342-381 (variadic product; the
    va_list up to NULL is a list). *)
Require Import List.
Fixpoint v9mul_loop (Rp : M33) (l : list M33) : M33 :=
  match l with nil => Rp | cons Ri l' => v9mul_loop (mmul Rp Ri) l' end.
Definition v9mul (R1 R2 : M33) (l : list M33) : M33 := v9mul_loop (mmul R1 R2) l.
Fixpoint v12chain_loop (Tp : TF) (l : list TF) : TF :=
  match l with nil => Tp | cons Ti l' => v12chain_loop (tfmat_mul Tp Ti) l' end.
Definition v12chain (T1 T2 : TF) (l : list TF) : TF := v12chain_loop (tfmat_mul T1 T2) l.
