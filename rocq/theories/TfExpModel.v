(** Exponentials, logarithms, angles and interpolation of rotations and poses:
    the rest of src/tf/quat_ord.c, src/tf/quat_duqu.c, src/tf/quat_qutr.c,
    src/tf/tfmatrix.c, src/tf/conv.c and src/tf.c.  Over the reals, like
    TfModel.v; [sin], [cos], [exp], [log], [sqrt], [atan2] are the real functions. *)
From Coq Require Import Reals Lra.
From Verif Require Import TfModel AtanModel.
Open Scope R_scope.

(** DBL_EPSILON *)
Definition eps : R := / 2 ^ 52.
(** AA_TF_EPSILON: spatial.h 145 *)
Definition tf_eps : R := / 10000.

(** aa_horner3: include/amino/math.h 180-184 *)
Definition horner3 (x a0 a1 a2 : R) : R := a0 + x * (a1 + x * a2).
(** AA_TF_DEF_SERIES sinc, cos, invsinc: spatial.h 75-90 *)
Definition sinc_series2 (t2 : R) : R := horner3 t2 1 (- (1) / 6) (1 / 120).
Definition cos_series2 (t2 : R) : R := horner3 t2 1 (- (1) / 2) (1 / 24).
Definition invsinc_series2 (t2 : R) : R := horner3 t2 1 (1 / 6) (7 / 360).
Definition sinc_series (t : R) : R := sinc_series2 (t * t).
Definition cos_series (t : R) : R := cos_series2 (t * t).
Definition invsinc_series (t : R) : R := invsinc_series2 (t * t).

(** aa_tf_sinccos2: spatial.h 99-112 (sinc, cos) *)
Definition sinccos2 (t2 : R) : R * R :=
  if Rlt_dec t2 (sqrt eps) then (sinc_series2 t2, cos_series2 t2)
  else let t := sqrt t2 in (sin t / t, cos t).
(** aa_tf_sinccos: spatial.h 117-128 *)
Definition sinccos (t : R) : R * R :=
  if Rlt_dec (t * t) (sqrt eps) then (sinc_series t, cos_series t)
  else (sin t / t, cos t).
(** aa_tf_sinc: spatial.h 133-141 *)
Definition sinc (t : R) : R :=
  if Rlt_dec (Rabs t) (sqrt (sqrt eps)) then sinc_series t else sin t / t.

(** ** Quaternion exponential and logarithm: quat_ord.c *)

(** aa_tf_qpexp: 379-386 *)
Definition qpexp (v : V3) : Q4 :=
  let '(sc, c) := sinccos2 (vdot v v) in mkqv (vscale sc v) c.
(** aa_tf_qexp: 388-405 (aa_cla_dlapy3 is the LAPACK 3-norm) *)
Definition qexp (q : Q4) : Q4 :=
  let theta := vnorm (qv q) in
  let ew := exp (qw q) in
  let '(sc, c) := sinccos theta in
  mkqv (vscale (ew * sc) (qv q)) (ew * c).
(** aa_tf_qexp_n: 407-431 *)
Definition qexp_n (q : Q4) : Q4 :=
  let phi := vnorm (qv q) in
  if Rlt_dec phi eps then mkQ 0 0 0 1
  else let sc := sin phi / phi in let ew := exp (qw q) in
       mkqv (vscale (ew * sc) (qv q)) (ew * cos phi).
(** aa_tf_qln: 433-454 *)
Definition qln (q : Q4) : Q4 :=
  let vv := vdot (qv q) (qv q) in
  let qn := sqrt (vv + qw q * qw q) in
  let vn := sqrt vv in
  let phi := atan2 vn (qw q) in
  let a := if Rlt_dec phi (sqrt (sqrt eps)) then invsinc_series phi / qn else phi / vn in
  mkqv (vscale a (qv q)) (ln qn).
(** aa_tf_qpow: 458-465 *)
Definition qpow (q : Q4) (a : R) : Q4 := qexp (qscal (qln q) a).
(** aa_tf_qangle: 467-472 *)
Definition qangle (q : Q4) : R := atan2 (vnorm (qv q)) (qw q).
(** aa_tf_qsvel: 474-483 *)
Definition qsvel (q0 : Q4) (w : V3) (dt : R) : Q4 :=
  qmul (qpexp (vdivs (mkV (vx w * dt) (vy w * dt) (vz w * dt)) 2)) q0.
(** aa_tf_qsdiff: 485-495 *)
Definition qsdiff (q0 dq : Q4) (dt : R) : Q4 :=
  let wq := qmulc_v dq q0 in qmul (qpexp (mkV (vx wq * dt) (vy wq * dt) (vz wq * dt))) q0.
(** aa_tf_qsacc: 541-552 *)
Definition qsacc (q0 : Q4) (v a : V3) (dt : R) : Q4 :=
  let k := dt / 2 in qmul (qpexp (vscale k (vadd v (vscale k a)))) q0.
(** aa_tf_qangle_rel: 555-562 *)
Definition qangle_rel (a b : Q4) : R := qangle (qminimize (qcmul a b)).

(** ** Derivatives of exponential and logarithm: quat_ord.c *)

(** aa_tf_qduln: 728-753 *)
Definition qduln (q dq : Q4) : V3 :=
  let s2 := vdot (qv q) (qv q) in
  let s := sqrt s2 in let c := qw q in let phi := atan2 s c in
  let '(alpha, beta) :=
    if Rlt_dec phi (sqrt (sqrt eps))
    then (invsinc_series phi, horner3 (phi * phi) (- (1) / 3) (2 / 15) (- (2) / 63))
    else (phi / s, (phi / s * c - 1) / s2) in
  vadd (vscale alpha (qv dq)) (vscale (qw dq * beta) (qv q)).
(** qjuln, aa_tf_qdulnj: 672-726 *)
Definition qdulnj (q dq : Q4) : V3 :=
  let x := qx q in let y := qy q in let z := qz q in
  let s2 := vdot (qv q) (qv q) in
  let s := sqrt s2 in let phi := atan2 s (qw q) in
  let isc := phi / s in let a := isc / s2 in
  mkV (isc * (- x / s2 * x + 1) * qx dq + - a * x * y * qy dq + - a * x * z * qz dq + - x / s2 * qw dq)
      (- a * x * y * qx dq + isc * (- y / s2 * y + 1) * qy dq + - a * y * z * qz dq + - y / s2 * qw dq)
      (- a * x * z * qx dq + - a * y * z * qy dq + isc * (- z / s2 * z + 1) * qz dq + - z / s2 * qw dq).
(** aa_tf_qdpexp: 805-826 *)
Definition qdpexp (e de : V3) : Q4 :=
  let vv := vdot e e in let phi := sqrt vv in let dd := vdot e de in
  let '(sc, k) :=
    if Rlt_dec phi (sqrt (sqrt eps))
    then (sinc_series phi, horner3 vv (- (1) / 3) (1 / 30) (- (1) / 840))
    else (sin phi / phi, cos phi / (phi * phi) - sin phi / (phi * phi * phi)) in
  mkqv (vadd (vscale sc de) (vscale (k * dd) e)) (- dd * sc).
(** qjpexp, aa_tf_qdpexpj: 756-803 *)
Definition qdpexpj (u du : V3) : Q4 :=
  let vv := vdot u u in
  let x := vx u in let y := vy u in let z := vz u in
  let '(sc, a) :=
    if Rlt_dec vv eps then (sinc_series2 vv, horner3 vv (- (1) / 3) (1 / 30) (- (1) / 840))
    else let v := sqrt vv in (sin v / v, (cos v - sin v / v) / vv) in
  mkQ ((a * x * x + sc) * vx du + a * x * y * vy du + a * x * z * vz du)
      (a * x * y * vx du + (a * y * y + sc) * vy du + a * y * z * vz du)
      (a * x * z * vx du + a * y * z * vy du + (a * z * z + sc) * vz du)
      (- sc * x * vx du + - sc * y * vy du + - sc * z * vz du).

(** ** Spherical interpolation: quat_ord.c *)

(** aa_tf_quhypangle2: 828-836 *)
Definition quhypangle2 (x y : Q4) : R := 2 * atan2 (qnorm (qsub x y)) (qnorm (qadd x y)).
(** aa_tf_qslerp_param: 565-577: (theta, d1, d2) *)
Definition qslerp_param (q1 q2 : Q4) : R * R * R :=
  let theta := Rabs (quhypangle2 q1 q2) in
  let d1 := sin theta in
  if Rgt_dec theta (PI / 2) then (PI - theta, d1, - d1) else (theta, d1, d1).
(** aa_tf_qslerp_eval: 580-596 *)
Definition qslerp_eval (tau : R) (q1 q2 : Q4) (theta d1 d2 : R) : Q4 :=
  if Rlt_dec 0 (Rabs theta) then
    let s0 := tau * theta in
    let a1 := sin (theta - s0) / d1 in let a2 := sin s0 / d2 in
    qadd (qscal q1 a1) (qscal q2 a2)
  else q1.
(** aa_tf_qslerp: 598-605 *)
Definition qslerp (tau : R) (q1 q2 : Q4) : Q4 :=
  let '(theta, d1, d2) := qslerp_param q1 q2 in qslerp_eval tau q1 q2 theta d1 d2.
(** aa_tf_qslerpalg: 607-618 *)
Definition qslerpalg (tau : R) (q1 q2 : Q4) : Q4 :=
  qnormalize (qmul q1 (qpow (qminimize (qcmul q1 q2)) tau)).
(** qslerpdiff_param: 839-855; aa_tf_qslerpdiff: 857-869 *)
Definition qslerpdiff (tau : R) (q1 q2 : Q4) : Q4 :=
  let theta0 := Rabs (quhypangle2 q1 q2) in
  let '(theta, d1, d2) :=
    if Rgt_dec theta0 (PI / 2) then
      let theta := PI - theta0 in (theta, sinc theta, - sinc theta)
    else (theta0, sinc theta0, sinc theta0) in
  let s1 := cos (theta - tau * theta) in let s2 := cos (tau * theta) in
  qadd (qscal q1 (- s1 / d1)) (qscal q2 (s2 / d2)).
(** aa_tf_qslerpchaindiff: 885-925; aa_feq(theta,0,0) is theta = 0 *)
Definition qslerpchaindiff (u du : R) (q1 dq1 q2 dq2 : Q4) : Q4 * Q4 :=
  let '(theta, d1, d2) := qslerp_param q1 q2 in
  if Req_EM_T theta 0 then (q1, mkQ 0 0 0 0)
  else
    let c := cos theta in
    let sa := sin ((1 - u) * theta) in let ca := cos ((1 - u) * theta) in
    let sb := sin (u * theta) in let cb := cos (u * theta) in
    let dtheta_c := qdot q1 dq2 + qdot dq1 q2 in
    let dtheta := dtheta_c / c in
    let a := sa / d1 in let b := sb / d2 in
    let da := (ca * (dtheta * (1 - u) - du * theta)) / d1 - (dtheta_c * sa) / (d1 * d1) in
    let db := ((dtheta * u + theta * du) * cb) / d2 - (dtheta_c * b) / d1 in
    (qadd (qscal q1 a) (qscal q2 b),
     qadd (qadd (qscal dq1 a) (qscal q1 da)) (qadd (qscal dq2 b) (qscal q2 db))).

(** aa_tf_vecs2quat: quat_ord.c 953-1004 *)
Definition vecs2quat (u v : V3) : Q4 :=
  let w := cross u v in
  let nu := vdot u u in let nv := vdot v v in
  let nuv := sqrt (nu * nv) in let uv := vdot u v in let cc := vdot w w in
  if Rlt_dec (cc / nuv) (sqrt eps) then
    let fx := Rabs (vx u) in let fy := Rabs (vy u) in let fz := Rabs (vz u) in
    let ar := if Rgt_dec fx fy then (if Rgt_dec fy fz then mkV 0 0 1 else mkV 0 1 0)
              else (if Rgt_dec fx fz then mkV 0 0 1 else mkV 1 0 0) in
    let au := cross u ar in
    let av := if Rgt_dec uv 0 then cross v ar else cross ar v in
    let a := vadd au av in
    let theta := atan2 cc uv in
    let qtheta := theta / 2 in
    let m := sin qtheta / sqrt (vdot a a) in
    mkQ (vx a * m) (vy a * m) (vz a * m) (cos qtheta)
  else qnormalize (mkqv w (uv + nuv)).

(** ** Rotation vectors and axis-angles: conv.c, tf.c *)

(** aa_tf_rotvec2quat: conv.c 187-195 *)
Definition rotvec2quat (a : V3) : Q4 :=
  let '(sc, c) := sinccos2 (vdot a a / 4) in mkqv (vscale (sc / 2) a) c.
(** aa_tf_quat2rotvec: conv.c 235-254 *)
Definition quat2rotvec (q : Q4) : V3 :=
  let qs := sqrt (vdot (qv q) (qv q)) in
  let theta := atan2 qs (qw q) in
  let a := if Rlt_dec theta (sqrt (sqrt eps)) then 2 * invsinc_series theta else 2 * theta / qs in
  vscale a (qv q).
(** aa_tf_quat2axang: conv.c 256-274 *)
Definition quat2axang (q : Q4) : AX :=
  let qs := sqrt (vdot (qv q) (qv q)) in
  let theta := 2 * atan2 qs (qw q) in
  let n := vnorm (qv q) in
  mkA (if Rgt_dec n 0 then vdivs (qv q) n else mkV 0 0 0) theta.
(** aa_tf_rotvec2axang: tf.c 230-244 *)
Definition rotvec2axang (v : V3) : AX :=
  let a2 := vdot v v in
  if Rlt_dec a2 (tf_eps * tf_eps) then quat2axang (rotvec2quat v)
  else mkA (vdivs v (sqrt a2)) (sqrt a2).
(** aa_tf_rotvec_permute: tf.c 194-200 *)
Definition rotvec_permute (v : V3) (k : Z) : V3 :=
  axang2rotvec (axang_permute (rotvec2axang v) k).

(** aa_tf_rotmat2eulerzyx: tf.c 419-434 (z, y, x angles) *)
Definition rotmat2eulerzyx (M : M33) : R * R * R :=
  let b := atan2 (- m20 M) (sqrt (m00 M * m00 M + m10 M * m10 M)) in
  let cb := cos b in
  (atan2 (m10 M / cb) (m00 M / cb), b, atan2 (m21 M / cb) (m22 M / cb)).
(** aa_tf_quat2eulerzyx: conv.c 218-233 *)
Definition quat2eulerzyx (q : Q4) : R * R * R :=
  let n := qnorm q in
  let x := qx q / n in let y := qy q / n in let z := qz q / n in let w := qw q / n in
  (atan2 (2 * (w * z + x * y)) (1 - 2 * (y * y + z * z)),
   asin (2 * (w * y - x * z)),
   atan2 (2 * (w * x + y * z)) (1 - 2 * (x * x + y * y))).

(** The twelve aa_tf_euler<abc>2rotmat and aa_tf_euler<abc>2quat functions are
    generated by src/mac/euler77.mac 60-92 (instances 95-131) from the axis
    rotations tf_rotx, tf_roty, tf_rotz (src/mac/amino.mac 83-99) and qaxang2,
    qmul (115-117, 130-134), called through src/mac/euler_f2c.c 17-58.  The
    model is the generator: one function of the three axes. *)
Inductive Axis := AxX | AxY | AxZ.
Definition axis_rotmat (a : Axis) (t : R) : M33 :=
  match a with AxX => xangle2rotmat t | AxY => yangle2rotmat t | AxZ => zangle2rotmat t end.
Definition axis_quat (a : Axis) (t : R) : Q4 :=
  match a with AxX => xangle2quat t | AxY => yangle2quat t | AxZ => zangle2quat t end.
Definition euler2rotmat (a1 a2 a3 : Axis) (e1 e2 e3 : R) : M33 :=
  mmul (mmul (axis_rotmat a1 e1) (axis_rotmat a2 e2)) (axis_rotmat a3 e3).
Definition euler2quat (a1 a2 a3 : Axis) (e1 e2 e3 : R) : Q4 :=
  qnormalize (qmul (qmul (axis_quat a1 e1) (axis_quat a2 e2)) (axis_quat a3 e3)).

(** ** Matrix exponential and logarithm: tfmatrix.c *)

(** aa_tf_rotmat_expv, aa_tf_rotvec2rotmat: 257-284 *)
Definition rotmat_expv (rv : V3) : M33 :=
  let theta2 := vdot rv rv in let theta := sqrt theta2 in
  let '(sc, cc) :=
    if Rlt_dec (theta2 * theta2) eps
    then (sinc_series2 theta2, theta * horner3 theta2 (1/2) (- (1)/24) (1/720))
    else (sin theta / theta, (1 - cos theta) / theta2) in
  skewsym_scal2 sc cc rv.
(** aa_tf_rotmat_sincos, aa_tf_rotmat_angle: 299-330: (sin, cos, angle) *)
Definition rotmat_u (M : M33) : V3 := mkV (m21 M - m12 M) (m02 M - m20 M) (m10 M - m01 M).
Definition rotmat_angle (M : M33) : R * R * R :=
  let c := (m00 M + m11 M + m22 M - 1) / 2 in
  let u := rotmat_u M in let s := sqrt (vdot u u) / 2 in
  (s, c, atan2 s c).
(** rotmat_q: 332-352, index arithmetic expanded into its three cases *)
Definition rotmat_q (M : M33) : Q4 :=
  let x := m00 M in let y := m11 M in let z := m22 M in
  let u2 := let r := sqrt (1 + m22 M - m00 M - m11 M) in let t := /2 / r in
    mkQ ((m20 M + m02 M) * t) ((m12 M + m21 M) * t) (r / 2) ((m10 M - m01 M) * t) in
  let u1 := let r := sqrt (1 + m11 M - m22 M - m00 M) in let t := /2 / r in
    mkQ ((m01 M + m10 M) * t) (r / 2) ((m12 M + m21 M) * t) ((m02 M - m20 M) * t) in
  let u0 := let r := sqrt (1 + m00 M - m11 M - m22 M) in let t := /2 / r in
    mkQ (r / 2) ((m01 M + m10 M) * t) ((m20 M + m02 M) * t) ((m21 M - m12 M) * t) in
  if Rlt_dec x y then (if Rlt_dec y z then u2 else u1) else (if Rlt_dec x z then u2 else u0).
(** aa_tf_rotmat_lnv, aa_tf_rotmat2rotvec: 354-424 *)
Definition rotmat_lnv (M : M33) : V3 :=
  let c := (m00 M + m11 M + m22 M - 1) / 2 in
  if Rlt_dec c (- (1) + tf_eps) then
    let q := rotmat_q M in
    let qs := sqrt (vdot (qv q) (qv q)) in
    let qtheta := atan2 qs (qw q) in
    let a := if Rlt_dec qtheta (sqrt (sqrt eps)) then 2 * invsinc_series qtheta else 2 * qtheta / qs in
    vscale a (qv q)
  else
    let u := rotmat_u M in
    let s := sqrt (vdot u u) / 2 in
    let theta := atan2 s c in let theta2 := theta * theta in
    let isinc := if Rlt_dec (theta2 * theta2) eps then invsinc_series2 theta2 else theta / s in
    vscale (isinc / 2) u.
(** aa_tf_rotmat2axang: 426-431 *)
Definition rotmat2axang (M : M33) : AX := rotvec2axang (rotmat_lnv M).
(** aa_tf_rotmat_svel: 456-464 *)
Definition rotmat_svel (R0 : M33) (w : V3) (dt : R) : M33 :=
  mmul (rotmat_expv (mkV (vx w * dt) (vy w * dt) (vz w * dt))) R0.
(** aa_tf_tfmat_expv: 684-718 *)
Definition tfmat_expv (v : DX) : TF :=
  let theta2 := vdot (dxw v) (dxw v) in let theta := sqrt theta2 in
  let '(sc, cc, ssc) :=
    if Rlt_dec (theta2 * theta2) eps
    then (sinc_series2 theta2, theta * horner3 theta2 (1/2) (- (1)/24) (1/720),
          horner3 theta2 (1/6) (- (1)/120) (1/5040))
    else let sc := sin theta / theta in
         (sc, (1 - cos theta) / theta2, (1 - sc) / theta2) in
  mkT (skewsym_scal2 sc cc (dxw v)) (mrot (skewsym_scal2 cc ssc (dxw v)) (dxv v)).
(** aa_tf_tfmat_lnv: 721-804 *)
Definition tfmat_lnv (T : TF) : DX :=
  let M := tR T in let v := tv T in
  let c := (m00 M + m11 M + m22 M - 1) / 2 in
  if Rlt_dec c (- (1) + tf_eps) then
    let q := rotmat_q M in
    let qs := sqrt (vdot (qv q) (qv q)) in let qc := qw q in
    let phi := atan2 qs qc in let phi2 := phi * phi in
    let isc := 2 * phi / qs in let m_r := qc * isc in
    let m_d := (2 - m_r) / phi2 / 4 in
    let w := vscale isc (qv q) in
    let v_2 := vdivs v 2 in
    let a := m_d * vdot v_2 w in
    mkDX (vadd (cross v_2 w) (vadd (vscale m_r v_2) (vscale a w))) w
  else
    let u := rotmat_u M in
    let s := sqrt (vdot u u) / 2 in
    let theta := atan2 s c in let theta2 := theta * theta in
    let '(a, b) :=
      if Rlt_dec theta2 eps
      then (invsinc_series2 theta2, horner3 theta2 (1/12) (1/720) (1/30240))
      else (theta / s, (2 * s - theta * (1 + c)) / (2 * theta2 * s)) in
    let w := vscale (a / 2) u in
    mkDX (mrot (skewsym_scal2 (- (1/2)) b w) v) w.
(** aa_tf_tfmat_svel: 466-487 *)
Definition tfmat_svel (T0 : TF) (dx : DX) (dt : R) : TF :=
  let dv := mkV (vx (dxv dx) * dt) (vy (dxv dx) * dt) (vz (dxv dx) * dt) in
  let dw := mkV (vx (dxw dx) * dt) (vy (dxw dx) * dt) (vz (dxw dx) * dt) in
  tfmat_mul (tfmat_expv (mkDX (vsub dv (cross dw (tv T0))) dw)) T0.

(** ** Dual quaternion exponential and logarithm: quat_duqu.c *)

(** aa_tf_duqu_exp: 325-366.  The loop of dual_mul (319-323) reads eS before
    writing it; r and d below are the values before scaling. *)
Definition duqu_exp (S : DQ) : DQ :=
  let r := qv (dreal S) in let d := qv (ddual S) in
  let vv := vdot r r in
  let '(k_r, c, k_d0) :=
    if Rlt_dec vv eps
    then (sinc_series2 vv, cos_series2 vv, horner3 vv (- (1)/3) (1/30) (- (1)/840))
    else let phi := sqrt vv in (sin phi / phi, cos phi, (cos phi - sin phi / phi) / vv) in
  let gamma := vdot r d in
  let k_d := k_d0 * gamma in
  let er := mkqv (vscale k_r r) c in
  let ed := mkqv (vadd (vscale k_r d) (vscale k_d r)) (- k_r * gamma) in
  if Rlt_dec 0 (Rabs (qw (dreal S))) then
    let xr := exp (qw (dreal S)) in let xd := xr * qw (ddual S) in
    mkD (qscal er xr) (qadd (qscal ed xr) (qscal er xd))
  else if Rlt_dec 0 (Rabs (qw (ddual S))) then
    let xr := exp (qw (dreal S)) in let xd := xr * qw (ddual S) in
    mkD (qscal er xr) (qadd (qscal ed xr) (qscal er xd))
  else mkD er ed.
(** aa_tf_duqu_ln: 368-402 *)
Definition duqu_ln (S : DQ) : DQ :=
  let r := qv (dreal S) in let d := qv (ddual S) in
  let rw := qw (dreal S) in let dw := qw (ddual S) in
  let vv := vdot r r in let gamma := vdot r d in
  let mr2 := vv + rw * rw in let mr := sqrt mr2 in
  let nr := sqrt vv in let phi := atan2 nr rw in
  let '(k_r, zeta) :=
    if Rlt_dec phi eps
    then (invsinc_series2 (phi * phi) / mr,
          horner3 (phi * phi) (- (2)/3) (- (1)/5) (- (17)/420) / (mr2 * mr))
    else (phi / nr, (rw / mr2 - phi / nr) / vv) in
  let k_d := gamma * zeta - dw / mr2 in
  mkD (mkqv (vscale k_r r) (ln mr))
      (mkqv (vadd (vscale k_d r) (vscale k_r d)) ((gamma + rw * dw) / mr2)).
(** aa_tf_duqu_lnv: 405-410 *)
Definition duqu_lnv (S : DQ) : DX := duqu2pure (duqu_ln S).
(** aa_tf_duqu_stwist, aa_tf_duqu_svel, aa_tf_duqu_sdiff: 262-288 *)
Definition duqu_stwist (d0 twist : DQ) (dt : R) : DQ :=
  dmul (duqu_exp (dsmul (dt / 2) twist)) d0.
Definition duqu_svel (d0 : DQ) (dx : DX) (dt : R) : DQ :=
  duqu_stwist d0 (duqu_vel2twist d0 dx) dt.
Definition duqu_sdiff (d0 dd : DQ) (dt : R) : DQ :=
  duqu_stwist d0 (duqu_diff2twist d0 dd) dt.

(** ** Quaternion-translation exponential and logarithm: quat_qutr.c *)

(** aa_tf_qv_expv, aa_tf_qutr_expv: 167-206 *)
Definition qutr_expv (x : DX) : QV :=
  let w := dxw x in let dv := dxv x in
  let phi2 := vdot w w in
  let '(m_r, c, m_d) :=
    if Rlt_dec phi2 (sqrt eps)
    then (sinc_series2 phi2, cos_series2 phi2, horner3 phi2 (4/3) (- (4)/15) (8/315))
    else let phi := sqrt phi2 in let m_r := sin phi / phi in
         (m_r, cos phi, (2 - cos phi * (2 * m_r)) / phi2) in
  let two_m_r := 2 * m_r in let c_two_m_r := c * two_m_r in
  let qvv := vscale m_r w in
  let g := vdot w dv * m_d in
  mkE (mkqv qvv c)
      (vadd (vscale two_m_r (cross qvv dv)) (vadd (vscale c_two_m_r dv) (vscale g w))).
(** aa_tf_qv_lnv, aa_tf_qutr_lnv: 208-248 *)
Definition qutr_lnv (e : QV) : DX :=
  let r := qv (eq e) in let v := ev e in
  let s := sqrt (vdot r r) in let c := qw (eq e) in
  let phi := atan2 s c in let phi2 := phi * phi in
  let '(isc, m_r, m_d) :=
    if Rlt_dec phi (sqrt eps)
    then let m_d := horner3 phi2 (1/3) (1/45) (2/945) in
         (invsinc_series2 phi2, 1 - m_d * phi2, m_d)
    else let isc := phi / s in (isc, c * isc, (1 - c * isc) / phi2) in
  let w := vscale isc r in
  let v_2 := vdivs v 2 in
  let a := m_d * vdot v_2 w in
  mkDX (vadd (cross v_2 w) (vadd (vscale m_r v_2) (vscale a w))) w.
(** aa_tf_qv_svel, aa_tf_qutr_svel: 291-305, 319-327 *)
Definition qutr_svel (e : QV) (dx : DX) (dt : R) : QV :=
  let '(tw, tv) := qv_vel2twist (ev e) (dxw dx) (dxv dx) in
  let h a := mkV (vx a * (dt / 2)) (vy a * (dt / 2)) (vz a * (dt / 2)) in
  qutr_mul (qutr_expv (mkDX (h tv) (h tw))) e.
(** aa_tf_qv_sdiff, aa_tf_qutr_sdiff: 307-317, 329-337 *)
Definition qutr_sdiff (e de : QV) (dt : R) : QV :=
  qutr_svel e (mkDX (ev de) (qdiff2vel (eq e) (eq de))) dt.
