(** Axis-angle normalisation and nearest rotation vectors (src/tf.c 137-159,
    179-222, 308-315), the test for rotation matrices (src/tf.c 330-339), cross
    product matrices (src/tf.c 595-634), Runge-Kutta steps of a rotating frame
    (src/tf/quat_ord.c 621-671).  doubles are reals. *)
From Coq Require Import Reals ZArith List Arith Bool.
From Verif Require Import AngModel TfModel TfExpModel.
Import ListNotations.
Open Scope R_scope.

(** aa_tf_axang_normalize: tf.c 148-159; [None] when the axis is divided by 0 *)
Definition axang_normalize (a : AX) : option AX :=
  let v := axis a in
  let an := ang_norm_pi (angle a) in
  let n := sqrt (vdot v v) in
  let '(n', an') := if Rlt_dec an 0 then (n * -1, an * -1) else (n, an) in
  if Req_EM_T n' 0 then None
  else Some (mkA (mkV (vx v / n') (vy v / n') (vz v / n')) an').
(** aa_tf_axang_make: tf.c 137-146 *)
Definition axang_make (x y z theta : R) : option AX := axang_normalize (mkA (mkV x y z) theta).
(** aa_tf_axang_permute2: tf.c 179-187 *)
Definition axang_permute2 (a : AX) : AX * AX :=
  (mkA (axis a) (angle a + 2 * PI), mkA (axis a) (angle a - 2 * PI)).

(** aa_fminloc: math.c 59-61, la_impl.h 307-318 *)
Fixpoint minloc_from (x : list R) (imin : nat) (xmin : R) (i : nat) : nat :=
  match x with
  | [] => imin
  | a :: r => if Rlt_dec a xmin then minloc_from r i a (S i) else minloc_from r imin xmin (S i)
  end.
Definition minloc (x : list R) : nat :=
  match x with [] => 0%nat | a :: r => minloc_from r 0 a 1 end.
(** aa_la_ssd on three elements: la_impl.c 688-703 *)
Definition ssd3 (a b : V3) : R :=
  (vx a - vx b) * (vx a - vx b) + (vy a - vy b) * (vy a - vy b) + (vz a - vz b) * (vz a - vz b).
(** aa_tf_rotvec_near: tf.c 203-222 *)
Definition near_tries (rv : V3) : list V3 :=
  [rv; rotvec_permute rv 1; rotvec_permute rv 2; rotvec_permute rv 3;
   rotvec_permute rv (-1); rotvec_permute rv (-2); rotvec_permute rv (-3)].
Definition rotvec_near (rv near : V3) : V3 :=
  let arv := near_tries rv in
  nth (minloc (map (ssd3 near) arv)) arv (mkV 0 0 0).
(** aa_tf_quat2rotvec_near: tf.c 308-315 *)
Definition quat2rotvec_near (q : Q4) (near : V3) : V3 := rotvec_near (axang2rotvec (quat2axang q)) near.

(** ** Rotation matrix test *)
(** aa_feq: math.h 114-116; aa_veq: math.c 47-52 *)
Definition feq (a b tol : R) : bool := if Rle_dec (Rabs (a - b)) tol then true else false.
Fixpoint veq (x y : list R) (tol : R) : bool :=
  match x, y with
  | a :: x', b :: y' => if feq a b tol then veq x' y' tol else false
  | _, _ => true
  end.
Definition entries (M : M33) : list R :=
  [m00 M; m10 M; m20 M; m01 M; m11 M; m21 M; m02 M; m12 M; m22 M].
(** aa_la_transpose2 on 3 by 3 *)
Definition transpose3 (M : M33) : M33 :=
  mkM (m00 M) (m01 M) (m02 M) (m10 M) (m11 M) (m12 M) (m20 M) (m21 M) (m22 M).
(** aa_la_det3x3: la.c 496-507 *)
Definition det3x3 (M : M33) : R :=
  m00 M * (m11 M * m22 M - m12 M * m21 M) - m01 M * (m10 M * m22 M - m12 M * m20 M)
  + m02 M * (m10 M * m21 M - m11 M * m20 M).
Section INV.
(** aa_la_inv (la.c 203-228) on 3 by 3 through LAPACK's getrf and getri; the
    caller ignores the returned info *)
Variable la_inv : M33 -> M33.
(** aa_tf_isrotmat: tf.c 330-339 *)
Definition isrotmat (M : M33) : bool :=
  let Rt := transpose3 M in
  let Ri := la_inv M in
  let d := det3x3 M in
  veq (entries Rt) (entries Ri) (1 / 10000) && feq d 1 (1 / 10000).
End INV.

(** ** Cross product matrices: aa_tf_cross_mat_l, aa_tf_cross_mat_r *)
Definition cross_mat_l (v : V3) : M33 :=
  mkM 0 (vz v) (- vy v) (- vz v) 0 (vx v) (vy v) (- vx v) 0.
Definition cross_mat_r (v : V3) : M33 :=
  mkM 0 (- vz v) (vy v) (vz v) 0 (- vx v) (- vy v) (vx v) 0.

(** ** Runge-Kutta steps *)
(** aa_tf_qrk1: 621-628 *)
Definition qrk1 (q0 dq : Q4) (dt : R) : Q4 :=
  mkQ (qx q0 + dt * qx dq) (qy q0 + dt * qy dq) (qz q0 + dt * qz dq) (qw q0 + dt * qw dq).
(** aa_tf_qvelrk1: 632-641 *)
Definition qvelrk1 (q0 : Q4) (v : V3) (dt : R) : Q4 := qrk1 q0 (qvel2diff q0 v) dt.
(** qvelrk4_term, aa_tf_qvelrk4: 644-671 *)
Definition qvelrk4_term (q0 : Q4) (v : V3) (dq0 : Q4) (dt : R) : Q4 := qvel2diff (qrk1 q0 dq0 dt) v.
Definition qvelrk4 (q0 : Q4) (v : V3) (dt : R) : Q4 :=
  let d0 := qvel2diff q0 v in
  let d1 := qvelrk4_term q0 v d0 (dt / 2) in
  let d2 := qvelrk4_term q0 v d1 (dt / 2) in
  let d3 := qvelrk4_term q0 v d2 dt in
  let s f := f d0 + f d3 + 2 * (f d1 + f d2) in
  qrk1 q0 (mkQ (s qx) (s qy) (s qz) (s qw)) (dt / 6).
