(** The dual quaternion derivative Jacobian, src/tf/quat_duqu.c, and the
    algebraic slerp derivative, src/tf/quat_ord.c.  Doubles are reals.  A matrix
    is the function from row and column to the element; the local memory region
    the temporaries come from is left out (see RegModel.v). *)
From Coq Require Import Reals Arith Bool.
From Verif Require Import TfModel TfExpModel NrModel.
Open Scope R_scope.

Definition Mat := nat -> nat -> R.

(** Element i of an array of four doubles; of a 3x3 and of a 4x4 matrix. *)
Definition q4_at (q : Q4) (i : nat) : R :=
  match i with O => qx q | 1%nat => qy q | 2%nat => qz q | _ => qw q end.
Definition m33_at (M : M33) (i j : nat) : R :=
  match j with
  | O => match i with O => m00 M | 1%nat => m10 M | _ => m20 M end
  | 1%nat => match i with O => m01 M | 1%nat => m11 M | _ => m21 M end
  | _ => match i with O => m02 M | 1%nat => m12 M | _ => m22 M end
  end.
Definition m44_at (M : M44) (i j : nat) : R :=
  q4_at (match j with O => c0 M | 1%nat => c1 M | 2%nat => c2 M | _ => c3 M end) i.

(** aa_dmat_gemm without transposes, alpha = 1, beta = 0, inner dimension n. *)
Fixpoint dotn (n : nat) (f g : nat -> R) : R :=
  match n with O => 0 | S m => dotn m f g + f m * g m end.
Definition gemm (n : nat) (A B : Mat) : Mat := fun i j => dotn n (A i) (fun k => B k j).

(** aa_tf_duqu_matrix_r: quat_duqu.c:58-68 *)
Definition duqu_matrix_r (s : DQ) : Mat := fun i j =>
  if (i <? 4)%nat then
    if (j <? 4)%nat then m44_at (qmatrix_r (dreal s)) i j else 0
  else
    if (j <? 4)%nat then m44_at (qmatrix_r (ddual s)) (i - 4) j
    else m44_at (qmatrix_r (dreal s)) (i - 4) (j - 4).

(** The matrix VM: quat_duqu.c:442-456 (zeroed, the block at row 4 and column 3
    set to the cross product matrix of the translation, then the ones). *)
Definition vel_expand (s : DQ) : Mat := fun i j =>
  if ((i <? 3) && (j =? i + 3) || (4 <=? i) && (i <? 7) && (j =? i - 4))%nat then 1
  else if ((4 <=? i) && (i <? 7) && (3 <=? j) && (j <? 6))%nat
    then m33_at (cross_mat_l (dtrans s)) (i - 4) (j - 3)
  else 0.

(** aa_tf_duqu_jac_vel2diff: quat_duqu.c:430-466 *)
Definition duqu_jac_vel2diff (s : DQ) (Jvel : Mat) : Mat :=
  let SR := duqu_matrix_r (dsmul (1 / 2) s) in
  let tmp := gemm 8 SR (vel_expand s) in
  gemm 6 tmp Jvel.

(** aa_tf_qslerpdiffalg: quat_ord.c:869-880 *)
Definition qslerpdiffalg (tau : R) (q1 q2 : Q4) : Q4 :=
  let q := qslerpalg tau q1 q2 in
  let qm := qminimize (qmulc q2 q1) in
  qmul (qln qm) q.

(** aa_tf_qssd: quat_ord.c:74-83 *)
Definition qssd (a b : Q4) : R :=
  sqrt ((qx a - qx b) * (qx a - qx b) + (qy a - qy b) * (qy a - qy b)
        + (qz a - qz b) * (qz a - qz b) + (qw a - qw b) * (qw a - qw b)).
