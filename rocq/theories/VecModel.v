(** The vectorised kernels: include/amino/arch/gcc.h and src/vec.c.  A 4-lane
    vector is a [Q4] (lanes 0..3 = qx..qw).  Alignment of the loads and stores is
    not modelled.  Loading three doubles leaves lane 3 unspecified: [junk]. *)
From Coq Require Import Reals.
From Verif Require Import TfModel.
Open Scope R_scope.

Definition lane (a : Q4) (i : nat) : R :=
  match i with O => qx a | 1%nat => qy a | 2%nat => qz a | _ => qw a end.
(** aa_vec_4d_shuffle: gcc.h 53-58 *)
Definition shuffle (a : Q4) (i0 i1 i2 i3 : nat) : Q4 :=
  mkQ (lane a i0) (lane a i1) (lane a i2) (lane a i3).
(** lane-wise operators of the vector extension *)
Definition lmul (a b : Q4) : Q4 := mkQ (qx a * qx b) (qy a * qy b) (qz a * qz b) (qw a * qw b).
Definition ladd (a b : Q4) : Q4 := mkQ (qx a + qx b) (qy a + qy b) (qz a + qz b) (qw a + qw b).
Definition lsub (a b : Q4) : Q4 := mkQ (qx a - qx b) (qy a - qy b) (qz a - qz b) (qw a - qw b).
Definition lscale (k : R) (a : Q4) : Q4 := mkQ (k * qx a) (k * qy a) (k * qz a) (k * qw a).
Definition set3 (a : Q4) (k : R) : Q4 := mkQ (qx a) (qy a) (qz a) k.
(** aa_vec_3d_ld: gcc.h 113-119, avx.h 69-77; aa_vec_3d_st: gcc.h 124-129 *)
Definition ld3 (junk : R) (v : V3) : Q4 := mkQ (vx v) (vy v) (vz v) junk.
Definition st3 (a : Q4) : V3 := mkV (qx a) (qy a) (qz a).

(** aa_vec_4d_dot: gcc.h 133-140 *)
Definition vec_dot (a b : Q4) : R :=
  let sq := lmul a b in (qx sq + qz sq) + (qy sq + qw sq).
(** aa_vec_cross: gcc.h 143-149 *)
Definition vec_cross (a b : Q4) : Q4 :=
  let tmp := lsub (lmul a (shuffle b 1 2 0 3)) (lmul (shuffle a 1 2 0 3) b) in
  shuffle tmp 1 2 0 3.
(** aa_vec_qconj: gcc.h 157-162 *)
Definition vec_qconj (q : Q4) : Q4 :=
  let c := mkQ (- qx q) (- qy q) (- qz q) (- qw q) in set3 c (qw c * -1).
(** aa_vec_qmul: gcc.h 166-177 *)
Definition vec_qmul (a b : Q4) : Q4 :=
  let vc := lsub (ladd (ladd (lmul (shuffle a 0 2 3 1) (shuffle b 3 0 2 1))
                             (lmul (shuffle a 1 3 2 0) (shuffle b 2 1 3 0)))
                       (lmul (shuffle a 3 1 0 2) (shuffle b 0 3 1 2)))
                 (lmul (shuffle a 2 0 1 3) (shuffle b 1 2 0 3)) in
  set3 vc (- qw vc).
(** aa_vec_vqmul: gcc.h 191-202 *)
Definition vec_vqmul (v q : Q4) : Q4 :=
  let t := set3 (shuffle v 2 0 1 1) (- qz v) in
  let y := lmul (shuffle v 1 2 0 0) (shuffle q 2 0 1 0) in
  let y := ladd y (lmul (shuffle v 0 1 2 1) (shuffle q 3 3 3 2)) in
  let y := lsub y (lmul t (shuffle q 1 2 0 2)) in
  set3 y (- qw y).
(** aa_vec_qrot: gcc.h 210-215 *)
Definition vec_qrot (q v : Q4) : Q4 :=
  let a := ladd (vec_cross q v) (lscale (qw q) v) in
  let b := vec_cross q a in
  ladd (lscale 2 b) v.
(** aa_vec_qv_tf: gcc.h 224-228; AA_VEC_QV_MUL: 231-234 *)
Definition vec_qv_tf (q v p : Q4) : Q4 := ladd (vec_qrot q p) v.
Definition vec_qv_mul (q0 v0 q1 v1 : Q4) : Q4 * Q4 := (vec_qmul q0 q1, vec_qv_tf q0 v0 v1).
(** aa_vec_rotmat_tf: gcc.h 260-264; aa_vec_tfmat_tf: 300-306 *)
Definition vec_rotmat_tf (c0 c1 c2 p : Q4) : Q4 :=
  ladd (ladd (lscale (qx p) c0) (lscale (qy p) c1)) (lscale (qz p) c2).
Definition vec_tfmat_tf (c0 c1 c2 c3 p : Q4) : Q4 := ladd (vec_rotmat_tf c0 c1 c2 p) c3.

(** src/vec.c 48-54, 56-62, 67-73, 75-82 *)
Definition vecm_cross (j1 j2 : R) (a b : V3) : V3 := st3 (vec_cross (ld3 j1 a) (ld3 j2 b)).
Definition vecm_qconj (q : Q4) : Q4 := vec_qconj q.
Definition vecm_qmul (a b : Q4) : Q4 := vec_qmul a b.
Definition vecm_qrot (j : R) (q : Q4) (v : V3) : V3 := st3 (vec_qrot q (ld3 j v)).

(** AA_VEC_TFMAT_LD, AA_VEC_TFMUL, aa_vec_tfmat_st: gcc.h 267-298, 309-314;
    aa_vecm_tfmul: vec.c 84-111.  [j] are the unset lanes. *)
Definition vecm_tfmul (j : Q4) (A B : TF) : TF :=
  let M := tR A in let N := tR B in
  let c0 := mkQ (m00 M) (m10 M) (m20 M) (qx j) in
  let c1 := mkQ (m01 M) (m11 M) (m21 M) (qy j) in
  let c2 := mkQ (m02 M) (m12 M) (m22 M) (qz j) in
  let c3 := mkQ (vx (tv A)) (vy (tv A)) (vz (tv A)) (qw j) in
  let col a b c := ladd (ladd (lscale a c0) (lscale b c1)) (lscale c c2) in
  let u0 := col (m00 N) (m10 N) (m20 N) in
  let u1 := col (m01 N) (m11 N) (m21 N) in
  let u2 := col (m02 N) (m12 N) (m22 N) in
  let u3 := ladd (col (vx (tv B)) (vy (tv B)) (vz (tv B))) c3 in
  mkT (mkM (qx u0) (qy u0) (qz u0) (qx u1) (qy u1) (qz u1) (qx u2) (qy u2) (qz u2)) (st3 u3).

(** aa_vecm_tfmul_2d: vec.c 114-139.  The first two rows use 2-lane vectors; in the
    third row T0[2+2] and T0[2+3] are elements 4 and 5 of the 12-array: m11 and m21. *)
Definition vecm_tfmul_2d (A B : TF) : TF :=
  let M := tR A in let N := tR B in
  let e0 a b c := a * m00 M + b * m01 M + c * m02 M in
  let e1 a b c := a * m10 M + b * m11 M + c * m12 M in
  let e2 a b c := m20 M * a + m11 M * b + m21 M * c in
  mkT (mkM (e0 (m00 N) (m10 N) (m20 N)) (e1 (m00 N) (m10 N) (m20 N)) (e2 (m00 N) (m10 N) (m20 N))
           (e0 (m01 N) (m11 N) (m21 N)) (e1 (m01 N) (m11 N) (m21 N)) (e2 (m01 N) (m11 N) (m21 N))
           (e0 (m02 N) (m12 N) (m22 N)) (e1 (m02 N) (m12 N) (m22 N)) (e2 (m02 N) (m12 N) (m22 N)))
      (mkV (e0 (vx (tv B)) (vy (tv B)) (vz (tv B)) + vx (tv A))
           (e1 (vx (tv B)) (vy (tv B)) (vz (tv B)) + vy (tv A))
           (e2 (vx (tv B)) (vy (tv B)) (vz (tv B)) + vz (tv A))).

(** AA_VEC_DUQU_MUL: gcc.h 323-326; aa_vecm_duqu_mul: vec.c 142-154 *)
Definition vecm_duqu_mul (a b : DQ) : DQ :=
  mkD (vec_qmul (dreal a) (dreal b))
      (ladd (vec_qmul (dreal a) (ddual b)) (vec_qmul (ddual a) (dreal b))).
(** aa_vec_duqu_trans: gcc.h 334-337 *)
Definition vec_duqu_trans (r d : Q4) : Q4 := lscale 2 (vec_qmul d (vec_qconj r)).
(** aa_vec_qv2duqu_dual: gcc.h 340-343 *)
Definition vec_qv2duqu_dual (r d : Q4) : Q4 := qdivs (vec_vqmul (vec_qconj r) d) 2.
