(** Planar transforms: src/tf/tfp.c, include/amino/tf/planar.h.  A complex
    number (also the 2-vector type, planar.h 59-92) is a pair of reals. *)
From Coq Require Import Reals.
From Verif Require Import AtanModel.
Open Scope R_scope.

Record C2 := mkC { re : R; im : R }.
(** double R[4], column major; double T[6] = R[4], v[2] *)
Record R4 := mkR4 { r0 : R; r1 : R; r2 : R; r3 : R }.
Record T6 := mkT6 { tr : R4; t4 : R; t5 : R }.

(** C's complex product and negation *)
Definition cmplx_mul (a b : C2) : C2 :=
  mkC (re a * re b - im a * im b) (re a * im b + im a * re b).
Definition cmplx_neg (a : C2) : C2 := mkC (- re a) (- im a).

(** aa_tf_crot: 44-48 *)
Definition crot (cc v : C2) : C2 := cmplx_mul v cc.
(** aa_tf_rotmatp_rot: 50-60 *)
Definition rotmatp_rot (M : R4) (v : C2) : C2 :=
  mkC (r0 M * re v + r2 M * im v) (r1 M * re v + r3 M * im v).
(** aa_tf_cconj: 61-65 *)
Definition cconj (c : C2) : C2 := mkC (re c) (- im c).
(** aa_tf_rotmatp_inv2: 67-74 *)
Definition rotmatp_inv2 (M : R4) : R4 := mkR4 (r0 M) (r2 M) (r1 M) (r3 M).
(** aa_tf_cmul: 76-80 *)
Definition cmul (a b : C2) : C2 := cmplx_mul a b.
(** aa_tf_rotmatp_mul: 82-92 *)
Definition rotmatp_mul (A B : R4) : R4 :=
  mkR4 (r0 A * r0 B + r2 A * r1 B) (r1 A * r0 B + r3 A * r1 B)
       (r0 A * r2 B + r2 A * r3 B) (r1 A * r2 B + r3 A * r3 B).
(** aa_tf_cpexp: 94-98 *)
Definition cpexp (angle : R) : C2 := mkC (cos angle) (sin angle).
(** aa_tf_culn: 100-104; aa_tf_cmplx2angle: 106-110 *)
Definition culn (c : C2) : R := atan2 (im c) (re c).
Definition cmplx2angle (c : C2) : R := culn c.
(** aa_tf_cmplx2rotmatp: 112-120 *)
Definition cmplx2rotmatp (c : C2) : R4 := mkR4 (re c) (im c) (- im c) (re c).
(** aa_tf_angle2cmplx: 122-126; aa_tf_angle2rotmatp: 128-132;
    aa_tf_rotmatp_pexp: 148-152 *)
Definition angle2cmplx (angle : R) : C2 := cpexp angle.
Definition angle2rotmatp (angle : R) : R4 := cmplx2rotmatp (angle2cmplx angle).
(** aa_tf_rotmatp2cmplx: 134-140 *)
Definition rotmatp2cmplx (M : R4) : C2 := mkC ((r0 M + r3 M) / 2) ((r1 M - r2 M) / 2).
(** aa_tf_rotmatp2angle: 142-146; aa_tf_rotmatp_uln: 154-158 *)
Definition rotmatp2angle (M : R4) : R := cmplx2angle (rotmatp2cmplx M).

(** aa_tf_cv_tf: 164-178 *)
Definition cv_tf (z v p : C2) : C2 :=
  mkC (re v + re z * re p - im z * im p) (im v + im z * re p + re z * im p).
(** aa_tf_tfmatp_tf: 180-192 *)
Definition tfmatp_tf (T : T6) (p : C2) : C2 :=
  mkC (t4 T + r0 (tr T) * re p + r2 (tr T) * im p) (t5 T + r1 (tr T) * re p + r3 (tr T) * im p).
(** aa_tf_cv2tfmatp: 194-199 *)
Definition cv2tfmatp (c v : C2) : T6 := mkT6 (cmplx2rotmatp c) (re v) (im v).
(** aa_tf_tfmatp2cv: 201-206 *)
Definition tfmatp2cv (T : T6) : C2 * C2 := (rotmatp2cmplx (tr T), mkC (t4 T) (t5 T)).
(** aa_tf_cv_mul: 208-217 *)
Definition cv_mul (c1 v1 c2 v2 : C2) : C2 * C2 := (cmul c1 c2, cv_tf c1 v1 v2).
(** aa_tf_tfmatp_mul: 219-227 *)
Definition tfmatp_mul (A B : T6) : T6 :=
  let v := tfmatp_tf A (mkC (t4 B) (t5 B)) in mkT6 (rotmatp_mul (tr A) (tr B)) (re v) (im v).
(** aa_tf_cv_inv: 229-235 *)
Definition cv_inv (c v : C2) : C2 * C2 := (cconj c, cmplx_neg (crot (cconj c) v)).
(** aa_tf_tfmatp_inv2: 237-243 *)
Definition tfmatp_inv2 (T : T6) : T6 :=
  let Ri := rotmatp_inv2 (tr T) in
  let v := rotmatp_rot Ri (mkC (- t4 T) (- t5 T)) in mkT6 Ri (re v) (im v).
