(** Closed form inverse kinematics of the planar two link arm, and the conversion of colours:
    /repo/src/kin.c 47-73, /repo/src/cv.c 46-71.

    Doubles are real numbers. *)
From Coq Require Import ZArith Reals Bool.
From Verif Require Import AtanModel AngModel.
Open Scope R_scope.

(** the argument of the square roots of aa_kin_planar2_ik_theta2: kin.c 55-61 *)
Definition radicand (x1 x2 l1 l2 : R) : R :=
  - x2 * x2 * (x2 * x2 + x1 * x1 - l1 * l1 + 2 * l2 * l1 - l2 * l2) *
  (x2 * x2 + x1 * x1 - l1 * l1 - 2 * l2 * l1 - l2 * l2).
(** the four assignments: kin.c 55, 57, 59, 61 *)
Definition theta_a0 (x1 x2 l1 l2 : R) : R :=
  atan2 ((x2*x2*x2*x2 + x2*x2*x1*x1 + x1 * sqrt (radicand x1 x2 l1 l2) - l2*l2*x2*x2 + x2*x2*l1*l1)
           / (x2*x2 + x1*x1) / x2 / l1)
        ((x2*x2*x1 + x1*x1*x1 - l2*l2*x1 + x1*l1*l1 - sqrt (radicand x1 x2 l1 l2)) / (x2*x2 + x1*x1) / l1).
Definition theta_b0 (x1 x2 l1 l2 : R) : R :=
  atan2 ((x2*x2*x2*x2 + x2*x2*x1*x1 - x1 * sqrt (radicand x1 x2 l1 l2) - l2*l2*x2*x2 + x2*x2*l1*l1)
           / (x2*x2 + x1*x1) / x2 / l1)
        ((x2*x2*x1 + x1*x1*x1 - l2*l2*x1 + x1*l1*l1 + sqrt (radicand x1 x2 l1 l2)) / (x2*x2 + x1*x1) / l1).
Definition theta_a1 (x1 x2 l1 l2 : R) : R :=
  atan2 ((x2*x2*x1*x1 - x1 * sqrt (radicand x1 x2 l1 l2) + l2*l2*x2*x2 + x2*x2*x2*x2 - x2*x2*l1*l1)
           / (x2*x2 + x1*x1) / l2 / x2)
        ((l2*l2*x1 - x1*l1*l1 + x2*x2*x1 + x1*x1*x1 + sqrt (radicand x1 x2 l1 l2)) / (x2*x2 + x1*x1) / l2).
Definition theta_b1 (x1 x2 l1 l2 : R) : R :=
  atan2 ((x2*x2*x1*x1 + x1 * sqrt (radicand x1 x2 l1 l2) + l2*l2*x2*x2 + x2*x2*x2*x2 - x2*x2*l1*l1)
           / (x2*x2 + x1*x1) / l2 / x2)
        ((l2*l2*x1 - x1*l1*l1 + x2*x2*x1 + x1*x1*x1 - sqrt (radicand x1 x2 l1 l2)) / (x2*x2 + x1*x1) / l2).

(** aa_kin_planar2_ik_theta2: kin.c 47-70.  With lengths that are not zero, x2 = 0 makes every first argument of
    atan2 0/0, and a negative radicand makes the root a NaN: the angles stored are NaN, every comparison is false and 1
    is returned.  The result is the code and the angles, if they are numbers. *)
Definition planar2_ik_theta2 (l1 l2 x1 x2 : R) : Z * option ((R * R) * (R * R)) :=
  if Req_EM_T x2 0 then (1%Z, None)
  else if Rlt_dec (radicand x1 x2 l1 l2) 0 then (1%Z, None)
  else
    let a0 := theta_a0 x1 x2 l1 l2 in let a1 := theta_a1 x1 x2 l1 l2 in
    let b0 := theta_b0 x1 x2 l1 l2 in let b1 := theta_b1 x1 x2 l1 l2 in
    ((if feq (l1 * cos a0 + l2 * cos a1) x1 (1 / 1000) && feq (l1 * sin a0 + l2 * sin a1) x2 (1 / 1000) &&
         feq (l1 * cos b0 + l2 * cos b1) x1 (1 / 1000) && feq (l1 * sin b0 + l2 * sin b1) x2 (1 / 1000)
      then 0%Z else 1%Z), Some ((a0, a1), (b0, b1))).

(** aa_cv_rgb2hsv: cv.c 46-71; the division of a nonzero chroma by a value of zero is [Off] *)
Definition cmax (a b : R) : R := if Rlt_dec b a then a else b.
Definition rgb2hsv (r g b : R) : Out (R * R * R) :=
  let alpha := 1 / 2 * (2 * r - g - b) in
  let beta := sqrt 3 / 2 * (g - b) in
  let c := sqrt (alpha * alpha + beta * beta) in
  let h := atan2 beta alpha in
  let v := cmax (cmax r g) b in
  if feq c 0 0 then Ret (h, 0, v)
  else if Req_EM_T v 0 then Off
  else Ret (h, c / v, v).
