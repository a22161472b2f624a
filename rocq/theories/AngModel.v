(** Angles, floating point modulo, range checks and statistics of numbers and angles:
    /repo/include/amino/math.h 62-330, /repo/src/math.c 45-230, /repo/src/validate.c 45-75.

    Doubles are real numbers.  A NaN or an infinity that would be stored or compared is the outcome [Off]; a failed
    assert is [Abort]. *)
From Coq Require Import List ZArith Reals Bool.
Import ListNotations.
From Verif Require Import AtanModel.
Open Scope R_scope.

Inductive Out (A : Type) := Ret (a : A) | Abort | Off.
Arguments Ret {A} a. Arguments Abort {A}. Arguments Off {A}.

(** * C library *)
(** fmod (ISO C 7.12.10.1): x - n y with n the quotient x/y cut towards zero *)
Definition trunc (t : R) : Z := if Rle_dec 0 t then Int_part t else (- Int_part (- t))%Z.
Definition fmod (x y : R) : R := x - IZR (trunc (x / y)) * y.
(** remainder (ISO C 7.12.10.2, IEEE 60559): x - n y with n the integer nearest x/y, the even one of two *)
Definition nearest (t : R) : Z :=
  let f := Int_part t in
  if Rlt_dec (t - IZR f) (1 / 2) then f
  else if Rlt_dec (1 / 2) (t - IZR f) then (f + 1)%Z
  else if Z.even f then f else (f + 1)%Z.
Definition remainder (x y : R) : R := x - IZR (nearest (x / y)) * y.

(** * Modulo and angles *)
(** aa_fmodulo: math.h 152-154; aa_fremainder: math.h 157-159 *)
Definition fmodulo (a b : R) : R := fmod (fmod a b + b) b.
Definition fremainder (a b : R) : R := fmod a b.
(** aa_ang_rad2deg, aa_ang_deg2rad: math.h 300-307 *)
Definition rad2deg (rad : R) : R := rad * 180 / PI.
Definition deg2rad (deg : R) : R := deg * PI / 180.
(** aa_ang_norm_2pi: math.h 311-313; aa_ang_norm_pi: math.h 316-319; aa_ang_delta: math.h 323-325 *)
Definition ang_norm_2pi (an : R) : R := fmodulo an (2 * PI).
Definition ang_norm_pi (an : R) : R := remainder an (2 * PI).
Definition ang_delta (a b : R) : R := ang_norm_pi (ang_norm_pi a - ang_norm_pi b).

(** * Ranges *)
(** aa_clamp: math.h 75-79; aa_fclamp: math.h 82-86; aa_fdeadzone: math.h 89-92; aa_sign: math.h 104-108 *)
Definition clamp (val level : R) : R :=
  if Rlt_dec level val then level else if Rlt_dec val (- level) then - level else val.
Definition fclamp (val min max : R) : R :=
  if Rlt_dec max val then max else if Rlt_dec val min then min else val.
Definition fdeadzone (val min max deadval : R) : R :=
  if Rlt_dec min val then (if Rlt_dec val max then deadval else val) else val.
Definition sign (val : R) : R := if Rlt_dec 0 val then 1 else if Rlt_dec val 0 then -1 else 0.
(** aa_vclamp: math.h 95-100 *)
Fixpoint vclamp (v : list R) (min max : R) : list R :=
  match v with
  | [] => []
  | a :: v' => (if Rlt_dec max a then max else if Rlt_dec a min then min else a) :: vclamp v' min max
  end.
(** aa_feq: math.h 114-116 *)
Definition feq (a b tol : R) : bool := if Rle_dec (Rabs (a - b)) tol then true else false.
(** aa_valid_f: validate.c 45-47 *)
Definition valid_f (value min max : R) : Z :=
  if Rle_dec min value then (if Rle_dec value max then 0%Z else (-1)%Z) else (-1)%Z.
(** aa_valid_v: validate.c 49-65; a NULL bound array is None; the loop counter is an int (n below 2^31) *)
Definition at_ (l : list R) (i : nat) : R := nth i l 0.
Fixpoint valid_v_loop (values : list R) (min max : option (list R)) (k i : nat) : Z :=
  match k with
  | O => 0%Z
  | S k' =>
      if match min with Some m => if Rlt_dec (at_ values i) (at_ m i) then true else false | None => false end
      then (Z.of_nat i + 1)%Z
      else if match max with Some m => if Rlt_dec (at_ m i) (at_ values i) then true else false | None => false end
      then (Z.of_nat i + 1)%Z
      else valid_v_loop values min max k' (S i)
  end.
Definition valid_v (values : list R) (n : nat) (min max : option (list R)) (n_desired : nat) : Z :=
  if negb (Nat.eqb n n_desired) then (-1)%Z
  else match min, max with
       | None, None => 0%Z
       | _, _ => valid_v_loop values min max n 0
       end.

(** * Statistics *)
(** aa_stat_z2x, aa_stat_x2z: math.h 212-220 *)
Definition z2x (z mu sigma : R) : R := z * sigma + mu.
Definition x2z (x mu sigma : R) : R := (x - mu) / sigma.
(** the loops a += f(x[i]) *)
Fixpoint acc (f : R -> R) (x : list R) (a : R) : R :=
  match x with [] => a | v :: x' => acc f x' (a + f v) end.
(** aa_stat_mean: math.c 100-104 *)
Definition stat_mean (x : list R) : R := acc (fun v => v) x 0 / INR (length x).
(** aa_la_d_vecstd: la_impl.c 776-790; n - 1 is a size_t *)
Definition vecstd (x : list R) (mu : R) : R :=
  sqrt (acc (fun v => (v - mu) * (v - mu)) x 0 / INR (length x - 1)).
(** aa_stat_std: math.c 107-110 *)
Definition stat_std (x : list R) : R := vecstd x (stat_mean x).
(** aa_stat_circ_mean: math.c 113-122 *)
Definition circ_mean (x : list R) : R :=
  atan2 (acc sin x 0 / INR (length x)) (acc cos x 0 / INR (length x)).
(** aa_stat_circ_std: math.c 124-136; log(0) is minus infinity *)
Definition circ_r (x : list R) : R :=
  let as_ := acc sin x 0 / INR (length x) in
  let ac := acc cos x 0 / INR (length x) in
  as_ * as_ + ac * ac.
Definition circ_std (x : list R) : Out R :=
  if Nat.eqb (length x) 0 then Off
  else if Rlt_dec 0 (circ_r x) then Ret (sqrt (-2 * ln (circ_r x))) else Off.

(** aa_stat_excluded_mean_std: math.c 139-169.  One pass of the for loop: j, am, as *)
Fixpoint ex_pass (x : list R) (mu dxmin dxmax : R) (j : nat) (am as_ : R) : nat * R * R :=
  match x with
  | [] => (j, am, as_)
  | v :: x' =>
      let dx := v - mu in
      if Rle_dec dxmin dx
      then if Rle_dec dx dxmax then ex_pass x' mu dxmin dxmax (S j) (am + v) (as_ + dx * dx)
           else ex_pass x' mu dxmin dxmax j am as_
      else ex_pass x' mu dxmin dxmax j am as_
  end.
(** the do loop; [fuel] is max_iterations - iter, so ++iter < max_iterations reads 1 < fuel *)
Fixpoint ex_loop (fuel : nat) (x : list R) (zmin zmax mu sigma : R) (iter j : nat) : Out (R * R * nat) :=
  let '(j1, am, as_) := ex_pass x mu (zmin * sigma) (zmax * sigma) 0 0 0 in
  if negb (Nat.ltb 1 j1) then Abort
  else
    let mu1 := am / INR j1 in
    let sigma1 := sqrt (as_ / INR (j1 - 1)) in
    if Nat.eqb j j1 then Ret (mu1, sigma1, iter)
    else match fuel with
         | S (S _ as fuel') => ex_loop fuel' x zmin zmax mu1 sigma1 (S iter) j1
         | _ => Ret (mu1, sigma1, S iter)
         end.
(** fewer than two samples: the mean or the deviation is 0/0, every comparison with it is false, j stays 0 *)
Definition excluded_mean_std (x : list R) (zmin zmax : R) (max_iterations : nat) : Out (R * R * nat) :=
  if Nat.ltb (length x) 2 then Abort
  else ex_loop max_iterations x zmin zmax (stat_mean x) (stat_std x) 0 0.

(** aa_stat_excluded_circ_mean_std: math.c 171-207.  One pass: j, as, ac *)
Fixpoint cx_pass (x : list R) (mu dxmin dxmax : R) (j : nat) (as_ ac : R) : nat * R * R :=
  match x with
  | [] => (j, as_, ac)
  | v :: x' =>
      let dx := ang_delta v mu in
      if Rle_dec dxmin dx
      then if Rle_dec dx dxmax then cx_pass x' mu dxmin dxmax (S j) (as_ + sin v) (ac + cos v)
           else cx_pass x' mu dxmin dxmax j as_ ac
      else cx_pass x' mu dxmin dxmax j as_ ac
  end.
Fixpoint cx_loop (fuel : nat) (x : list R) (zmin zmax mu sigma : R) (iter j : nat) : Out (R * R * nat) :=
  let '(j1, as0, ac0) := cx_pass x mu (zmin * sigma) (zmax * sigma) 0 0 0 in
  if negb (Nat.ltb 1 j1) then Abort
  else
    let as_ := as0 / INR j1 in
    let ac := ac0 / INR j1 in
    let mu1 := atan2 as_ ac in
    let r := as_ * as_ + ac * ac in
    if Rlt_dec 0 r
    then
      let sigma1 := sqrt (-2 * ln r) in
      if Nat.eqb j j1 then Ret (mu1, sigma1, iter)
      else match fuel with
           | S (S _ as fuel') => cx_loop fuel' x zmin zmax mu1 sigma1 (S iter) j1
           | _ => Ret (mu1, sigma1, S iter)
           end
    else Off.
Definition excluded_circ_mean_std (x : list R) (zmin zmax : R) (max_iterations : nat) : Out (R * R * nat) :=
  match circ_std x with
  | Ret sigma => cx_loop max_iterations x zmin zmax (circ_mean x) sigma 0 0
  | Abort => Abort
  | Off => Off
  end.
