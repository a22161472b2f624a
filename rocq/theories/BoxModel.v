(** The Box-Muller transform and the scores of a normal distribution,
    src/math.c and include/amino/math.h.  Doubles are reals; [None] is a result
    that is not finite: log of a number that is not positive, or the square root
    of a negative number. *)
From Coq Require Import Reals.
Open Scope R_scope.

(** aa_frand: src/math.c:73-75; [r] is what rand() returns, [rmax] is RAND_MAX *)
Definition frand (r rmax : nat) : R := INR r / INR rmax.

(** log and sqrt of math.h *)
Definition flog (x : R) : option R := if Rlt_dec 0 x then Some (ln x) else None.
Definition fsqrt (x : R) : option R := if Rle_dec 0 x then Some (sqrt x) else None.

(** aa_stat_box_muller: src/math.c:88-97 *)
Definition box_muller (x1 x2 : R) : option (R * R) :=
  match flog x1 with
  | None => None
  | Some l =>
      match fsqrt (-2 * l) with
      | None => None
      | Some a =>
          let b := 2 * PI * x2 in
          let s := sin b in
          let c := cos b in
          Some (a * c, a * s)
      end
  end.

(** aa_stat_z2x, aa_stat_x2z: include/amino/math.h:212-220 *)
Definition z2x (z mu sigma : R) : R := z * sigma + mu.
Definition x2z (x mu sigma : R) : R := (x - mu) / sigma.
