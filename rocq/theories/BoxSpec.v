(** What two normal deviates made of two uniform ones must satisfy. *)
From Coq Require Import Reals.
Open Scope R_scope.

(** The density of the standard normal distribution. *)
Definition gauss (z : R) : R := exp (- (z * z) / 2) / sqrt (2 * PI).

(** The density with mean [mu] and deviation [sigma]. *)
Definition gauss2 (mu sigma x : R) : R :=
  exp (- ((x - mu) * (x - mu)) / (2 * (sigma * sigma))) / (sigma * sqrt (2 * PI)).

(** One component of a transform that may fail, as a total function. *)
Definition part (pr : R * R -> R) (o : option (R * R)) : R :=
  match o with Some p => pr p | None => 0 end.

(** The matrix of partial derivatives of [F] at (x1, x2). *)
Definition jacobian (F : R -> R -> option (R * R)) (x1 x2 d11 d12 d21 d22 : R) : Prop :=
  derivable_pt_lim (fun t => part fst (F t x2)) x1 d11 /\
  derivable_pt_lim (fun t => part fst (F x1 t)) x2 d12 /\
  derivable_pt_lim (fun t => part snd (F t x2)) x1 d21 /\
  derivable_pt_lim (fun t => part snd (F x1 t)) x2 d22.
