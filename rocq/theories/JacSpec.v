(** What the Jacobian and the slerp derivative are meant to compute. *)
From Coq Require Import Reals Arith.
From Verif Require Import TfModel TfSpec TfExpSpec.
Open Scope R_scope.

(** Sum of [f c * g c] for c below n. *)
Fixpoint weigh (n : nat) (f g : nat -> R) : R :=
  match n with O => 0 | S m => weigh m f g + f m * g m end.

(** A matrix times a vector of n rates. *)
Definition apply_mat (n : nat) (A : nat -> nat -> R) (rates : nat -> R) (i : nat) : R := weigh n (A i) rates.

(** A velocity Jacobian with n columns and rows (v, w) at these rates. *)
Definition jac_lin (n : nat) (J : nat -> nat -> R) (rates : nat -> R) : V3 :=
  mkV (apply_mat n J rates 0) (apply_mat n J rates 1) (apply_mat n J rates 2).
Definition jac_ang (n : nat) (J : nat -> nat -> R) (rates : nat -> R) : V3 :=
  mkV (apply_mat n J rates 3) (apply_mat n J rates 4) (apply_mat n J rates 5).
(** A derivative Jacobian with rows (real, dual) at these rates. *)
Definition jac_duqu (n : nat) (J : nat -> nat -> R) (rates : nat -> R) : DQ :=
  mkD (mkQ (apply_mat n J rates 0) (apply_mat n J rates 1) (apply_mat n J rates 2) (apply_mat n J rates 3))
      (mkQ (apply_mat n J rates 4) (apply_mat n J rates 5) (apply_mat n J rates 6) (apply_mat n J rates 7)).

(** The nearer of the two quaternions of a rotation, seen from [p]. *)
Definition nearer (p q : Q4) : Q4 := if Rlt_dec (dot4 p q) 0 then scale4 (-1) q else q.

(** The sum of the squared differences of two quaternions. *)
Definition sum_sq_diff (a b : Q4) : R :=
  (qx a - qx b)² + (qy a - qy b)² + (qz a - qz b)² + (qw a - qw b)².
