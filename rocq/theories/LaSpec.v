(** What the linear algebra functions should compute, in terms of matrices as functions of row and column. *)
From Coq Require Import Reals Arith.
From Verif Require Import MatModel LaModel.
Open Scope R_scope.

(** the vector at address x, the column-major matrix at address a with leading dimension ld *)
Definition arr (x : nat) (m : mem) (i : nat) : R := m (x + i)%nat.
Definition amat (a ld : nat) (m : mem) (i j : nat) : R := m (a + ld * j + i)%nat.
(** the block of l doubles at b does not meet the block of l' doubles at b'; the address a is outside the block *)
Definition clear_of (b l b' l' : nat) : Prop := (b + l <= b' \/ b' + l' <= b)%nat.
Definition outside (b l a : nat) : Prop := (a < b \/ b + l <= a)%nat.

Definition delta (i j : nat) : R := if Nat.eqb i j then 1 else 0.
Definition dotp (n : nat) (x y : nat -> R) : R := bsum n (fun i => x i * y i).
Definition ssq (n : nat) (x : nat -> R) : R := dotp n x x.
Definition mulv (k : nat) (A : nat -> nat -> R) (x : nat -> R) (i : nat) : R := bsum k (fun l => A i l * x l).
Definition mmul (k : nat) (A B : nat -> nat -> R) (i j : nat) : R := bsum k (fun l => A i l * B l j).

(** y minimises |A y - b|^2 + k |y|^2, and no other vector does *)
Definition damped_cost (m n : nat) (k : R) (A : nat -> nat -> R) (b y : nat -> R) : R :=
  ssq m (fun i => mulv n A y i - b i) + k * ssq n y.
Definition damped_solution (m n : nat) (k : R) (A : nat -> nat -> R) (b y : nat -> R) : Prop :=
  forall z, damped_cost m n k A b y <= damped_cost m n k A b z /\
    (damped_cost m n k A b z = damped_cost m n k A b y -> forall i, (i < n)%nat -> z i = y i).

(** y minimises |A y - b|^2 *)
Definition least_squares (m n : nat) (A : nat -> nat -> R) (b y : nat -> R) : Prop :=
  forall z, ssq m (fun i => mulv n A y i - b i) <= ssq m (fun i => mulv n A z i - b i).
(** y = As x + yp - As (A yp) *)
Definition nullspace_solution (m n : nat) (A As : nat -> nat -> R) (x yp : nat -> R) (i : nat) : R :=
  mulv m As x i + yp i - mulv m As (mulv n A yp) i.

(** P (n by m) is the Moore-Penrose inverse of A (m by n) *)
Definition moore_penrose (m n : nat) (A P : nat -> nat -> R) : Prop :=
  (forall i j, (i < m)%nat -> (j < n)%nat -> mmul m (mmul n A P) A i j = A i j) /\
  (forall i j, (i < n)%nat -> (j < m)%nat -> mmul n (mmul m P A) P i j = P i j) /\
  (forall i j, (i < m)%nat -> (j < m)%nat -> mmul n A P i j = mmul n A P j i) /\
  (forall i j, (i < n)%nat -> (j < n)%nat -> mmul m P A i j = mmul m P A j i).

(** r is a singular value decomposition of the m by n matrix A *)
Definition is_svd (m n : nat) (A : nat -> nat -> R) (r : svdres) : Prop :=
  (forall i j, (i < m)%nat -> (j < n)%nat -> A i j = bsum (Nat.min m n) (fun l => sU r i l * sS r l * sVt r l j)) /\
  (forall k l, (k < m)%nat -> (l < m)%nat -> bsum m (fun i => sU r i k * sU r i l) = delta k l) /\
  (forall k l, (k < n)%nat -> (l < n)%nat -> bsum n (fun j => sVt r k j * sVt r l j) = delta k l) /\
  (forall l, (l < Nat.min m n)%nat -> 0 <= sS r l) /\
  (forall k l, (k <= l)%nat -> (l < Nat.min m n)%nat -> sS r l <= sS r k).
(** the matrix with the same singular vectors as the transpose of A, and singular values f *)
Definition regularised (m n : nat) (r : svdres) (f : R -> R) (i j : nat) : R :=
  bsum (Nat.min m n) (fun l => sVt r l i * f (sS r l) * sU r j l).

(** the parabola through three points *)
Definition parabola (t0 x0 t1 x1 t2 x2 : R) (p : R -> R) : Prop :=
  (exists a b c, forall t, p t = a + b * t + c * t * t) /\ p t0 = x0 /\ p t1 = x1 /\ p t2 = x2.

(** the sample covariance of n column vectors about mu *)
Definition covariance (n : nat) (A : nat -> nat -> R) (mu : nat -> R) (i j : nat) : R :=
  bsum n (fun k => (A i k - mu i) * (A j k - mu j)) / INR (n - 1).

(** where the arrays and the workspace of the damped inverse must be *)
Definition dpinv_apart (m n A As Ap W : nat) : Prop :=
  clear_of Ap (m * n) A (m * n) /\ clear_of Ap (m * n) As (m * n) /\
  ((n < m)%nat -> clear_of W (m * m) Ap (m * n) /\ clear_of W (m * m) As (m * n)).
(** the address lies in the columns of A, gaps between them included *)
Definition mblock (A : dmat) (a : nat) : Prop := (m_data A <= a < m_data A + m_ld A * m_cols A)%nat.
(** the columns of the two matrices, gaps included, do not meet *)
Definition mapart (A B : dmat) : Prop := clear_of (m_data A) (m_ld A * m_cols A) (m_data B) (m_ld B * m_cols B).
Definition dmat_dpinv_apart (A As : dmat) (w : nat) : Prop :=
  let m := m_rows A in let n := m_cols A in
  mapart A As /\ let W := if Nat.leb m n then mkDM m n w m else mkDM n n w n in mapart A W /\ mapart As W.
(** the workspace of the SVD functions *)
Definition svd_work (m n : nat) : nat := (m * m + n * n + Nat.min m n)%nat.
