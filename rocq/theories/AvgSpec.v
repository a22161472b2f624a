(** Specification vocabulary for averages. *)
From Coq Require Import Reals List Permutation Arith.
From Verif Require Import TfModel AvgModel.
Import ListNotations.
Open Scope R_scope.

Definition sum4 (f : nat -> R) : R := f 0%nat + f 1%nat + f 2%nat + f 3%nat.
Definition unit4 (x : v4) : Prop := sum4 (fun i => x i * x i) = 1.

(** The rotation matrix of a quaternion x,y,z,w *)
Definition rot_of (q : v4) : M33 :=
  let x := q 0%nat in let y := q 1%nat in let z := q 2%nat in let w := q 3%nat in
  mkM (1 - 2 * (y * y + z * z)) (2 * (x * y + w * z)) (2 * (x * z - w * y))
      (2 * (x * y - w * z)) (1 - 2 * (x * x + z * z)) (2 * (y * z + w * x))
      (2 * (x * z + w * y)) (2 * (y * z - w * x)) (1 - 2 * (x * x + y * y)).
(** Squared distance of two matrices, elementwise *)
Definition mdist2 (A B : M33) : R :=
  (m00 A - m00 B)^2 + (m10 A - m10 B)^2 + (m20 A - m20 B)^2 +
  (m01 A - m01 B)^2 + (m11 A - m11 B)^2 + (m21 A - m21 B)^2 +
  (m02 A - m02 B)^2 + (m12 A - m12 B)^2 + (m22 A - m22 B)^2.
(** Weighted sum of the squared distances from the rotation of [x] *)
Fixpoint cost (wq : list (R * v4)) (x : v4) : R :=
  match wq with [] => 0 | (w, q) :: r => w * mdist2 (rot_of x) (rot_of q) + cost r x end.

(** dgeev on a symmetric matrix: four unit eigenvectors that span the space *)
Definition geev_ok (M : m4) (r : (nat -> R) * (nat -> v4)) : Prop :=
  (forall k i, (k < 4)%nat -> (i < 4)%nat -> sum4 (fun j => M i j * snd r k j) = fst r k * snd r k i) /\
  (forall k, (k < 4)%nat -> unit4 (snd r k)) /\
  (forall x : v4, exists c : nat -> R, forall i, (i < 4)%nat -> x i = sum4 (fun k => c k * snd r k i)).

(** ** Medians *)
Definition ascending (l : list R) : Prop :=
  forall i j, (i < j < length l)%nat -> nth i l 0 <= nth j l 0.
Definition is_median (l : list R) (m : R) : Prop :=
  exists s, Permutation l s /\ ascending s /\
    m = (nth (length l / 2) s 0 + nth ((length l - 1) / 2) s 0) / 2.
Fixpoint dev1 (l : list R) (t : R) : R :=
  match l with [] => 0 | x :: r => Rabs (x - t) + dev1 r t end.

(** ** Fitting a translation *)
Definition d2 (a b : V3) : R := (vx a - vx b)^2 + (vy a - vy b)^2 + (vz a - vz b)^2.
Definition d1 (a b : V3) : R := Rabs (vx a - vx b) + Rabs (vy a - vy b) + Rabs (vz a - vz b).
(** What is left between y and R x + t, summed over the pairs *)
Fixpoint misfit (d : V3 -> V3 -> R) (R_ : M33) (t : V3) (xy : list (V3 * V3)) : R :=
  match xy with [] => 0 | (x, y) :: r => d y (vadd (mrot R_ x) t) + misfit d R_ t r end.

(** ** Planes *)
Fixpoint inner (a b : list R) : R :=
  match a, b with x :: a', y :: b' => x * y + inner a' b' | _, _ => 0 end.
Fixpoint resid (A : list (list R)) (b : list R) (x : list R) : R :=
  match A, b with a :: A', c :: b' => (inner a x - c)^2 + resid A' b' x | _, _ => 0 end.
(** Least squares; of all solutions the shortest *)
Definition lls_ok (m : nat) (A : list (list R)) (b x : list R) : Prop :=
  length x = m /\ (forall y, length y = m -> resid A b x <= resid A b y) /\
  (forall y, length y = m -> resid A b y = resid A b x -> inner x x <= inner y y).
