(** Averages of poses and samples: Davenport's mean rotation (src/tf.c 473-509,
    src/tf/quat_ord.c 922-943), medians (src/la_impl.c 629-685), the relative
    translation of two point sets (src/tf.c 525-562), plane fit (src/la_impl.c
    735-774, la.c 520-522).  doubles are reals. *)
From Coq Require Import Reals ZArith List Arith.
From Verif Require Import HeapModel TfModel.
Import ListNotations.
Open Scope R_scope.

(** ** Davenport's q-method.  A quaternion is its four doubles. *)
Definition v4 := nat -> R.
Definition m4 := nat -> nat -> R.
Definition quat_ident : v4 := fun i => if Nat.eqb i 3 then 1 else 0.

(** quat_ord.c 922-943: M := 0, then M += w[i] * q * q' *)
Definition davenport_add (M : m4) (p : R * v4) : m4 :=
  fun i j => M i j + fst p * (snd p i * snd p j).
Definition davenport_matrix (wq : list (R * v4)) : m4 := fold_left davenport_add wq (fun _ _ => 0).

(** la_impl.h 342-354: aa_la_d_maxloc, from element [i] on *)
Fixpoint maxloc_from (x : nat -> R) (imax : nat) (xmax : R) (i k : nat) : nat :=
  match k with
  | O => imax
  | S k' => if Rlt_dec xmax (x i) then maxloc_from x i (x i) (S i) k' else maxloc_from x imax xmax (S i) k'
  end.
Definition maxloc (n : nat) (x : nat -> R) : nat := maxloc_from x 0 (x 0%nat) 1 (n - 1).

(** la_impl.c 571-601: aa_la_d_eev copies the matrix with leading dimension n
    (436-443) and hands the copy to geev with the caller's leading dimension;
    geev reads element (i,j) at j*lda+i.  [None]: outside the n*n copy. *)
Definition dup (n : nat) (A : nat -> R) (lda : nat) (k : nat) : option R :=
  if Nat.ltb k (n * n) then Some (A (k / n * lda + k mod n)%nat) else None.
Fixpoint all_some {B} (l : list (option B)) : bool :=
  match l with [] => true | Some _ :: r => all_some r | None :: _ => false end.
Definition eev_reads (n : nat) (A : nat -> R) (lda : nat) : list (option R) :=
  flat_map (fun j => map (fun i => dup n A lda (j * lda + i)) (seq 0 n)) (seq 0 n).

Section DAVENPORT.
(** LAPACK's dgeev on a 4 by 4 matrix: real parts of the eigenvalues and the
    right eigenvectors, by columns *)
Variable geev4 : m4 -> (nat -> R) * (nat -> v4).

(** tf.c 473-509; [None] for the weights is the NULL pointer *)
Definition davenport (w : option (list R)) (qq : list v4) : v4 :=
  match qq with
  | [] => quat_ident
  | [q] => q
  | _ =>
      let n := length qq in
      let ws := match w with Some l => l | None => repeat (1 / INR n) n end in
      let M := davenport_matrix (combine ws qq) in
      let (wr, Vr) := geev4 M in
      Vr (maxloc 4 wr)
  end.
End DAVENPORT.

(** ** Medians *)
(** 629-636: aa_la_d_compar *)
Definition compar (a b : R) : Z :=
  if Rlt_dec a b then (-1)%Z else if Rlt_dec b a then 1%Z else 0%Z.
(** 638-655: aa_la_d_nmedian; [None] if the sort leaves the array *)
Definition nmedian (x : list R) : option R :=
  match x with
  | [] => Some 0
  | [a] => Some a
  | _ =>
      match heap_sort compar x (length x) with
      | None => None
      | Some y =>
          let n := length x in
          let i := (n / 2)%nat in
          if Nat.eqb (n mod 2) 1 then Some (nth i y 0) else Some ((nth i y 0 + nth (i - 1) y 0) / 2)
      end
  end.
(** 657-662: aa_la_d_median: a copy, then the above *)
Definition median (x : list R) : option R := nmedian x.
(** 664-674, 676-685: aa_la_d_mad, aa_la_d_mad2 (with ssd 688-703) *)
Definition mad (u : R) (x : list R) : option R := nmedian (map (fun xi => Rabs (u - xi)) x).
Fixpoint ssd (x y : list R) : R :=
  match x, y with
  | a :: x', b :: y' => (a - b) * (a - b) + ssd x' y'
  | _, _ => 0
  end.
Definition mad2 (u : list R) (cols : list (list R)) : option R := nmedian (map (fun c => sqrt (ssd c u)) cols).

(** The same comparison compiled for float (la2.c 53-54): it reads sizeof(double)
    octets at an element of an array of [n] elements of [elt] octets. *)
Definition compar_inside (elt n i : nat) : bool := Nat.leb (i * elt + 8) (n * elt).

(** ** Relative translation: tf.c 525-538, columns in pairs *)
Definition relx (R_ : M33) (xy : list (V3 * V3)) : list V3 :=
  map (fun p => vsub (snd p) (mrot R_ (fst p))) xy.
(** la_impl.c 376-388 on three rows *)
Definition colmean3 (z : list V3) : V3 :=
  let s := fold_left (fun a v => mkV (vx a + vx v) (vy a + vy v) (vz a + vz v)) z (mkV 0 0 0) in
  let k := 1 / INR (length z) in
  mkV (k * vx s) (k * vy s) (k * vz s).
(** tf.c 540-549, 552-562 *)
Definition relx_mean (R_ : M33) (xy : list (V3 * V3)) : V3 := colmean3 (relx R_ xy).
Definition relx_median (R_ : M33) (xy : list (V3 * V3)) : option V3 :=
  let z := relx R_ xy in
  match median (map vx z), median (map vy z), median (map vz z) with
  | Some a, Some b, Some c => Some (mkV a b c)
  | _, _, _ => None
  end.

(** ** Plane fit: la_impl.c 735-774.  Points are columns of [m] doubles. *)
Definition nrm2 (l : list R) : R := sqrt (fold_left (fun s x => s + x * x) l 0).
Section FIT.
(** LAPACK's dgelsd behind aa_la_d_lls: rows of A and b to x *)
Variable lls : list (list R) -> list R -> list R.
Definition colfit (pts : list (list R)) : option (list R) :=
  let At := map (fun p => map (fun c => c / nrm2 p) p) pts in
  let b := map (fun p => -1 / nrm2 p) pts in
  let xout := lls At b in
  let d := nrm2 xout in
  if Req_EM_T d 0 then None   (* 0/0 *)
  else Some (map (fun c => c / d) xout ++ [1 / d]).
End FIT.
