(** Vectors and matrices: src/mat.c, include/amino/mat.h, the vector part of
    include/amino/mat.hpp and the loops of src/la.c, src/la_impl.c.

    Memory is one array of doubles; an address is an index into it, in units of a double, and a
    double is a real number.  [size_t] is [nat] (sizes whose products exceed the range of size_t or of
    the [int] passed to BLAS are not modelled).  BLAS and LAPACK routines are modelled by their documented
    effect; a call whose arguments overlap where BLAS forbids it is not given a meaning by the theorems. *)
From Coq Require Import Reals Arith List Bool.
Import ListNotations.
Open Scope R_scope.

Definition mem := nat -> R.
Definition upd (m : mem) (a : nat) (x : R) : mem := fun b => if Nat.eqb b a then x else m b.
(** [f 0], then [f 1], ... then [f (n-1)] *)
Fixpoint loop (n : nat) (f : nat -> mem -> mem) (m : mem) : mem :=
  match n with O => m | S k => f k (loop k f m) end.
(** sum of [f 0] ... [f (n-1)], accumulated in this order *)
Fixpoint bsum (n : nat) (f : nat -> R) : R := match n with O => 0 | S k => bsum k f + f k end.
(** [for( p = x; p < e; p += inc )]; the fuel is the distance e - x, which is enough whenever inc > 0
    (for inc = 0 the callers have e = x and the body is not run) *)
Fixpoint ptr_loop (fuel x e inc : nat) (f : nat -> mem -> mem) (m : mem) : mem :=
  match fuel with
  | O => m
  | S k => if Nat.ltb x e then ptr_loop k (x + inc)%nat e inc f (f x m) else m
  end.

(** Outcome of a call: a result, an error passed to aa_la_err (mat.c 62-80; the default handler aborts, a handler
    that returns is not modelled), or undefined behaviour *)
Inductive out (A : Type) := Done (a : A) | Fail | Undef.
Arguments Done {A}. Arguments Fail {A}. Arguments Undef {A}.
Definition obind {A B} (o : out A) (f : A -> out B) : out B :=
  match o with Done a => f a | Fail => Fail | Undef => Undef end.
(** aa_la_check_size: mat_internal.h 50-55, aa_la_fail_size: mat.c 82-89 *)
Definition check {A} (a b : nat) (k : out A) : out A := if Nat.eqb a b then k else Fail.

(** struct aa_dvec, struct aa_dmat: mat.h *)
Record dvec := mkDV { v_len : nat; v_data : nat; v_inc : nat }.
Record dmat := mkDM { m_rows : nat; m_cols : nat; m_data : nat; m_ld : nat }.

(** * BLAS and LAPACK by their documented effect (positive increments) *)
Definition b_copy (n x incx y incy : nat) : mem -> mem :=
  loop n (fun i m => upd m (y + i * incy) (m (x + i * incx)%nat)).
Definition b_axpy (n : nat) (a : R) (x incx y incy : nat) : mem -> mem :=
  loop n (fun i m => upd m (y + i * incy) (m (y + i * incy)%nat + a * m (x + i * incx)%nat)).
Definition b_scal (n : nat) (a : R) (x incx : nat) : mem -> mem :=
  loop n (fun i m => upd m (x + i * incx) (a * m (x + i * incx)%nat)).
Definition b_swap (n x incx y incy : nat) : mem -> mem :=
  loop n (fun i m => upd (upd m (x + i * incx) (m (y + i * incy)%nat)) (y + i * incy) (m (x + i * incx)%nat)).
Definition b_dot (n x incx y incy : nat) (m : mem) : R := bsum n (fun i => m (x + i * incx)%nat * m (y + i * incy)%nat).
Definition b_nrm2 (n x incx : nat) (m : mem) : R := sqrt (bsum n (fun i => m (x + i * incx)%nat * m (x + i * incx)%nat)).
Definition b_asum (n x incx : nat) (m : mem) : R := bsum n (fun i => Rabs (m (x + i * incx)%nat)).
(** matrix element address, column major *)
Definition mad (d ld i j : nat) : nat := (d + ld * j + i)%nat.
(** op(A)(i,j) for the matrix stored at (a, lda) *)
Definition b_op (tr : bool) (a lda i j : nat) (m : mem) : R := m (if tr then mad a lda j i else mad a lda i j).
(** dgemv with an r by c stored matrix: y := alpha op(A) x + beta y *)
Definition b_gemv (tr : bool) (r c : nat) (alpha : R) (a lda x incx : nat) (beta : R) (y incy : nat) (m0 : mem) : mem :=
  loop (if tr then c else r) (fun i m =>
    upd m (y + i * incy) (alpha * bsum (if tr then r else c) (fun k => b_op tr a lda i k m0 * m0 (x + k * incx)%nat) + beta * m0 (y + i * incy)%nat)) m0.
(** dgemm: C (M by N) := alpha op(A) (M by K) op(B) (K by N) + beta C.  An illegal leading dimension makes
    dgemm report an error and change nothing. *)
Definition b_gemm (ta tb : bool) (M N K : nat) (alpha : R) (a lda b ldb : nat) (beta : R) (c ldc : nat) (m0 : mem) : mem :=
  if Nat.ltb lda (if ta then K else M) || Nat.ltb ldb (if tb then N else K) || Nat.ltb ldc M then m0
  else loop N (fun j => loop M (fun i m =>
         upd m (mad c ldc i j) (alpha * bsum K (fun k => b_op ta a lda i k m0 * b_op tb b ldb k j m0) + beta * m0 (mad c ldc i j)))) m0.
(** dlacpy "G", dlaset "G", dlascl "G" with cfrom = 1, dlange "F" *)
Definition b_lacpy (r c a lda b ldb : nat) : mem -> mem :=
  loop c (fun j => loop r (fun i m => upd m (mad b ldb i j) (m (mad a lda i j)))).
Definition b_laset (r c : nat) (alpha beta : R) (a lda : nat) : mem -> mem :=
  loop c (fun j => loop r (fun i m => upd m (mad a lda i j) (if Nat.eqb i j then beta else alpha))).
Definition b_lascl (r c : nat) (alpha : R) (a lda : nat) : mem -> mem :=
  loop c (fun j => loop r (fun i m => upd m (mad a lda i j) (alpha * m (mad a lda i j)))).
Definition b_lange (r c a lda : nat) (m : mem) : R :=
  sqrt (bsum c (fun j => bsum r (fun i => m (mad a lda i j) * m (mad a lda i j)))).

(** * Views: mat.c 95-182 *)
(** aa_dvec_slice: mat.c 103-116; a zero step divides by zero *)
Definition dvec_slice (v : dvec) (start stop step : nat) : out dvec :=
  if Nat.ltb (v_len v) stop || Nat.ltb stop start then Fail
  else if Nat.eqb step 0 then Undef
  else Done (mkDV ((stop - start) / step) (v_data v + v_inc v * start) (v_inc v * step)).
(** aa_dmat_row_vec: 119-126 *)
Definition dmat_row_vec (A : dmat) (row : nat) : out dvec :=
  if Nat.leb (m_rows A) row then Fail else Done (mkDV (m_cols A) (m_data A + row) (m_ld A)).
(** aa_dmat_col_vec: 128-135 *)
Definition dmat_col_vec (A : dmat) (col : nat) : out dvec :=
  if Nat.leb (m_cols A) col then Fail else Done (mkDV (m_rows A) (m_data A + col * m_ld A) 1).
(** aa_dmat_diag_vec: 137-141 *)
Definition dmat_diag_vec (A : dmat) : dvec :=
  mkDV (if Nat.ltb (m_rows A) (m_cols A) then m_rows A else m_cols A) (m_data A) (m_ld A + 1).
(** aa_dmat_block: 162-182 *)
Definition dmat_block (A : dmat) (rs cs re ce : nat) : out dmat :=
  if Nat.leb re rs || Nat.leb (m_rows A) rs || Nat.ltb (m_rows A) re ||
     Nat.leb ce cs || Nat.leb (m_cols A) cs || Nat.ltb (m_cols A) ce
  then Fail
  else Done (mkDM (re - rs) (ce - cs) (m_data A + cs * m_ld A + rs) (m_ld A)).
(** aa_dmat_view_block: 150-160 *)
Definition dmat_view_block (A : dmat) (rs cs rows cols : nat) : out dmat :=
  dmat_block A rs cs (rs + rows) (cs + cols).
(** DVec::slice: mat.hpp 453-457 *)
Definition DVec_slice (v : dvec) (start stop step : nat) : out dvec := dvec_slice v start stop stop.
(** DVec::view on const data: mat.hpp 440-442 *)
Definition DVec_view_const (len data inc : nat) : dvec := mkDV len data 1.

(** * Element-wise operations: mat.c 280-360, 416-554 *)
(** s_inc: 330-334 *)
Definition s_inc (n : nat) (alpha : R) (x inc : nat) (m : mem) : mem :=
  ptr_loop (n * inc) x (x + n * inc) inc (fun p m => upd m p (m p + alpha)) m.
(** aa_dvec_set: 293-300 *)
Definition dvec_set (v : dvec) (alpha : R) (m : mem) : mem :=
  ptr_loop (v_len v * v_inc v) (v_data v) (v_data v + v_len v * v_inc v) (v_inc v) (fun p m => upd m p alpha) m.
(** aa_dvec_zero: 302-306; aa_dvec_inc: 336-340; aa_dvec_scal: 324-328 *)
Definition dvec_zero (v : dvec) : mem -> mem := dvec_set v 0.
Definition dvec_inc (alpha : R) (v : dvec) : mem -> mem := s_inc (v_len v) alpha (v_data v) (v_inc v).
Definition dvec_scal (a : R) (x : dvec) : mem -> mem := b_scal (v_len x) a (v_data x) (v_inc x).
(** aa_dvec_swap: 317-322; aa_dvec_copy: 342-347; aa_dvec_axpy: 349-354 *)
Definition dvec_swap (x y : dvec) (m : mem) : out mem :=
  check (v_len x) (v_len y) (Done (b_swap (v_len x) (v_data x) (v_inc x) (v_data y) (v_inc y) m)).
Definition dvec_copy (x y : dvec) (m : mem) : out mem :=
  check (v_len x) (v_len y) (Done (b_copy (v_len x) (v_data x) (v_inc x) (v_data y) (v_inc y) m)).
Definition dvec_axpy (a : R) (x y : dvec) (m : mem) : out mem :=
  check (v_len x) (v_len y) (Done (b_axpy (v_len x) a (v_data x) (v_inc x) (v_data y) (v_inc y) m)).
(** aa_dvec_dot: 356-361; aa_dvec_nrm2: 363-367 *)
Definition dvec_dot (x y : dvec) (m : mem) : out R :=
  check (v_len x) (v_len y) (Done (b_dot (v_len x) (v_data x) (v_inc x) (v_data y) (v_inc y) m)).
Definition dvec_nrm2 (x : dvec) (m : mem) : R := b_nrm2 (v_len x) (v_data x) (v_inc x) m.
(** aa_dmat_set: 280-291; aa_dmat_zero: 309-313 *)
Definition dmat_set (A : dmat) (alpha beta : R) : mem -> mem :=
  b_laset (m_rows A) (m_cols A) alpha beta (m_data A) (m_ld A).
Definition dmat_zero (A : dmat) : mem -> mem := dmat_set A 0 0.
(** aa_dmat_lacpy: 417-432 with "G" (or "A"), aa_dmat_copy: 434-438 *)
Definition dmat_copy (A B : dmat) (m : mem) : out mem :=
  check (m_rows A) (m_rows B) (check (m_cols A) (m_cols B)
    (Done (b_lacpy (m_rows A) (m_cols A) (m_data A) (m_ld A) (m_data B) (m_ld B) m))).
(** s_ssd: 443-453; the two pointers advance together *)
Fixpoint s_ssd_loop (fuel x e incx y incy : nat) (a : R) (m : mem) : R :=
  match fuel with
  | O => a
  | S k => if Nat.ltb x e
           then s_ssd_loop k (x + incx) e incx (y + incy) incy (a + (m x - m y) * (m x - m y)) m else a
  end.
Definition s_ssd (n : nat) (a : R) (x incx y incy : nat) (m : mem) : R :=
  s_ssd_loop (n * incx) x (x + n * incx) incx y incy a m.
(** aa_dvec_ssd: 456-463 *)
Definition dvec_ssd (x y : dvec) (m : mem) : out R :=
  check (v_len x) (v_len y) (Done (s_ssd (v_len x) 0 (v_data x) (v_inc x) (v_data y) (v_inc y) m)).
(** aa_dmat_ssd: 465-480 *)
Fixpoint dmat_ssd_loop (fuel Ac ec lda Bc ldb rows : nat) (a : R) (m : mem) : R :=
  match fuel with
  | O => a
  | S k => if Nat.ltb Ac ec
           then dmat_ssd_loop k (Ac + lda) ec lda (Bc + ldb) ldb rows (s_ssd rows a Ac 1 Bc 1 m) m else a
  end.
Definition dmat_ssd (A B : dmat) (m : mem) : out R :=
  check (m_rows A) (m_rows B) (check (m_cols A) (m_cols B)
    (Done (dmat_ssd_loop (m_cols A * m_ld A) (m_data A) (m_data A + m_cols A * m_ld A) (m_ld A) (m_data B) (m_ld B) (m_rows A) 0 m))).
(** aa_dmat_nrm2: 482-487; aa_dmat_scal: 489-499 *)
Definition dmat_nrm2 (A : dmat) (m : mem) : R := b_lange (m_rows A) (m_cols A) (m_data A) (m_ld A) m.
Definition dmat_scal (A : dmat) (alpha : R) : mem -> mem := b_lascl (m_rows A) (m_cols A) alpha (m_data A) (m_ld A).
(** aa_dmat_inc: 501-515 *)
Definition dmat_inc (A : dmat) (alpha : R) (m : mem) : mem :=
  let r := m_rows A in let c := m_cols A in let ld := m_ld A in let x := m_data A in
  if Nat.eqb r c then s_inc (r * c) alpha x 1 m
  else ptr_loop (c * ld) x (x + c * ld) ld (fun p m => s_inc r alpha p 1 m) m.
(** aa_dmat_axpy: 517-535; the pointer into Y advances with the one into X *)
Fixpoint axpy_cols (fuel x e ldx y ldy r : nat) (alpha : R) (m : mem) : mem :=
  match fuel with
  | O => m
  | S k => if Nat.ltb x e then axpy_cols k (x + ldx) e ldx (y + ldy) ldy r alpha (b_axpy r alpha x 1 y 1 m) else m
  end.
Definition dmat_axpy (alpha : R) (X Y : dmat) (m : mem) : out mem :=
  let r := m_rows X in let c := m_cols X in let x := m_data X in
  check r (m_rows Y) (check c (m_cols Y) (Done (
    if Nat.eqb r (m_ld X) && Nat.eqb r (m_ld Y) then b_axpy (r * c) alpha x 1 (m_data Y) 1 m
    else axpy_cols (c * m_ld X) x (x + c * m_ld X) (m_ld X) (m_data Y) (m_ld Y) r alpha m))).
(** aa_dmat_trans: 537-554; the row pointer of B goes up by one, the column pointer of A by lda *)
Fixpoint trans_loop (fuel brow be acol lda ldb r : nat) (m : mem) : mem :=
  match fuel with
  | O => m
  | S k => if Nat.ltb brow be then trans_loop k (brow + 1) be (acol + lda) lda ldb r (b_copy r acol 1 brow ldb m) else m
  end.
Definition dmat_trans (A B : dmat) (m : mem) : out mem :=
  check (m_rows A) (m_cols B) (check (m_cols A) (m_rows B)
    (Done (trans_loop (m_cols A) (m_data B) (m_data B + m_cols A) (m_data A) (m_ld A) (m_ld B) (m_rows A) m))).

(** * Products: mat.c 369-413 *)
(** aa_dmat_gemv: 370-391; [true] is CblasTrans *)
Definition dmat_gemv (tr : bool) (alpha : R) (A : dmat) (x : dvec) (beta : R) (y : dvec) (m : mem) : out mem :=
  let go := Done (b_gemv tr (m_rows A) (m_cols A) alpha (m_data A) (m_ld A) (v_data x) (v_inc x) beta (v_data y) (v_inc y) m) in
  if tr then check (m_rows A) (v_len x) (check (m_cols A) (v_len y) go)
  else check (m_rows A) (v_len y) (check (m_cols A) (v_len x) go).
(** aa_dmat_gemm: 393-413; a failed assertion (404-406) aborts too *)
Definition dmat_gemm (ta tb : bool) (alpha : R) (A B : dmat) (beta : R) (C : dmat) (m : mem) : out mem :=
  check (m_rows A) (m_rows C) (check (m_cols A) (m_rows B) (check (m_cols B) (m_cols C) (
    if Nat.leb (m_rows A) (m_ld A) && Nat.leb (m_rows B) (m_ld B) && Nat.leb (m_rows C) (m_ld C)
    then Done (b_gemm ta tb (m_rows A) (m_cols B) (m_cols A) alpha (m_data A) (m_ld A) (m_data B) (m_ld B) beta (m_data C) (m_ld C) m)
    else Fail))).

(** * Expression templates: mat.hpp 140-262, 1074-1270 *)
(** DVecExpScal 180-192, DVecExpAxpy 194-208, DVecExpMV1 210-229, DVecExpMV2 231-262 *)
Inductive vexp :=
| EVec (x : dvec)
| EScal (alpha : R) (e : vexp)
| EAxpy (alpha : R) (x : dvec) (y : vexp)
| EMV1 (tr : bool) (alpha : R) (A : dmat) (x : dvec)
| EMV2 (tr : bool) (alpha : R) (A : dmat) (x : dvec) (beta : R) (y : vexp).
(** DVec::operator=: mat.hpp 481-495, through VecEval 158-166 and the eval methods *)
Fixpoint assign (t : dvec) (e : vexp) (m : mem) : out mem :=
  match e with
  | EVec x => dvec_copy x t m
  | EScal a e => obind (assign t e m) (fun m' => Done (dvec_scal a t m'))
  | EAxpy a x y => obind (assign t y m) (fun m' => dvec_axpy a x t m')
  | EMV1 tr a A x => dmat_gemv tr a A x 0 t m
  | EMV2 tr a A x b y => obind (assign t y m) (fun m' => dmat_gemv tr a A x b t m')
  end.
(** the operators that build expressions: alpha * e (mat.hpp 1076-1101, 1192-1200, 1262-1271) ... *)
Definition e_scale (a : R) (e : vexp) : vexp :=
  match e with
  | EScal b e' => EScal (a * b) e'
  | EMV1 tr b A x => EMV1 tr (a * b) A x
  | EMV2 tr b A x c y => EMV2 tr (a * b) A x (a * c) y
  | _ => EScal a e
  end.
(** ... x + e for a vector x (1148-1165) and a scaled vector (1169-1182) ... *)
Definition e_add_vec (x : dvec) (e : vexp) : vexp := EAxpy 1 x e.
Definition e_add_scaled (a : R) (x : dvec) (e : vexp) : vexp := EAxpy a x e.
(** ... alpha op(A) x + e (1229-1260): a scaled right operand becomes the beta of gemv *)
Definition e_add_mv (tr : bool) (a : R) (A : dmat) (x : dvec) (e : vexp) : vexp :=
  match e with EScal b y => EMV2 tr a A x b y | _ => EMV2 tr a A x 1 e end.
(** ... and op(A) x (1187-1190, 1202-1205); scaled operands (1207-1225) are [e_scale] of this *)
Definition e_mul (tr : bool) (A : dmat) (x : dvec) : vexp := EMV1 tr 1 A x.
