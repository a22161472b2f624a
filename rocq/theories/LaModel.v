(** Linear algebra on plain arrays and on descriptors: src/la.c, src/la_impl.c and the (pseudo)inverses of src/mat.c,
    in the memory model of MatModel.  Matrices are column major.

    The region allocator only supplies workspace here: a function that allocates takes the addresses of its
    workspace as arguments (Region*.v is about the allocator itself). *)
From Coq Require Import Reals Arith List Bool.
From Verif Require Import MatModel AtanModel.
Open Scope R_scope.

(** * More BLAS and LAPACK *)
(** dsyrk, upper, no transpose, with beta = 0: the upper triangle of the n by n matrix C becomes alpha A A^T (A is n by k) *)
Definition b_syrk (n k : nat) (alpha : R) (a lda c ldc : nat) (m0 : mem) : mem :=
  loop n (fun j => loop (S j) (fun i m =>
    upd m (mad c ldc i j) (alpha * bsum k (fun l => m0 (mad a lda i l) * m0 (mad a lda j l))))) m0.
(** dger: A (m by n) := A + alpha x y^T *)
Definition b_ger (r c : nat) (alpha : R) (x incx y incy a lda : nat) (m0 : mem) : mem :=
  loop c (fun j => loop r (fun i m =>
    upd m (mad a lda i j) (m (mad a lda i j) + alpha * m0 (x + i * incx)%nat * m0 (y + j * incy)%nat))) m0.
(** dsyr, upper: A := A + alpha x x^T in the upper triangle *)
Definition b_syr (n : nat) (alpha : R) (x incx a lda : nat) (m0 : mem) : mem :=
  loop n (fun j => loop (S j) (fun i m =>
    upd m (mad a lda i j) (m (mad a lda i j) + alpha * m0 (x + i * incx)%nat * m0 (x + j * incx)%nat))) m0.

(** The solution of B x = b for a symmetric positive definite B, by eliminating the last unknown; the divisors are the
    squares of the diagonal of the Cholesky factor *)
Fixpoint solve (n : nat) (B : nat -> nat -> R) (b : nat -> R) : nat -> R :=
  match n with
  | O => fun _ => 0
  | S k =>
      let u := solve k B (fun i => B i k) in
      let v := solve k B b in
      let s := B k k - bsum k (fun i => B k i * u i) in
      let t := (b k - bsum k (fun i => B k i * v i)) / s in
      fun i => if Nat.eqb i k then t else v i - t * u i
  end.
Fixpoint pivots (n : nat) (B : nat -> nat -> R) : bool :=
  match n with
  | O => true
  | S k => pivots k B && (if Rlt_dec 0 (B k k - bsum k (fun i => B k i * solve k B (fun i => B i k) i)) then true else false)
  end.
(** the symmetric matrix whose upper triangle is stored at (b, ldb) *)
Definition sym (b ldb : nat) (m : mem) (i j : nat) : R := if Nat.leb i j then m (mad b ldb i j) else m (mad b ldb j i).
(** dposv 'U': on success X := B^-1 X and 0 is returned; if B is not positive definite X is not changed and a positive number
    is returned.  The upper triangle of B is overwritten in both cases, with values [junk] not modelled. *)
Definition b_posv (junk : nat -> R) (n nrhs b ldb x ldx : nat) (m0 : mem) : nat * mem :=
  let spoil := loop n (fun j => loop (S j) (fun i m => upd m (mad b ldb i j) (junk (mad b ldb i j)))) in
  if pivots n (sym b ldb m0) then
    (0%nat, loop nrhs (fun j => loop n (fun i m =>
       upd m (mad x ldx i j) (solve n (sym b ldb m0) (fun l => m0 (mad x ldx l j)) i))) (spoil m0))
  else (1%nat, spoil m0).

(** * Transposes, trace, products *)
(** aa_la_transpose2: la.c 170-176 *)
Definition la_transpose2 (m n A At : nat) : mem -> mem :=
  loop m (fun i => loop n (fun j M => upd M (mad At n j i) (M (mad A m i j)))).
(** aa_la_transpose: la.c 179-187; the inner loop starts at i+1 *)
Definition la_transpose (n A : nat) : mem -> mem :=
  loop n (fun i => loop (n - (i + 1)) (fun k M => let j := (i + 1 + k)%nat in
    let t := M (mad A n i j) in
    upd (upd M (mad A n i j) (M (mad A n j i))) (mad A n j i) t)).
(** aa_la_d_transpose: la_impl.c 45-53 *)
Definition d_transpose (m n A lda B ldb : nat) : mem -> mem :=
  loop n (fun i => loop m (fun j M => upd M (B + j * ldb + i) (M (A + i * lda + j)%nat))).
(** aa_la_trace: la.c 189-191; cblas_dasum adds absolute values *)
Definition la_trace (n A : nat) (m : mem) : R := b_asum n A (n + 1) m.
(** aa_la_wdot: la.c 193-201 *)
Definition la_wdot (n x A y : nat) (m : mem) : R :=
  bsum n (fun i => m (y + i)%nat * b_dot n (A + i * n) 1 x 1 m).
(** aa_la_mvmul: math.h 496-501 *)
Definition la_mvmul (m n A x b : nat) : mem -> mem := b_gemv false m n 1 A m x 1 0 b 1.
(** aa_la_det3x3: la.c 496-507, for a matrix at address r *)
Definition la_det3x3 (r : nat) (m : mem) : R :=
  let a i j := m (mad r 3 i j) in
  a 0%nat 0%nat * (a 1%nat 1%nat * a 2%nat 2%nat - a 1%nat 2%nat * a 2%nat 1%nat)
  - a 0%nat 1%nat * (a 1%nat 0%nat * a 2%nat 2%nat - a 1%nat 2%nat * a 2%nat 0%nat)
  + a 0%nat 2%nat * (a 1%nat 0%nat * a 2%nat 1%nat - a 1%nat 1%nat * a 2%nat 0%nat).

(** * Interpolation *)
(** aa_la_d_lerp: la_impl.c 361-374, aa_la_linterp: la.c 413-421 *)
Definition d_lerp (n : nat) (u : R) (v1 inc1 v2 inc2 vu incu : nat) : mem -> mem :=
  loop n (fun i m => upd m (vu + i * incu) (m (v1 + i * inc1)%nat + u * (m (v2 + i * inc2)%nat - m (v1 + i * inc1)%nat))).
Definition la_linterp (n : nat) (t0 : R) (X0 : nat) (t1 : R) (X1 : nat) (ti : R) (Xi : nat) : mem -> mem :=
  d_lerp n ((ti - t0) / (t1 - t0)) X0 1 X1 1 Xi 1.
(** aa_la_quadterp: la.c 425-467 *)
Definition quad_a (t0 x0 t1 x1 t2 x2 : R) : R :=
  t1 * t2 / ((t1 - t0) * (t2 - t0)) * x0 + - t0 * t2 / ((t1 - t0) * (t2 - t1)) * x1 + t0 * t1 / ((t2 - t0) * (t2 - t1)) * x2.
Definition quad_b (t0 x0 t1 x1 t2 x2 : R) : R :=
  - (t2 + t1) / ((t1 - t0) * (t2 - t0)) * x0 + (t2 + t0) / ((t1 - t0) * (t2 - t1)) * x1 + - (t1 + t0) / ((t2 - t0) * (t2 - t1)) * x2.
Definition quad_c (t0 x0 t1 x1 t2 x2 : R) : R :=
  1 / ((t1 - t0) * (t2 - t0)) * x0 + -1 / ((t1 - t0) * (t2 - t1)) * x1 + 1 / ((t2 - t0) * (t2 - t1)) * x2.
Definition la_quadterp (n : nat) (t0 : R) (X0 : nat) (t1 : R) (X1 : nat) (t2 : R) (X2 : nat) (ti : R) (Xi : nat) : mem -> mem :=
  loop n (fun i m => let x0 := m (X0 + i)%nat in let x1 := m (X1 + i)%nat in let x2 := m (X2 + i)%nat in
    upd m (Xi + i) (quad_a t0 x0 t1 x1 t2 x2 + quad_b t0 x0 t1 x1 t2 x2 * ti + quad_c t0 x0 t1 x1 t2 x2 * (ti * ti))).
(** aa_la_quadterp_dx: la.c 469-492 *)
Definition la_quadterp_dx (n : nat) (t0 : R) (X0 : nat) (t1 : R) (X1 : nat) (t2 : R) (X2 : nat) (ti : R) (dXi : nat) : mem -> mem :=
  loop n (fun i m => let x0 := m (X0 + i)%nat in let x1 := m (X1 + i)%nat in let x2 := m (X2 + i)%nat in
    upd m (dXi + i) (quad_b t0 x0 t1 x1 t2 x2 + quad_c t0 x0 t1 x1 t2 x2 * (ti / 2))).

(** * Statistics and geometry *)
(** aa_la_d_colmean: la_impl.c 376-388 (memset is a loop of zeros) *)
Definition zero (n x : nat) : mem -> mem := loop n (fun i m => upd m (x + i) 0).
Definition d_colmean (m n A lda x : nat) (M : mem) : mem :=
  b_scal m (1 / INR n) x 1 (loop n (fun j => b_axpy m 1 (A + j * lda) 1 x 1) (zero m x M)).
(** aa_la_d_rowmean: la_impl.c 391-403 *)
Definition d_rowmean (m n A lda x : nat) (M : mem) : mem :=
  b_scal n (1 / INR m) x 1 (loop m (fun i => b_axpy n 1 (A + i) lda x 1) (zero n x M)).
(** aa_la_d_colcov: la_impl.c 405-434; t is the address of the automatic array t[m], n - 1 is a size_t: for
    n = 0 it is huge, and the theorems ask for n >= 2; cblas_dscal and the last loop ignore lde *)
Definition d_colcov (m n A lda x E lde t : nat) (M : mem) : mem :=
  let M1 := loop m (fun j => zero m (E + j * lde)) M in
  let M2 := loop n (fun j M => b_syr m 1 t 1 E lde (b_axpy m (-1) x 1 t 1 (b_copy m (A + j * lda) 1 t 1 M))) M1 in
  let M3 := b_scal (m * m) (1 / INR (n - 1)) E 1 M2 in
  loop m (fun i => loop (m - (i + 1)) (fun k M => let j := (i + 1 + k)%nat in upd M (mad E m j i) (M (mad E m i j)))) M3.
(** aa_la_d_vecstd: la_impl.c 776-790 *)
Definition d_vecstd (n x incx : nat) (mu : R) (m : mem) : R :=
  sqrt (bsum n (fun i => (m (x + i * incx)%nat - mu) * (m (x + i * incx)%nat - mu)) / INR (n - 1)).
(** aa_la_d_angle: la_impl.c 710-733 *)
Definition d_angle (n x incx y incy : nat) (m : mem) : R :=
  let nx := b_nrm2 n x incx m in let ny := b_nrm2 n y incy m in
  let a i := ny * m (x + i * incx)%nat in let b i := nx * m (y + i * incy)%nat in
  let s := bsum n (fun i => (a i - b i) * (a i - b i)) in
  let c := bsum n (fun i => (a i + b i) * (a i + b i)) in
  2 * atan2 (sqrt s) (sqrt c).
(** aa_la_point_plane: la.c 510-513, aa_la_plane_hessian: la.c 515-518 *)
Definition la_point_plane (n point plane : nat) (m : mem) : R :=
  (b_dot n point 1 plane 1 m + m (plane + n)%nat) / b_nrm2 n plane 1 m.
Definition la_plane_hessian (n plane : nat) (m : mem) : mem :=
  b_scal n (1 / b_nrm2 (n - 1) plane 1 m) plane 1 m.

(** * Damped pseudoinverse *)
(** B += kI, a pointer or index going up by ldb+1 while below m*ldb: la.c 266-268, mat.c 737-739, 780-783 *)
Definition add_diag (k : R) (m B ldb : nat) : mem -> mem :=
  ptr_loop (m * ldb) B (B + m * ldb) (ldb + 1) (fun p M => upd M p (M p + k)).
(** aa_la_dpinv: la.c 235-280; Ap and W (used when m > n) are the workspace; the result of dposv is ignored *)
Definition la_dpinv (junk : nat -> R) (m n : nat) (k : R) (A As Ap W : nat) (M : mem) : mem :=
  let B := if Nat.leb m n then As else W in
  let ldb := if Nat.leb m n then n else m in
  let M1 := b_copy (m * n) A 1 Ap 1 M in
  let M2 := b_syrk m n 1 Ap m B ldb M1 in
  let M3 := add_diag k m B ldb M2 in
  let M4 := snd (b_posv junk m n B ldb Ap m M3) in
  d_transpose m n Ap m As n M4.
(** aa_dmat_dpinv: mat.c 697-805; w is the workspace; the result of dposv is returned *)
Definition dmat_dpinv (junk : nat -> R) (A : dmat) (k : R) (As : dmat) (w : nat) (M : mem) : out (nat * mem) :=
  let m := m_rows A in let n := m_cols A in
  check m (m_cols As) (check n (m_rows As) (
    if Nat.leb m n then
      let Ap := mkDM m n w m in
      let B := m_data As in let ldb := m_ld As in
      obind (dmat_copy A Ap M) (fun M1 =>
      let M3 := add_diag k m B ldb (b_syrk m n 1 w m B ldb M1) in
      let (r, M4) := b_posv junk m n B ldb w m M3 in
      obind (dmat_trans Ap As M4) (fun M5 => Done (r, M5)))
    else
      let B := w in let ldb := n in
      obind (dmat_trans A As M) (fun M1 =>
      let M3 := add_diag k n B ldb (b_syrk n m 1 (m_data As) (m_ld As) B ldb M1) in
      Done (b_posv junk n m B ldb (m_data As) (m_ld As) M3)))).
(** aa_la_dls: la.c 349-358 *)
Definition la_dls (junk : nat -> R) (m n : nat) (k : R) (A x y As Ap W : nat) (M : mem) : mem :=
  la_mvmul n m As x y (la_dpinv junk m n k A As Ap W M).
(** aa_la_np: la.c 360-373 *)
Definition la_np (m n A As B : nat) (M : mem) : mem :=
  loop n (fun i M => upd M (mad B n i i) (M (mad B n i i) - 1)) (b_gemm false false n n m 1 As n A m 0 B n M).
(** aa_la_xlsnp: la.c 376-392; B is the workspace *)
Definition la_xlsnp (m n A As x yp y B : nat) (M : mem) : mem :=
  b_gemv false n n (-1) B n yp 1 1 y 1 (la_np m n A As B (la_mvmul n m As x y M)).
(** aa_la_dlsnp: la.c 394-402 *)
Definition la_dlsnp (junk : nat -> R) (m n : nat) (k : R) (A x yp y As Ap W B : nat) (M : mem) : mem :=
  la_xlsnp m n A As x yp y B (la_dpinv junk m n k A As Ap W M).

(** * Pseudoinverses from the singular value decomposition *)
(** The output of gesdd for an m by n matrix: U (m by m) and V^T (n by n) as functions of row and column, singular values in S *)
Record svdres := mkSvd { sU : nat -> nat -> R; sS : nat -> R; sVt : nat -> nat -> R }.
(** dgesdd, as a function of the matrix it is given, storing its results at U, S, Vt; the theorems say what is asked of [gesdd] *)
Definition put_svd (m n : nat) (r : svdres) (U S Vt : nat) (M : mem) : mem :=
  loop n (fun j => loop n (fun i M => upd M (mad Vt n i j) (sVt r i j)))
    (loop (Nat.min m n) (fun i M => upd M (S + i) (sS r i))
       (loop m (fun j => loop m (fun i M => upd M (mad U m i j) (sU r i j))) M)).
(** aa_la_d_svd with both U and Vt: la_impl.c 529-566.  The matrix is copied to a compact array of m*n doubles, and
    dgesdd is told that the leading dimension of the copy is lda: with two or more columns and lda > m it reads and writes beyond
    the copy *)
Definition d_svd (gesdd : nat -> nat -> (nat -> nat -> R) -> svdres) (m n A lda U S Vt : nat) (M : mem) : out mem :=
  if Nat.ltb m lda && Nat.leb 2 n then Undef
  else Done (put_svd m n (gesdd m n (fun i j => M (mad A lda i j))) U S Vt M).
(** the loops of cblas_dger over singular values; [Asd] has leading dimension ni = n whatever the descriptor says *)
Definition add_outer (m n : nat) (c : R) (i U Vt Asd : nat) : mem -> mem := b_ger n m c (Vt + i) n (U + m * i) 1 Asd n.
Fixpoint pinv_loop (fuel i kmin m n : nat) (tol : R) (U S Vt Asd : nat) (M : mem) : mem :=
  match fuel with
  | O => M
  | Datatypes.S f => if Nat.ltb i kmin then if Rlt_dec tol (M (S + i)%nat)
           then pinv_loop f (i + 1) kmin m n tol U S Vt Asd (add_outer m n (1 / M (S + i)%nat) i U Vt Asd M) else M else M
  end.
(** aa_dmat_pinv: mat.c 618-655 with s_svd_helper: 585-616; w is the workspace W; DBL_EPSILON is 2^-52 *)
Definition dmat_pinv (gesdd : nat -> nat -> (nat -> nat -> R) -> svdres) (A : dmat) (tol : R) (As : dmat) (w : nat) (M : mem) : out mem :=
  let m := m_rows A in let n := m_cols A in
  check m (m_cols As) (check n (m_rows As) (
    let kmin := if Nat.ltb m n then m else n in
    let kmax := if Nat.ltb m n then n else m in
    let U := w in let Vt := (U + m * m)%nat in let S := (Vt + n * n)%nat in
    obind (d_svd gesdd m n (m_data A) (m_ld A) U S Vt M) (fun M1 =>
    let tol := if Rlt_dec tol 0 then INR kmax * M1 S * / 2 ^ 52 else tol in
    Done (pinv_loop kmin 0 kmin m n tol U S Vt (m_data As) (dmat_zero As M1))))).
(** aa_la_dzdpinv: la.c 313-341 *)
Definition la_dzdpinv (gesdd : nat -> nat -> (nat -> nat -> R) -> svdres) (m n : nat) (s2_min : R) (A As w : nat) (M : mem) : out mem :=
  let U := w in let Vt := (U + m * m)%nat in let S := (Vt + n * n)%nat in
  obind (d_svd gesdd m n A m U S Vt M) (fun M1 =>
  Done (loop (Nat.min m n) (fun i M => let s := M (S + i)%nat in
          add_outer m n (s / Rmax (s * s) s2_min) i U Vt As M) (zero (m * n) As M1))).
(** aa_dmat_dzdpinv: mat.c 807-854 *)
Fixpoint dzd_loop (fuel i kmin m n : nat) (s_min : R) (U S Vt Asd : nat) (M : mem) : mem :=
  match fuel with
  | O => M
  | Datatypes.S f => if Nat.ltb i kmin then
             if Rle_dec s_min (M (S + i)%nat)
             then dzd_loop f (i + 1) kmin m n s_min U S Vt Asd (add_outer m n (1 / M (S + i)%nat) i U Vt Asd M)
             else loop (kmin - i) (fun k M => add_outer m n (M (S + (i + k))%nat / (s_min * s_min)) (i + k) U Vt Asd M) M
           else M
  end.
Definition dmat_dzdpinv (gesdd : nat -> nat -> (nat -> nat -> R) -> svdres) (A : dmat) (s_min : R) (As : dmat) (w : nat) (M : mem) : out mem :=
  let m := m_rows A in let n := m_cols A in
  check m (m_cols As) (check n (m_rows As) (
    let kmin := if Nat.ltb m n then m else n in
    let U := w in let Vt := (U + m * m)%nat in let S := (Vt + n * n)%nat in
    obind (d_svd gesdd m n (m_data A) (m_ld A) U S Vt M) (fun M1 =>
    Done (dzd_loop kmin 0 kmin m n s_min U S Vt (m_data As) (dmat_zero As M1))))).
