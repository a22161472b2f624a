(** Theorems about the linear algebra functions of src/la.c, src/la_impl.c and src/mat.c, over the reals. *)
From Coq Require Import Reals Arith List Bool Lra Lia.
From Verif Require Import MatModel MatSpec LaModel LaSpec LaAlg LaProofs La2Proofs La3Proofs La4Proofs.
Open Scope R_scope.

(** the memory used in examples: address a holds a *)
Definition ex_mem : mem := fun a => INR a.

(** * C33: trace *)
Theorem C33_trace : forall n A M, (forall i, (i < n)%nat -> 0 <= amat A n M i i) -> la_trace n A M = bsum n (fun i => amat A n M i i).
Proof. exact trace_ok. Qed.
Print Assumptions C33_trace.
(** wrong as soon as one diagonal element is negative *)
Theorem C33_trace_refuted : forall n A M, (exists i, (i < n)%nat /\ amat A n M i i < 0) -> la_trace n A M <> bsum n (fun i => amat A n M i i).
Proof. intros n A M H E. pose proof (trace_wrong n A M H). lra. Qed.
Print Assumptions C33_trace_refuted.
Example C33_nonvacuous : (forall i, (i < 2)%nat -> 0 <= amat 5 2 ex_mem i i) /\ amat 0 1 (fun _ => -1) 0 0 < 0.
Proof. split; [intros; apply pos_INR|unfold amat; lra]. Qed.

(** * C34: quadratic interpolation *)
Theorem C34_quadterp : forall n t0 X0 t1 X1 t2 X2 ti Xi M, t0 <> t1 -> t1 <> t2 -> t0 <> t2 ->
  clear_of Xi n X0 n -> clear_of Xi n X1 n -> clear_of Xi n X2 n ->
  let M' := la_quadterp n t0 X0 t1 X1 t2 X2 ti Xi M in
  (forall i p, (i < n)%nat -> parabola t0 (arr X0 M i) t1 (arr X1 M i) t2 (arr X2 M i) p -> arr Xi M' i = p ti) /\
  (forall a, outside Xi n a -> M' a = M a).
Proof. exact quadterp_ok. Qed.
Print Assumptions C34_quadterp.
(** there is such a parabola *)
Theorem C34_parabola_exists : forall t0 x0 t1 x1 t2 x2, t0 <> t1 -> t1 <> t2 -> t0 <> t2 -> exists p, parabola t0 x0 t1 x1 t2 x2 p.
Proof. intros t0 x0 t1 x1 t2 x2 H1 H2 H3. eexists. exact (quad_poly t0 x0 t1 x1 t2 x2 H1 H2 H3). Qed.
Print Assumptions C34_parabola_exists.
(** the derivative is right only at time 0 or if the three points lie on a line *)
Theorem C34_quadterp_dx_refuted : forall n t0 X0 t1 X1 t2 X2 ti Xi M i p l, t0 <> t1 -> t1 <> t2 -> t0 <> t2 ->
  clear_of Xi n X0 n -> clear_of Xi n X1 n -> clear_of Xi n X2 n -> (i < n)%nat ->
  parabola t0 (arr X0 M i) t1 (arr X1 M i) t2 (arr X2 M i) p -> derivable_pt_lim p ti l ->
  (arr Xi (la_quadterp_dx n t0 X0 t1 X1 t2 X2 ti Xi M) i = l <->
   ti = 0 \/ (arr X2 M i - arr X1 M i) * (t1 - t0) = (arr X1 M i - arr X0 M i) * (t2 - t1)).
Proof. exact quadterp_dx_iff. Qed.
Print Assumptions C34_quadterp_dx_refuted.
Example C34_nonvacuous : clear_of 9 3 0 3 /\ clear_of 9 3 3 3 /\ clear_of 9 3 6 3 /\ parabola 0 0 1 1 2 4 (fun t => t * t).
Proof. unfold clear_of, parabola. repeat split; try lia; try lra. exists 0, 0, 1. intros. ring. Qed.

(** * C38: null-space projection *)
(** As is any matrix, y = As x + (I - As A) yp *)
Theorem C38_formula : forall m n A As x yp y B M,
  clear_of y n A (m * n) -> clear_of y n As (m * n) -> clear_of y n yp n -> clear_of y n B (n * n) -> clear_of B (n * n) yp n ->
  let M' := la_xlsnp m n A As x yp y B M in
  (forall i, (i < n)%nat -> arr y M' i = mulv m (amat As n M) (arr x M) i + arr yp M i - mulv m (amat As n M) (mulv n (amat A m M) (arr yp M)) i) /\
  (forall a, outside y n a -> outside B (n * n) a -> M' a = M a).
Proof. exact la_xlsnp_ok. Qed.
Print Assumptions C38_formula.
Theorem C38_projector : forall m n A As B M, let M' := la_np m n A As B M in
  (forall i j, (i < n)%nat -> (j < n)%nat -> amat B n M' i j = mmul m (amat As n M) (amat A m M) i j - delta i j) /\
  (forall a, outside B (n * n) a -> M' a = M a).
Proof. exact la_np_ok. Qed.
Print Assumptions C38_projector.
(** if A As A = A, the secondary target does not show in A y, and y solves A y = x whenever there is a solution *)
Theorem C38_solves : forall m n A As x yp y B M,
  clear_of y n A (m * n) -> clear_of y n As (m * n) -> clear_of y n yp n -> clear_of y n B (n * n) -> clear_of B (n * n) yp n ->
  (forall i j, (i < m)%nat -> (j < n)%nat -> mmul m (mmul n (amat A m M) (amat As n M)) (amat A m M) i j = amat A m M i j) ->
  let M' := la_xlsnp m n A As x yp y B M in
  (forall i, (i < m)%nat -> mulv n (amat A m M) (arr y M') i = mulv n (amat A m M) (mulv m (amat As n M) (arr x M)) i) /\
  ((exists z, forall i, (i < m)%nat -> mulv n (amat A m M) z i = arr x M i) -> forall i, (i < m)%nat -> mulv n (amat A m M) (arr y M') i = arr x M i).
Proof. exact xlsnp_solves. Qed.
Print Assumptions C38_solves.
(** if As is the Moore-Penrose inverse, y is a least-squares solution, and the one nearest to the secondary target *)
Theorem C38_nearest : forall m n A As x yp y B M,
  clear_of y n A (m * n) -> clear_of y n As (m * n) -> clear_of y n yp n -> clear_of y n B (n * n) -> clear_of B (n * n) yp n ->
  moore_penrose m n (amat A m M) (amat As n M) ->
  let y' := arr y (la_xlsnp m n A As x yp y B M) in
  least_squares m n (amat A m M) (arr x M) y' /\
  (forall z, least_squares m n (amat A m M) (arr x M) z ->
     ssq n (fun i => y' i - arr yp M i) <= ssq n (fun i => z i - arr yp M i) /\
     (ssq n (fun i => z i - arr yp M i) = ssq n (fun i => y' i - arr yp M i) -> forall i, (i < n)%nat -> z i = y' i)).
Proof. exact xlsnp_nearest. Qed.
Print Assumptions C38_nearest.
(** one equation in two unknowns: y0 = 2, with inverse (1, 0) *)
Definition ex38 : mem := fun a => if Nat.eqb a 0 then 1 else if Nat.eqb a 2 then 1 else if Nat.eqb a 4 then 2 else if Nat.eqb a 6 then 7 else 0.
Example C38_nonvacuous : clear_of 7 2 0 (1 * 2) /\ clear_of 7 2 2 (1 * 2) /\ clear_of 7 2 5 2 /\ clear_of 7 2 10 (2 * 2) /\ clear_of 10 (2 * 2) 5 2 /\
  moore_penrose 1 2 (amat 0 1 ex38) (amat 2 2 ex38) /\
  arr 7 (la_xlsnp 1 2 0 2 4 5 7 10 ex38) 0 = 2 /\ arr 7 (la_xlsnp 1 2 0 2 4 5 7 10 ex38) 1 = 7.
Proof.
  assert (C : clear_of 7 2 0 (1 * 2) /\ clear_of 7 2 2 (1 * 2) /\ clear_of 7 2 5 2 /\ clear_of 7 2 10 (2 * 2) /\ clear_of 10 (2 * 2) 5 2) by (unfold clear_of; lia).
  destruct C as (C1 & C2 & C3 & C4 & C5). do 5 (split; [assumption|]).
  destruct (C38_formula 1 2 0 2 4 5 7 10 ex38 C1 C2 C3 C4 C5) as [F _]. split; [|rewrite !F by lia].
  - unfold moore_penrose. split; [|split; [|split]]; intros i j Hi Hj;
      repeat (destruct i as [|i]; try lia); repeat (destruct j as [|j]; try lia); unfold mmul, amat, ex38; cbn; ring.
  - unfold mulv, arr, amat, ex38. cbn. split; ring.
Qed.

(** * C72: transposes *)
Theorem C72_transpose_into : forall m n A At M, clear_of A (m * n) At (m * n) ->
  let M' := la_transpose2 m n A At M in
  (forall i j, (i < n)%nat -> (j < m)%nat -> amat At n M' i j = amat A m M j i) /\ (forall a, outside At (m * n) a -> M' a = M a).
Proof. exact transpose2_ok. Qed.
Print Assumptions C72_transpose_into.
Theorem C72_transpose_in_place : forall n A M, let M' := la_transpose n A M in
  (forall i j, (i < n)%nat -> (j < n)%nat -> amat A n M' i j = amat A n M j i) /\ (forall a, outside A (n * n) a -> M' a = M a).
Proof. exact transpose_inplace. Qed.
Print Assumptions C72_transpose_in_place.
(** with leading dimensions: only the elements of the result change, not the gaps between columns *)
Theorem C72_transpose_strided : forall m n A lda B ldb M, (m <= lda)%nat -> (n <= ldb)%nat -> clear_of B (ldb * m) A (lda * n) ->
  let M' := d_transpose m n A lda B ldb M in
  (forall i j, (i < n)%nat -> (j < m)%nat -> amat B ldb M' i j = amat A lda M j i) /\
  (forall a, (forall i j, (i < n)%nat -> (j < m)%nat -> a <> B + ldb * j + i)%nat -> M' a = M a).
Proof. exact d_transpose_clear. Qed.
Print Assumptions C72_transpose_strided.
Example C72_nonvacuous : clear_of 0 (2 * 3) 6 (2 * 3) /\ clear_of 20 (4 * 2) 0 (3 * 3) /\ amat 6 3 (la_transpose2 2 3 0 6 ex_mem) 2 1 = 5.
Proof.
  split; [unfold clear_of; lia|]. split; [unfold clear_of; lia|].
  destruct (C72_transpose_into 2 3 0 6 ex_mem) as [T _]; [unfold clear_of; lia|]. rewrite T by lia. unfold amat, ex_mem. cbn. lra.
Qed.

(** * C73: damped pseudoinverse and damped least squares *)
(** As (A A^T + k I) = A^T *)
Theorem C73_damped_inverse : forall junk m n k A As Ap W M, 0 < k -> dpinv_apart m n A As Ap W ->
  let M' := la_dpinv junk m n k A As Ap W M in let a := amat A m M in
  (forall i j, (i < n)%nat -> (j < m)%nat ->
     mmul m (amat As n M') (fun p q => bsum n (fun l => a p l * a q l) + k * delta p q) i j = a j i) /\
  (forall x, outside As (m * n) x -> outside Ap (m * n) x -> ((n < m)%nat -> outside W (m * m) x) -> M' x = M x).
Proof. exact la_dpinv_ok. Qed.
Print Assumptions C73_damped_inverse.
(** the two documented formulas agree *)
Theorem C73_singular_values : forall junk m n k A As Ap W M r, 0 < k -> dpinv_apart m n A As Ap W -> is_svd m n (amat A m M) r ->
  forall i j, (i < n)%nat -> (j < m)%nat -> amat As n (la_dpinv junk m n k A As Ap W M) i j = regularised m n r (fun s => s / (s * s + k)) i j.
Proof. exact la_dpinv_formula. Qed.
Print Assumptions C73_singular_values.
Theorem C73_damped_least_squares : forall junk m n k A x y As Ap W M, 0 < k -> dpinv_apart m n A As Ap W ->
  clear_of x m As (m * n) -> clear_of x m Ap (m * n) -> ((n < m)%nat -> clear_of x m W (m * m)) ->
  let M' := la_dls junk m n k A x y As Ap W M in
  damped_solution m n k (amat A m M) (arr x M) (arr y M') /\
  (forall a, outside y n a -> outside As (m * n) a -> outside Ap (m * n) a -> ((n < m)%nat -> outside W (m * m) a) -> M' a = M a).
Proof. exact la_dls_ok. Qed.
Print Assumptions C73_damped_least_squares.
(** with a secondary target: y minimises |A y - x|^2 + k |y - yp|^2 *)
Theorem C73_secondary_target : forall junk m n k A x yp y As Ap W B M, 0 < k -> dpinv_apart m n A As Ap W ->
  clear_of A (m * n) As (m * n) -> ((n < m)%nat -> clear_of A (m * n) W (m * m)) ->
  clear_of x m As (m * n) -> clear_of x m Ap (m * n) -> ((n < m)%nat -> clear_of x m W (m * m)) ->
  clear_of yp n As (m * n) -> clear_of yp n Ap (m * n) -> ((n < m)%nat -> clear_of yp n W (m * m)) ->
  clear_of y n A (m * n) -> clear_of y n As (m * n) -> clear_of y n yp n -> clear_of y n B (n * n) -> clear_of B (n * n) yp n ->
  let M' := la_dlsnp junk m n k A x yp y As Ap W B M in
  let cost z := ssq m (fun i => mulv n (amat A m M) z i - arr x M i) + k * ssq n (fun i => z i - arr yp M i) in
  (forall z, cost (arr y M') <= cost z /\ (cost z = cost (arr y M') -> forall i, (i < n)%nat -> z i = arr y M' i)) /\
  (forall a, outside y n a -> outside B (n * n) a -> outside As (m * n) a -> outside Ap (m * n) a -> ((n < m)%nat -> outside W (m * m) a) -> M' a = M a).
Proof. exact la_dlsnp_ok. Qed.
Print Assumptions C73_secondary_target.
(** the descriptor version, for every leading dimension, wide and tall *)
Theorem C73_damped_inverse_descriptor : forall junk A k As w M, 0 < k -> good_mat A -> good_mat As ->
  m_rows A = m_cols As -> m_cols A = m_rows As -> dmat_dpinv_apart A As w ->
  exists M', dmat_dpinv junk A k As w M = Done (0%nat, M') /\
  (forall i j, (i < m_cols A)%nat -> (j < m_rows A)%nat ->
     mmul (m_rows A) (mget As M') (fun p q => bsum (m_cols A) (fun l => mget A M p l * mget A M q l) + k * delta p q) i j = mget A M j i) /\
  (forall a, ~ mblock As a -> outside w (m_cols A * Nat.min (m_rows A) (m_cols A)) a -> M' a = M a).
Proof. exact dmat_dpinv_ok. Qed.
Print Assumptions C73_damped_inverse_descriptor.
Theorem C73_size_errors : forall junk A k As w M, m_rows A <> m_cols As \/ m_cols A <> m_rows As -> dmat_dpinv junk A k As w M = Fail.
Proof. exact dpinv_size_errors. Qed.
Print Assumptions C73_size_errors.
Example C73_nonvacuous : dpinv_apart 2 3 0 6 12 0 /\ dpinv_apart 3 2 0 6 12 18 /\ good_mat (mkDM 2 3 0 4) /\ good_mat (mkDM 3 2 100 5) /\
  dmat_dpinv_apart (mkDM 2 3 0 4) (mkDM 3 2 100 5) 200 /\
  (clear_of 30 2 6 6 /\ clear_of 30 2 12 6 /\ clear_of 32 3 6 6 /\ clear_of 32 3 12 6 /\ clear_of 40 3 0 6 /\ clear_of 40 3 6 6 /\ clear_of 40 3 32 3 /\ clear_of 40 3 50 9 /\ clear_of 50 9 32 3).
Proof. unfold dpinv_apart, good_mat, dmat_dpinv_apart, mapart, clear_of; cbn. lia. Qed.

(** * C74: pseudoinverses by singular value decomposition *)
Theorem C74_pseudoinverse : forall (gesdd : nat -> nat -> (nat -> nat -> R) -> svdres) A As w M tol,
  let m := m_rows A in let n := m_cols A in let r := gesdd m n (mget A M) in
  m_ld A = m -> m_ld As = n -> m_rows A = m_cols As -> m_cols A = m_rows As ->
  is_svd m n (mget A M) r -> clear_of (m_data As) (m * n) w (svd_work m n) -> (0 < Nat.min m n)%nat ->
  let tol' := if Rlt_dec tol 0 then INR (Nat.max m n) * sS r 0%nat * / 2 ^ 52 else tol in
  exists M', dmat_pinv gesdd A tol As w M = Done M' /\
    (forall p q, (p < n)%nat -> (q < m)%nat -> mget As M' p q = regularised m n r (fun s => if Rlt_dec tol' s then 1 / s else 0) p q) /\
    ((forall l, (l < Nat.min m n)%nat -> sS r l = 0 \/ tol' < sS r l) -> moore_penrose m n (mget A M) (mget As M')) /\
    (forall a, outside (m_data As) (m * n) a -> outside w (svd_work m n) a -> M' a = M a).
Proof. exact pinv_thm. Qed.
Print Assumptions C74_pseudoinverse.
Theorem C74_deadzone : forall (gesdd : nat -> nat -> (nat -> nat -> R) -> svdres) A As w M s_min,
  let m := m_rows A in let n := m_cols A in let r := gesdd m n (mget A M) in
  m_ld A = m -> m_ld As = n -> m_rows A = m_cols As -> m_cols A = m_rows As ->
  is_svd m n (mget A M) r -> clear_of (m_data As) (m * n) w (svd_work m n) -> 0 < s_min ->
  let f s := if Rle_dec s_min s then 1 / s else s / (s_min * s_min) in
  exists M', dmat_dzdpinv gesdd A s_min As w M = Done M' /\
    (forall p q, (p < n)%nat -> (q < m)%nat -> mget As M' p q = regularised m n r f p q) /\
    (forall s, 0 <= s -> 0 <= f s <= 1 / s_min) /\
    ((forall l, (l < Nat.min m n)%nat -> sS r l = 0 \/ s_min <= sS r l) -> moore_penrose m n (mget A M) (mget As M')) /\
    (forall a, outside (m_data As) (m * n) a -> outside w (svd_work m n) a -> M' a = M a).
Proof. exact dzd_thm. Qed.
Print Assumptions C74_deadzone.
Theorem C74_deadzone_array : forall (gesdd : nat -> nat -> (nat -> nat -> R) -> svdres) m n s_min A As w M,
  let r := gesdd m n (amat A m M) in
  is_svd m n (amat A m M) r -> clear_of As (m * n) w (svd_work m n) -> 0 < s_min ->
  let f s := s / Rmax (s * s) (s_min * s_min) in
  exists M', la_dzdpinv gesdd m n (s_min * s_min) A As w M = Done M' /\
    (forall p q, (p < n)%nat -> (q < m)%nat -> amat As n M' p q = regularised m n r f p q) /\
    (forall s, 0 <= s -> 0 <= f s <= 1 / s_min) /\
    ((forall l, (l < Nat.min m n)%nat -> sS r l = 0 \/ s_min <= sS r l) -> moore_penrose m n (amat A m M) (amat As n M')) /\
    (forall a, outside As (m * n) a -> outside w (svd_work m n) a -> M' a = M a).
Proof. exact dz_thm. Qed.
Print Assumptions C74_deadzone_array.
(** every matrix with two columns or more stored with a gap between columns: memory outside the copy is accessed *)
Theorem C74_padded_operand_refuted : forall gesdd A tol As w M, m_rows A = m_cols As -> m_cols A = m_rows As ->
  (m_rows A < m_ld A)%nat -> (2 <= m_cols A)%nat ->
  dmat_pinv gesdd A tol As w M = Undef /\ (forall s_min, dmat_dzdpinv gesdd A s_min As w M = Undef).
Proof. exact pinv_padded_in. Qed.
Print Assumptions C74_padded_operand_refuted.
(** a result with a gap between columns: the last element is always 0 *)
Theorem C74_padded_result_refuted : forall gesdd A As w M, (2 <= m_rows A)%nat -> (1 <= m_cols A)%nat -> m_ld A = m_rows A -> (m_cols A < m_ld As)%nat ->
  m_rows A = m_cols As -> m_cols A = m_rows As -> is_svd (m_rows A) (m_cols A) (mget A M) (gesdd (m_rows A) (m_cols A) (mget A M)) ->
  clear_of (m_data As) (m_ld As * m_cols As) w (svd_work (m_rows A) (m_cols A)) ->
  (forall tol, exists M', dmat_pinv gesdd A tol As w M = Done M' /\ mget As M' (m_rows As - 1) (m_cols As - 1) = 0) /\
  (forall s_min, exists M', dmat_dzdpinv gesdd A s_min As w M = Done M' /\ mget As M' (m_rows As - 1) (m_cols As - 1) = 0).
Proof. exact pinv_padded_out. Qed.
Print Assumptions C74_padded_result_refuted.
(** so that for the diagonal matrix (2, 1) the result is not the pseudoinverse *)
Definition ex74 : mem := fun a => if Nat.eqb a 0 then 2 else if Nat.eqb a 3 then 1 else 0.
Definition ex74_svd : svdres := mkSvd delta (fun l => if Nat.eqb l 0 then 2 else 1) delta.
Example C74_nonvacuous : is_svd 2 2 (mget (mkDM 2 2 0 2) ex74) ex74_svd /\ is_svd 2 2 (amat 0 2 ex74) ex74_svd /\ clear_of 4 (2 * 2) 20 (svd_work 2 2) /\ clear_of 4 (3 * 2) 20 (svd_work 2 2).
Proof.
  assert (Q : is_svd 2 2 (amat 0 2 ex74) ex74_svd).
  { unfold is_svd, ex74_svd, amat, ex74, delta; cbn. repeat split.
    - intros i j Hi Hj. do 2 (destruct i as [|i]; [do 2 (destruct j as [|j]; [cbn; ring|]); lia|]); lia.
    - intros i j Hi Hj. do 2 (destruct i as [|i]; [do 2 (destruct j as [|j]; [cbn; ring|]); lia|]); lia.
    - intros i j Hi Hj. do 2 (destruct i as [|i]; [do 2 (destruct j as [|j]; [cbn; ring|]); lia|]); lia.
    - intros l Hl. destruct (Nat.eqb l 0); lra.
    - intros k l Hk Hl. destruct k as [|k]; destruct l as [|l]; cbn; lra || lia. }
  split; [exact Q|]. split; [exact Q|]. unfold clear_of, svd_work; cbn. lia.
Qed.
Theorem C74_padded_example_refuted : exists M', dmat_pinv (fun _ _ _ => ex74_svd) (mkDM 2 2 0 2) 0 (mkDM 2 2 4 3) 20 ex74 = Done M' /\
  ~ moore_penrose 2 2 (mget (mkDM 2 2 0 2) ex74) (mget (mkDM 2 2 4 3) M').
Proof.
  destruct (C74_padded_result_refuted (fun _ _ _ => ex74_svd) (mkDM 2 2 0 2) (mkDM 2 2 4 3) 20 ex74) as [P _]; cbn [m_rows m_cols m_ld m_data]; try lia; try apply C74_nonvacuous.
  destruct (P 0) as (M' & E & Z). exists M'. split; [exact E|]. intros (G & _). specialize (G 1%nat 1%nat ltac:(lia) ltac:(lia)).
  cbn [m_rows m_cols] in Z. cbn [Nat.sub] in Z. unfold mmul in G. cbn [bsum] in G. set (p := mget (mkDM 2 2 4 3) M') in *. rewrite Z in G.
  unfold mget, melem, ex74 in G. cbn in G. lra.
Qed.
Print Assumptions C74_padded_example_refuted.

(** * C75: interpolation and statistics *)
Theorem C75_linear : forall n t0 X0 t1 X1 ti Xi M, t0 <> t1 -> clear_of Xi n X0 n -> clear_of Xi n X1 n ->
  let M' := la_linterp n t0 X0 t1 X1 ti Xi M in
  (forall i, (i < n)%nat -> arr Xi M' i = arr X0 M i + (arr X1 M i - arr X0 M i) / (t1 - t0) * (ti - t0)) /\ (forall a, outside Xi n a -> M' a = M a).
Proof. exact linterp_ok. Qed.
Print Assumptions C75_linear.
Theorem C75_lerp : forall n u v1 inc1 v2 inc2 vu incu M, (0 < incu)%nat ->
  (forall i j, (i < n)%nat -> (j < n)%nat -> vu + i * incu <> v1 + j * inc1 /\ vu + i * incu <> v2 + j * inc2)%nat ->
  let M' := d_lerp n u v1 inc1 v2 inc2 vu incu M in
  (forall i, (i < n)%nat -> M' (vu + i * incu)%nat = (1 - u) * M (v1 + i * inc1)%nat + u * M (v2 + i * inc2)%nat) /\
  (forall a, (forall i, (i < n)%nat -> a <> vu + i * incu)%nat -> M' a = M a).
Proof. exact lerp_ok. Qed.
Print Assumptions C75_lerp.
Theorem C75_column_mean : forall m n A lda x M, (m <= lda)%nat -> clear_of x m A (lda * n) ->
  let M' := d_colmean m n A lda x M in
  (forall i, (i < m)%nat -> arr x M' i = bsum n (fun j => amat A lda M i j) / INR n) /\ (forall a, outside x m a -> M' a = M a).
Proof. exact colmean_ok. Qed.
Print Assumptions C75_column_mean.
Theorem C75_row_mean : forall m n A lda x M, (m <= lda)%nat -> clear_of x n A (lda * n) ->
  let M' := d_rowmean m n A lda x M in
  (forall j, (j < n)%nat -> arr x M' j = bsum m (fun i => amat A lda M i j) / INR m) /\ (forall a, outside x n a -> M' a = M a).
Proof. exact rowmean_ok. Qed.
Print Assumptions C75_row_mean.
Theorem C75_covariance : forall m n A lda x E t M, (m <= lda)%nat ->
  clear_of E (m * m) A (lda * n) -> clear_of E (m * m) x m -> clear_of t m A (lda * n) -> clear_of t m x m -> clear_of t m E (m * m) ->
  let M' := d_colcov m n A lda x E m t M in
  (forall i j, (i < m)%nat -> (j < m)%nat -> amat E m M' i j = covariance n (amat A lda M) (arr x M) i j) /\
  (forall a, outside E (m * m) a -> outside t m a -> M' a = M a).
Proof. exact colcov_ok. Qed.
Print Assumptions C75_covariance.
(** a result with a gap between columns: the last variance is not divided by n - 1, which is wrong for three or more points unless it is 0 *)
Theorem C75_padded_covariance_refuted : forall m n A lda x E lde t M, (2 <= m)%nat -> (m < lde)%nat -> (m <= lda)%nat -> (3 <= n)%nat ->
  clear_of E (lde * m) A (lda * n) -> clear_of E (lde * m) x m -> clear_of t m A (lda * n) -> clear_of t m x m -> clear_of t m E (lde * m) ->
  let v := covariance n (amat A lda M) (arr x M) (m - 1) (m - 1) in
  amat E lde (d_colcov m n A lda x E lde t M) (m - 1) (m - 1) = INR (n - 1) * v /\
  (v <> 0 -> amat E lde (d_colcov m n A lda x E lde t M) (m - 1) (m - 1) <> v).
Proof. exact colcov_padded. Qed.
Print Assumptions C75_padded_covariance_refuted.
Theorem C75_standard_deviation : forall n x incx mu M, (2 <= n)%nat -> let s := d_vecstd n x incx mu M in
  0 <= s /\ s * s * INR (n - 1) = bsum n (fun i => (M (x + i * incx)%nat - mu) * (M (x + i * incx)%nat - mu)).
Proof. exact vecstd_ok. Qed.
Print Assumptions C75_standard_deviation.
Example C75_nonvacuous : clear_of 20 2 0 (2 * 3) /\ clear_of 30 (2 * 2) 0 (2 * 3) /\ clear_of 30 (2 * 2) 20 2 /\ clear_of 40 2 30 (2 * 2) /\ clear_of 40 2 20 2 /\
  clear_of 30 (3 * 2) 0 (2 * 3) /\ clear_of 30 (3 * 2) 20 2 /\ clear_of 40 2 30 (3 * 2) /\
  arr 20 (d_colmean 2 3 0 2 20 ex_mem) 1 = 3.
Proof.
  repeat (split; [unfold clear_of; lia|]). destruct (C75_column_mean 2 3 0 2 20 ex_mem) as [T _]; [lia|unfold clear_of; lia|].
  rewrite T by lia. unfold amat, ex_mem. cbn. field.
Qed.

(** * C76: products, angles, planes *)
Theorem C76_weighted_product : forall n x A y M, la_wdot n x A y M = dotp n (arr x M) (mulv n (amat A n M) (arr y M)).
Proof. exact wdot_ok. Qed.
Print Assumptions C76_weighted_product.
Theorem C76_matrix_vector : forall m n A x b M, let M' := la_mvmul m n A x b M in
  (forall i, (i < m)%nat -> arr b M' i = mulv n (amat A m M) (arr x M) i) /\ (forall a, outside b m a -> M' a = M a).
Proof. exact mvmul_ok. Qed.
Print Assumptions C76_matrix_vector.
Theorem C76_angle : forall n x incx y incy M, let X i := M (x + i * incx)%nat in let Y i := M (y + i * incy)%nat in
  let th := d_angle n x incx y incy M in
  cos th * (sqrt (ssq n X) * sqrt (ssq n Y)) = dotp n X Y /\ 0 <= th <= PI.
Proof. exact angle_ok. Qed.
Print Assumptions C76_angle.
(** the signed distance: no point of the plane is nearer, and the foot of the perpendicular is that far away *)
Theorem C76_point_plane : forall n point plane M, (exists i, (i < n)%nat /\ arr plane M i <> 0) ->
  let d := la_point_plane n point plane M in let on z := dotp n z (arr plane M) + arr plane M n = 0 in
  (forall z, on z -> d * d <= ssq n (fun i => arr point M i - z i)) /\
  on (fun i => arr point M i - d * (arr plane M i / sqrt (ssq n (arr plane M)))) /\
  ssq n (fun i => d * (arr plane M i / sqrt (ssq n (arr plane M)))) = d * d.
Proof. exact point_plane_ok. Qed.
Print Assumptions C76_point_plane.
Theorem C76_plane_hessian : forall n plane M, (1 <= n)%nat -> (exists i, (i < n - 1)%nat /\ arr plane M i <> 0) ->
  let M' := la_plane_hessian n plane M in
  ssq (n - 1) (arr plane M') = 1 /\
  (forall z, dotp (n - 1) z (arr plane M') + arr plane M' (n - 1) = 0 <-> dotp (n - 1) z (arr plane M) + arr plane M (n - 1) = 0) /\
  (forall a, outside plane n a -> M' a = M a).
Proof. exact plane_hessian_ok. Qed.
Print Assumptions C76_plane_hessian.
Theorem C76_determinant : forall r M, let a i j := amat r 3 M i j in
  la_det3x3 r M = a 0%nat 0%nat * a 1%nat 1%nat * a 2%nat 2%nat + a 0%nat 1%nat * a 1%nat 2%nat * a 2%nat 0%nat + a 0%nat 2%nat * a 1%nat 0%nat * a 2%nat 1%nat
    - a 0%nat 2%nat * a 1%nat 1%nat * a 2%nat 0%nat - a 0%nat 1%nat * a 1%nat 0%nat * a 2%nat 2%nat - a 0%nat 0%nat * a 1%nat 2%nat * a 2%nat 1%nat.
Proof. exact det_ok. Qed.
Print Assumptions C76_determinant.
Example C76_nonvacuous : (exists i, (i < 2)%nat /\ arr 1 ex_mem i <> 0) /\ (exists i, (i < 3 - 1)%nat /\ arr 1 ex_mem i <> 0).
Proof. split; exists 0%nat; (split; [lia|]); unfold arr, ex_mem; cbn; lra. Qed.
