(** Vectors and matrices: C35, C36, C70, C71.  The vocabulary is in MatSpec. *)
From Coq Require Import Reals Arith Lra Lia.
From Verif Require Import MatModel MatSpec MatProofs.
Open Scope R_scope.

(** * C35: views *)

(** C35: a block of a matrix holds the elements it names, in every valid request *)
Theorem C35_block : forall A rs cs re ce, good_mat A ->
  (rs < re)%nat -> (re <= m_rows A)%nat -> (cs < ce)%nat -> (ce <= m_cols A)%nat ->
  exists B, dmat_block A rs cs re ce = Done B /\ good_mat B /\ m_rows B = (re - rs)%nat /\ m_cols B = (ce - cs)%nat /\
  forall i j, melem B i j = melem A (rs + i) (cs + j).
Proof. exact block_ok. Qed.
Print Assumptions C35_block.

Theorem C35_block_errors : forall A rs cs re ce,
  (re <= rs)%nat \/ (m_rows A < re)%nat \/ (ce <= cs)%nat \/ (m_cols A < ce)%nat -> dmat_block A rs cs re ce = Fail.
Proof. exact block_err. Qed.
Print Assumptions C35_block_errors.

(** C35: rows, columns and the diagonal; a row or column that does not exist is reported *)
Theorem C35_row : forall A r, (r < m_rows A)%nat -> good_mat A ->
  exists w, dmat_row_vec A r = Done w /\ good_vec w /\ v_len w = m_cols A /\ forall j, velem w j = melem A r j.
Proof. exact row_ok. Qed.
Print Assumptions C35_row.

Theorem C35_column : forall A c, (c < m_cols A)%nat ->
  exists w, dmat_col_vec A c = Done w /\ good_vec w /\ v_len w = m_rows A /\ forall i, velem w i = melem A i c.
Proof. exact col_ok. Qed.
Print Assumptions C35_column.

Theorem C35_row_column_errors : forall A k,
  ((m_rows A <= k)%nat -> dmat_row_vec A k = Fail) /\ ((m_cols A <= k)%nat -> dmat_col_vec A k = Fail).
Proof. exact row_col_err. Qed.
Print Assumptions C35_row_column_errors.

Theorem C35_diagonal : forall A, good_vec (dmat_diag_vec A) /\
  (forall i, (i < v_len (dmat_diag_vec A))%nat <-> (i < m_rows A)%nat /\ (i < m_cols A)%nat) /\
  forall i, velem (dmat_diag_vec A) i = melem A i i.
Proof. exact diag_ok. Qed.
Print Assumptions C35_diagonal.

(** C35: a slice holds every step-th element from start up to but not including stop, when the step divides
    stop - start *)
Theorem C35_slice : forall v start stop step, good_vec v -> (start <= stop)%nat -> (stop <= v_len v)%nat -> (0 < step)%nat ->
  ((stop - start) mod step = 0)%nat ->
  exists w, dvec_slice v start stop step = Done w /\ good_vec w /\
  (forall i, velem w i = velem v (start + i * step)) /\
  (forall i, (i < v_len w)%nat <-> (start + i * step < stop)%nat).
Proof. exact slice_divides. Qed.
Print Assumptions C35_slice.

Theorem C35_slice_errors : forall v start stop step, (v_len v < stop)%nat \/ (stop < start)%nat -> dvec_slice v start stop step = Fail.
Proof. exact slice_err. Qed.
Print Assumptions C35_slice_errors.

(** C35: whatever the step, a slice stays inside the vector *)
Theorem C35_slice_inside : forall v start stop step, good_vec v -> (start <= stop)%nat -> (stop <= v_len v)%nat -> (0 < step)%nat ->
  exists w, dvec_slice v start stop step = Done w /\ good_vec w /\
  (forall i, velem w i = velem v (start + i * step)) /\
  (forall i, (i < v_len w)%nat <-> (start + S i * step <= stop)%nat).
Proof. exact slice_ok. Qed.
Print Assumptions C35_slice_inside.

(** C35 is violated whenever the step does not divide stop - start: an element before stop is missing ... *)
Theorem C35_slice_refuted : forall v start stop step, (start <= stop)%nat -> (stop <= v_len v)%nat -> (0 < step)%nat ->
  ((stop - start) mod step <> 0)%nat ->
  exists w, dvec_slice v start stop step = Done w /\ exists i, (start + i * step < stop)%nat /\ ~ (i < v_len w)%nat.
Proof. exact slice_not_divides. Qed.
Print Assumptions C35_slice_refuted.

(** ... for a zero step, which divides by zero instead of being reported ... *)
Theorem C35_slice_zero_step_refuted : forall v start stop, (start <= stop)%nat -> (stop <= v_len v)%nat -> dvec_slice v start stop 0 = Undef.
Proof. exact slice_zero. Qed.
Print Assumptions C35_slice_zero_step_refuted.

(** ... by every C++ slice that should have more than one element ... *)
Theorem C35_cpp_slice_refuted : forall v start stop step, (start + step < stop)%nat -> (stop <= v_len v)%nat -> (0 < step)%nat ->
  exists w, DVec_slice v start stop step = Done w /\ ~ (1 < v_len w)%nat.
Proof. exact cpp_slice_wrong. Qed.
Print Assumptions C35_cpp_slice_refuted.

(** ... and by every C++ view of constant data with an increment other than one. *)
Theorem C35_cpp_const_view_refuted : forall len data inc i, (0 < i)%nat -> inc <> 1%nat ->
  velem (DVec_view_const len data inc) i <> velem (mkDV len data inc) i.
Proof. exact cpp_view_wrong. Qed.
Print Assumptions C35_cpp_const_view_refuted.

Example C35_nonvacuous : let A := mkDM 3 4 10 5 in
  good_mat A /\ dmat_block A 1 1 3 3 = Done (mkDM 2 2 16 5) /\ melem (mkDM 2 2 16 5) 1 1 = melem A 2 2 /\
  dmat_row_vec A 2 = Done (mkDV 4 12 5) /\ dmat_col_vec A 3 = Done (mkDV 3 25 1) /\ dmat_diag_vec A = mkDV 3 10 6 /\
  dvec_slice (mkDV 9 0 2) 1 7 3 = Done (mkDV 2 2 6) /\ dvec_slice (mkDV 9 0 2) 1 8 3 = Done (mkDV 2 2 6).
Proof. cbv zeta. unfold good_mat. cbn. repeat split; lia. Qed.

(** * C36: element-wise operations *)

Theorem C36_vector_set_shift_scale : forall v a m, good_vec v ->
  vec_becomes v m (dvec_set v a m) (fun _ => a) /\
  vec_becomes v m (dvec_inc a v m) (fun i => vget v m i + a) /\
  vec_becomes v m (dvec_scal a v m) (fun i => a * vget v m i).
Proof. intros. exact (conj (dvec_set_ok v a m H) (conj (dvec_inc_ok a v m H) (dvec_scal_ok a v m H))). Qed.
Print Assumptions C36_vector_set_shift_scale.

(** copying and adding; the operands may be the same vector, but may not otherwise overlap *)
Theorem C36_vector_copy : forall x y m, good_vec y -> v_len x = v_len y -> x = y \/ apart (in_vec y) (in_vec x) ->
  exists m', dvec_copy x y m = Done m' /\ vec_becomes y m m' (fun i => vget x m i).
Proof. exact dvec_copy_ok. Qed.
Print Assumptions C36_vector_copy.

Theorem C36_vector_axpy : forall a x y m, good_vec y -> v_len x = v_len y -> x = y \/ apart (in_vec y) (in_vec x) ->
  exists m', dvec_axpy a x y m = Done m' /\ vec_becomes y m m' (fun i => vget y m i + a * vget x m i).
Proof. exact dvec_axpy_ok. Qed.
Print Assumptions C36_vector_axpy.

Theorem C36_vector_swap : forall x y m, good_vec x -> good_vec y -> v_len x = v_len y -> apart (in_vec y) (in_vec x) ->
  exists m', dvec_swap x y m = Done m' /\
  (forall i, (i < v_len x)%nat -> vget x m' i = vget y m i /\ vget y m' i = vget x m i) /\
  (forall a, ~ in_vec x a -> ~ in_vec y a -> m' a = m a).
Proof. exact dvec_swap_ok. Qed.
Print Assumptions C36_vector_swap.

Theorem C36_matrix_set_scale : forall A a b m, good_mat A ->
  mat_becomes A m (dmat_set A a b m) (fun i j => if Nat.eqb i j then b else a) /\
  mat_becomes A m (dmat_scal A a m) (fun i j => a * mget A m i j).
Proof. intros. exact (conj (dmat_set_ok A a b m H) (dmat_scal_ok A a m H)). Qed.
Print Assumptions C36_matrix_set_scale.

Theorem C36_matrix_copy : forall A B m, good_mat B -> m_rows A = m_rows B -> m_cols A = m_cols B -> A = B \/ apart (in_mat B) (in_mat A) ->
  exists m', dmat_copy A B m = Done m' /\ mat_becomes B m m' (fun i j => mget A m i j).
Proof. exact dmat_copy_ok. Qed.
Print Assumptions C36_matrix_copy.

Theorem C36_matrix_axpy : forall a X Y m, good_mat X -> good_mat Y -> m_rows X = m_rows Y -> m_cols X = m_cols Y ->
  X = Y \/ apart (in_mat Y) (in_mat X) ->
  exists m', dmat_axpy a X Y m = Done m' /\ mat_becomes Y m m' (fun i j => mget Y m i j + a * mget X m i j).
Proof. exact dmat_axpy_ok. Qed.
Print Assumptions C36_matrix_axpy.

Theorem C36_transpose : forall A B m, good_mat B -> m_rows A = m_cols B -> m_cols A = m_rows B -> apart (in_mat B) (in_mat A) ->
  exists m', dmat_trans A B m = Done m' /\ mat_becomes B m m' (fun i j => mget A m j i).
Proof. exact dmat_trans_ok. Qed.
Print Assumptions C36_transpose.

(** sums of squared differences, whatever the strides *)
Theorem C36_squared_distance : forall x y A B m, good_vec x -> v_len x = v_len y -> good_mat A -> m_rows A = m_rows B -> m_cols A = m_cols B ->
  dvec_ssd x y m = Done (bsum (v_len x) (fun i => (vget x m i - vget y m i) * (vget x m i - vget y m i))) /\
  dmat_ssd A B m = Done (bsum (m_cols A) (fun j => bsum (m_rows A) (fun i => (mget A m i j - mget B m i j) * (mget A m i j - mget B m i j)))).
Proof. intros. exact (conj (dvec_ssd_ok x y m H H0) (dmat_ssd_ok A B m H1 H2 H3)). Qed.
Print Assumptions C36_squared_distance.

(** operands of different sizes are reported, and nothing is written *)
Theorem C36_size_errors : forall a x y A B m,
  (v_len x <> v_len y -> dvec_copy x y m = Fail /\ dvec_axpy a x y m = Fail /\ dvec_swap x y m = Fail /\ dvec_ssd x y m = Fail /\ dvec_dot x y m = Fail) /\
  (m_rows A <> m_rows B \/ m_cols A <> m_cols B -> dmat_copy A B m = Fail /\ dmat_axpy a A B m = Fail /\ dmat_ssd A B m = Fail) /\
  (m_rows A <> m_cols B \/ m_cols A <> m_rows B -> dmat_trans A B m = Fail).
Proof. exact size_err. Qed.
Print Assumptions C36_size_errors.

(** adding to every element: correct unless the matrix is square and stored with a gap between columns ... *)
Theorem C36_matrix_shift : forall A a m, good_mat A -> m_rows A <> m_cols A \/ m_rows A = m_ld A ->
  mat_becomes A m (dmat_inc A a m) (fun i j => mget A m i j + a).
Proof. exact dmat_inc_ok. Qed.
Print Assumptions C36_matrix_shift.

(** ... C36 is violated by every square matrix stored with a gap: an element that is not the matrix's is changed and the last one
    of the matrix is not. *)
Theorem C36_matrix_shift_refuted : forall A a m, m_rows A = m_cols A -> (2 <= m_rows A)%nat -> (m_rows A < m_ld A)%nat -> a <> 0 ->
  let m' := dmat_inc A a m in
  let n := m_rows A in
  (~ in_mat A (m_data A + n)%nat /\ m' (m_data A + n)%nat <> m (m_data A + n)%nat) /\ mget A m' (n - 1) (n - 1) = mget A m (n - 1) (n - 1).
Proof. exact dmat_inc_wrong. Qed.
Print Assumptions C36_matrix_shift_refuted.

Example C36_nonvacuous : let A := mkDM 2 3 0 4 in let B := mkDM 3 2 20 3 in
  good_mat A /\ good_mat B /\ apart (in_mat B) (in_mat A) /\
  exists m', dmat_trans A B (fun a => INR a) = Done m' /\ mget B m' 2 1 = 9.
Proof.
  cbv zeta. split; [unfold good_mat; cbn; lia|]. split; [unfold good_mat; cbn; lia|].
  assert (S : apart (in_mat (mkDM 3 2 20 3)) (in_mat (mkDM 2 3 0 4))).
  { intros a (i & j & H1 & H2 & ->) (i' & j' & H3 & H4 & E). unfold melem in E. cbn in *. lia. }
  split; [exact S|]. destruct (dmat_trans_ok (mkDM 2 3 0 4) (mkDM 3 2 20 3) (fun a => INR a)) as (m' & E & H & _); auto; [unfold good_mat; cbn; lia|].
  exists m'. split; [exact E|]. unfold mget. rewrite H by (cbn; lia). unfold mget, melem. cbn. lra.
Qed.

(** * C70: products *)

(** C70: y := alpha op(A) x + beta y *)
Theorem C70_matrix_vector : forall tr alpha A x beta y m, good_vec y -> v_len y = orows tr A -> v_len x = ocols tr A ->
  exists m', dmat_gemv tr alpha A x beta y m = Done m' /\
  vec_becomes y m m' (fun i => alpha * bsum (ocols tr A) (fun k => oget tr A m i k * vget x m k) + beta * vget y m i).
Proof. exact dmat_gemv_ok. Qed.
Print Assumptions C70_matrix_vector.

(** C70: C := alpha op(A) op(B) + beta C, when the transposed operands are square *)
Theorem C70_matrix_matrix : forall ta tb alpha A B beta C m, good_mat A -> good_mat B -> good_mat C ->
  m_rows C = orows ta A -> m_cols C = ocols tb B -> ocols ta A = orows tb B ->
  (ta = true -> m_rows A = m_cols A) -> (tb = true -> m_rows B = m_cols B) ->
  exists m', dmat_gemm ta tb alpha A B beta C m = Done m' /\
  mat_becomes C m m' (fun i j => alpha * bsum (ocols ta A) (fun k => oget ta A m i k * oget tb B m k j) + beta * mget C m i j).
Proof. exact dmat_gemm_ok. Qed.
Print Assumptions C70_matrix_matrix.

(** C70 is violated by every product with a transposed operand that is not square: it is rejected *)
Theorem C70_transposed_product_refuted : forall ta tb alpha A B beta C m,
  m_rows C = orows ta A -> m_cols C = ocols tb B -> ocols ta A = orows tb B ->
  (ta = true /\ m_rows A <> m_cols A) \/ (tb = true /\ m_rows B <> m_cols B) ->
  dmat_gemm ta tb alpha A B beta C m = Fail.
Proof. exact gemm_transposed. Qed.
Print Assumptions C70_transposed_product_refuted.

Example C70_nonvacuous : let A := mkDM 2 3 0 4 in let x := mkDV 2 20 2 in let y := mkDV 3 30 1 in
  good_vec y /\ v_len y = orows true A /\ v_len x = ocols true A /\
  exists m', dmat_gemv true 1 A x 0 y (fun a => INR a) = Done m' /\ vget y m' 1 = 190.
Proof.
  cbv zeta. split; [unfold good_vec; cbn; lia|]. split; [reflexivity|]. split; [reflexivity|].
  destruct (dmat_gemv_ok true 1 (mkDM 2 3 0 4) (mkDV 2 20 2) 0 (mkDV 3 30 1) (fun a => INR a)) as (m' & E & H & _); auto; [unfold good_vec; cbn; lia|].
  exists m'. split; [exact E|]. unfold vget. rewrite H by (cbn; lia). unfold oget, mget, vget, velem, melem. cbn. lra.
Qed.

(** * C71: C++ vector expressions *)

(** C71: assigning an expression stores its value, evaluated before the assignment, provided the target is not
    an operand, or only the last summand *)
Theorem C71_assignment : forall t e m, good_vec t -> sized (v_len t) e -> separate t e ->
  exists m', assign t e m = Done m' /\ vec_becomes t m m' (fun i => value e m i).
Proof. exact assign_ok. Qed.
Print Assumptions C71_assignment.

(** C71: the operators build expressions with the value they denote *)
Theorem C71_operators : forall a tr A x e m i,
  value (e_scale a e) m i = a * value e m i /\
  value (e_add_vec x e) m i = vget x m i + value e m i /\
  value (e_add_scaled a x e) m i = a * vget x m i + value e m i /\
  value (e_mul tr A x) m i = bsum (ocols tr A) (fun k => oget tr A m i k * vget x m k) /\
  value (e_add_mv tr a A x e) m i = a * bsum (ocols tr A) (fun k => oget tr A m i k * vget x m k) + value e m i.
Proof. exact operators_ok. Qed.
Print Assumptions C71_operators.

(** C71 is violated when the target is another operand: after x = x + y, x is 2 y. *)
Theorem C71_self_assignment_refuted : forall x y m, good_vec x -> v_len x = v_len y -> apart (in_vec x) (in_vec y) ->
  exists m', assign x (e_add_vec x (EVec y)) m = Done m' /\ vec_becomes x m m' (fun i => 2 * vget y m i).
Proof. exact self_add. Qed.
Print Assumptions C71_self_assignment_refuted.

Example C71_nonvacuous : let A := mkDM 2 2 0 2 in let x := mkDV 2 10 1 in let y := mkDV 2 20 3 in
  let e := e_add_mv false 2 A x (e_scale 3 (EVec y)) in
  good_vec y /\ sized 2 e /\ separate y e /\ exists m', assign y e (fun a => INR a) = Done m' /\ vget y m' 1 = 155.
Proof.
  cbv zeta. assert (G : good_vec (mkDV 2 20 3)) by (unfold good_vec; cbn; lia).
  assert (SZ : sized 2 (e_add_mv false 2 (mkDM 2 2 0 2) (mkDV 2 10 1) (e_scale 3 (EVec (mkDV 2 20 3))))) by (cbn; auto).
  assert (SP : separate (mkDV 2 20 3) (e_add_mv false 2 (mkDM 2 2 0 2) (mkDV 2 10 1) (e_scale 3 (EVec (mkDV 2 20 3))))).
  { cbn. split; [|split; [|auto]]; intros a (i & Hi & ->).
    - intros (j & Hj & E). unfold velem in E. cbn in *. lia.
    - intros (j & k & Hj & Hk & E). unfold velem, melem in E. cbn in *. lia. }
  split; [exact G|]. split; [exact SZ|]. split; [exact SP|].
  destruct (assign_ok _ _ (fun a => INR a) G SZ SP) as (m' & E & H & _). exists m'. split; [exact E|].
  unfold vget. rewrite H by (cbn; lia). cbn. unfold oget, mget, vget, velem, melem. cbn. lra.
Qed.
