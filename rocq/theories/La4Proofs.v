(** Consequences used by the theorems: formulas for the damped inverse, exactness of the truncated inverses, padded results. *)
From Coq Require Import Reals Arith List Bool Lra Lia.
From Verif Require Import MatModel MatSpec MatProofs LaModel LaSpec LaAlg LaProofs La2Proofs La3Proofs.
Open Scope R_scope.

Section Formula.
  Context (m n : nat) (k : R) (A P : nat -> nat -> R) (r : svdres) (Hk : 0 < k) (HS : is_svd m n A r).
  Let f s := s / (s * s + k).
  Lemma reg_gram i j : (i < n)%nat -> (j < m)%nat -> mmul m (regularised m n r f) (gram n k A) i j = A j i.
  Proof.
    intros Hi Hj. set (K := Nat.min m n). set (Q := regularised m n r f).
    assert (E1 : mmul m Q (gram n k A) i j = mmul n (mmul m Q A) (fun a b => A b a) i j + k * Q i j).
    { rewrite mmul_assoc. unfold gram. unfold mmul at 1.
      rewrite (bsum_ext m _ (fun l => Q i l * mmul n A (fun a b => A b a) l j + k * (Q i l * delta j l))).
      - rewrite bsum_plus, bsum_scal, (bsum_delta m j (fun l => Q i l)) by exact Hj. reflexivity.
      - intros l Hl. rewrite (delta_sym l j). unfold mmul. ring. }
    rewrite E1. clear E1.
    assert (E2 : mmul n (mmul m Q A) (fun a b => A b a) i j = outer K (fun l => f (sS r l) * sS r l * sS r l) (fun a l => sVt r l a) (fun l b => sU r b l) i j).
    { rewrite (mmul_ext n _ (outer K (fun l => f (sS r l) * sS r l) (fun a l => sVt r l a) (sVt r)) _ (outer K (sS r) (fun a l => sVt r l a) (fun l b => sU r b l))).
      - apply outer_mul. intros a b Ha Hb. unfold K in *. destruct HS as (_ & _ & V & _). apply V; lia.
      - intros l Hl. unfold Q. rewrite (svd_PA m n A r HS f) by exact Hl. reflexivity.
      - intros l Hl. destruct HS as (D & _). rewrite D by auto. unfold outer. fold K. apply bsum_ext. intros. ring. }
    rewrite E2. destruct HS as (D & _ & _ & SP & _). rewrite D by auto. fold K. unfold Q, regularised, outer. fold K. rewrite <- bsum_scal, <- bsum_plus. apply bsum_ext. intros l Hl.
    specialize (SP l Hl). unfold f. field. nra.
  Qed.
  Hypothesis HP : forall i j, (i < n)%nat -> (j < m)%nat -> mmul m P (gram n k A) i j = A j i.
  Lemma damped_formula i j : (i < n)%nat -> (j < m)%nat -> P i j = regularised m n r f i j.
  Proof.
    intros Hi Hj. apply Rminus_diag_uniq. revert j Hj. apply (posdef_cancel m (gram n k A) (fun l => P i l - regularised m n r f i l)); [apply gram_sym|now apply gram_posdef|].
    intros j Hj. rewrite (bsum_ext m _ (fun l => P i l * gram n k A l j - regularised m n r f i l * gram n k A l j)) by (intros; ring).
    rewrite bsum_minus. change (mmul m P (gram n k A) i j - mmul m (regularised m n r f) (gram n k A) i j = 0). rewrite HP, reg_gram by auto. lra.
  Qed.
End Formula.

Definition pinv_tol (m n : nat) (r : svdres) (tol : R) : R := if Rlt_dec tol 0 then INR (Nat.max m n) * sS r 0%nat * / 2 ^ 52 else tol.
Lemma pinv_exact m n A r tol : (0 < Nat.min m n)%nat -> is_svd m n A r ->
  (forall l, (l < Nat.min m n)%nat -> sS r l = 0 \/ pinv_tol m n r tol < sS r l) ->
  moore_penrose m n A (regularised m n r (pinv_value (pinv_tol m n r tol))).
Proof.
  intros HK HS H. assert (T : 0 <= pinv_tol m n r tol).
  { unfold pinv_tol. destruct (Rlt_dec tol 0); [|lra]. destruct HS as (_ & _ & _ & P & _). specialize (P 0%nat HK).
    apply Rmult_le_pos; [apply Rmult_le_pos; [apply pos_INR|exact P]|]. left. apply Rinv_0_lt_compat. apply pow_lt. lra. }
  apply svd_moore_penrose; [exact HS|]. intros l Hl. unfold pinv_value. destruct (H l Hl) as [Z|Z].
  - rewrite Z. destruct (Rlt_dec _ 0); [lra|]. split; ring.
  - destruct (Rlt_dec _ (sS r l)); [|contradiction]. split; field; lra.
Qed.
Lemma dzd_exact m n A r s_min : 0 < s_min -> is_svd m n A r ->
  (forall l, (l < Nat.min m n)%nat -> sS r l = 0 \/ s_min <= sS r l) -> moore_penrose m n A (regularised m n r (dzd_value s_min)).
Proof.
  intros HM HS H. apply svd_moore_penrose; [exact HS|]. intros l Hl. unfold dzd_value. destruct (H l Hl) as [Z|Z].
  - rewrite Z. destruct (Rle_dec _ 0); [lra|]. split; field; lra.
  - destruct (Rle_dec _ (sS r l)); [|contradiction]. split; field; lra.
Qed.
Lemma dz_exact m n A r s2 : 0 < s2 -> is_svd m n A r ->
  (forall l, (l < Nat.min m n)%nat -> sS r l = 0 \/ s2 <= sS r l * sS r l) -> moore_penrose m n A (regularised m n r (dz_value s2)).
Proof.
  intros HM HS H. apply svd_moore_penrose; [exact HS|]. intros l Hl. unfold dz_value. destruct (H l Hl) as [Z|Z].
  - rewrite Z. rewrite Rmax_right by lra. split; field; lra.
  - rewrite Rmax_left by lra. assert (sS r l <> 0) by nra. split; field; auto.
Qed.
(** the gain stays below 1/s_min near singularities *)
Lemma dzd_bounded s_min s : 0 < s_min -> 0 <= s -> 0 <= dzd_value s_min s <= 1 / s_min.
Proof.
  intros H Hs. unfold dzd_value. destruct (Rle_dec s_min s) as [L|L].
  - split; [left; apply Rmult_lt_0_compat; [lra|apply Rinv_0_lt_compat; lra]|]. unfold Rdiv. rewrite !Rmult_1_l. apply Rinv_le_contravar; lra.
  - assert (0 < s_min * s_min) by nra. split; [apply Rmult_le_pos; [lra|left; now apply Rinv_0_lt_compat]|].
    apply Rmult_le_reg_r with (s_min * s_min); [lra|]. unfold Rdiv. rewrite Rmult_assoc, Rinv_l by lra. replace (1 * / s_min * (s_min * s_min)) with s_min by (field; lra). lra.
Qed.
Lemma dz_bounded s_min s : 0 < s_min -> 0 <= s -> 0 <= dz_value (s_min * s_min) s <= 1 / s_min.
Proof.
  intros H Hs. unfold dz_value. assert (P : 0 < s_min * s_min) by nra. pose proof (Rmax_r (s * s) (s_min * s_min)). pose proof (Rmax_l (s * s) (s_min * s_min)).
  set (D := Rmax _ _) in *. clearbody D. split; [apply Rmult_le_pos; [lra|left; apply Rinv_0_lt_compat; lra]|].
  apply Rmult_le_reg_r with D; [lra|]. unfold Rdiv. rewrite Rmult_assoc, Rinv_l by lra. apply Rmult_le_reg_l with s_min; [lra|].
  replace (s_min * (1 * / s_min * D)) with D by (field; lra). nra.
Qed.

Lemma svd_padded gesdd m n A lda U S Vt M : (m < lda)%nat -> (2 <= n)%nat -> d_svd gesdd m n A lda U S Vt M = Undef.
Proof. intros H1 H2. unfold d_svd. now rewrite (proj2 (Nat.ltb_lt _ _) H1), (proj2 (Nat.leb_le _ _) H2). Qed.
Lemma pinv_padded_in gesdd A tol As w M : m_rows A = m_cols As -> m_cols A = m_rows As -> (m_rows A < m_ld A)%nat -> (2 <= m_cols A)%nat ->
  dmat_pinv gesdd A tol As w M = Undef /\ (forall s_min, dmat_dzdpinv gesdd A s_min As w M = Undef).
Proof.
  intros E1 E2 H1 H2. unfold dmat_pinv, dmat_dzdpinv, check. rewrite E1, E2, !Nat.eqb_refl. rewrite <- E1, <- E2.
  split; intros; rewrite svd_padded by assumption; reflexivity.
Qed.
Lemma pinv_padded_out gesdd A As w M : (2 <= m_rows A)%nat -> (1 <= m_cols A)%nat -> m_ld A = m_rows A -> (m_cols A < m_ld As)%nat ->
  m_rows A = m_cols As -> m_cols A = m_rows As -> is_svd (m_rows A) (m_cols A) (mget A M) (gesdd (m_rows A) (m_cols A) (mget A M)) ->
  clear_of (m_data As) (m_ld As * m_cols As) w (svd_work (m_rows A) (m_cols A)) ->
  (forall tol, exists M', dmat_pinv gesdd A tol As w M = Done M' /\ mget As M' (m_rows As - 1) (m_cols As - 1) = 0) /\
  (forall s_min, exists M', dmat_dzdpinv gesdd A s_min As w M = Done M' /\ mget As M' (m_rows As - 1) (m_cols As - 1) = 0).
Proof.
  intros Hm Hn GA GS E1 E2 SV CW. set (m := m_rows A) in *. set (n := m_cols A) in *. set (r := gesdd m n (mget A M)) in *.
  assert (RR : gesdd m n (fun i j => M (mad (m_data A) m i j)) = r) by (unfold r, mget, melem; rewrite GA; reflexivity).
  unfold svd_work in CW. rewrite <- E1 in CW.
  destruct (put_svd_ok m n r w (w + m * m + n * n) (w + m * m) M) as (P1 & P2 & P3 & P4); [unfold clear_of; lia..|].
  set (M2 := put_svd m n r w (w + m * m + n * n) (w + m * m) M) in *.
  assert (HH : holds_svd m n w (w + m * m + n * n) (w + m * m) r M2) by (split; [|split]; assumption).
  assert (MN : (m * n <= m_ld As * m)%nat) by nia.
  assert (OO : off_svd m n w (w + m * m + n * n) (w + m * m) (m_data As)) by (unfold off_svd, clear_of in *; lia).
  destruct (mad_loop (m_data As) (m_ld As) n m (fun i j _ => if Nat.eqb i j then 0 else 0) M2 ltac:(lia)) as [Z1 Z2]; [reflexivity|].
  assert (ZE : dmat_zero As M2 = loop m (fun j => loop n (fun i m0 => upd m0 (mad (m_data As) (m_ld As) i j) (if Nat.eqb i j then 0 else 0))) M2).
  { unfold dmat_zero, dmat_set, b_laset. rewrite <- E1, <- E2. reflexivity. }
  rewrite <- ZE in Z1, Z2.
  assert (H3 : holds_svd m n w (w + m * m + n * n) (w + m * m) r (dmat_zero As M2)).
  { assert (FF : forall a, outside (m_data As) (m_ld As * m) a -> dmat_zero As M2 a = M2 a).
    { intros a Ha. apply Z2. intros i j Hi Hj E. pose proof (mad_in (m_data As) (m_ld As) i j m ltac:(lia) Hj). unfold outside in Ha. lia. }
    destruct HH as (Q1 & Q2 & Q3). split; [|split].
    - intros i j Hi Hj. pose proof (mad_in w m i j m Hi Hj). rewrite FF; auto. unfold outside, clear_of in *. lia.
    - intros i Hi. rewrite FF; auto. unfold outside, clear_of in *. lia.
    - intros i j Hi Hj. pose proof (mad_in (w + m * m) n i j n Hi Hj). rewrite FF; auto. unfold outside, clear_of in *. lia. }
  assert (OUT : outside (m_data As) (m * n) (melem As (m_rows As - 1) (m_cols As - 1))).
  { rewrite <- E1, <- E2. unfold outside, melem. right. nia. }
  assert (ZZ : dmat_zero As M2 (melem As (m_rows As - 1) (m_cols As - 1)) = 0).
  { rewrite <- E1, <- E2. etransitivity; [apply (Z1 (n - 1)%nat (m - 1)%nat); lia|]. now destruct (Nat.eqb _ _). }
  unfold dmat_pinv, dmat_dzdpinv, check. fold m n. rewrite <- E1, <- E2, !Nat.eqb_refl.
  assert (D : d_svd gesdd m n (m_data A) (m_ld A) w (w + m * m + n * n) (w + m * m) M = Done M2).
  { unfold d_svd. rewrite GA, Nat.ltb_irrefl. cbn [andb]. rewrite RR. reflexivity. }
  rewrite <- E1, <- E2 in OUT, ZZ. fold m n in OUT, ZZ.
  split; intros t; rewrite D; cbn [obind]; eexists; (split; [reflexivity|]); rewrite min_if; unfold mget.
  - match goal with |- pinv_loop _ _ _ _ _ ?t _ _ _ _ _ _ = 0 => destruct (pinv_loop_ok m n _ _ _ _ r OO (proj2 (proj2 (proj2 (proj2 SV)))) t (Nat.min m n) 0 _ H3) as [_ L2]; [lia|lia|] end.
    etransitivity; [apply L2; exact OUT|exact ZZ].
  - destruct (dzd_loop_ok m n _ _ _ _ r OO (proj2 (proj2 (proj2 (proj2 SV)))) t (Nat.min m n) 0 _ H3) as [_ L2]; [lia|lia|].
    etransitivity; [apply L2; exact OUT|exact ZZ].
Qed.

(** ** Damped least squares with a secondary target *)
Lemma clear_out b l b' l' a : clear_of b l b' l' -> (b <= a < b + l)%nat -> outside b' l' a.
Proof. unfold clear_of, outside. lia. Qed.
Lemma clear_sym b l b' l' : clear_of b l b' l' -> clear_of b' l' b l.
Proof. unfold clear_of. tauto. Qed.
Lemma la_dlsnp_ok junk m n k A x yp y As Ap W B M : 0 < k -> dpinv_apart m n A As Ap W ->
  clear_of A (m * n) As (m * n) -> ((n < m)%nat -> clear_of A (m * n) W (m * m)) ->
  clear_of x m As (m * n) -> clear_of x m Ap (m * n) -> ((n < m)%nat -> clear_of x m W (m * m)) ->
  clear_of yp n As (m * n) -> clear_of yp n Ap (m * n) -> ((n < m)%nat -> clear_of yp n W (m * m)) ->
  clear_of y n A (m * n) -> clear_of y n As (m * n) -> clear_of y n yp n -> clear_of y n B (n * n) -> clear_of B (n * n) yp n ->
  let M' := la_dlsnp junk m n k A x yp y As Ap W B M in
  let cost z := ssq m (fun i => mulv n (amat A m M) z i - arr x M i) + k * ssq n (fun i => z i - arr yp M i) in
  (forall z, cost (arr y M') <= cost z /\ (cost z = cost (arr y M') -> forall i, (i < n)%nat -> z i = arr y M' i)) /\
  (forall a, outside y n a -> outside B (n * n) a -> outside As (m * n) a -> outside Ap (m * n) a -> ((n < m)%nat -> outside W (m * m) a) -> M' a = M a).
Proof.
  intros Hk HA X0 X00 X1 X2 X3 Y1 Y2 Y3 C1 C2 C3 C4 C5 M' cost. unfold M', la_dlsnp.
  destruct (la_dpinv_ok junk m n k A As Ap W M Hk HA) as [D1 D2]. remember (la_dpinv junk m n k A As Ap W M) as M1 eqn:EM. clear EM.
  destruct (la_xlsnp_ok m n A As x yp y B M1 C1 C2 C3 C4 C5) as [N1 N2].
  destruct HA as (CpA & CpS & CW).
  assert (EA : forall i j, (i < m)%nat -> (j < n)%nat -> amat A m M1 i j = amat A m M i j).
  { intros i j Hi Hj. assert (Q : (A <= A + m * j + i < A + m * n)%nat) by (apply (mad_in A m i j n Hi Hj)). apply D2; [exact (clear_out _ _ _ _ _ X0 Q)|exact (clear_out _ _ _ _ _ (clear_sym _ _ _ _ CpA) Q)|].
    intros H. exact (clear_out _ _ _ _ _ (X00 H) Q). }
  assert (Ex : forall i, (i < m)%nat -> arr x M1 i = arr x M i).
  { intros i Hi. assert (Q : (x <= x + i < x + m)%nat) by (clear - Hi; lia). apply D2; [exact (clear_out _ _ _ _ _ X1 Q)|exact (clear_out _ _ _ _ _ X2 Q)|].
    intros H. exact (clear_out _ _ _ _ _ (X3 H) Q). }
  assert (Ey : forall i, (i < n)%nat -> arr yp M1 i = arr yp M i).
  { intros i Hi. assert (Q : (yp <= yp + i < yp + n)%nat) by (clear - Hi; lia). apply D2; [exact (clear_out _ _ _ _ _ Y1 Q)|exact (clear_out _ _ _ _ _ Y2 Q)|].
    intros H. exact (clear_out _ _ _ _ _ (Y3 H) Q). }
  split; [|intros a H1 H2 H3 H4 H5; rewrite N2 by auto; apply D2; auto].
  set (y' := arr y (la_xlsnp m n A As x yp y B M1)) in *.
  set (AA := amat A m M) in *. set (b := fun i => arr x M i - mulv n AA (arr yp M) i).
  assert (YE : forall i, (i < n)%nat -> y' i - arr yp M i = mulv m (amat As n M1) b i).
  { intros i Hi. rewrite N1 by exact Hi. unfold nullspace_solution, b. rewrite (mulv_minus m (amat As n M1) (arr x M) (mulv n AA (arr yp M))).
    rewrite (mulv_ext m _ (arr x M1) (arr x M) i Ex). rewrite Ey by exact Hi.
    rewrite (mulv_ext m _ (mulv n (amat A m M1) (arr yp M1)) (mulv n AA (arr yp M)) i); [lra|].
    intros l Hl. unfold mulv. apply bsum_ext. intros j Hj. rewrite EA, Ey by auto. reflexivity. }
  pose proof (damped_optimal m n k AA (amat As n M1) Hk D1 b) as O.
  assert (CE : forall z, cost z = damped_cost m n k AA b (fun i => z i - arr yp M i)).
  { intros z. unfold cost, damped_cost. f_equal. apply dotp_ext; intros i Hi; rewrite mulv_minus; unfold b; lra. }
  assert (CY : cost y' = damped_cost m n k AA b (mulv m (amat As n M1) b)).
  { rewrite CE. unfold damped_cost. f_equal; [|f_equal]; apply dotp_ext; intros i Hi; auto; f_equal; apply mulv_ext; exact YE. }
  intros z. destruct (O (fun i => z i - arr yp M i)) as [O1 O2]. rewrite CY, (CE z). split; [exact O1|].
  intros Q i Hi. specialize (O2 Q i Hi). cbv beta in O2. rewrite <- YE in O2 by exact Hi. lra.
Qed.

(** ** Statements assembled *)
Lemma xlsnp_solves m n A As x yp y B M :
  clear_of y n A (m * n) -> clear_of y n As (m * n) -> clear_of y n yp n -> clear_of y n B (n * n) -> clear_of B (n * n) yp n ->
  (forall i j, (i < m)%nat -> (j < n)%nat -> mmul m (mmul n (amat A m M) (amat As n M)) (amat A m M) i j = amat A m M i j) ->
  let M' := la_xlsnp m n A As x yp y B M in
  (forall i, (i < m)%nat -> mulv n (amat A m M) (arr y M') i = mulv n (amat A m M) (mulv m (amat As n M) (arr x M)) i) /\
  ((exists z, forall i, (i < m)%nat -> mulv n (amat A m M) z i = arr x M i) -> forall i, (i < m)%nat -> mulv n (amat A m M) (arr y M') i = arr x M i).
Proof.
  intros C1 C2 C3 C4 C5 G. destruct (la_xlsnp_ok m n A As x yp y B M C1 C2 C3 C4 C5) as [F _]. split.
  - intros i Hi. rewrite (mulv_ext n _ _ _ i F). apply np_image; assumption.
  - intros H i Hi. rewrite (mulv_ext n _ _ _ i F). apply np_solves; assumption.
Qed.
(** two least-squares solutions have the same image *)
Lemma ls_image m n A P b w : moore_penrose m n A P -> least_squares m n A b w -> forall i, (i < m)%nat -> mulv n A w i = mulv n A (mulv m P b) i.
Proof.
  intros MP L i Hi. specialize (L (mulv m P b)).
  assert (E : ssq m (fun i => mulv n A w i - b i) = ssq m (fun i => (mulv n A (mulv m P b) i - b i) + mulv n A (fun l => w l - mulv m P b l) i)).
  { apply dotp_ext; intros j Hj; rewrite mulv_minus; lra. }
  rewrite E, ssq_split, (mp_normal m n A P MP b) in L. pose proof (ssq_nonneg m (mulv n A (fun l => w l - mulv m P b l))) as Q.
  assert (Z : ssq m (mulv n A (fun l => w l - mulv m P b l)) = 0) by lra. pose proof (ssq_zero m _ Z i Hi) as R. rewrite mulv_minus in R. lra.
Qed.
Lemma xlsnp_nearest m n A As x yp y B M :
  clear_of y n A (m * n) -> clear_of y n As (m * n) -> clear_of y n yp n -> clear_of y n B (n * n) -> clear_of B (n * n) yp n ->
  moore_penrose m n (amat A m M) (amat As n M) ->
  let y' := arr y (la_xlsnp m n A As x yp y B M) in
  least_squares m n (amat A m M) (arr x M) y' /\
  (forall z, least_squares m n (amat A m M) (arr x M) z ->
     ssq n (fun i => y' i - arr yp M i) <= ssq n (fun i => z i - arr yp M i) /\
     (ssq n (fun i => z i - arr yp M i) = ssq n (fun i => y' i - arr yp M i) -> forall i, (i < n)%nat -> z i = y' i)).
Proof.
  intros C1 C2 C3 C4 C5 MP y'. destruct (la_xlsnp_ok m n A As x yp y B M C1 C2 C3 C4 C5) as [F _]. fold y' in F. clearbody y'.
  set (s := nullspace_solution m n (amat A m M) (amat As n M) (arr x M) (arr yp M)) in *.
  pose proof (np_least_squares m n _ _ MP (arr x M) (arr yp M)) as L. fold s in L.
  assert (L' : least_squares m n (amat A m M) (arr x M) y').
  { intros z. specialize (L z). replace (ssq m (fun i => mulv n (amat A m M) y' i - arr x M i)) with (ssq m (fun i => mulv n (amat A m M) s i - arr x M i)); [exact L|].
    apply dotp_ext; intros i Hi; f_equal; apply mulv_ext; intros; symmetry; auto. }
  split; [exact L'|]. intros z Hz.
  destruct (np_nearest m n _ _ MP (arr x M) (arr yp M) z) as [N1 N2].
  { intros i Hi. fold s. rewrite (ls_image _ _ _ _ _ _ MP Hz i Hi), (ls_image _ _ _ _ _ _ MP L i Hi). reflexivity. }
  fold s in N1, N2.
  assert (E : ssq n (fun i => y' i - arr yp M i) = ssq n (fun i => s i - arr yp M i)) by (apply dotp_ext; intros i Hi; now rewrite F).
  rewrite E. split; [exact N1|]. intros Q i Hi. rewrite F by exact Hi. apply N2; auto.
Qed.
Lemma d_transpose_clear m n A lda B ldb M : (m <= lda)%nat -> (n <= ldb)%nat -> clear_of B (ldb * m) A (lda * n) ->
  let M' := d_transpose m n A lda B ldb M in
  (forall i j, (i < n)%nat -> (j < m)%nat -> amat B ldb M' i j = amat A lda M j i) /\
  (forall a, (forall i j, (i < n)%nat -> (j < m)%nat -> a <> B + ldb * j + i)%nat -> M' a = M a).
Proof.
  intros H1 H2 C. apply (transpose_ok m n A lda B ldb M H2). intros i j i' j' Hi Hj Hi' Hj'.
  pose proof (mad_in B ldb i j m ltac:(lia) Hj) as Q1. pose proof (mad_in A lda j' i' n ltac:(lia) Hi') as Q2. unfold mad in Q1, Q2. unfold clear_of in C. lia.
Qed.
Lemma la_dpinv_formula junk m n k A As Ap W M r : 0 < k -> dpinv_apart m n A As Ap W -> is_svd m n (amat A m M) r ->
  forall i j, (i < n)%nat -> (j < m)%nat -> amat As n (la_dpinv junk m n k A As Ap W M) i j = regularised m n r (fun s => s / (s * s + k)) i j.
Proof. intros Hk HA HS. destruct (la_dpinv_ok junk m n k A As Ap W M Hk HA) as [D _]. exact (damped_formula m n k (amat A m M) _ r Hk HS D). Qed.
Lemma dpinv_size_errors junk A k As w M : m_rows A <> m_cols As \/ m_cols A <> m_rows As -> dmat_dpinv junk A k As w M = Fail.
Proof.
  intros H. unfold dmat_dpinv, check. destruct (Nat.eqb_spec (m_rows A) (m_cols As)); [|reflexivity]. destruct (Nat.eqb_spec (m_cols A) (m_rows As)); [|reflexivity]. lia.
Qed.
Lemma mp_ext m n A P P' : (forall i j, (i < n)%nat -> (j < m)%nat -> P' i j = P i j) -> moore_penrose m n A P -> moore_penrose m n A P'.
Proof.
  intros E (G1 & G2 & G3 & G4).
  assert (EL : forall i j, (i < m)%nat -> (j < m)%nat -> mmul n A P' i j = mmul n A P i j) by (intros; apply mmul_ext; auto).
  assert (ER : forall i j, (i < n)%nat -> (j < n)%nat -> mmul m P' A i j = mmul m P A i j) by (intros; apply mmul_ext; auto).
  split; [|split; [|split]]; intros i j Hi Hj.
  - rewrite <- G1 by auto. apply mmul_ext; auto.
  - rewrite E by auto. rewrite <- G2 by auto. apply mmul_ext; auto.
  - rewrite !EL by auto. auto.
  - rewrite !ER by auto. auto.
Qed.
Lemma pinv_thm (gesdd : nat -> nat -> (nat -> nat -> R) -> svdres) A As w M tol :
  let m := m_rows A in let n := m_cols A in let r := gesdd m n (mget A M) in
  m_ld A = m -> m_ld As = n -> m_rows A = m_cols As -> m_cols A = m_rows As ->
  is_svd m n (mget A M) r -> clear_of (m_data As) (m * n) w (svd_work m n) -> (0 < Nat.min m n)%nat ->
  let tol' := if Rlt_dec tol 0 then INR (Nat.max m n) * sS r 0%nat * / 2 ^ 52 else tol in
  exists M', dmat_pinv gesdd A tol As w M = Done M' /\
    (forall p q, (p < n)%nat -> (q < m)%nat -> mget As M' p q = regularised m n r (fun s => if Rlt_dec tol' s then 1 / s else 0) p q) /\
    ((forall l, (l < Nat.min m n)%nat -> sS r l = 0 \/ tol' < sS r l) -> moore_penrose m n (mget A M) (mget As M')) /\
    (forall a, outside (m_data As) (m * n) a -> outside w (svd_work m n) a -> M' a = M a).
Proof.
  intros m n r GA GS E1 E2 SV CW HK tol'. destruct (dmat_pinv_ok gesdd A As w M GA GS E1 E2 SV CW tol) as (M' & D & V & F).
  exists M'. split; [exact D|]. split; [exact V|]. split; [|exact F]. intros H. apply (mp_ext m n _ _ _ V). exact (pinv_exact m n _ r tol HK SV H).
Qed.
Lemma dzd_thm (gesdd : nat -> nat -> (nat -> nat -> R) -> svdres) A As w M s_min :
  let m := m_rows A in let n := m_cols A in let r := gesdd m n (mget A M) in
  m_ld A = m -> m_ld As = n -> m_rows A = m_cols As -> m_cols A = m_rows As ->
  is_svd m n (mget A M) r -> clear_of (m_data As) (m * n) w (svd_work m n) -> 0 < s_min ->
  let f s := if Rle_dec s_min s then 1 / s else s / (s_min * s_min) in
  exists M', dmat_dzdpinv gesdd A s_min As w M = Done M' /\
    (forall p q, (p < n)%nat -> (q < m)%nat -> mget As M' p q = regularised m n r f p q) /\
    (forall s, 0 <= s -> 0 <= f s <= 1 / s_min) /\
    ((forall l, (l < Nat.min m n)%nat -> sS r l = 0 \/ s_min <= sS r l) -> moore_penrose m n (mget A M) (mget As M')) /\
    (forall a, outside (m_data As) (m * n) a -> outside w (svd_work m n) a -> M' a = M a).
Proof.
  intros m n r GA GS E1 E2 SV CW Hs f. destruct (dmat_dzdpinv_ok gesdd A As w M GA GS E1 E2 SV CW s_min) as (M' & D & V & F).
  exists M'. split; [exact D|]. split; [exact V|]. split; [intros; now apply dzd_bounded|]. split; [|exact F]. intros H. apply (mp_ext m n _ _ _ V). exact (dzd_exact m n _ r s_min Hs SV H).
Qed.
Lemma dz_thm (gesdd : nat -> nat -> (nat -> nat -> R) -> svdres) m n s_min A As w M :
  let r := gesdd m n (amat A m M) in
  is_svd m n (amat A m M) r -> clear_of As (m * n) w (svd_work m n) -> 0 < s_min ->
  let f s := s / Rmax (s * s) (s_min * s_min) in
  exists M', la_dzdpinv gesdd m n (s_min * s_min) A As w M = Done M' /\
    (forall p q, (p < n)%nat -> (q < m)%nat -> amat As n M' p q = regularised m n r f p q) /\
    (forall s, 0 <= s -> 0 <= f s <= 1 / s_min) /\
    ((forall l, (l < Nat.min m n)%nat -> sS r l = 0 \/ s_min <= sS r l) -> moore_penrose m n (amat A m M) (amat As n M')) /\
    (forall a, outside As (m * n) a -> outside w (svd_work m n) a -> M' a = M a).
Proof.
  intros r SV CW Hs f. destruct (la_dzdpinv_ok gesdd m n (s_min * s_min) A As w M CW) as (M' & D & V & F).
  exists M'. split; [exact D|]. split; [exact V|]. split; [intros; now apply dz_bounded|]. split; [|exact F]. intros H. apply (mp_ext m n _ _ _ V).
  apply (dz_exact m n _ r (s_min * s_min)); [nra|exact SV|]. intros l Hl. destruct (H l Hl); [left; auto|right; nra].
Qed.
Lemma colcov_padded m n A lda x E lde t M : (2 <= m)%nat -> (m < lde)%nat -> (m <= lda)%nat -> (3 <= n)%nat ->
  clear_of E (lde * m) A (lda * n) -> clear_of E (lde * m) x m -> clear_of t m A (lda * n) -> clear_of t m x m -> clear_of t m E (lde * m) ->
  let v := covariance n (amat A lda M) (arr x M) (m - 1) (m - 1) in
  amat E lde (d_colcov m n A lda x E lde t M) (m - 1) (m - 1) = INR (n - 1) * v /\
  (v <> 0 -> amat E lde (d_colcov m n A lda x E lde t M) (m - 1) (m - 1) <> v).
Proof.
  intros Hm He Hl Hn C1 C2 C3 C4 C5 v. assert (P : 2 <= INR (n - 1)) by (replace 2 with (INR 2) by (cbn; lra); apply le_INR; lia).
  assert (EQ : amat E lde (d_colcov m n A lda x E lde t M) (m - 1) (m - 1) = INR (n - 1) * v).
  { rewrite (colcov_wrong m n A lda x E lde t M Hm He Hl C1 C2 C3 C4 C5). unfold v, covariance. field. lra. }
  split; [exact EQ|]. intros Hv. rewrite EQ. intros Q. apply Hv. assert ((INR (n - 1) - 1) * v = 0) by lra. apply Rmult_integral in H. destruct H; lra.
Qed.
