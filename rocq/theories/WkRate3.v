(** Resolved rates: results of aa_rx_wk_dx2dq and aa_rx_wk_dx2dq_np. *)
From Coq Require Import ZArith String List Bool Reals Lra Lia.
From Verif Require Import TfModel TfSpec SgModel SgSpec SgKinSpec IkSpec IkObj
  MatModel MatSpec MatProofs LaModel LaSpec LaAlg LaProofs La2Proofs La3Proofs La4Proofs WkRateModel WkRateSpec WkRate WkRate2.
Import ListNotations.
Open Scope R_scope.

(** ** The matrix the rates are computed with *)
Record inverse_ok (o : wk_opts) (n : nat) (J : nat -> nat -> R) (r : svdres) (P : nat -> nat -> R) : Prop := {
  io_along : forall b, 0 <= dotp 6 b (mulv n J (mulv 6 P b));
  io_slower : forall b, ssq 6 (mulv n J (mulv 6 P b)) <= ssq 6 b;
  io_bound : forall b, 0 < wo_s2min o -> wo_s2min o * ssq n (mulv 6 P b) <= ssq 6 b;
  io_damped : forall b, wo_s2min o <= 0 -> 0 < wo_kdls o -> damped_solution 6 n (wo_kdls o) J b (mulv 6 P b);
  io_exact : regular o n r -> moore_penrose 6 n J P;
  io_leak_damped : wo_s2min o <= 0 -> 0 < wo_kdls o -> forall yp, (exists i, (i < 6)%nat /\ mulv n J yp i <> 0) ->
    exists i, (i < 6)%nat /\ mulv n J yp i - mulv n J (mulv 6 P (mulv n J yp)) i <> 0;
  io_leak : 0 < wo_s2min o -> forall yp l, (l < Nat.min 6 n)%nat -> 0 < sS r l < sqrt (wo_s2min o) -> mulv n (sVt r) yp l <> 0 ->
    exists i, (i < 6)%nat /\ mulv n J yp i - mulv n J (mulv 6 P (mulv n J yp)) i <> 0;
  io_value : wo_s2min o <= 0 -> 0 < wo_kdls o \/ P = regularised 6 n r (pinv_value (INR (Nat.max 6 n) * sS r 0%nat * / 2 ^ 52));
  io_value0 : 0 < wo_s2min o -> P = regularised 6 n r (dzd_value (sqrt (wo_s2min o))) }.

Lemma svd_ext m n A B r : (forall i j, (i < m)%nat -> (j < n)%nat -> B i j = A i j) -> is_svd m n A r -> is_svd m n B r.
Proof. intros H (D & R). split; [|exact R]. intros i j Hi Hj. rewrite H by auto. now apply D. Qed.

Lemma dzd_inverse o n J r : is_svd 6 n J r -> 0 < wo_s2min o -> inverse_ok o n J r (regularised 6 n r (dzd_value (sqrt (wo_s2min o)))).
Proof.
  intros HS Hs. set (sm := sqrt (wo_s2min o)). assert (Sm : 0 < sm) by now apply sqrt_lt_R0.
  assert (Sq : sm * sm = wo_s2min o) by (apply sqrt_sqrt; lra).
  assert (S0 : forall l, (l < Nat.min 6 n)%nat -> 0 <= sS r l) by apply HS.
  assert (F01 : forall l, (l < Nat.min 6 n)%nat -> 0 <= sS r l * dzd_value sm (sS r l) <= 1).
  { intros l Hl. specialize (S0 l Hl). unfold dzd_value. destruct (Rle_dec sm (sS r l)) as [H|H].
    - replace (sS r l * (1 / sS r l)) with 1 by (field; lra). lra.
    - assert (0 < sm * sm) by nra. replace (sS r l * (sS r l / (sm * sm))) with (sS r l * sS r l / (sm * sm)) by (field; lra).
      split; [unfold Rdiv; apply Rmult_le_pos; [nra|left; now apply Rinv_0_lt_compat]|]. apply (Rmult_le_reg_r (sm * sm)); [assumption|]. unfold Rdiv. rewrite Rmult_assoc, Rinv_l by lra. nra. }
  constructor.
  - intros b. apply (reg_along 6 n J r HS _ F01).
  - intros b. apply (reg_slower 6 n J r HS _ F01).
  - intros b _. apply (reg_bound 6 n J r HS); [lra|]. intros l Hl. rewrite <- Sq. pose proof (dzd_bounded sm (sS r l) Sm (S0 l Hl)) as [B1 B2].
    set (f := dzd_value sm (sS r l)) in *. assert (sm * f <= 1).
    { apply (Rmult_le_compat_l sm) in B2; [|lra]. replace (sm * (1 / sm)) with 1 in B2 by (field; lra). exact B2. }
    replace (sm * sm * (f * f)) with ((sm * f) * (sm * f)) by ring. assert (0 <= sm * f) by nra. nra.
  - intros; lra.
  - intros [[_ R]|[R _]]; [|lra]. now apply dzd_exact.
  - intros; lra.
  - intros _ yp l Hl Hs' Hv. apply (leak_shows 6 n J r HS (dzd_value sm) yp l Hl).
    change (mulv n (tr (fun i l => sVt r l i)) yp l) with (mulv n (sVt r) yp l). apply Rmult_integral_contrapositive_currified; [|exact Hv].
    apply Rmult_integral_contrapositive_currified; [lra|]. unfold dzd_value. destruct (Rle_dec sm (sS r l)) as [H|H]; [unfold sm in H; lra|].
    assert (0 < sm * sm) by nra. intros Z. assert (E : sS r l * (sS r l / (sm * sm)) = 1) by lra.
    assert (sS r l * sS r l = sm * sm). { replace (sS r l * (sS r l / (sm * sm))) with (sS r l * sS r l / (sm * sm)) in E by (field; lra). apply (Rmult_eq_compat_r (sm * sm)) in E. unfold Rdiv in E. rewrite Rmult_assoc, Rinv_l in E by lra. lra. }
    fold sm in Hs'. nra.
  - intros; lra.
  - reflexivity.
Qed.
Lemma pinv_inverse o n J r : (0 < n)%nat -> is_svd 6 n J r -> wo_s2min o <= 0 -> wo_kdls o <= 0 ->
  inverse_ok o n J r (regularised 6 n r (pinv_value (INR (Nat.max 6 n) * sS r 0%nat * / 2 ^ 52))).
Proof.
  intros Hn HS Hs Hk. set (tol := INR (Nat.max 6 n) * sS r 0%nat * / 2 ^ 52).
  assert (S0 : forall l, (l < Nat.min 6 n)%nat -> 0 <= sS r l) by apply HS.
  assert (T : 0 <= tol). { unfold tol. apply Rmult_le_pos; [apply Rmult_le_pos; [apply pos_INR|apply S0; lia]|]. left. apply Rinv_0_lt_compat. apply pow_lt. lra. }
  assert (F01 : forall l, (l < Nat.min 6 n)%nat -> 0 <= sS r l * pinv_value tol (sS r l) <= 1).
  { intros l Hl. unfold pinv_value. destruct (Rlt_dec tol (sS r l)) as [H|H]; [|lra]. replace (sS r l * (1 / sS r l)) with 1 by (field; lra). lra. }
  constructor.
  - intros b. apply (reg_along 6 n J r HS _ F01).
  - intros b. apply (reg_slower 6 n J r HS _ F01).
  - intros; lra.
  - intros; lra.
  - intros [[R _]|(_ & _ & R)]; [lra|]. pose proof (pinv_exact 6 n J r (-1) ltac:(lia) HS) as X. unfold pinv_tol in X.
    destruct (Rlt_dec (-1) 0) as [_|]; [|lra]. apply X. exact R.
  - intros; lra.
  - intros; lra.
  - right. reflexivity.
  - intros; lra.
Qed.
Lemma damped_inverse o n J r P : wo_s2min o <= 0 -> 0 < wo_kdls o ->
  (forall i j, (i < n)%nat -> (j < 6)%nat -> mmul 6 P (gram n (wo_kdls o) J) i j = J j i) -> inverse_ok o n J r P.
Proof.
  intros Hs Hk HP. constructor.
  - intros b. now apply (damp_along 6 n (wo_kdls o)).
  - intros b. now apply (damp_slower 6 n (wo_kdls o)).
  - intros; lra.
  - intros b _ _. now apply damped_optimal.
  - intros [[? _]|(_ & ? & _)]; lra.
  - intros _ _ yp. now apply (damp_leak 6 n (wo_kdls o)).
  - intros; lra.
  - now left.
  - intros; lra.
Qed.
Lemma inverse_unique o n J r P P' : inverse_ok o n J r P -> inverse_ok o n J r P' -> forall i j, (i < n)%nat -> (j < 6)%nat -> P i j = P' i j.
Proof.
  intros H H' i j Hi Hj. destruct (Rle_or_lt (wo_s2min o) 0) as [S|S].
  - destruct (Rlt_or_le 0 (wo_kdls o)) as [K|K].
    + pose proof (io_damped _ _ _ _ _ H (delta j) S K) as D. pose proof (io_damped _ _ _ _ _ H' (delta j) S K) as D'.
      assert (E : mulv 6 P' (delta j) i = mulv 6 P (delta j) i).
      { apply (proj2 (D (mulv 6 P' (delta j)))); [|exact Hi]. apply Rle_antisym; [apply D'|apply D]. }
      unfold mulv in E. rewrite !bsum_delta in E by exact Hj. now symmetry.
    + destruct (io_value _ _ _ _ _ H S) as [X| ->]; [lra|]. destruct (io_value _ _ _ _ _ H' S) as [X| ->]; [lra|]. reflexivity.
  - rewrite (io_value0 _ _ _ _ _ H S), (io_value0 _ _ _ _ _ H' S). reflexivity.
Qed.

(** ** Rates *)
Lemma nearest_ext n J b c y y' : (forall i, (i < n)%nat -> y' i = y i) -> nearest_solution n J b c y -> nearest_solution n J b c y'.
Proof.
  intros E [L N]. assert (EJ : forall i, mulv n J y' i = mulv n J y i) by (intros; apply bsum_ext; intros; now rewrite E).
  assert (ES : ssq n (fun i => y' i - c i) = ssq n (fun i => y i - c i)) by (apply bsum_ext; intros; now rewrite E).
  split.
  - intros z. assert (X : ssq 6 (fun i => mulv n J y' i - b i) = ssq 6 (fun i => mulv n J y i - b i)) by (apply bsum_ext; intros; now rewrite EJ). rewrite X. apply L.
  - intros z Hz. rewrite ES. destruct (N z Hz) as [N1 N2]. split; [exact N1|]. intros H i Hi. rewrite E by exact Hi. now apply N2.
Qed.
Lemma nearest_np n J P b c : moore_penrose 6 n J P -> nearest_solution n J b c (nullspace_solution 6 n J P b c).
Proof.
  intros MP. split; [now apply np_least_squares|]. intros z Hz. apply np_nearest; [exact MP|]. intros i Hi.
  rewrite (ls_image 6 n J P b z MP Hz i Hi). symmetry. apply np_image; [apply MP|exact Hi].
Qed.
Lemma inverse_rates o n J r P b y : inverse_ok o n J r P -> (forall i, (i < n)%nat -> y i = mulv 6 P b i) -> rates_for o n J r b y.
Proof.
  intros H E. assert (EJ : forall i, mulv n J y i = mulv n J (mulv 6 P b) i) by (intros; apply bsum_ext; intros; now rewrite E).
  assert (Z : forall i, (i < n)%nat -> y i = nullspace_solution 6 n J P b (fun _ => 0) i).
  { intros i Hi. rewrite E by exact Hi. unfold nullspace_solution. assert (mulv 6 P (mulv n J (fun _ => 0)) i = 0); [|lra].
    unfold mulv. apply bsum_zero. intros. rewrite bsum_zero; [lra|]. intros; lra. }
  constructor.
  - unfold dotp. rewrite (bsum_ext 6 _ (fun i => b i * mulv n J (mulv 6 P b) i)) by (intros; now rewrite EJ). apply (io_along _ _ _ _ _ H).
  - unfold ssq, dotp. rewrite (bsum_ext 6 _ (fun i => mulv n J (mulv 6 P b) i * mulv n J (mulv 6 P b) i)) by (intros; now rewrite EJ). apply (io_slower _ _ _ _ _ H).
  - intros S. unfold ssq at 1, dotp at 1. rewrite (bsum_ext n _ (fun i => mulv 6 P b i * mulv 6 P b i)) by (intros; now rewrite E). now apply (io_bound _ _ _ _ _ H).
  - intros S K z. pose proof (io_damped _ _ _ _ _ H b S K z) as [D1 D2].
    assert (EC : damped_cost 6 n (wo_kdls o) J b y = damped_cost 6 n (wo_kdls o) J b (mulv 6 P b)).
    { unfold damped_cost, ssq, dotp. f_equal; [|f_equal]; apply bsum_ext; intros; [now rewrite EJ|now rewrite E]. }
    rewrite EC. split; [exact D1|]. intros HC i Hi. rewrite E by exact Hi. now apply D2.
  - intros R. eapply nearest_ext; [exact Z|]. apply nearest_np. now apply (io_exact _ _ _ _ _ H).
  - intros R X i Hi. pose proof (io_exact _ _ _ _ _ H R) as MP. rewrite EJ.
    rewrite <- (np_image 6 n J P b (fun _ => 0)) by (auto; apply MP). apply np_solves; auto. apply MP.
Qed.

Section Run.
  Context (gesdd : nat -> nat -> (nat -> nat -> R) -> svdres) (junk : nat -> R).
  Context (o : wk_opts) (s : sg) (abs : list QV) (ss : ssg) (l : list (V3 * V3)) (r : svdres).
  Let n := length (ss_configs ss).
  Hypothesis Hn : (0 < n)%nat.
  Hypothesis HJ : chain_jacobian s abs ss = Ok l.
  Hypothesis HL : length l = n.
  Hypothesis HD : 0 < wo_s2min o \/ wo_kdls o <= 0 -> decomposes gesdd 6 n (colmat l) r.
  Lemma get_js_ok w w2 M : (w + 12 * n <= w2)%nat ->
    let J := mkDM 6 n w 6 in let Js := mkDM n 6 (w + 6 * n) n in
    exists M' P, wk_get_js gesdd junk o s abs ss J Js w2 M = Done M' /\
      (forall i j, (i < 6)%nat -> (j < n)%nat -> mget J M' i j = colmat l i j) /\
      (forall i j, (i < n)%nat -> (j < 6)%nat -> mget Js M' i j = P i j) /\
      inverse_ok o n (colmat l) r P /\
      (forall a, outside w (12 * n) a -> outside w2 (svd_work 6 n) a -> M' a = M a).
  Proof.
    intros Hw J Js.
    destruct (vel_fill_ok s abs ss J M l) as (M1 & E1 & V1 & F1); auto; [unfold good_mat; cbn; lia|].
    unfold wk_get_js. rewrite E1. cbn [obind]. cbn [J m_rows m_cols] in V1.
    assert (F1' : forall a, outside w (6 * n) a -> M1 a = M a).
    { intros a Ha. apply F1. intros (i & j & Hi & Hj & ->). unfold melem, J in *. cbn in *. unfold outside in Ha. nia. }
    assert (SG : decomposes gesdd 6 n (colmat l) r -> is_svd 6 n (mget J M1) r /\ gesdd 6%nat n (mget J M1) = r).
    { intros [HS HG]. split; [eapply svd_ext; [|exact HS]; intros; now apply V1|apply HG; intros; now apply V1]. }
    assert (CW : clear_of (m_data Js) (6 * n) w2 (svd_work 6 n)) by (left; cbn [Js m_data]; lia).
    assert (Keep : forall M' : mem, (forall a, outside (w + 6 * n) (6 * n) a -> outside w2 (svd_work 6 n) a -> M' a = M1 a) ->
      (forall i j, (i < 6)%nat -> (j < n)%nat -> mget J M' i j = colmat l i j) /\
      (forall a, outside w (12 * n) a -> outside w2 (svd_work 6 n) a -> M' a = M a)).
    { intros M' K. split.
      - intros i j Hi Hj. rewrite <- V1 by auto. unfold mget. apply K; unfold melem, J, outside; cbn [m_data m_ld]; nia.
      - intros a H1 H2. rewrite K; [apply F1'|..]; unfold outside in *; lia. }
    destruct (Rlt_dec 0 (wo_s2min o)) as [H|H]; [|destruct (Rlt_dec 0 (wo_kdls o)) as [Hk|Hk]].
    - assert (Hd := HD (or_introl H)). destruct (SG Hd) as [SV GE]. destruct Hd as [HS HG]. destruct (dzd_thm gesdd J Js w2 M1 (sqrt (wo_s2min o))) as (M' & D & V & _ & _ & K); cbn [J Js m_rows m_cols m_data m_ld]; auto.
      { rewrite GE. exact SV. }
      { now apply sqrt_lt_R0. }
      exists M', (regularised 6 n r (dzd_value (sqrt (wo_s2min o)))). split; [exact D|]. destruct (Keep M' K) as [K1 K2].
      split; [exact K1|]. split; [|split; [now apply dzd_inverse|exact K2]].
      cbn [J m_rows m_cols] in V. rewrite GE in V. exact V.
    - destruct (dmat_dpinv_ok junk J (wo_kdls o) Js w2 M1) as (M' & D & V & K); auto; try (unfold good_mat; cbn; lia).
      { unfold dmat_dpinv_apart, mapart, clear_of. cbn [J Js m_rows m_cols m_data m_ld]. split; [left; lia|]. destruct (Nat.leb 6 n); cbn [m_rows m_cols m_data m_ld]; split; left; lia. }
      rewrite D. cbn [obind snd]. exists M', (mget Js M'). split; [reflexivity|].
      destruct (Keep M') as [K1 K2].
      { intros a H1 H2. apply K.
        - unfold mblock. cbn [Js m_data m_ld m_cols]. unfold outside in H1. lia.
        - cbn [J m_rows m_cols]. unfold outside, svd_work in *. assert (n * Nat.min 6 n <= n * n)%nat by nia. lia. }
      split; [exact K1|]. split; [auto|]. split; [|exact K2]. apply damped_inverse; [lra|exact Hk|].
      cbn [J m_rows m_cols] in V. intros i j Hi Hj. transitivity (mget J M1 j i); [|now apply V1].
      transitivity (mmul 6 (mget Js M') (gram n (wo_kdls o) (mget J M1)) i j); [|now apply V].
      apply mmul_ext; [auto|]. intros q Hq. unfold gram. f_equal.
      apply bsum_ext. intros k Hk'. f_equal; symmetry; now apply V1.
    - assert (Hd := HD (or_intror (Rnot_lt_le _ _ Hk))). destruct (SG Hd) as [SV GE]. destruct Hd as [HS HG]. destruct (pinv_thm gesdd J Js w2 M1 (-1)) as (M' & D & V & _ & K); cbn [J Js m_rows m_cols m_data m_ld]; auto.
      { rewrite GE. exact SV. }
      { lia. }
      exists M', (regularised 6 n r (pinv_value (INR (Nat.max 6 n) * sS r 0%nat * / 2 ^ 52))). split; [exact D|]. destruct (Keep M' K) as [K1 K2].
      split; [exact K1|]. split; [|split; [apply pinv_inverse; auto; lra|exact K2]].
      cbn [J m_rows m_cols] in V. rewrite GE in V. destruct (Rlt_dec (-1) 0) as [_|]; [|lra]. exact V.
  Qed.
  Lemma js_matrix : exists P, inverse_ok o n (colmat l) r P /\ forall w w2 M, (w + 12 * n <= w2)%nat ->
    let J := mkDM 6 n w 6 in let Js := mkDM n 6 (w + 6 * n) n in
    exists M', wk_get_js gesdd junk o s abs ss J Js w2 M = Done M' /\
      (forall i j, (i < 6)%nat -> (j < n)%nat -> mget J M' i j = colmat l i j) /\
      (forall i j, (i < n)%nat -> (j < 6)%nat -> mget Js M' i j = P i j) /\
      (forall a, outside w (12 * n) a -> outside w2 (svd_work 6 n) a -> M' a = M a).
  Proof.
    destruct (get_js_ok 0 (12 * n) (fun _ => 0)) as (_ & P & _ & _ & _ & HP & _); [lia|]. exists P. split; [exact HP|].
    intros w w2 M Hw. destruct (get_js_ok w w2 M Hw) as (M' & P' & D & V1 & V2 & HP' & F). exists M'. split; [exact D|]. split; [exact V1|].
    split; [|exact F]. intros i j Hi Hj. rewrite V2 by auto. now apply (inverse_unique o n (colmat l) r).
  Qed.
  Lemma dx2dq_core : exists P, inverse_ok o n (colmat l) r P /\
    (forall dx dq w M, v_len dx = 6%nat -> v_len dq = n -> good_vec dq ->
      vec_off w (12 * n + svd_work 6 n) dx -> vec_off w (12 * n + svd_work 6 n) dq ->
      exists M', wk_dx2dq gesdd junk o s abs ss dx dq w M = Done M' /\
        (forall i, (i < n)%nat -> vget dq M' i = mulv 6 P (vget dx M) i) /\
        (forall a, outside w (12 * n + svd_work 6 n) a -> ~ in_vec dq a -> M' a = M a)) /\
    (forall dx dqr dq w M, v_len dx = 6%nat -> v_len dqr = n -> v_len dq = n -> good_vec dq ->
      vec_off w (12 * n + n * n + svd_work 6 n) dx -> vec_off w (12 * n + n * n + svd_work 6 n) dqr -> vec_off w (12 * n + n * n + svd_work 6 n) dq ->
      (forall i, (i < n)%nat -> ~ in_vec dq (velem dqr i)) ->
      exists M', wk_dx2dq_np gesdd junk o s abs ss dx dqr dq w M = Done M' /\
        (forall i, (i < n)%nat -> vget dq M' i = nullspace_solution 6 n (colmat l) P (vget dx M) (vget dqr M) i) /\
        (forall a, outside w (12 * n + n * n + svd_work 6 n) a -> ~ in_vec dq a -> M' a = M a)).
  Proof.
    destruct js_matrix as (P & HP & HM). exists P. split; [exact HP|]. split.
    - intros dx dq w M Lx Lq Gq Ox Oq. destruct (HM w (w + 12 * n)%nat M ltac:(lia)) as (M1 & D1 & _ & V1 & F1).
      unfold wk_dx2dq. fold n. rewrite Lx, Lq. unfold check. rewrite !Nat.eqb_refl. rewrite D1. cbn [obind].
      destruct (dmat_gemv_ok false 1 (mkDM n 6 (w + 6 * n) n) dx 0 dq M1) as (M' & D & V & F); auto.
      exists M'. split; [exact D|]. assert (O : forall a, outside w (12 * n + svd_work 6 n) a -> M1 a = M a).
      { intros a Ha. apply F1; unfold outside in *; lia. }
      split.
      + intros i Hi. unfold vget at 1. rewrite V by lia. cbn [ocols m_cols orows m_rows]. unfold mulv.
        rewrite Rmult_1_l, Rmult_0_l, Rplus_0_r. apply bsum_ext. intros k Hk. f_equal; [now apply V1|]. unfold vget. apply O. apply Ox. lia.
      + intros a Ha Hq. rewrite F by exact Hq. now apply O.
    - intros dx dqr dq w M Lx Lr Lq Gq Ox Or Oq Ap. destruct (HM w (w + 12 * n + n * n)%nat M ltac:(lia)) as (M1 & D1 & J1 & V1 & F1).
      unfold wk_dx2dq_np. fold n. rewrite Lx, Lr, Lq. unfold check. rewrite !Nat.eqb_refl. rewrite D1. cbn [obind]. unfold wk_get_n.
      set (J := mkDM 6 n w 6) in *. set (Js := mkDM n 6 (w + 6 * n) n) in *. set (N := mkDM n n (w + 12 * n) n) in *.
      assert (NN : (n * n + (w + 12 * n) <= w + 12 * n + n * n)%nat) by lia.
      assert (FN : forall a, outside w (12 * n + n * n + svd_work 6 n) a -> ~ in_mat N a).
      { intros a Ha (i & j & Hi & Hj & ->). cbn in Hi, Hj. unfold melem, outside in Ha. cbn in Ha. nia. }
      destruct (dmat_gemm_ok false false 1 Js J 0 N M1) as (M2 & D2 & V2 & F2); try (unfold good_mat; cbn; lia); auto; try discriminate.
      rewrite D2. cbn [obind]. destruct (add_diag_ok (Ropp 1) (m_cols N) (m_data N) (m_ld N) M2) as [A1 A2]; [cbn; lia|].
      set (M3 := add_diag (Ropp 1) (m_cols N) (m_data N) (m_ld N) M2) in *.
      assert (O3 : forall a, ~ in_mat N a -> M3 a = M1 a).
      { intros a Ha. rewrite A2; [now apply F2|]. intros i Hi Ea. apply Ha. exists i, i. cbn in Hi. cbn. repeat split; auto. }
      assert (V3 : forall i j, (i < n)%nat -> (j < n)%nat -> mget N M3 i j = mmul 6 P (colmat l) i j - delta i j).
      { intros i j Hi Hj.
        assert (E2 : mget N M2 i j = mmul 6 P (colmat l) i j).
        { unfold mget. rewrite V2 by auto. cbn [ocols m_cols]. rewrite Rmult_1_l, Rmult_0_l, Rplus_0_r. apply bsum_ext. intros k Hk. f_equal; [now apply V1|now apply J1]. }
        unfold delta. destruct (Nat.eqb_spec i j) as [->|Ne].
        - rewrite <- E2. apply (A1 j). exact Hj.
        - rewrite <- E2. unfold mget. rewrite A2; [lra|]. intros k Hk. cbn in Hk. unfold melem, mad, N. cbn [m_data m_ld]. intros E. destruct (Nat.lt_trichotomy j k) as [H|[H|H]]; [nia| |nia]. subst. lia. }
      assert (O3' : forall a, outside w (12 * n + n * n + svd_work 6 n) a -> M3 a = M a).
      { intros a Ha. rewrite O3 by (apply FN, Ha). apply F1; unfold outside in *; lia. }
      assert (S3 : forall i j, (i < n)%nat -> (j < 6)%nat -> mget Js M3 i j = P i j).
      { intros i j Hi Hj. rewrite <- V1 by auto. apply O3. intros (i' & j' & H1 & H2 & E). cbn in H1, H2. unfold melem, Js, N in E. cbn in E. nia. }
      destruct (dmat_gemv_ok false 1 Js dx 0 dq M3) as (M4 & D4 & V4 & F4); auto. rewrite D4. cbn [obind].
      destruct (dmat_gemv_ok false (-1) N dqr 1 dq M4) as (M5 & D5 & V5 & F5); auto. exists M5. split; [exact D5|].
      assert (O4 : forall i, (i < n)%nat -> vget dqr M4 i = vget dqr M i).
      { intros i Hi. unfold vget. rewrite F4 by (now apply Ap). apply O3'. apply Or. lia. }
      assert (N4 : forall i j, (i < n)%nat -> (j < n)%nat -> mget N M4 i j = mmul 6 P (colmat l) i j - delta i j).
      { intros i j Hi Hj. rewrite <- V3 by auto. apply F4. intros (k & Hk & E). specialize (Oq k Hk). rewrite <- E in Oq. apply (FN _ Oq).
        exists i, j. cbn. auto. }
      split.
      + intros i Hi. unfold vget at 1. rewrite V5 by lia. cbn [ocols m_cols]. unfold vget at 2. rewrite V4 by lia. cbn [ocols m_cols N Js m_rows oget orows].
        rewrite (bsum_ext 6 _ (fun k => P i k * vget dx M k)).
        2:{ intros k Hk. cbn [oget]. rewrite S3 by auto. f_equal. unfold vget. apply O3'. apply Ox. lia. }
        rewrite (bsum_ext n _ (fun k => mmul 6 P (colmat l) i k * vget dqr M k - vget dqr M k * delta i k)).
        2:{ intros k Hk. cbn [oget]. rewrite N4 by auto. rewrite O4 by auto. ring. }
        rewrite bsum_minus. rewrite bsum_delta by exact Hi. unfold nullspace_solution.
        change (bsum n (fun k => mmul 6 P (colmat l) i k * vget dqr M k)) with (mulv n (mmul 6 P (colmat l)) (vget dqr M) i).
        rewrite mulv_mmul.
        change (bsum 6 (fun k => P i k * vget dx M k)) with (mulv 6 P (vget dx M) i).
        ring.
      + intros a Ha Hq. rewrite F5, F4 by exact Hq. now apply O3'.
  Qed.
End Run.
