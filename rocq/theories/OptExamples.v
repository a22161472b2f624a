From Coq Require Import ZArith Arith List Bool Reals Lra Lia ClassicalEpsilon.
From Verif Require Import MatModel MatProofs OptModel OptSpec LaAlg OptProofs OptGlpk OptClp OptLps OptLps2 OptSolve OptClaims.
Import ListNotations.
Open Scope R_scope.

(** solvers that keep the libraries' promises exist *)
Definition pick (P : (nat -> R) -> Prop) : nat -> R := epsilon (inhabits (fun _ => 0)) P.
Lemma pick_ok P : (exists x, P x) -> P (pick P).
Proof. apply epsilon_spec. Qed.
Definition a_simplex (p : glp) : Z * (nat -> R) := (0%Z, fun j => pick (g_best p) (j - 1)%nat).
Lemma a_simplex_ok : glpk_promise a_simplex /\ glpk_returns a_simplex.
Proof.
  split; [|intros p _ _; reflexivity]. intros p x [= <-] Y. apply pick_ok in Y. set (z := pick _) in *. clearbody z.
  destruct Y as [[A B] C]. split.
  - split.
    + intros i Hi. specialize (A i Hi). rewrite (lin_ext_x _ _ _ z) by (intros; f_equal; lia). exact A.
    + intros j Hj. replace (S (j - 1) - 1)%nat with (j - 1)%nat by lia. apply B. auto.
  - intros y Hy. specialize (C y Hy). unfold g_objective in *. rewrite (lin_ext_x _ _ (fun j => z (S j - 1)%nat) z) by (intros; f_equal; lia). exact C.
Qed.
Definition a_clp (H : R) (p : clp) : Z * (nat -> R) :=
  let good x := (c_dir p = - (1) -> best true (c_feasible H p) (c_objective p) x) /\ (c_dir p = 1 -> best false (c_feasible H p) (c_objective p) x) in
  if excluded_middle_informative (exists x, good x) then (0%Z, pick good) else (1%Z, fun _ => 0).
Lemma a_clp_ok H : clp_promise H (a_clp H).
Proof. intros p x. unfold a_clp. destruct (excluded_middle_informative _) as [E|]; [|discriminate]. intros [= <-]. exact (pick_ok _ E). Qed.
Definition a_lps (H : R) (p : lps) : Z * (nat -> R) :=
  if excluded_middle_informative (exists x, best (l_max p) (l_feasible H p) (l_objective p) x) then (0%Z, pick (best (l_max p) (l_feasible H p) (l_objective p))) else (2%Z, fun _ => 0).
Lemma a_lps_ok H : lps_promise H (a_lps H).
Proof. intros p x. unfold a_lps. destruct (excluded_middle_informative _) as [E|]; [|discriminate]. intros [= <-]. exact (pick_ok _ E). Qed.
Definition a_cgal (p : qp) (n : nat) : option (nat -> R) :=
  let good x := forall m, (forall i, (m <= i)%nat -> q_b p i = 0 /\ forall j, q_a p i j = 0) -> best false (qp_feasible p m n) (qp_goal p n) x in
  if excluded_middle_informative (exists x, good x) then Some (pick good) else None.
Lemma qp_feasible_more p m m' n x : (forall i, (m <= i)%nat -> q_b p i = 0 /\ forall j, q_a p i j = 0) -> (m <= m')%nat -> (qp_feasible p m n x <-> qp_feasible p m' n x).
Proof.
  intros Z L. assert (R : forall i, (m <= i)%nat -> if q_eq p then lin n (q_a p i) x = q_b p i else lin n (q_a p i) x <= q_b p i).
  { intros i Hi. destruct (Z i Hi) as [Zb Za]. rewrite Zb. unfold lin. rewrite bsum_zero by (intros; rewrite Za; lra). destruct (q_eq p); lra. }
  split; intros [A B]; (split; [|exact B]); intros i Hi; [destruct (le_lt_dec m i); [now apply R|now apply A]|apply A; lia].
Qed.
Lemma a_cgal_ok : cgal_promise a_cgal.
Proof.
  intros p m n Z _. unfold a_cgal. destruct (excluded_middle_informative _) as [E|E].
  - exact (pick_ok _ E m Z).
  - intros x X. apply E. exists x. intros m' Z'. eapply best_iff; [|reflexivity|exact X]. intros y.
    destruct (le_lt_dec m m'); [apply qp_feasible_more; auto|symmetry; apply qp_feasible_more; auto; lia].
Qed.

(** maximise x0 + x1 with x0 + 2 x1 <= 4, x0 - x1 = 1 and 0 <= x0, x1 <= 3 *)
Definition ex_A (k : nat) : R := nth k [1; 1; 2; - (1)] 0.
Definition ex_bl (i : nat) : xr := match i with 0%nat => NInf | _ => Fin 1 end.
Definition ex_bu (i : nat) : xr := match i with 0%nat => Fin 4 | _ => Fin 1 end.
Definition ex_one (_ : nat) : R := 1.
Definition ex_xl (_ : nat) : xr := Fin 0.
Definition ex_xu (_ : nat) : xr := Fin 3.
Lemma big : 10 < DBL_MAX.
Proof. Transparent DBL_MAX. unfold DBL_MAX. apply IZR_lt. reflexivity. Qed.
Opaque DBL_MAX.
Lemma ex_bounds : bounds 2 ex_bl ex_bu /\ bounds 2 ex_xl ex_xu /\ ordered 2 ex_xl ex_xu /\ ordered 2 ex_bl ex_bu.
Proof.
  pose proof big. split; [|split; [|split]].
  - intros i Hi. destruct i as [|]; cbn; split; auto; lra.
  - intros i Hi. cbn. lra.
  - intros i a b _ [= <-] [= <-]. lra.
  - intros i a b _. destruct i; cbn; [discriminate|]. intros [= <-] [= <-]. lra.
Qed.
Lemma ex_within H : 4 < H -> bounds_within H 2 ex_bl ex_bu /\ bounds_within H 2 ex_xl ex_xu.
Proof. intros L. split; intros i _; [destruct i|]; cbn; split; auto; right; lra. Qed.
Lemma ex_optimum : optimum (program 2 2 (gm ex_A 2) ex_bl ex_bu ex_one ex_xl ex_xu) (fun j => match j with 0%nat => 2 | _ => 1 end).
Proof.
  pose proof big. split.
  - split.
    + intros i Hi. cbn in Hi. destruct i as [|[|]]; [| |lia]; unfold lin, gm, ex_A; cbn; split; auto; right; lra.
    + intros j Hj. cbn. split; [|split]; [right|right|discriminate]; destruct j; lra.
  - intros y [R C]. cbn in R, C. pose proof (R 0%nat ltac:(lia)) as [_ R0]. pose proof (R 1%nat ltac:(lia)) as [R1 R2]. unfold lin, gm, ex_A in *. cbn in R0, R1, R2.
    unfold s_objective, lin. cbn. unfold ex_one. lra.
Qed.
(** the same constraints by rows *)
Definition ex_vals (k : nat) : R := nth k [1; 2; 1; - (1)] 0.
Definition ex_cols (k : nat) : nat := nth k [0; 1; 0; 1]%nat 0%nat.
Definition ex_ptr (i : nat) : nat := (2 * i)%nat.
Lemma ex_crs : crs_ok 2 2 ex_cols ex_ptr /\ forall i j, (i < 2)%nat -> (j < 2)%nat -> crs ex_vals ex_cols ex_ptr i j = gm ex_A 2 i j.
Proof.
  unfold ex_ptr, ex_cols. split; [split|].
  - intros i k Hi Hk. assert (k < 4)%nat by lia. destruct k as [|[|[|[|]]]]; cbn; lia.
  - intros i k k' Hi Hk Hk'. assert (k < 4)%nat by lia. assert (k' < 4)%nat by lia. destruct i as [|[|]]; [| |lia]; destruct k as [|[|[|[|]]]], k' as [|[|[|[|]]]]; cbn; lia.
  - intros i j Hi Hj. unfold crs, ex_vals, ex_cols, gm, ex_A. destruct i as [|[|]]; [| |lia]; destruct j as [|[|]]; try lia; cbn; lra.
Qed.
Lemma ex_counts : frees 2 ex_bl ex_bu = 0%nat /\ fixed 2 ex_bl ex_bu = 1%nat /\ sides 2 ex_bl ex_bu = 3%nat.
Proof.
  pose proof big. assert (L : is_lbound (Fin 1) = true) by (apply ltb_iff; lra). assert (U : is_ubound (Fin 4) = true) by (apply ltb_iff; lra). assert (V : is_ubound (Fin 1) = true) by (apply ltb_iff; lra).
  assert (E : is_eq (Fin 1) (Fin 1) = true) by (apply is_eq_iff; eauto).
  unfold frees, fixed, sides, counted. cbn [seq filter ex_bl ex_bu]. rewrite L, U, V, E. cbn. auto.
Qed.
(** x >= 2 and 0 <= x <= 1 *)
Lemma ex_infeasible x : ~ s_feasible (program 1 1 (gm ex_one 1) (fun _ => Fin 2) (fun _ => PInf) ex_one (fun _ => Fin 0) (fun _ => Fin 1)) x.
Proof.
  pose proof big. intros [R C]. destruct (R 0%nat ltac:(cbn; lia)) as [R0 _], (C 0%nat ltac:(cbn; lia)) as (_ & C1 & _). unfold lin, gm, ex_one in *. cbn in *. lra.
Qed.
