From Coq Require Import ZArith Arith List Bool Reals Lra Lia.
From Verif Require Import MatModel MatProofs OptModel OptSpec LaAlg OptProofs OptGlpk OptClp OptLps OptLps2 OptSolve.
Import ListNotations.
Open Scope R_scope.

(** ** Programs handed over *)
Lemma c90_glpk_history m n A lda bl bu c xl xu ops : bounds m bl bu -> bounds n xl xu -> Forall (op_ok m n) ops ->
  exists p q, glpk_gmcreate m n A lda bl bu c xl xu = Ret p /\ run (glpk_op m n) p ops = Ret q /\ glpk_means q (fold_left restate ops (program m n (gm A lda) bl bu c xl xu)).
Proof.
  intros B C O. destruct (glpk_gm_ok m n A lda bl bu c xl xu B C) as (p & E & G). destruct (glpk_run_ok m n ops p _ G eq_refl eq_refl O) as (q & E2 & G2).
  exists p, q. split; auto. split; auto. now apply g_rep_means.
Qed.
Lemma c90_glpk_gm m n A lda bl bu c xl xu : bounds m bl bu -> bounds n xl xu -> exists p, glpk_gmcreate m n A lda bl bu c xl xu = Ret p /\ glpk_means p (program m n (gm A lda) bl bu c xl xu).
Proof. intros B C. destruct (glpk_gm_ok m n A lda bl bu c xl xu B C) as (p & E & G). exists p. split; auto. now apply g_rep_means. Qed.
Lemma c90_glpk_crs m n vals cols ptr bl bu c xl xu : bounds m bl bu -> bounds n xl xu -> crs_ok m n cols ptr ->
  exists p, glpk_crscreate m n vals cols ptr bl bu c xl xu = Ret p /\ glpk_means p (program m n (crs vals cols ptr) bl bu c xl xu).
Proof. intros B C K. destruct (glpk_crs_ok m n vals cols ptr bl bu c xl xu B C K) as (p & E & G). exists p. split; auto. now apply g_rep_means. Qed.
Lemma c90_lpsolve_history H asserts m n A lda bl bu c xl xu ops : 1 < H -> H <= DBL_MAX -> bounds m bl bu -> bounds_within H m bl bu -> bounds n xl xu -> bounds_within H n xl xu -> ordered n xl xu ->
  (frees m bl bu <= fixed m bl bu)%nat -> (asserts = true -> frees m bl bu = fixed m bl bu) ->
  Forall (op_ok m n) ops -> Forall (op_within H m n) ops -> Forall (op_sides (sides m bl bu) m n) ops ->
  exists p q, lps_gmcreate asserts m n A lda bl bu c xl xu = Ret p /\ run (lps_op asserts m n) p ops = Ret q /\ lps_means H q (fold_left restate ops (program m n (gm A lda) bl bu c xl xu)).
Proof.
  intros H1 HD B W C V O F G O1 O2 O3. assert (HP : 0 < H) by lra. destruct (lps_gm_ok H HP HD asserts m n A lda bl bu c xl xu B W C V O F G) as (p & E & K & P).
  destruct (lps_run_ok H HP HD asserts _ m n ops H1 p _ P K eq_refl eq_refl O1 O2 O3) as (q & E2 & Q). exists p, q. split; auto. split; auto. now apply l_rep_means.
Qed.
Lemma l_feasible_rows H p x : l_feasible H p x -> rows_hold H p x.
Proof. intros [A _]. exact A. Qed.
Lemma c90_stale H asserts n A lda bl bu c xl xu A' lda' u' : 0 < H -> H <= DBL_MAX -> bounds 1 bl bu -> bounds_within H 1 bl bu -> bounds n xl xu -> bounds_within H n xl xu -> ordered n xl xu ->
  is_lbound (bl 0%nat) = true -> is_ubound (bu 0%nat) = true -> is_eq (bl 0%nat) (bu 0%nat) = false -> is_ubound u' = true -> high u' -> high_within H u' ->
  exists p q, lps_gmcreate asserts 1 n A lda bl bu c xl xu = Ret p /\ lps_op asserts 1 n p (OpCstr A' lda' (fun _ => NInf) (fun _ => u')) = Ret q /\
    forall x, l_feasible H q x -> above DBL_MAX (bl 0%nat) (lin n (gm A lda 0) x).
Proof.
  intros HP HD B W C V O L U E U' U2 U3. destruct (lps_stale H HP HD asserts n A lda bl bu c xl xu A' lda' u') as (p & q & E1 & E2 & F); auto.
  exists p, q. split; auto. split; auto. intros x X. now apply F, l_feasible_rows.
Qed.

(** ** Results *)
Lemma c91_glpk simplex intopt m n A lda bl bu c xl xu ops : glpk_promise simplex -> glpk_promise intopt -> bounds m bl bu -> bounds n xl xu -> Forall (op_ok m n) ops ->
  let s := fold_left restate ops (program m n (gm A lda) bl bu c xl xu) in
  exists p q, glpk_gmcreate m n A lda bl bu c xl xu = Ret p /\ run (glpk_op m n) p ops = Ret q /\
    forall x, glpk_solve simplex intopt q = (0%Z, x) -> (exists y, optimum s y) -> optimum s x.
Proof.
  intros P1 P2 B C O s. destruct (c90_glpk_history m n A lda bl bu c xl xu ops B C O) as (p & q & E1 & E2 & M). exists p, q. split; auto. split; auto.
  intros x E Y. exact (glpk_solve_opt simplex intopt q s x P1 P2 M E Y).
Qed.
Lemma c91_glpk_direct simplex intopt m n A lda bl bu c xl xu r x : glpk_promise simplex -> glpk_promise intopt -> bounds m bl bu -> bounds n xl xu ->
  lp_glpk simplex intopt m n A lda bl bu c xl xu = Ret (r, x) -> r = 0%Z -> (exists y, optimum (program m n (gm A lda) bl bu c xl xu) y) -> optimum (program m n (gm A lda) bl bu c xl xu) x.
Proof.
  intros P1 P2 B C E -> Y. destruct (c90_glpk_gm m n A lda bl bu c xl xu B C) as (p & E1 & M). unfold lp_glpk in E. rewrite E1 in E. injection E as E. exact (glpk_solve_opt simplex intopt p _ x P1 P2 M E Y).
Qed.
Lemma c91_glpk_crs simplex intopt m n vals cols ptr bl bu c xl xu r x : glpk_promise simplex -> glpk_promise intopt -> bounds m bl bu -> bounds n xl xu -> crs_ok m n cols ptr ->
  lp_crs_glpk simplex intopt m n vals cols ptr bl bu c xl xu = Ret (r, x) -> r = 0%Z -> (exists y, optimum (program m n (crs vals cols ptr) bl bu c xl xu) y) -> optimum (program m n (crs vals cols ptr) bl bu c xl xu) x.
Proof.
  intros P1 P2 B C K E -> Y. destruct (c90_glpk_crs m n vals cols ptr bl bu c xl xu B C K) as (p & E1 & M). unfold lp_crs_glpk in E. rewrite E1 in E. injection E as E. exact (glpk_solve_opt simplex intopt p _ x P1 P2 M E Y).
Qed.
Lemma c91_glpk_zero simplex intopt m n A lda bl bu c xl xu : glpk_returns simplex -> bounds m bl bu -> bounds n xl xu -> ordered m bl bu -> ordered n xl xu ->
  (forall x, ~ s_feasible (program m n (gm A lda) bl bu c xl xu) x) ->
  exists x, lp_glpk simplex intopt m n A lda bl bu c xl xu = Ret (0%Z, x) /\ ~ s_feasible (program m n (gm A lda) bl bu c xl xu) x.
Proof. intros P B C O Q N. destruct (glpk_zero simplex intopt m n A lda bl bu c xl xu P B C O Q) as (x & E). exists x. split; auto. Qed.
Lemma c91_clp H solve m n A lda bl bu c xl xu ops x : clp_promise H solve -> H <= DBL_MAX -> bounds m bl bu -> bounds n xl xu -> bounds_within H m bl bu -> bounds_within H n xl xu ->
  Forall (op_ok m n) ops -> Forall (op_within H m n) ops -> Forall not_type ops ->
  clp_solve solve (fold_left (clp_op m n) ops (clp_gmcreate m n A lda bl bu c xl xu)) = (0%Z, x) -> optimum (fold_left restate ops (program m n (gm A lda) bl bu c xl xu)) x.
Proof.
  intros P HD B C W V O1 O2 O3. apply (clp_solve_opt H); auto. apply c_rep_means. apply clp_run_ok; auto. now apply clp_gm_ok.
Qed.
Lemma c91_clp_direct H solve m n A lda bl bu c xl xu r x : clp_promise H solve -> H <= DBL_MAX -> bounds m bl bu -> bounds n xl xu -> bounds_within H m bl bu -> bounds_within H n xl xu ->
  lp_clp solve m n A lda bl bu c xl xu = Ret (r, x) -> r = 0%Z -> optimum (program m n (gm A lda) bl bu c xl xu) x.
Proof.
  intros P HD B C W V E ->. injection E as E. eapply (clp_solve_opt H); eauto. apply c_rep_means. now apply clp_gm_ok.
Qed.
Lemma c91_clp_crs H solve m n vals cols ptr bl bu c xl xu r x : clp_promise H solve -> H <= DBL_MAX -> bounds m bl bu -> bounds n xl xu -> bounds_within H m bl bu -> bounds_within H n xl xu -> crs_ok m n cols ptr ->
  lp_crs_clp solve m n vals cols ptr bl bu c xl xu = Ret (r, x) -> r = 0%Z -> optimum (program m n (crs vals cols ptr) bl bu c xl xu) x.
Proof.
  intros P HD B C W V K E ->. injection E as E. eapply (clp_solve_opt H); eauto. apply c_rep_means. now apply clp_crs_ok.
Qed.
Lemma c91_lpsolve H solve asserts m n A lda bl bu c xl xu r x : lps_promise H solve -> 0 < H -> H <= DBL_MAX -> bounds m bl bu -> bounds_within H m bl bu -> bounds n xl xu -> bounds_within H n xl xu -> ordered n xl xu ->
  (frees m bl bu <= fixed m bl bu)%nat ->
  lp_lpsolve solve asserts m n A lda bl bu c xl xu = Ret (r, x) -> r = 0%Z -> optimum (program m n (gm A lda) bl bu c xl xu) x.
Proof.
  intros P HP HD B W C V O F E ->. unfold lp_lpsolve in E. destruct asserts.
  - destruct (Nat.eq_dec (frees m bl bu) (fixed m bl bu)) as [Q|Q].
    + destruct (lps_gm_ok H HP HD true m n A lda bl bu c xl xu B W C V O F (fun _ => Q)) as (p & E1 & _ & G). rewrite E1 in E. injection E as E. eapply (lps_solve_opt H); eauto. now apply l_rep_means.
    + rewrite (lps_gm_abort H HP HD m n A lda bl bu c xl xu B C V O) in E by lia. discriminate.
  - destruct (lps_gm_ok H HP HD false m n A lda bl bu c xl xu B W C V O F ltac:(discriminate)) as (p & E1 & _ & G). rewrite E1 in E. injection E as E. eapply (lps_solve_opt H); eauto. now apply l_rep_means.
Qed.
Lemma c91_lpsolve_crs H solve m n vals cols ptr bl bu c xl xu r x : lps_promise H solve -> 0 < H -> H <= DBL_MAX -> bounds m bl bu -> bounds_within H m bl bu -> bounds n xl xu -> bounds_within H n xl xu -> ordered n xl xu -> crs_ok m n cols ptr ->
  lp_crs_lpsolve solve m n vals cols ptr bl bu c xl xu = Ret (r, x) -> r = 0%Z -> optimum (program m n (crs vals cols ptr) bl bu c xl xu) x.
Proof.
  intros P HP HD B W C V O K E ->. injection E as E. eapply (lps_solve_opt H); eauto. apply l_rep_means. now apply lps_crs_ok.
Qed.
Lemma c91_choice g c l : (gmcreate_fun g c l DEFAULT = None <-> g = false /\ c = false /\ l = false) /\
  (g = true -> gmcreate_fun g c l DEFAULT = Some GLPK) /\
  forall s t, gmcreate_fun g c l s = Some t -> (s = DEFAULT \/ t = s) /\ t <> DEFAULT /\ (t = GLPK -> g = true) /\ (t = CLP -> c = true) /\ (t = LPSOLVE -> l = true).
Proof.
  split; [|split].
  - destruct g, c, l; cbn; split; try discriminate; try tauto; intros (?&?&?); discriminate.
  - intros ->. reflexivity.
  - intros s t. destruct g, c, l, s; cbn; intros [= <-]; repeat split; auto; discriminate.
Qed.

(** ** Quadratic programs *)
Definition basis (i : nat) : nat -> R := fun k => if Nat.eqb k i then 1 else 0.
Lemma quad_scal n D x a : quad n D (fun k => a * x k) = a * a * quad n D x.
Proof. unfold quad. rewrite <- bsum_scal. apply bsum_ext. intros i _. rewrite <- bsum_scal. apply bsum_ext. intros j _. lra. Qed.
Lemma bsum_basis n i f : (i < n)%nat -> bsum n (fun k => basis i k * f k) = f i.
Proof. intros Hi. rewrite (bsum_single n i); auto; unfold basis. - rewrite Nat.eqb_refl. lra. - intros j Hj Ne. rewrite (proj2 (Nat.eqb_neq j i)) by auto. lra. Qed.
Lemma bilin_basis n D i j : (i < n)%nat -> (j < n)%nat -> bsum n (fun a => bsum n (fun b => basis i a * D a b * basis j b)) = D i j.
Proof.
  intros Hi Hj. rewrite (bsum_ext n _ (fun a => basis i a * D a j)).
  - now rewrite (bsum_basis n i (fun a => D a j)).
  - intros a Ha. rewrite (bsum_ext n _ (fun b => basis j b * (basis i a * D a b))) by (intros; lra). now rewrite (bsum_basis n j (fun b => basis i a * D a b)).
Qed.
Lemma quad_basis n D i : (i < n)%nat -> quad n D (basis i) = D i i.
Proof. intros. unfold quad. now apply bilin_basis. Qed.
Lemma quad_pair n D i j : (i < n)%nat -> (j < n)%nat -> quad n D (fun k => basis i k + basis j k) = D i i + D j j + (D i j + D j i).
Proof.
  intros Hi Hj. unfold quad. rewrite (bsum_ext n _ (fun a => (bsum n (fun b => basis i a * D a b * basis i b) + bsum n (fun b => basis j a * D a b * basis j b)) + (bsum n (fun b => basis i a * D a b * basis j b) + bsum n (fun b => basis j a * D a b * basis i b)))).
  - rewrite !bsum_plus. now rewrite !bilin_basis.
  - intros a _. rewrite <- !bsum_plus. apply bsum_ext. intros; lra.
Qed.
Definition diag (d : nat -> R) (i j : nat) : R := if Nat.eqb i j then d i else 0.
Lemma quad_diag n d x : quad n (diag d) x = bsum n (fun i => d i * x i * x i).
Proof.
  unfold quad. apply bsum_ext. intros i Hi. rewrite (bsum_single n i); auto; unfold diag.
  - rewrite Nat.eqb_refl. lra.
  - intros j Hj Ne. rewrite (proj2 (Nat.eqb_neq i j)) by auto. lra.
Qed.
Lemma quad_sym n D x : quad n D x = quad n (fun i j => / 2 * (D i j + D j i)) x.
Proof.
  assert (E : quad n (fun i j => D j i) x = quad n D x). { unfold quad. rewrite bsum_swap. apply bsum_ext. intros. apply bsum_ext. intros. lra. }
  assert (F : quad n (fun i j => / 2 * (D i j + D j i)) x = / 2 * (quad n D x + quad n (fun i j => D j i) x)).
  { unfold quad. rewrite <- bsum_plus, <- bsum_scal. apply bsum_ext. intros. rewrite <- bsum_plus, <- bsum_scal. apply bsum_ext. intros. lra. }
  rewrite F, E. lra.
Qed.
Lemma quad_ext n D E x : (forall i j, (i < n)%nat -> (j < n)%nat -> D i j = E i j) -> quad n D x = quad n E x.
Proof. intros H. apply bsum_ext. intros. apply bsum_ext. intros. now rewrite H. Qed.
(** when the last column says all *)
Lemma quad_last n D : (forall x, bsum n (fun j => D j (n - 1)%nat * x j * x j) = quad n D x) <->
  (forall i, (i < n)%nat -> D i i = D i (n - 1)%nat) /\ forall i j, (i < n)%nat -> (j < n)%nat -> i <> j -> D i j + D j i = 0.
Proof.
  split.
  - intros H. assert (G : forall i, (i < n)%nat -> D i i = D i (n - 1)%nat).
    { intros i Hi. specialize (H (basis i)). rewrite quad_basis in H by auto. rewrite <- H. rewrite (bsum_single n i); auto; unfold basis.
      - rewrite Nat.eqb_refl. lra.
      - intros j Hj Ne. rewrite (proj2 (Nat.eqb_neq j i)) by auto. lra. }
    split; auto. intros i j Hi Hj Ne. specialize (H (fun k => basis i k + basis j k)). rewrite quad_pair in H by auto.
    rewrite (bsum_ext n _ (fun k => basis i k * D k (n - 1)%nat + basis j k * D k (n - 1)%nat)) in H.
    + rewrite bsum_plus, (bsum_basis n i (fun k => D k (n - 1)%nat)), (bsum_basis n j (fun k => D k (n - 1)%nat)) in H by auto. rewrite <- !G in H by auto. lra.
    + intros k Hk. unfold basis. destruct (Nat.eqb_spec k i), (Nat.eqb_spec k j); subst; try lra. contradiction.
  - intros [G S] x. rewrite quad_sym. rewrite (quad_ext n _ (diag (fun i => D i (n - 1)%nat))).
    + now rewrite quad_diag.
    + intros i j Hi Hj. unfold diag. destruct (Nat.eqb_spec i j); [subst; rewrite G by auto; lra|rewrite S by auto; lra].
Qed.
Lemma c92_exact type m n A lda b c c0 D ldd l u : type <> REL_GEQ -> exists p, cgal_program type m n A lda b c c0 D ldd l u = Some p /\
  ((forall x, qp_goal p n x = q_goal n (gm D ldd) c c0 x) <->
   (forall i, (i < n)%nat -> gm D ldd i i = gm D ldd i (n - 1)) /\ forall i j, (i < n)%nat -> (j < n)%nat -> i <> j -> gm D ldd i j + gm D ldd j i = 0).
Proof.
  intros T. destruct (cgal_program_ok type m n A lda b c c0 D ldd l u T) as (p & E & F & G & _ & _). exists p. split; auto. rewrite <- quad_last. unfold q_goal.
  split; intros H x; specialize (H x); rewrite G in *; lra.
Qed.
Lemma c92_solve solve type m n A lda b c c0 D ldd l u : cgal_promise solve -> type <> REL_GEQ -> convex n (gm D ldd) ->
  (forall i, (i < n)%nat -> gm D ldd i i = gm D ldd i (n - 1)) -> (forall i j, (i < n)%nat -> (j < n)%nat -> i <> j -> gm D ldd i j + gm D ldd j i = 0) ->
  (exists x, qp_solve_cgal solve type m n A lda b c c0 D ldd l u = (0%Z, Some x) /\ best false (q_allowed type m n (gm A lda) b l u) (q_goal n (gm D ldd) c c0) x) \/
  (qp_solve_cgal solve type m n A lda b c c0 D ldd l u = ((-1)%Z, None) /\ forall x, ~ best false (q_allowed type m n (gm A lda) b l u) (q_goal n (gm D ldd) c c0) x).
Proof.
  intros P T V G S. destruct (cgal_program_ok type m n A lda b c c0 D ldd l u T) as (p & E & F & Q & Z & D2). unfold qp_solve_cgal. rewrite E.
  assert (Q2 : forall x, qp_goal p n x = q_goal n (gm D ldd) c c0 x). { intros x. rewrite Q. unfold q_goal. rewrite (proj2 (quad_last n (gm D ldd)) (conj G S)). reflexivity. }
  assert (CV : convex n (q_2d p)).
  { intros x. rewrite (quad_ext n _ (diag (fun i => 2 * gm D ldd i (n - 1)))) by (intros; rewrite D2 by auto; reflexivity). rewrite quad_diag.
    rewrite (bsum_ext n _ (fun i => 2 * (gm D ldd i (n - 1) * x i * x i))) by (intros; lra). rewrite bsum_scal. rewrite (proj2 (quad_last n (gm D ldd)) (conj G S)). specialize (V x). lra. }
  specialize (P p m n Z CV). destruct (solve p n) as [x|].
  - left. exists x. split; auto. eapply best_iff; [exact F|exact Q2|exact P].
  - right. split; auto. intros x X. apply (P x). eapply best_iff; [|intros; symmetry; apply Q2|exact X]. intros y. symmetry. apply F.
Qed.
Lemma c92_diagonal type m n A lda b c c0 D ldd l u : type <> REL_GEQ -> (0 < n)%nat -> (forall i j, (i < n)%nat -> (j < n)%nat -> i <> j -> gm D ldd i j = 0) ->
  exists p, cgal_program type m n A lda b c c0 D ldd l u = Some p /\ forall x, qp_goal p n x = gm D ldd (n - 1) (n - 1) * x (n - 1)%nat * x (n - 1)%nat + lin n c x + c0.
Proof.
  intros T Hn Z. destruct (cgal_program_ok type m n A lda b c c0 D ldd l u T) as (p & E & F & Q & _). exists p. split; auto. intros x. rewrite Q. f_equal. f_equal.
  rewrite (bsum_single n (n - 1)); [reflexivity|lia|]. intros j Hj Ne. rewrite Z by lia. lra.
Qed.
Lemma c92_wrong solve : cgal_promise solve -> convex 2 (gm bad_D 2) /\
  exists x, qp_solve_cgal solve REL_LEQ 0 2 (fun _ => 0) 0 (fun _ => 0) bad_c 0 bad_D 2 (Some (fun _ => 0)) (Some (fun _ => 3)) = (0%Z, Some x) /\
    exists y, q_allowed REL_LEQ 0 2 (gm (fun _ => 0) 0) (fun _ => 0) (Some (fun _ => 0)) (Some (fun _ => 3)) y /\
      q_goal 2 (gm bad_D 2) bad_c 0 y + 4 <= q_goal 2 (gm bad_D 2) bad_c 0 x.
Proof.
  intros P. split; [intros x; unfold quad, gm; cbn; nra|].
  destruct (cgal_program_ok REL_LEQ 0 2 (fun _ => 0) 0 (fun _ => 0) bad_c 0 bad_D 2 (Some (fun _ => 0)) (Some (fun _ => 3)) ltac:(discriminate)) as (p & E & F & Q & Z & D2).
  unfold qp_solve_cgal. rewrite E.
  assert (Q2 : forall x, qp_goal p 2 x = x 1%nat * x 1%nat - 2 * x 0%nat) by (intros x; rewrite Q; unfold gm, lin; cbn; lra).
  assert (CV : convex 2 (q_2d p)). { intros x. unfold quad. cbn. rewrite !D2 by lia. unfold gm. cbn. nra. }
  assert (BX : forall x, qp_feasible p 0 2 x <-> 0 <= x 0%nat <= 3 /\ 0 <= x 1%nat <= 3).
  { intros x. rewrite F. split.
    - intros [_ B]. destruct (B 0%nat ltac:(lia)) as [B1 B2], (B 1%nat ltac:(lia)) as [B3 B4]. specialize (B1 _ eq_refl). specialize (B2 _ eq_refl). specialize (B3 _ eq_refl). specialize (B4 _ eq_refl). cbn in *. lra.
    - intros B. split; [intros; lia|]. intros j Hj. split; intros ? [= <-]; destruct j as [|[|]]; try lia; lra. }
  pose (e := fun k => match k with 0%nat => 3 | _ => 0 end).
  assert (Be : best false (qp_feasible p 0 2) (qp_goal p 2) e). { split; [apply BX; cbn; lra|]. intros y Hy. apply BX in Hy. rewrite !Q2. cbn. nra. }
  specialize (P p 0%nat 2%nat Z CV). destruct (solve p 2%nat) as [x|]; [|destruct (P e Be)].
  exists x. split; auto. exists (fun k => match k with 0%nat => 1 | _ => 0 end). split.
  - apply F, BX. cbn. lra.
  - destruct P as [Px Pb]. apply BX in Px. specialize (Pb e (proj1 Be)). rewrite !Q2 in Pb. unfold q_goal, quad, lin, gm. cbn in *. nra.
Qed.
