(** Properties of linear and quadratic programs. *)
From Coq Require Import ZArith Arith List Bool Reals Lra Lia.
From Verif Require Import MatModel MatProofs OptModel OptSpec OptProofs OptGlpk OptClp OptLps2 OptSolve OptClaims OptExamples.
Import ListNotations.
Open Scope R_scope.

(** * C90: the program reaches the solver unchanged *)
Theorem C90_glpk_gm m n A lda bl bu c xl xu : bounds m bl bu -> bounds n xl xu -> exists p, glpk_gmcreate m n A lda bl bu c xl xu = Ret p /\ glpk_means p (program m n (gm A lda) bl bu c xl xu).
Proof. exact (@c90_glpk_gm m n A lda bl bu c xl xu). Qed.
Print Assumptions C90_glpk_gm.

Theorem C90_glpk_crs m n vals cols ptr bl bu c xl xu : bounds m bl bu -> bounds n xl xu -> crs_ok m n cols ptr ->
  exists p, glpk_crscreate m n vals cols ptr bl bu c xl xu = Ret p /\ glpk_means p (program m n (crs vals cols ptr) bl bu c xl xu).
Proof. exact (@c90_glpk_crs m n vals cols ptr bl bu c xl xu). Qed.
Print Assumptions C90_glpk_crs.

Theorem C90_glpk_history m n A lda bl bu c xl xu ops : bounds m bl bu -> bounds n xl xu -> Forall (op_ok m n) ops ->
  exists p q, glpk_gmcreate m n A lda bl bu c xl xu = Ret p /\ run (glpk_op m n) p ops = Ret q /\ glpk_means q (fold_left restate ops (program m n (gm A lda) bl bu c xl xu)).
Proof. exact (@c90_glpk_history m n A lda bl bu c xl xu ops). Qed.
Print Assumptions C90_glpk_history.

Theorem C90_clp_gm H m n A lda bl bu c xl xu : H <= DBL_MAX -> bounds m bl bu -> bounds n xl xu -> bounds_within H m bl bu -> bounds_within H n xl xu ->
  clp_means H (clp_gmcreate m n A lda bl bu c xl xu) (program m n (gm A lda) bl bu c xl xu).
Proof. intros. apply c_rep_means. now apply clp_gm_ok. Qed.
Print Assumptions C90_clp_gm.

Theorem C90_clp_crs H m n vals cols ptr bl bu c xl xu : H <= DBL_MAX -> bounds m bl bu -> bounds n xl xu -> bounds_within H m bl bu -> bounds_within H n xl xu -> crs_ok m n cols ptr ->
  clp_means H (clp_crscreate m n vals cols ptr bl bu c xl xu) (program m n (crs vals cols ptr) bl bu c xl xu).
Proof. intros. apply c_rep_means. now apply clp_crs_ok. Qed.
Print Assumptions C90_clp_crs.

Theorem C90_clp_history H m n A lda bl bu c xl xu ops : H <= DBL_MAX -> bounds m bl bu -> bounds n xl xu -> bounds_within H m bl bu -> bounds_within H n xl xu ->
  Forall (op_ok m n) ops -> Forall (op_within H m n) ops -> Forall not_type ops ->
  clp_means H (fold_left (clp_op m n) ops (clp_gmcreate m n A lda bl bu c xl xu)) (fold_left restate ops (program m n (gm A lda) bl bu c xl xu)).
Proof. intros. apply c_rep_means. apply clp_run_ok; auto. now apply clp_gm_ok. Qed.
Print Assumptions C90_clp_history.

Theorem C90_lpsolve_gm H asserts m n A lda bl bu c xl xu : 0 < H -> H <= DBL_MAX -> bounds m bl bu -> bounds_within H m bl bu -> bounds n xl xu -> bounds_within H n xl xu -> ordered n xl xu ->
  (frees m bl bu <= fixed m bl bu)%nat -> (asserts = true -> frees m bl bu = fixed m bl bu) ->
  exists p, lps_gmcreate asserts m n A lda bl bu c xl xu = Ret p /\ lps_means H p (program m n (gm A lda) bl bu c xl xu).
Proof. intros HP HD B W C V O F G. destruct (lps_gm_ok H HP HD asserts m n A lda bl bu c xl xu B W C V O F G) as (p & E & _ & M). exists p. split; [exact E|now apply OptLps.l_rep_means]. Qed.
Print Assumptions C90_lpsolve_gm.

Theorem C90_lpsolve_crs H m n vals cols ptr bl bu c xl xu : 0 < H -> H <= DBL_MAX -> bounds m bl bu -> bounds_within H m bl bu -> bounds n xl xu -> bounds_within H n xl xu -> ordered n xl xu -> crs_ok m n cols ptr ->
  lps_means H (lps_crscreate m n vals cols ptr bl bu c xl xu) (program m n (crs vals cols ptr) bl bu c xl xu).
Proof. intros. apply OptLps.l_rep_means. now apply lps_crs_ok. Qed.
Print Assumptions C90_lpsolve_crs.

Theorem C90_lpsolve_history H asserts m n A lda bl bu c xl xu ops : 1 < H -> H <= DBL_MAX -> bounds m bl bu -> bounds_within H m bl bu -> bounds n xl xu -> bounds_within H n xl xu -> ordered n xl xu ->
  (frees m bl bu <= fixed m bl bu)%nat -> (asserts = true -> frees m bl bu = fixed m bl bu) ->
  Forall (op_ok m n) ops -> Forall (op_within H m n) ops -> Forall (op_sides (sides m bl bu) m n) ops ->
  exists p q, lps_gmcreate asserts m n A lda bl bu c xl xu = Ret p /\ run (lps_op asserts m n) p ops = Ret q /\ lps_means H q (fold_left restate ops (program m n (gm A lda) bl bu c xl xu)).
Proof. exact (@c90_lpsolve_history H asserts m n A lda bl bu c xl xu ops). Qed.
Print Assumptions C90_lpsolve_history.

(** violations: an equality that no free row makes up for ends the process *)
Theorem C90_lpsolve_fixed_refuted m n A lda bl bu c xl xu : bounds m bl bu -> bounds n xl xu -> bounds_within DBL_MAX n xl xu -> ordered n xl xu ->
  (frees m bl bu < fixed m bl bu)%nat -> lps_gmcreate true m n A lda bl bu c xl xu = Abort.
Proof. intros. apply (lps_gm_abort DBL_MAX); auto; [pose proof dbl_max_big|]; lra. Qed.
Print Assumptions C90_lpsolve_fixed_refuted.

(** one free row and no equality: the last row is lost if it has one bound *)
Theorem C90_lpsolve_lost_refuted H asserts m n A lda bl bu c xl xu : 0 < H -> H <= DBL_MAX -> bounds (S m) bl bu -> bounds_within H (S m) bl bu -> bounds n xl xu -> bounds_within H n xl xu -> ordered n xl xu ->
  frees m bl bu = 1%nat -> fixed m bl bu = 0%nat -> xorb (is_lbound (bl m)) (is_ubound (bu m)) = true ->
  exists p, lps_gmcreate asserts (S m) n A lda bl bu c xl xu = Ret p /\ lps_means H p (program m n (gm A lda) bl bu c xl xu).
Proof. intros HP HD B W C V O F G X. destruct (lps_gm_lost H HP HD asserts m n A lda bl bu c xl xu B W C V O F G X) as (p & E & M). exists p. split; [exact E|now apply OptLps.l_rep_means]. Qed.
Print Assumptions C90_lpsolve_lost_refuted.

(** a lower bound that a later call drops stays in force *)
Theorem C90_lpsolve_stale_refuted H asserts n A lda bl bu c xl xu A' lda' u' : 0 < H -> H <= DBL_MAX -> bounds 1 bl bu -> bounds_within H 1 bl bu -> bounds n xl xu -> bounds_within H n xl xu -> ordered n xl xu ->
  is_lbound (bl 0%nat) = true -> is_ubound (bu 0%nat) = true -> is_eq (bl 0%nat) (bu 0%nat) = false -> is_ubound u' = true -> high u' -> high_within H u' ->
  exists p q, lps_gmcreate asserts 1 n A lda bl bu c xl xu = Ret p /\ lps_op asserts 1 n p (OpCstr A' lda' (fun _ => NInf) (fun _ => u')) = Ret q /\
    forall x, l_feasible H q x -> above DBL_MAX (bl 0%nat) (lin n (gm A lda 0) x).
Proof. exact (@c90_stale H asserts n A lda bl bu c xl xu A' lda' u'). Qed.
Print Assumptions C90_lpsolve_stale_refuted.

Example C90_nonvacuous : bounds 2 ex_bl ex_bu /\ bounds 2 ex_xl ex_xu /\ ordered 2 ex_xl ex_xu /\ bounds_within 10 2 ex_bl ex_bu /\ bounds_within 10 2 ex_xl ex_xu /\ 1 < 10 <= DBL_MAX /\
  crs_ok 2 2 ex_cols ex_ptr /\ (forall i j, (i < 2)%nat -> (j < 2)%nat -> crs ex_vals ex_cols ex_ptr i j = gm ex_A 2 i j) /\
  (frees 2 ex_bl ex_bu < fixed 2 ex_bl ex_bu)%nat /\
  (let l i := match i with 0%nat => NInf | _ => Fin 1 end in let u := fun _ : nat => PInf in
   bounds 2 l u /\ bounds_within 10 2 l u /\ frees 1 l u = 1%nat /\ fixed 1 l u = 0%nat /\ xorb (is_lbound (l 1%nat)) (is_ubound (u 1%nat)) = true) /\
  (is_lbound (Fin 1) = true /\ is_ubound (Fin 4) = true /\ is_eq (Fin 1) (Fin 4) = false /\ high (Fin 4) /\ high_within 10 (Fin 4)) /\
  Forall (op_ok 2 2) [OpDir false; OpCstr ex_A 2 ex_bl ex_bu; OpType 1 INTEGER; OpObj ex_one; OpBnd ex_xl ex_xu] /\
  Forall (op_within 10 2 2) [OpDir false; OpCstr ex_A 2 ex_bl ex_bu; OpObj ex_one; OpBnd ex_xl ex_xu] /\
  Forall (op_sides 4 2 2) [OpDir false; OpCstr ex_A 2 ex_xl ex_xu; OpObj ex_one; OpBnd ex_xl ex_xu].
Proof.
  pose proof big. destruct ex_bounds as (B1 & B2 & B3 & B4). destruct (ex_within 10 ltac:(lra)) as [W1 W2]. destruct ex_crs as [K1 K2]. destruct ex_counts as (F1 & F2 & F3).
  assert (L1 : is_lbound (Fin 1) = true) by (apply ltb_iff; lra). assert (L0 : is_lbound (Fin 0) = true) by (apply ltb_iff; lra). assert (U4 : is_ubound (Fin 4) = true) by (apply ltb_iff; lra). assert (U3 : is_ubound (Fin 3) = true) by (apply ltb_iff; lra).
  assert (NE : forall a b, a <> b -> is_eq (Fin a) (Fin b) = false). { intros a b Ne. destruct (is_eq (Fin a) (Fin b)) eqn:E; auto. apply is_eq_iff in E as (z & [= Ea] & [= Eb]). congruence. }
  split; [exact B1|]. split; [exact B2|]. split; [exact B3|]. split; [exact W1|]. split; [exact W2|]. split; [lra|]. split; [exact K1|]. split; [exact K2|].
  split; [lia|]. split; [|split; [|split; [|split]]].
  - cbn zeta. split; [intros i _; destruct i; cbn; split; auto; lra|]. split; [intros i _; destruct i; cbn; split; auto; right; lra|].
    split; [reflexivity|]. split; [reflexivity|]. cbn. rewrite (proj2 (ltb_iff _ _)) by lra. reflexivity.
  - split; [exact L1|]. split; [exact U4|]. split; [apply NE; lra|]. cbn. split; [lra|right; lra].
  - repeat (apply Forall_cons; [cbn; auto|]). apply Forall_nil.
  - repeat (apply Forall_cons; [cbn; auto|]). apply Forall_nil.
  - repeat (apply Forall_cons; [cbn [op_sides]; auto|]); [|apply Forall_nil]. unfold frees, fixed, sides, counted; cbn [seq filter]. unfold ex_xl, ex_xu. rewrite L0, U3, NE by lra. auto.
Qed.

(** * C91: what a solved program tells *)
Theorem C91_glpk simplex intopt m n A lda bl bu c xl xu r x : glpk_promise simplex -> glpk_promise intopt -> bounds m bl bu -> bounds n xl xu ->
  lp_glpk simplex intopt m n A lda bl bu c xl xu = Ret (r, x) -> r = 0%Z -> (exists y, optimum (program m n (gm A lda) bl bu c xl xu) y) -> optimum (program m n (gm A lda) bl bu c xl xu) x.
Proof. exact (@c91_glpk_direct simplex intopt m n A lda bl bu c xl xu r x). Qed.
Print Assumptions C91_glpk.

Theorem C91_glpk_crs simplex intopt m n vals cols ptr bl bu c xl xu r x : glpk_promise simplex -> glpk_promise intopt -> bounds m bl bu -> bounds n xl xu -> crs_ok m n cols ptr ->
  lp_crs_glpk simplex intopt m n vals cols ptr bl bu c xl xu = Ret (r, x) -> r = 0%Z -> (exists y, optimum (program m n (crs vals cols ptr) bl bu c xl xu) y) -> optimum (program m n (crs vals cols ptr) bl bu c xl xu) x.
Proof. exact (@c91_glpk_crs simplex intopt m n vals cols ptr bl bu c xl xu r x). Qed.
Print Assumptions C91_glpk_crs.

Theorem C91_glpk_history simplex intopt m n A lda bl bu c xl xu ops : glpk_promise simplex -> glpk_promise intopt -> bounds m bl bu -> bounds n xl xu -> Forall (op_ok m n) ops ->
  let s := fold_left restate ops (program m n (gm A lda) bl bu c xl xu) in
  exists p q, glpk_gmcreate m n A lda bl bu c xl xu = Ret p /\ run (glpk_op m n) p ops = Ret q /\
    forall x, glpk_solve simplex intopt q = (0%Z, x) -> (exists y, optimum s y) -> optimum s x.
Proof. exact (@c91_glpk simplex intopt m n A lda bl bu c xl xu ops). Qed.
Print Assumptions C91_glpk_history.

Theorem C91_clp H solve m n A lda bl bu c xl xu r x : clp_promise H solve -> H <= DBL_MAX -> bounds m bl bu -> bounds n xl xu -> bounds_within H m bl bu -> bounds_within H n xl xu ->
  lp_clp solve m n A lda bl bu c xl xu = Ret (r, x) -> r = 0%Z -> optimum (program m n (gm A lda) bl bu c xl xu) x.
Proof. exact (@c91_clp_direct H solve m n A lda bl bu c xl xu r x). Qed.
Print Assumptions C91_clp.

Theorem C91_clp_crs H solve m n vals cols ptr bl bu c xl xu r x : clp_promise H solve -> H <= DBL_MAX -> bounds m bl bu -> bounds n xl xu -> bounds_within H m bl bu -> bounds_within H n xl xu -> crs_ok m n cols ptr ->
  lp_crs_clp solve m n vals cols ptr bl bu c xl xu = Ret (r, x) -> r = 0%Z -> optimum (program m n (crs vals cols ptr) bl bu c xl xu) x.
Proof. exact (@c91_clp_crs H solve m n vals cols ptr bl bu c xl xu r x). Qed.
Print Assumptions C91_clp_crs.

Theorem C91_clp_history H solve m n A lda bl bu c xl xu ops x : clp_promise H solve -> H <= DBL_MAX -> bounds m bl bu -> bounds n xl xu -> bounds_within H m bl bu -> bounds_within H n xl xu ->
  Forall (op_ok m n) ops -> Forall (op_within H m n) ops -> Forall not_type ops ->
  clp_solve solve (fold_left (clp_op m n) ops (clp_gmcreate m n A lda bl bu c xl xu)) = (0%Z, x) -> optimum (fold_left restate ops (program m n (gm A lda) bl bu c xl xu)) x.
Proof. exact (@c91_clp H solve m n A lda bl bu c xl xu ops x). Qed.
Print Assumptions C91_clp_history.

Theorem C91_lpsolve H solve asserts m n A lda bl bu c xl xu r x : lps_promise H solve -> 0 < H -> H <= DBL_MAX -> bounds m bl bu -> bounds_within H m bl bu -> bounds n xl xu -> bounds_within H n xl xu -> ordered n xl xu ->
  (frees m bl bu <= fixed m bl bu)%nat ->
  lp_lpsolve solve asserts m n A lda bl bu c xl xu = Ret (r, x) -> r = 0%Z -> optimum (program m n (gm A lda) bl bu c xl xu) x.
Proof. exact (@c91_lpsolve H solve asserts m n A lda bl bu c xl xu r x). Qed.
Print Assumptions C91_lpsolve.

Theorem C91_lpsolve_crs H solve m n vals cols ptr bl bu c xl xu r x : lps_promise H solve -> 0 < H -> H <= DBL_MAX -> bounds m bl bu -> bounds_within H m bl bu -> bounds n xl xu -> bounds_within H n xl xu -> ordered n xl xu -> crs_ok m n cols ptr ->
  lp_crs_lpsolve solve m n vals cols ptr bl bu c xl xu = Ret (r, x) -> r = 0%Z -> optimum (program m n (crs vals cols ptr) bl bu c xl xu) x.
Proof. exact (@c91_lpsolve_crs H solve m n vals cols ptr bl bu c xl xu r x). Qed.
Print Assumptions C91_lpsolve_crs.

(** violation: with GLPK, an infeasible program is solved with success *)
Theorem C91_glpk_zero_refuted simplex intopt m n A lda bl bu c xl xu : glpk_returns simplex -> bounds m bl bu -> bounds n xl xu -> ordered m bl bu -> ordered n xl xu ->
  (forall x, ~ s_feasible (program m n (gm A lda) bl bu c xl xu) x) ->
  exists x, lp_glpk simplex intopt m n A lda bl bu c xl xu = Ret (0%Z, x) /\ ~ s_feasible (program m n (gm A lda) bl bu c xl xu) x.
Proof. exact (@c91_glpk_zero simplex intopt m n A lda bl bu c xl xu). Qed.
Print Assumptions C91_glpk_zero_refuted.

Theorem C91_agree s x y : optimum s x -> optimum s y -> s_objective s x = s_objective s y.
Proof. exact (optimum_value s x y). Qed.
Print Assumptions C91_agree.

Theorem C91_choice g c l : (gmcreate_fun g c l DEFAULT = None <-> g = false /\ c = false /\ l = false) /\
  (g = true -> gmcreate_fun g c l DEFAULT = Some GLPK) /\
  forall s t, gmcreate_fun g c l s = Some t -> (s = DEFAULT \/ t = s) /\ t <> DEFAULT /\ (t = GLPK -> g = true) /\ (t = CLP -> c = true) /\ (t = LPSOLVE -> l = true).
Proof. exact (@c91_choice g c l). Qed.
Print Assumptions C91_choice.

Example C91_nonvacuous : (exists f, glpk_promise f /\ glpk_returns f) /\ (forall H, exists f, clp_promise H f) /\ (forall H, exists f, lps_promise H f) /\
  optimum (program 2 2 (gm ex_A 2) ex_bl ex_bu ex_one ex_xl ex_xu) (fun j => match j with 0%nat => 2 | _ => 1 end) /\
  (forall x, ~ s_feasible (program 1 1 (gm ex_one 1) (fun _ => Fin 2) (fun _ => PInf) ex_one (fun _ => Fin 0) (fun _ => Fin 1)) x) /\
  (bounds 1 (fun _ => Fin 2) (fun _ => PInf) /\ bounds 1 (fun _ => Fin 0) (fun _ => Fin 1) /\ ordered 1 (fun _ => Fin 2) (fun _ => PInf) /\ ordered 1 (fun _ => Fin 0) (fun _ => Fin 1)) /\
  (exists x, lp_clp (a_clp 10) 2 2 ex_A 2 ex_bl ex_bu ex_one ex_xl ex_xu = Ret (0%Z, x)) /\
  (exists x, lp_crs_lpsolve (a_lps 10) 2 2 ex_vals ex_cols ex_ptr ex_bl ex_bu ex_one ex_xl ex_xu = Ret (0%Z, x)).
Proof.
  pose proof big. destruct ex_bounds as (B1 & B2 & B3 & B4). destruct (ex_within 10 ltac:(lra)) as [W1 W2]. destruct ex_crs as [K1 K2].
  split; [exists a_simplex; exact a_simplex_ok|]. split; [intros H'; exists (a_clp H'); apply a_clp_ok|]. split; [intros H'; exists (a_lps H'); apply a_lps_ok|].
  split; [exact ex_optimum|]. split; [exact ex_infeasible|]. split; [|split].
  - split; [intros i _; cbn; split; auto; lra|]. split; [intros i _; cbn; split; lra|]. split; intros i a b _ [= <-] E; [discriminate|injection E as <-; lra].
  - unfold lp_clp, clp_solve, a_clp. assert (M : clp_means 10 (clp_gmcreate 2 2 ex_A 2 ex_bl ex_bu ex_one ex_xl ex_xu) (program 2 2 (gm ex_A 2) ex_bl ex_bu ex_one ex_xl ex_xu)) by (apply C90_clp_gm; auto; lra).
    destruct (ClassicalEpsilon.excluded_middle_informative _) as [E|E]; [eauto|]. destruct E. eexists. destruct M as (M1 & _ & M3 & M4). cbn [program s_max] in M1. split; intros Q; [|exfalso; rewrite M1 in Q; lra].
    eapply best_iff; [| |exact ex_optimum]; [intros; symmetry; apply M3|intros; symmetry; apply M4].
  - unfold lp_crs_lpsolve, lps_solve_cx, a_lps.
    assert (M : lps_means 10 (lps_crscreate 2 2 ex_vals ex_cols ex_ptr ex_bl ex_bu ex_one ex_xl ex_xu) (program 2 2 (crs ex_vals ex_cols ex_ptr) ex_bl ex_bu ex_one ex_xl ex_xu)) by (apply C90_lpsolve_crs; auto; lra).
    destruct (ClassicalEpsilon.excluded_middle_informative _) as [E|E]; [eauto|]. destruct E. eexists. destruct M as (M1 & _ & M3 & M4). rewrite M1.
    eapply best_iff; [| |exact ex_optimum]; [|intros; symmetry; apply M4]. intros x. rewrite M3.
    assert (L : forall i, (i < 2)%nat -> lin 2 (crs ex_vals ex_cols ex_ptr i) x = lin 2 (gm ex_A 2 i) x) by (intros i Hi; apply bsum_ext; intros j Hj; now rewrite K2).
    split; intros [P Q]; (split; [|exact Q]); intros i Hi; specialize (P i Hi); cbn in *; [rewrite L by auto|rewrite <- L by auto]; exact P.
Qed.
Print Assumptions C91_nonvacuous.

(** * C92: quadratic programs *)
Theorem C92_program type m n A lda b c c0 D ldd l u : type <> REL_GEQ -> exists p, cgal_program type m n A lda b c c0 D ldd l u = Some p /\
  (forall x, qp_feasible p m n x <-> q_allowed type m n (gm A lda) b l u x) /\
  forall x, qp_goal p n x = bsum n (fun j => gm D ldd j (n - 1) * x j * x j) + lin n c x + c0.
Proof. intros T. destruct (cgal_program_ok type m n A lda b c c0 D ldd l u T) as (p & E & F & G & _). exists p. auto. Qed.
Print Assumptions C92_program.

Theorem C92_exact_refuted type m n A lda b c c0 D ldd l u : type <> REL_GEQ -> exists p, cgal_program type m n A lda b c c0 D ldd l u = Some p /\
  ((forall x, qp_goal p n x = q_goal n (gm D ldd) c c0 x) <->
   (forall i, (i < n)%nat -> gm D ldd i i = gm D ldd i (n - 1)) /\ forall i j, (i < n)%nat -> (j < n)%nat -> i <> j -> gm D ldd i j + gm D ldd j i = 0).
Proof. exact (@c92_exact type m n A lda b c c0 D ldd l u). Qed.
Print Assumptions C92_exact_refuted.

Theorem C92_diagonal_refuted type m n A lda b c c0 D ldd l u : type <> REL_GEQ -> (0 < n)%nat -> (forall i j, (i < n)%nat -> (j < n)%nat -> i <> j -> gm D ldd i j = 0) ->
  exists p, cgal_program type m n A lda b c c0 D ldd l u = Some p /\ forall x, qp_goal p n x = gm D ldd (n - 1) (n - 1) * x (n - 1)%nat * x (n - 1)%nat + lin n c x + c0.
Proof. exact (@c92_diagonal type m n A lda b c c0 D ldd l u). Qed.
Print Assumptions C92_diagonal_refuted.

Theorem C92_answer_refuted solve : cgal_promise solve -> convex 2 (gm bad_D 2) /\
  exists x, qp_solve_cgal solve REL_LEQ 0 2 (fun _ => 0) 0 (fun _ => 0) bad_c 0 bad_D 2 (Some (fun _ => 0)) (Some (fun _ => 3)) = (0%Z, Some x) /\
    exists y, q_allowed REL_LEQ 0 2 (gm (fun _ => 0) 0) (fun _ => 0) (Some (fun _ => 0)) (Some (fun _ => 3)) y /\
      q_goal 2 (gm bad_D 2) bad_c 0 y + 4 <= q_goal 2 (gm bad_D 2) bad_c 0 x.
Proof. exact (@c92_wrong solve). Qed.
Print Assumptions C92_answer_refuted.

Theorem C92_solve solve type m n A lda b c c0 D ldd l u : cgal_promise solve -> type <> REL_GEQ -> convex n (gm D ldd) ->
  (forall i, (i < n)%nat -> gm D ldd i i = gm D ldd i (n - 1)) -> (forall i j, (i < n)%nat -> (j < n)%nat -> i <> j -> gm D ldd i j + gm D ldd j i = 0) ->
  (exists x, qp_solve_cgal solve type m n A lda b c c0 D ldd l u = (0%Z, Some x) /\ best false (q_allowed type m n (gm A lda) b l u) (q_goal n (gm D ldd) c c0) x) \/
  (qp_solve_cgal solve type m n A lda b c c0 D ldd l u = ((-1)%Z, None) /\ forall x, ~ best false (q_allowed type m n (gm A lda) b l u) (q_goal n (gm D ldd) c c0) x).
Proof. exact (@c92_solve solve type m n A lda b c c0 D ldd l u). Qed.
Print Assumptions C92_solve.

Theorem C92_geq solve m n A lda b c c0 D ldd l u : qp_solve_cgal solve REL_GEQ m n A lda b c c0 D ldd l u = ((-1)%Z, None).
Proof. reflexivity. Qed.
Print Assumptions C92_geq.

Example C92_nonvacuous : (exists f, cgal_promise f) /\ convex 2 (gm (fun k => if Nat.eqb k 3 then 5 else 0) 2) /\
  (forall i, (i < 2)%nat -> gm (fun k => if Nat.eqb k 3 then 5 else 0) 2 i i = gm (fun k => if Nat.eqb k 3 then 5 else 0) 2 i (2 - 1)) /\
  (forall i j, (i < 2)%nat -> (j < 2)%nat -> i <> j -> gm (fun k => if Nat.eqb k 3 then 5 else 0) 2 i j + gm (fun k => if Nat.eqb k 3 then 5 else 0) 2 j i = 0) /\
  (forall i j, (i < 2)%nat -> (j < 2)%nat -> i <> j -> gm bad_D 2 i j = 0) /\ gm bad_D 2 0 0 <> gm bad_D 2 0 (2 - 1).
Proof.
  split; [exists a_cgal; exact a_cgal_ok|]. unfold gm, bad_D. split; [intros x; unfold quad; cbn; nra|]. split; [|split; [|split]].
  - intros [|[|]] Hi; cbn; try lia; lra.
  - intros [|[|]] [|[|]] Hi Hj Ne; cbn; try lia; lra.
  - intros [|[|]] [|[|]] Hi Hj Ne; cbn; try lia; lra.
  - cbn. lra.
Qed.
Print Assumptions C92_nonvacuous.
