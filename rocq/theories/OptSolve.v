From Coq Require Import ZArith Arith List Bool Reals Lra Lia.
From Verif Require Import MatModel MatProofs OptModel OptSpec LaAlg OptProofs OptGlpk OptClp OptLps OptLps2.
Import ListNotations.
Open Scope R_scope.

Lemma best_iff mx (f g : (nat -> R) -> Prop) (o h : (nat -> R) -> R) x : (forall x, f x <-> g x) -> (forall x, o x = h x) -> best mx f o x -> best mx g h x.
Proof. intros F O [A B]. split; [now apply F|]. intros y Hy. rewrite <- !O. apply B. now apply F. Qed.
Lemma glpk_opt p s x : glpk_means p s -> g_best p x <-> optimum s x.
Proof.
  intros (M & N & F & O). unfold g_best, optimum. rewrite M. split; apply best_iff; auto; intros; symmetry; auto.
Qed.
Lemma best_ext mx (f : (nat -> R) -> Prop) (o : (nat -> R) -> R) (x y : nat -> R) (n : nat) : (forall z, f x -> (forall j, (j < n)%nat -> z j = x j) -> f z) -> (forall z, (forall j, (j < n)%nat -> z j = x j) -> o z = o x) -> (forall j, (j < n)%nat -> y j = x j) -> best mx f o x -> best mx f o y.
Proof. intros F O E [A B]. split; [now apply F|]. intros z Hz. rewrite (O y E). now apply B. Qed.
Lemma s_feasible_ext s x z : s_feasible s x -> (forall j, (j < s_n s)%nat -> z j = x j) -> s_feasible s z.
Proof.
  intros [R C] E. assert (L : forall a, lin (s_n s) a z = lin (s_n s) a x) by (intros a; apply bsum_ext; intros; now rewrite E).
  split; [intros i Hi; rewrite L; auto|]. intros j Hj. rewrite E by auto. auto.
Qed.
Lemma s_objective_ext s x z : (forall j, (j < s_n s)%nat -> z j = x j) -> s_objective s z = s_objective s x.
Proof. intros E. apply bsum_ext. intros. now rewrite E. Qed.
Lemma glpk_solve_opt simplex intopt p s x : glpk_promise simplex -> glpk_promise intopt -> glpk_means p s -> glpk_solve simplex intopt p = (0%Z, x) -> (exists y, optimum s y) -> optimum s x.
Proof.
  intros P1 P2 M E [y Y]. apply (glpk_opt p s) in Y; auto. unfold glpk_solve in E.
  assert (G : exists z, g_best p (fun j => z (S j)) /\ forall j, x j = z (j + 1)%nat).
  { destruct (has_int p); [destruct (intopt p) as [r z] eqn:Ez|destruct (simplex p) as [r z] eqn:Ez]; injection E as -> <-; exists z; split; eauto. }
  destruct G as (z & G & Ex). apply (glpk_opt p s) in G; auto. eapply best_ext with (x := fun j => z (S j)) (n := s_n s); [| | |exact G].
  - intros. eapply s_feasible_ext; eauto.
  - intros. apply s_objective_ext. auto.
  - intros j Hj. rewrite Ex. now rewrite Nat.add_comm.
Qed.
Lemma clp_solve_opt H solve p s x : clp_promise H solve -> clp_means H p s -> clp_solve solve p = (0%Z, x) -> optimum s x.
Proof.
  intros P (M & N & F & O) E. unfold clp_solve in E. destruct (P p x E) as [A B]. unfold optimum. destruct (s_max s).
  - eapply best_iff; [exact F|exact O|]. auto.
  - eapply best_iff; [exact F|exact O|]. auto.
Qed.
Lemma lps_solve_opt H solve p s x : lps_promise H solve -> lps_means H p s -> lps_solve_cx solve p = (0%Z, x) -> optimum s x.
Proof. intros P (M & N & F & O) E. unfold optimum. rewrite <- M. eapply best_iff; [exact F|exact O|]. now apply P. Qed.
Lemma optimum_value s x y : optimum s x -> optimum s y -> s_objective s x = s_objective s y.
Proof. intros [A B] [C D]. specialize (B y C). specialize (D x A). destruct (s_max s); lra. Qed.

(** ** GLPK returns 0 *)
Lemma bounds_type_proper l u : (forall a b, l = Fin a -> u = Fin b -> a <= b) -> g_proper (bounds_type l u, l, u).
Proof.
  intros O T a c -> ->. specialize (O a c eq_refl eq_refl). unfold bounds_type in T. destruct (is_eq (Fin a) (Fin c)) eqn:E; [discriminate|].
  pose proof (is_eq_no _ _ E a c eq_refl eq_refl). lra.
Qed.
Lemma glpk_bnd_proper p n xl xu q : g_nc p = n -> glpk_set_bnd p n xl xu = Ret q -> ordered n xl xu -> g_nc q = n /\ forall j, (1 <= j <= n)%nat -> g_proper (g_col q j).
Proof.
  intros E Q O. destruct (loop_inv (fun k q => g_nc q = n /\ forall j, (j < k)%nat -> g_col q (S j) = (bounds_type (xl j) (xu j), xl j, xu j)) (fun j p => glp_set_col_bnds p (j + 1) (bounds_type (xl j) (xu j)) (xl j) (xu j)) n p) as (r & E1 & G1 & G2).
  - split; [auto|lia].
  - intros j r Hj (G1 & G2). unfold glp_set_col_bnds. rewrite range1_ok by lia. eexists. split; [reflexivity|]. cbn. split; auto.
    intros k Hk. destruct (Nat.eq_dec k j) as [->|]; [rewrite (Nat.add_comm j 1); apply upd_same|rewrite upd_other by lia; apply G2; lia].
  - unfold glpk_set_bnd in Q. rewrite E1 in Q. injection Q as <-. split; auto. intros j Hj. destruct j as [|j]; [lia|]. rewrite G2 by lia. apply bounds_type_proper. intros a b. apply O. lia.
Qed.
Lemma glpk_cstr_proper p m bl bu q : g_nr p = m -> glpk_set_cstr_bnd p m bl bu = Ret q -> ordered m bl bu -> g_nr q = m /\ forall j, (1 <= j <= m)%nat -> g_proper (g_row q j).
Proof.
  intros E Q O. destruct (loop_inv (fun k q => g_nr q = m /\ forall j, (j < k)%nat -> g_row q (S j) = (bounds_type (bl j) (bu j), bl j, bu j)) (fun j p => glp_set_row_bnds p (j + 1) (bounds_type (bl j) (bu j)) (bl j) (bu j)) m p) as (r & E1 & G1 & G2).
  - split; [auto|lia].
  - intros j r Hj (G1 & G2). unfold glp_set_row_bnds. rewrite range1_ok by lia. eexists. split; [reflexivity|]. cbn. split; auto.
    intros k Hk. destruct (Nat.eq_dec k j) as [->|]; [rewrite (Nat.add_comm j 1); apply upd_same|rewrite upd_other by lia; apply G2; lia].
  - unfold glpk_set_cstr_bnd in Q. rewrite E1 in Q. injection Q as <-. split; auto. intros j Hj. destruct j as [|j]; [lia|]. rewrite G2 by lia. apply bounds_type_proper. intros a b. apply O. lia.
Qed.
Lemma glpk_gm_proper m n A lda bl bu c xl xu p : bounds m bl bu -> bounds n xl xu -> ordered m bl bu -> ordered n xl xu -> glpk_gmcreate m n A lda bl bu c xl xu = Ret p ->
  (forall i, (1 <= i <= g_nr p)%nat -> g_proper (g_row p i)) /\ (forall j, (1 <= j <= g_nc p)%nat -> g_proper (g_col p j)) /\ forall j, (1 <= j <= g_nc p)%nat -> g_int p j = false.
Proof.
  intros B C O P Q. unfold glpk_gmcreate, glpk_init in Q. cbn zeta in Q.
  destruct (glpk_set_cstr_bnd_ok (glp_add_cols (glp_add_rows (glp_set_obj_dir glp_create_prob true) m) n) m bl bu) as (q & Eq & R1 & R2 & R3 & R4 & R5 & R6 & R7 & R8); auto.
  destruct (fun H => glpk_cstr_proper _ m bl bu q H Eq O) as [_ PR]; [reflexivity|]. rewrite Eq in Q. cbn [bind] in Q.
  destruct (glpk_set_bnd_ok q n xl xu) as (q1 & Eq1 & S1 & S2 & S3 & S4 & S5 & S6 & S7 & S8); auto.
  pose proof (glpk_bnd_proper q n xl xu q1 R3 Eq1 P) as [_ PC]. rewrite Eq1 in Q. cbn [bind] in Q.
  destruct (glpk_set_obj_ok q1 n c S3) as (q2 & Eq2 & T1 & T2 & T3 & T4 & T5 & T6 & T7 & T8). rewrite Eq2 in Q. cbn [bind] in Q.
  destruct (glpk_set_mat_gm_ok q2 m n A lda) as (q3 & Eq3 & U1 & U2 & U3 & U4 & U5 & U6 & U7 & U8); [congruence|congruence|]. rewrite Eq3 in Q. injection Q as <-.
  rewrite U2, U3, U4, U5, T4, T5, S4. split; auto. split; auto. intros j Hj. now rewrite U7, T7, S7, R7.
Qed.
Lemma glpk_zero simplex intopt m n A lda bl bu c xl xu : glpk_returns simplex -> bounds m bl bu -> bounds n xl xu -> ordered m bl bu -> ordered n xl xu ->
  exists x, lp_glpk simplex intopt m n A lda bl bu c xl xu = Ret (0%Z, x).
Proof.
  intros P B C O Q. destruct (glpk_gm_ok m n A lda bl bu c xl xu B C) as (p & E & G). unfold lp_glpk. rewrite E. cbn [bind].
  destruct (glpk_gm_proper m n A lda bl bu c xl xu p B C O Q E) as (X & Y & Z). specialize (P p X Y). unfold glpk_solve.
  assert (has_int p = false) as ->. { unfold has_int. destruct (existsb _ _) eqn:Ex; auto. apply existsb_exists in Ex as (j & Hj & Ej). apply in_seq in Hj. rewrite Z in Ej by lia. discriminate. }
  destruct (simplex p) as [r z]. cbn in P. subst r. eauto.
Qed.

(** ** Quadratic programs *)
Lemma bsum_single n i f : (i < n)%nat -> (forall j, (j < n)%nat -> j <> i -> f j = 0) -> bsum n f = f i.
Proof.
  intros Hi Z. rewrite <- (bsum_delta n i f Hi). apply bsum_ext. intros j Hj. unfold LaSpec.delta. destruct (Nat.eqb_spec i j); [subst; lra|]. rewrite Z by auto. lra.
Qed.
Lemma lin_ext_x n a x y : (forall j, (j < n)%nat -> x j = y j) -> lin n a x = lin n a y.
Proof. intros E. apply bsum_ext. intros. now rewrite E. Qed.
Lemma cgal_program_ok type m n A lda b c c0 D ldd l u : type <> REL_GEQ -> exists p, cgal_program type m n A lda b c c0 D ldd l u = Some p /\
  (forall x, qp_feasible p m n x <-> q_allowed type m n (gm A lda) b l u x) /\
  (forall x, qp_goal p n x = bsum n (fun j => gm D ldd j (n - 1) * x j * x j) + lin n c x + c0) /\
  (forall i, (m <= i)%nat -> q_b p i = 0 /\ forall j, q_a p i j = 0) /\
  forall i j, (i < n)%nat -> (j < n)%nat -> q_2d p i j = if Nat.eqb i j then 2 * gm D ldd i (n - 1) else 0.
Proof.
  intros NT. unfold cgal_program. set (e := match type with REL_EQ => true | _ => false end).
  set (p0 := mkQp _ _ _ _ _ _ _ _).
  set (p1 := cloop m _ p0). set (p2 := cloop m _ p1). set (p3 := cloop n _ p2). set (p4 := qp_set_c0 p3 c0). set (p5 := cloop n _ p4). set (p6 := cloop n _ p5).
  assert (G1 : q_eq p1 = e /\ q_b p1 = (fun _ => 0) /\ q_c p1 = (fun _ => 0) /\ q_c0 p1 = 0 /\ q_2d p1 = (fun _ _ => 0) /\ q_l p1 = q_l p0 /\ q_u p1 = q_u p0 /\
     (forall i j, (i < m)%nat -> (j < n)%nat -> q_a p1 i j = gm A lda i j) /\ (forall i j, (m <= i)%nat -> q_a p1 i j = 0)).
  { apply (cloop_inv (fun k q => q_eq q = e /\ q_b q = (fun _ => 0) /\ q_c q = (fun _ => 0) /\ q_c0 q = 0 /\ q_2d q = (fun _ _ => 0) /\ q_l q = q_l p0 /\ q_u q = q_u p0 /\
     (forall i j, (i < k)%nat -> (j < n)%nat -> q_a q i j = gm A lda i j) /\ (forall i j, (m <= i)%nat -> q_a q i j = 0))).
    - unfold p0. cbn. repeat (split; [solve [auto | congruence]|]). split; [lia|auto].
    - intros i q Hi (A1 & A2 & A3 & A4 & A5 & A6 & A7 & A8 & A9).
      pose proof (cloop_inv (fun k r => q_eq r = e /\ q_b r = (fun _ => 0) /\ q_c r = (fun _ => 0) /\ q_c0 r = 0 /\ q_2d r = (fun _ _ => 0) /\ q_l r = q_l p0 /\ q_u r = q_u p0 /\
        (forall j, (j < k)%nat -> q_a r i j = gm A lda i j) /\ (forall a j, a <> i -> q_a r a j = q_a q a j)) (fun j p => qp_set_a p j i (A (j * lda + i)%nat)) n q) as G.
      destruct G as (B1 & B2 & B3 & B4 & B5 & B6 & B7 & B8 & B9).
      + repeat (split; [assumption|]). split; [lia|auto].
      + intros j r Hj (B1 & B2 & B3 & B4 & B5 & B6 & B7 & B8 & B9). cbn. repeat (split; [assumption|]). unfold upd2. split.
        * intros k Hk. rewrite Nat.eqb_refl. cbn. destruct (Nat.eqb_spec k j) as [->|]; [unfold gm; f_equal; lia|apply B8; lia].
        * intros a k Ha. rewrite (proj2 (Nat.eqb_neq a i)) by auto. cbn. auto.
      + repeat (split; [assumption|]). split.
        * intros a j Ha Hj. destruct (Nat.eq_dec a i) as [->|]; [auto|rewrite B9 by auto; apply A8; lia].
        * intros a j Ha. rewrite B9 by lia. auto. }
  clearbody p1. destruct G1 as (A1 & A2 & A3 & A4 & A5 & A6 & A7 & A8 & A9).
  assert (G2 : q_eq p2 = e /\ q_a p2 = q_a p1 /\ q_c p2 = q_c p1 /\ q_c0 p2 = q_c0 p1 /\ q_2d p2 = q_2d p1 /\ q_l p2 = q_l p1 /\ q_u p2 = q_u p1 /\
     (forall i, (i < m)%nat -> q_b p2 i = b i) /\ (forall i, (m <= i)%nat -> q_b p2 i = 0)).
  { apply (cloop_inv (fun k q => q_eq q = e /\ q_a q = q_a p1 /\ q_c q = q_c p1 /\ q_c0 q = q_c0 p1 /\ q_2d q = q_2d p1 /\ q_l q = q_l p1 /\ q_u q = q_u p1 /\
     (forall i, (i < k)%nat -> q_b q i = b i) /\ (forall i, (m <= i)%nat -> q_b q i = 0))).
    - repeat (split; [solve [auto | congruence]|]). split; [lia|]. intros. now rewrite A2.
    - intros j q Hj (B1 & B2 & B3 & B4 & B5 & B6 & B7 & B8 & B9). cbn. repeat (split; [assumption|]). split; intros k Hk.
      + destruct (Nat.eq_dec k j) as [->|]; [apply upd_same|rewrite upd_other by lia; apply B8; lia].
      + rewrite upd_other by lia. auto. }
  clearbody p2. destruct G2 as (B1 & B2 & B3 & B4 & B5 & B6 & B7 & B8 & B9).
  assert (G3 : q_eq p3 = e /\ q_a p3 = q_a p2 /\ q_b p3 = q_b p2 /\ q_2d p3 = q_2d p2 /\ q_l p3 = q_l p2 /\ q_u p3 = q_u p2 /\ (forall i, (i < n)%nat -> q_c p3 i = c i)).
  { apply (cloop_inv (fun k q => q_eq q = e /\ q_a q = q_a p2 /\ q_b q = q_b p2 /\ q_2d q = q_2d p2 /\ q_l q = q_l p2 /\ q_u q = q_u p2 /\ (forall i, (i < k)%nat -> q_c q i = c i))).
    - repeat (split; [solve [auto | congruence]|]). lia.
    - intros j q Hj (C1 & C2 & C3 & C4 & C5 & C6 & C7). cbn. repeat (split; [assumption|]). intros k Hk. destruct (Nat.eq_dec k j) as [->|]; [apply upd_same|rewrite upd_other by lia; apply C7; lia]. }
  clearbody p3. destruct G3 as (C1 & C2 & C3 & C4 & C5 & C6 & C7).
  assert (G5 : q_eq p5 = e /\ q_a p5 = q_a p3 /\ q_b p5 = q_b p3 /\ q_c p5 = q_c p3 /\ q_c0 p5 = c0 /\ q_l p5 = q_l p3 /\ q_u p5 = q_u p3 /\
     forall i j, q_2d p5 i j = if Nat.eqb i j && Nat.ltb i n then 2 * gm D ldd i (n - 1) else 0).
  { apply (cloop_inv (fun k q => q_eq q = e /\ q_a q = q_a p3 /\ q_b q = q_b p3 /\ q_c q = q_c p3 /\ q_c0 q = c0 /\ q_l q = q_l p3 /\ q_u q = q_u p3 /\
       forall i j, q_2d q i j = if Nat.eqb i j && Nat.ltb i k then 2 * gm D ldd i (n - 1) else 0)).
    - unfold p4. cbn. repeat (split; [solve [auto | congruence]|]). intros i j. rewrite C4, B5, A5. now rewrite andb_false_r.
    - intros a q Ha (D1 & D2 & D3 & D4 & D5 & D6 & D7 & D8).
      assert (G : forall k, (1 <= k <= n)%nat -> let r := cloop k (fun j2 p => qp_set_d p a a (2 * D (j2 * ldd + a)%nat)) q in
         q_eq r = e /\ q_a r = q_a p3 /\ q_b r = q_b p3 /\ q_c r = q_c p3 /\ q_c0 r = c0 /\ q_l r = q_l p3 /\ q_u r = q_u p3 /\
         forall i j, q_2d r i j = if Nat.eqb i a && Nat.eqb j a then 2 * gm D ldd a (k - 1) else q_2d q i j).
      { induction k as [|k IH]; intros Hk; [lia|]. unfold cloop in *. rewrite seq_S, fold_left_app. cbn [fold_left]. destruct k as [|k].
        - cbn. repeat (split; [assumption|]). intros i j. unfold upd2. destruct (Nat.eqb i a && Nat.eqb j a); [|reflexivity]. unfold gm. do 2 f_equal. lia.
        - destruct IH as (E1 & E2 & E3 & E4 & E5 & E6 & E7 & E8); [lia|]. set (r := fold_left _ _ q) in *. clearbody r. cbn [qp_set_d q_eq q_a q_b q_c q_c0 q_2d q_l q_u]. repeat (split; [assumption|]).
          intros i j. unfold upd2. rewrite E8. destruct (Nat.eqb i a && Nat.eqb j a); [|reflexivity]. unfold gm. do 2 f_equal. lia. }
      destruct (G n ltac:(lia)) as (E1 & E2 & E3 & E4 & E5 & E6 & E7 & E8). repeat (split; [assumption|]). intros i j. rewrite E8, D8.
      destruct (Nat.eqb_spec i a), (Nat.eqb_spec j a), (Nat.eqb_spec i j), (Nat.ltb_spec i a), (Nat.ltb_spec i (S a)); cbn; subst; try reflexivity; try lia. }
  clearbody p5. destruct G5 as (D1 & D2 & D3 & D4 & D5 & D6 & D7 & D8).
  assert (G6 : q_eq p6 = e /\ q_a p6 = q_a p5 /\ q_b p6 = q_b p5 /\ q_c p6 = q_c p5 /\ q_c0 p6 = q_c0 p5 /\ q_2d p6 = q_2d p5 /\
     (forall j, (j < n)%nat -> q_l p6 j = match l with Some l => Some (l j) | None => None end) /\ (forall j, (j < n)%nat -> q_u p6 j = match u with Some u => Some (u j) | None => None end)).
  { assert (L0 : forall j, q_l p5 j = match l with Some _ => Some 0 | None => None end) by (intros j; rewrite D6, C5, B6, A6; reflexivity).
    assert (U0 : forall j, q_u p5 j = match u with Some _ => Some 1 | None => None end) by (intros j; rewrite D7, C6, B7, A7; reflexivity).
    assert (G : q_eq p6 = e /\ q_a p6 = q_a p5 /\ q_b p6 = q_b p5 /\ q_c p6 = q_c p5 /\ q_c0 p6 = q_c0 p5 /\ q_2d p6 = q_2d p5 /\
      (forall j, (j < n)%nat -> q_l p6 j = match l with Some l => Some (l j) | None => None end) /\ (forall j, (j < n)%nat -> q_u p6 j = match u with Some u => Some (u j) | None => None end) /\
      (l = None -> forall j, q_l p6 j = None) /\ (u = None -> forall j, q_u p6 j = None)); [|tauto].
    apply (cloop_inv (fun k q => q_eq q = e /\ q_a q = q_a p5 /\ q_b q = q_b p5 /\ q_c q = q_c p5 /\ q_c0 q = q_c0 p5 /\ q_2d q = q_2d p5 /\
      (forall j, (j < k)%nat -> q_l q j = match l with Some l => Some (l j) | None => None end) /\ (forall j, (j < k)%nat -> q_u q j = match u with Some u => Some (u j) | None => None end) /\
      (l = None -> forall j, q_l q j = None) /\ (u = None -> forall j, q_u q j = None))).
    - repeat (split; [solve [auto | congruence]|]). split; [lia|]. split; [lia|]. split; intros ->; auto.
    - intros j q Hj (E1 & E2 & E3 & E4 & E5 & E6 & E7 & E8 & E9 & E10). destruct l as [l|], u as [u|]; cbn; repeat (split; [assumption|]).
      all: split; [|split; [|split]]; intros; try discriminate; auto.
      all: try (destruct (Nat.eq_dec j0 j) as [->|]; [now rewrite upd_same|rewrite upd_other by lia; (apply E7 || apply E8); lia]). }
  clearbody p6. destruct G6 as (E1 & E2 & E3 & E4 & E5 & E6 & E7 & E8).
  exists p6. split; [destruct type; [reflexivity|reflexivity|contradiction]|]. split; [|split; [|split]].
  - assert (RI : forall x i, (i < m)%nat -> (if e then lin n (q_a p6 i) x = q_b p6 i else lin n (q_a p6 i) x <= q_b p6 i) <-> rel_holds type (lin n (gm A lda i) x) (b i)).
    { intros x i Hi. rewrite E2, D2, C2, B2, E3, D3, C3, B8 by auto. rewrite (lin_ext n (q_a p1 i) (gm A lda i)) by (intros; apply A8; auto).
      destruct type; cbn; tauto. }
    intros x. unfold qp_feasible, q_allowed. rewrite E1. split; intros [R V]; (split; [intros i Hi; now apply RI, R|]); intros j Hj; specialize (V j Hj); rewrite E7, E8 in * by auto; destruct V as [V1 V2]; split.
    + intros l' ->. now apply V1.
    + intros u' ->. now apply V2.
    + intros v. destruct l; [|discriminate]. intros [= <-]. now apply V1.
    + intros v. destruct u; [|discriminate]. intros [= <-]. now apply V2.
  - intros x. unfold qp_goal. rewrite E5, D5, E4, D4. rewrite (lin_ext n (q_c p3) c) by auto. f_equal. f_equal. unfold quad.
    rewrite (bsum_ext n _ (fun i => 2 * (gm D ldd i (n - 1) * x i * x i))).
    + rewrite bsum_scal. lra.
    + intros i Hi. rewrite (bsum_single n i) by (auto; intros j Hj Ne; rewrite E6, D8, (proj2 (Nat.eqb_neq i j)) by auto; cbn [andb]; lra).
      rewrite E6, D8, Nat.eqb_refl, (proj2 (Nat.ltb_lt i n)) by auto. cbn [andb]. lra.
  - intros i Hi. rewrite E3, D3, C3, E2, D2, C2, B2. split; auto.
  - intros i j Hi Hj. rewrite E6, D8, (proj2 (Nat.ltb_lt i n)) by auto. now rewrite andb_true_r.
Qed.
