From Coq Require Import ZArith Arith List Bool Reals Lra Lia.
From Verif Require Import MatModel MatProofs OptModel OptSpec LaAlg OptProofs.
Import ListNotations.
Open Scope R_scope.

Definition between (l u : xr) (y : R) : Prop := above DBL_MAX l y /\ below DBL_MAX u y.
(** ** What each call changes *)
Definition g_same_rows (p q : glp) : Prop := g_row q = g_row p.
Lemma glpk_set_obj_ok p n c : g_nc p = n -> exists q, glpk_set_obj p n c = Ret q /\ g_max q = g_max p /\ g_nr q = g_nr p /\ g_nc q = n /\
  g_row q = g_row p /\ g_col q = g_col p /\ g_mat q = g_mat p /\ g_int q = g_int p /\ forall j, (j < n)%nat -> g_obj q (S j) = c j.
Proof.
  intros E.
  destruct (loop_inv (fun k q => g_max q = g_max p /\ g_nr q = g_nr p /\ g_nc q = n /\ g_row q = g_row p /\ g_col q = g_col p /\ g_mat q = g_mat p /\ g_int q = g_int p /\
      forall j, (j < k)%nat -> g_obj q (S j) = c j) (fun j p => glp_set_obj_coef p (j + 1) (c j)) n p) as (q & E1 & H).
  - repeat split; auto; lia.
  - intros j q Hj (H1 & H2 & H3 & H4 & H5 & H6 & H7 & H8). unfold glp_set_obj_coef. rewrite range1_ok by lia. eexists. split; [reflexivity|]. cbn.
    repeat split; auto. intros k Hk. destruct (Nat.eq_dec k j) as [->|]; [rewrite (Nat.add_comm j 1); apply upd_same|rewrite upd_other by lia; apply H8; lia].
  - exists q. tauto.
Qed.
Lemma glpk_set_bnd_ok p n xl xu : g_nc p = n -> bounds n xl xu -> exists q, glpk_set_bnd p n xl xu = Ret q /\ g_max q = g_max p /\ g_nr q = g_nr p /\ g_nc q = n /\
  g_row q = g_row p /\ g_obj q = g_obj p /\ g_mat q = g_mat p /\ g_int q = g_int p /\ forall j y, (j < n)%nat -> g_holds (g_col q (S j)) y <-> between (xl j) (xu j) y.
Proof.
  intros E B.
  destruct (loop_inv (fun k q => g_max q = g_max p /\ g_nr q = g_nr p /\ g_nc q = n /\ g_row q = g_row p /\ g_obj q = g_obj p /\ g_mat q = g_mat p /\ g_int q = g_int p /\
      forall j, (j < k)%nat -> g_col q (S j) = (bounds_type (xl j) (xu j), xl j, xu j)) (fun j p => glp_set_col_bnds p (j + 1) (bounds_type (xl j) (xu j)) (xl j) (xu j)) n p) as (q & E1 & H).
  - repeat split; auto; lia.
  - intros j q Hj (H1 & H2 & H3 & H4 & H5 & H6 & H7 & H8). unfold glp_set_col_bnds. rewrite range1_ok by lia. eexists. split; [reflexivity|]. cbn.
    repeat split; auto. intros k Hk. destruct (Nat.eq_dec k j) as [->|]; [rewrite (Nat.add_comm j 1); apply upd_same|rewrite upd_other by lia; apply H8; lia].
  - exists q. destruct H as (A1 & A2 & A3 & A4 & A5 & A6 & A7 & H). repeat (split; [assumption|]). intros j y Hj. destruct (B j Hj). rewrite (H j Hj). now apply bounds_type_ok.
Qed.
Lemma glpk_set_cstr_bnd_ok p m bl bu : g_nr p = m -> bounds m bl bu -> exists q, glpk_set_cstr_bnd p m bl bu = Ret q /\ g_max q = g_max p /\ g_nr q = m /\ g_nc q = g_nc p /\
  g_col q = g_col p /\ g_obj q = g_obj p /\ g_mat q = g_mat p /\ g_int q = g_int p /\ forall j y, (j < m)%nat -> g_holds (g_row q (S j)) y <-> between (bl j) (bu j) y.
Proof.
  intros E B.
  destruct (loop_inv (fun k q => g_max q = g_max p /\ g_nr q = m /\ g_nc q = g_nc p /\ g_col q = g_col p /\ g_obj q = g_obj p /\ g_mat q = g_mat p /\ g_int q = g_int p /\
      forall j, (j < k)%nat -> g_row q (S j) = (bounds_type (bl j) (bu j), bl j, bu j)) (fun j p => glp_set_row_bnds p (j + 1) (bounds_type (bl j) (bu j)) (bl j) (bu j)) m p) as (q & E1 & H).
  - repeat split; auto; lia.
  - intros j q Hj (H1 & H2 & H3 & H4 & H5 & H6 & H7 & H8). unfold glp_set_row_bnds. rewrite range1_ok by lia. eexists. split; [reflexivity|]. cbn.
    repeat split; auto. intros k Hk. destruct (Nat.eq_dec k j) as [->|]; [rewrite (Nat.add_comm j 1); apply upd_same|rewrite upd_other by lia; apply H8; lia].
  - exists q. destruct H as (A1 & A2 & A3 & A4 & A5 & A6 & A7 & H). repeat (split; [assumption|]). intros j y Hj. destruct (B j Hj). rewrite (H j Hj). now apply bounds_type_ok.
Qed.
Lemma glpk_set_mat_gm_ok p m n A lda : g_nr p = m -> g_nc p = n -> exists q, glpk_set_cstr_mat_gm p m n A lda = Ret q /\ g_max q = g_max p /\ g_nr q = m /\ g_nc q = n /\
  g_row q = g_row p /\ g_col q = g_col p /\ g_obj q = g_obj p /\ g_int q = g_int p /\ forall i j, (i < m)%nat -> (j < n)%nat -> g_mat q (S i) (S j) = gm A lda i j.
Proof.
  intros E F.
  destruct (loop_inv (fun k q => g_max q = g_max p /\ g_nr q = m /\ g_nc q = n /\ g_row q = g_row p /\ g_col q = g_col p /\ g_obj q = g_obj p /\ g_int q = g_int p /\
      forall i j, (i < m)%nat -> (j < k)%nat -> g_mat q (S i) (S j) = gm A lda i j)
      (fun j p => glp_set_mat_col p (j + 1) m (fun k => k - 1 + 1)%nat (fun k => A (j * lda + (k - 1))%nat)) n p) as (q & E1 & H).
  - repeat split; auto; lia.
  - intros j q Hj (H1 & H2 & H3 & H4 & H5 & H6 & H7 & H8). unfold glp_set_mat_col. rewrite range1_ok by lia.
    rewrite indices_yes by (intros; lia). cbn [andb]. eexists. split; [reflexivity|]. cbn.
    repeat split; auto. intros i k Hi Hk. rewrite (Nat.add_comm j 1). cbn. destruct (Nat.eqb_spec k j) as [->|]; [|apply H8; lia].
    replace (S i) with (S i - 1 + 1)%nat by lia. unfold gm.
    rewrite (sparse_at 1 m (fun k => k - 1 + 1)%nat (fun k => A (j * lda + (k - 1))%nat) (S i)) by (intros; lia). f_equal. lia.
  - exists q. unfold glpk_set_cstr_mat_gm. rewrite E1. tauto.
Qed.
Lemma glpk_rows_crs_ok p m n vals cols ptr : g_nr p = m -> g_nc p = n -> crs_ok m n cols ptr -> exists q,
  loop m (fun i p => let start := ptr i in let count := (ptr (i + 1)%nat - start)%nat in let inds j := (cols (start + j)%nat + 1)%nat in
    glp_set_mat_row p (i + 1) count (fun k => inds (k - 1)%nat) (fun k => vals (start + (k - 1))%nat)) p = Ret q /\ g_max q = g_max p /\ g_nr q = m /\ g_nc q = n /\
  g_row q = g_row p /\ g_col q = g_col p /\ g_obj q = g_obj p /\ g_int q = g_int p /\ forall i j, (i < m)%nat -> (j < n)%nat -> g_mat q (S i) (S j) = crs vals cols ptr i j.
Proof.
  intros E F [C D].
  destruct (loop_inv (fun k q => g_max q = g_max p /\ g_nr q = m /\ g_nc q = n /\ g_row q = g_row p /\ g_col q = g_col p /\ g_obj q = g_obj p /\ g_int q = g_int p /\
      forall i j, (i < k)%nat -> (j < n)%nat -> g_mat q (S i) (S j) = crs vals cols ptr i j)
      (fun i p => let start := ptr i in let count := (ptr (i + 1)%nat - start)%nat in let inds j := (cols (start + j)%nat + 1)%nat in
         glp_set_mat_row p (i + 1) count (fun k => inds (k - 1)%nat) (fun k => vals (start + (k - 1))%nat)) m p) as (q & E1 & H).
  - repeat split; auto; lia.
  - intros i q Hi (H1 & H2 & H3 & H4 & H5 & H6 & H7 & H8). cbn zeta. unfold glp_set_mat_row. rewrite range1_ok by lia. rewrite !(Nat.add_comm i 1). cbn [plus].
    rewrite indices_yes.
    + cbn [andb]. eexists. split; [reflexivity|]. cbn [g_max g_nr g_nc g_row g_col g_obj g_int g_mat].
      repeat split; auto. intros k j Hk Hj. cbn. destruct (Nat.eqb_spec k i) as [->|]; [|apply H8; lia].
      replace (S j) with (j + 1)%nat by lia. apply sparse_crs; auto.
      * intros. apply (D i); auto.
      * intros k Hk'. split; [repeat f_equal; lia|f_equal; lia].
    + intros k Hk. specialize (C i (ptr i + (k - 1))%nat Hi ltac:(lia)). lia.
    + intros k k' Hk Hk' E'. enough (ptr i + (k - 1) = ptr i + (k' - 1))%nat by lia. apply (D i); auto; lia.
  - exists q. rewrite E1. tauto.
Qed.

(** ** The problem object stands for the program *)
Definition g_rep (p : glp) (s : stmt) : Prop :=
  g_max p = s_max s /\ g_nr p = s_m s /\ g_nc p = s_n s /\
  (forall i y, (i < s_m s)%nat -> g_holds (g_row p (S i)) y <-> between (s_bl s i) (s_bu s i) y) /\
  (forall j y, (j < s_n s)%nat -> g_holds (g_col p (S j)) y <-> between (s_xl s j) (s_xu s j) y) /\
  (forall i j, (i < s_m s)%nat -> (j < s_n s)%nat -> g_mat p (S i) (S j) = s_A s i j) /\
  (forall j, (j < s_n s)%nat -> g_obj p (S j) = s_c s j) /\
  forall j, (j < s_n s)%nat -> g_int p (S j) = s_int s j.
Lemma lin_ext n a b x : (forall j, (j < n)%nat -> a j = b j) -> lin n a x = lin n b x.
Proof. intros H. apply bsum_ext. intros. now rewrite H. Qed.
Lemma g_rep_means p s : g_rep p s -> glpk_means p s.
Proof.
  intros (H1 & H2 & H3 & H4 & H5 & H6 & H7 & H8). split; auto. split; auto. split.
  - intros x. split; intros [R C]; split.
    + intros i Hi. specialize (R (S i) ltac:(lia)). rewrite H4, H3 in R by auto.
      rewrite (lin_ext _ _ (s_A s i)) in R by (intros; apply H6; auto). exact R.
    + intros j Hj. destruct (C (S j) ltac:(lia)) as [C1 C2]. rewrite H5 in C1 by auto. rewrite H8 in C2 by auto.
      cbn in C1, C2. rewrite Nat.sub_0_r in C1, C2. destruct C1. auto.
    + intros i Hi. destruct i as [|i]; [lia|]. rewrite H4, H3 by lia. rewrite (lin_ext _ _ (s_A s i)) by (intros; apply H6; auto; lia). apply R. lia.
    + intros j Hj. destruct j as [|j]; [lia|]. cbn. rewrite Nat.sub_0_r. destruct (C j ltac:(lia)) as (A & B & D). split.
      * apply H5; [lia|]. split; auto.
      * rewrite H8 by lia. exact D.
  - intros x. unfold g_objective, s_objective. rewrite H3. apply lin_ext. auto.
Qed.
Lemma glpk_init_ok m n A bl bu c xl xu : bounds m bl bu -> bounds n xl xu -> exists p, glpk_init m n bl bu c xl xu = Ret p /\
  g_max p = true /\ g_nr p = m /\ g_nc p = n /\ forall q, g_max q = g_max p -> g_nr q = m -> g_nc q = n -> g_row q = g_row p -> g_col q = g_col p -> g_obj q = g_obj p -> g_int q = g_int p ->
    (forall i j, (i < m)%nat -> (j < n)%nat -> g_mat q (S i) (S j) = A i j) -> g_rep q (program m n A bl bu c xl xu).
Proof.
  intros B C. unfold glpk_init.
  destruct (glpk_set_cstr_bnd_ok (glp_add_cols (glp_add_rows (glp_set_obj_dir glp_create_prob true) m) n) m bl bu) as (q & -> & R1 & R2 & R3 & R4 & R5 & R6 & R7 & R8); auto.
  cbn [bind]. destruct (glpk_set_bnd_ok q n xl xu) as (q1 & -> & S1 & S2 & S3 & S4 & S5 & S6 & S7 & S8); auto.
  cbn [bind]. destruct (glpk_set_obj_ok q1 n c S3) as (q2 & -> & T1 & T2 & T3 & T4 & T5 & T6 & T7 & T8).
  exists q2. cbn in R1, R2, R3, R4, R5, R6, R7. split; auto. split; [congruence|]. split; [congruence|]. split; [congruence|].
  intros q3 H1 H2 H3 H4 H5 H6 H7 H8. unfold g_rep. cbn.
  split; [congruence|]. split; [congruence|]. split; [congruence|]. split; [|split; [|split; [|split]]].
  - rewrite H4, T4, S4. exact R8.
  - rewrite H5, T5. exact S8.
  - exact H8.
  - rewrite H6. exact T8.
  - intros j Hj. now rewrite H7, T7, S7, R7.
Qed.
Lemma glpk_gm_ok m n A lda bl bu c xl xu : bounds m bl bu -> bounds n xl xu ->
  exists p, glpk_gmcreate m n A lda bl bu c xl xu = Ret p /\ g_rep p (program m n (gm A lda) bl bu c xl xu).
Proof.
  intros B C. unfold glpk_gmcreate. destruct (glpk_init_ok m n (gm A lda) bl bu c xl xu B C) as (p & -> & M & R & K & H). cbn.
  destruct (glpk_set_mat_gm_ok p m n A lda R K) as (q & -> & T1 & T2 & T3 & T4 & T5 & T6 & T7 & T8). exists q. split; auto.
Qed.
Lemma glpk_crs_ok m n vals cols ptr bl bu c xl xu : bounds m bl bu -> bounds n xl xu -> crs_ok m n cols ptr ->
  exists p, glpk_crscreate m n vals cols ptr bl bu c xl xu = Ret p /\ g_rep p (program m n (crs vals cols ptr) bl bu c xl xu).
Proof.
  intros B C D. unfold glpk_crscreate. destruct (glpk_init_ok m n (crs vals cols ptr) bl bu c xl xu B C) as (p & -> & M & R & K & H). cbn [bind].
  destruct (glpk_rows_crs_ok p m n vals cols ptr R K D) as (q & Eq & T1 & T2 & T3 & T4 & T5 & T6 & T7 & T8). exists q. split; [exact Eq|auto].
Qed.
Lemma binary_ok y : g_holds (GLP_DB, Fin 0, Fin 1) y <-> between (Fin 0) (Fin 1) y.
Proof. unfold between. pose proof dbl_max_big. cbn. lra. Qed.
Lemma glpk_op_ok m n p s o : g_rep p s -> s_m s = m -> s_n s = n -> op_ok m n o ->
  exists q, glpk_op m n p o = Ret q /\ g_rep q (restate s o) /\ s_m (restate s o) = m /\ s_n (restate s o) = n.
Proof.
  intros (H1 & H2 & H3 & H4 & H5 & H6 & H7 & H8) E F O. destruct o; cbn in O |- *.
  - eexists. split; [reflexivity|]. cbn. repeat split; cbn; auto; try (now apply H4); try (now apply H5).
  - destruct (glpk_set_obj_ok p n c) as (q & -> & T1 & T2 & T3 & T4 & T5 & T6 & T7 & T8); [congruence|]. exists q. split; auto. cbn. split; auto.
    split; [cbn; congruence|]. split; [cbn; congruence|]. split; [cbn; congruence|]. cbn. rewrite T4, T5, T6, T7. subst n. auto.
  - destruct (glpk_set_bnd_ok p n xl xu) as (q & -> & T1 & T2 & T3 & T4 & T5 & T6 & T7 & T8); [congruence|auto|]. exists q. split; auto. cbn. split; auto.
    split; [cbn; congruence|]. split; [cbn; congruence|]. split; [cbn; congruence|]. cbn. rewrite T4, T5, T6, T7. subst n. auto.
  - unfold glpk_set_cstr_gm. destruct (glpk_set_mat_gm_ok p m n A lda) as (q & -> & T1 & T2 & T3 & T4 & T5 & T6 & T7 & T8); [congruence|congruence|]. cbn [bind].
    destruct (glpk_set_cstr_bnd_ok q m bl bu) as (q1 & -> & S1 & S2 & S3 & S4 & S5 & S6 & S7 & S8); auto. exists q1. split; auto. cbn. split; auto.
    split; [cbn; congruence|]. split; [cbn; congruence|]. split; [cbn; congruence|]. cbn. rewrite S4, S5, S6, S7, T5, T6, T7. subst m n. auto 10.
  - unfold glpk_set_type, glp_set_col_kind. rewrite range1_ok by lia. eexists. split; [reflexivity|]. rewrite (Nat.add_comm i 1). cbn [plus].
    destruct k; cbn; (split; [|auto]);
      (split; [cbn; auto|]; split; [cbn; auto|]; split; [cbn; auto|]; cbn; split; [auto|]; split; [|split; [auto|]; split; [auto|]]).
    all: try exact H5.
    all: intros j ?; intros.
    all: try (destruct (Nat.eq_dec j i) as [->|]; [rewrite ?upd_same; auto using binary_ok|rewrite !upd_other by lia; auto]).
Qed.
Lemma run_app {P} (f : P -> op -> out P) p o r : run f p (o :: r) = match f p o with Ret q => run f q r | Abort => Abort end.
Proof. unfold run. cbn. destruct (f p o); auto. clear. induction r; cbn; auto. Qed.
Lemma glpk_run_ok m n ops : forall p s, g_rep p s -> s_m s = m -> s_n s = n -> Forall (op_ok m n) ops ->
  exists q, run (glpk_op m n) p ops = Ret q /\ g_rep q (fold_left restate ops s).
Proof.
  induction ops as [|o r IH]; intros p s G E F O; [exists p; auto|]. inversion O; subst.
  destruct (glpk_op_ok _ _ p s o G eq_refl eq_refl H1) as (q & E1 & G' & E2 & E3). rewrite run_app, E1. cbn. apply IH; auto; now rewrite ?E2, ?E3.
Qed.
