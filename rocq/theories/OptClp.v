From Coq Require Import ZArith Arith List Bool Reals Lra Lia.
From Verif Require Import MatModel MatProofs OptModel OptSpec LaAlg OptProofs OptGlpk.
Import ListNotations.
Open Scope R_scope.

Section H.
Context (H : R) (HD : H <= DBL_MAX).
Lemma above_within l y : low_within H l -> (above H l y <-> above DBL_MAX l y).
Proof using HD. destruct l; cbn; try tauto. intros [A|A]; lra. Qed.
Lemma below_within u y : high_within H u -> (below H u y <-> below DBL_MAX u y).
Proof using HD. destruct u; cbn; try tauto. intros [A|A]; lra. Qed.
Lemma above_or l y : low l -> low_within H l -> (above H (or_else l (- DBL_MAX)) y <-> above DBL_MAX l y).
Proof using HD. destruct l; cbn; try tauto; intros L [A|A] || intros L A; lra. Qed.
Lemma below_or u y : high u -> high_within H u -> (below H (or_else u DBL_MAX) y <-> below DBL_MAX u y).
Proof using HD. destruct u; cbn; try tauto; intros L [A|A] || intros L A; lra. Qed.
Definition c_between (b : xr * xr) (y : R) : Prop := above H (fst b) y /\ below H (snd b) y.

Lemma clp_set_obj_ok p n c : let q := clp_set_obj p n c in c_dir q = c_dir p /\ c_nr q = c_nr p /\ c_nc q = c_nc p /\ c_row q = c_row p /\ c_col q = c_col p /\ c_mat q = c_mat p /\
  forall j, (j < n)%nat -> c_obj q j = c j.
Proof.
  apply (cloop_inv (fun k q => c_dir q = c_dir p /\ c_nr q = c_nr p /\ c_nc q = c_nc p /\ c_row q = c_row p /\ c_col q = c_col p /\ c_mat q = c_mat p /\ forall j, (j < k)%nat -> c_obj q j = c j)).
  - repeat split; auto; lia.
  - intros j q Hj (H1 & H2 & H3 & H4 & H5 & H6 & H7). cbn. repeat (split; [assumption|]). intros k Hk.
    destruct (Nat.eq_dec k j) as [->|]; [apply upd_same|rewrite upd_other by lia; apply H7; lia].
Qed.
Lemma clp_set_bnd_ok p n xl xu : bounds n xl xu -> bounds_within H n xl xu ->
  let q := clp_set_bnd p n xl xu in c_dir q = c_dir p /\ c_nr q = c_nr p /\ c_nc q = c_nc p /\ c_row q = c_row p /\ c_obj q = c_obj p /\ c_mat q = c_mat p /\
  forall j y, (j < n)%nat -> c_between (c_col q j) y <-> between (xl j) (xu j) y.
Proof using HD.
  intros B W.
  assert (G : let q := clp_set_bnd p n xl xu in c_dir q = c_dir p /\ c_nr q = c_nr p /\ c_nc q = c_nc p /\ c_row q = c_row p /\ c_obj q = c_obj p /\ c_mat q = c_mat p /\
    forall j, (j < n)%nat -> c_col q j = (or_else (xl j) (- DBL_MAX), or_else (xu j) DBL_MAX)).
  { apply (cloop_inv (fun k q => c_dir q = c_dir p /\ c_nr q = c_nr p /\ c_nc q = c_nc p /\ c_row q = c_row p /\ c_obj q = c_obj p /\ c_mat q = c_mat p /\
      forall j, (j < k)%nat -> c_col q j = (or_else (xl j) (- DBL_MAX), or_else (xu j) DBL_MAX))).
    - repeat split; auto; lia.
    - intros j q Hj (H1 & H2 & H3 & H4 & H5 & H6 & H7). cbn. repeat (split; [assumption|]). intros k Hk.
      destruct (Nat.eq_dec k j) as [->|]; [apply upd_same|rewrite upd_other by lia; apply H7; lia]. }
  destruct G as (H1 & H2 & H3 & H4 & H5 & H6 & H7). cbn zeta. repeat (split; [assumption|]).
  intros j y Hj. rewrite H7 by auto. destruct (B j Hj), (W j Hj). unfold c_between, between. cbn [fst snd]. rewrite above_or, below_or by auto. tauto.
Qed.
Lemma clp_set_cstr_bnd_ok p m bl bu : bounds m bl bu -> bounds_within H m bl bu ->
  let q := clp_set_cstr_bnd p m bl bu in c_dir q = c_dir p /\ c_nr q = c_nr p /\ c_nc q = c_nc p /\ c_col q = c_col p /\ c_obj q = c_obj p /\ c_mat q = c_mat p /\
  forall j y, (j < m)%nat -> c_between (c_row q j) y <-> between (bl j) (bu j) y.
Proof using HD.
  intros B W.
  assert (G : let q := clp_set_cstr_bnd p m bl bu in c_dir q = c_dir p /\ c_nr q = c_nr p /\ c_nc q = c_nc p /\ c_col q = c_col p /\ c_obj q = c_obj p /\ c_mat q = c_mat p /\
    forall j, (j < m)%nat -> c_row q j = (or_else (bl j) (- DBL_MAX), or_else (bu j) DBL_MAX)).
  { apply (cloop_inv (fun k q => c_dir q = c_dir p /\ c_nr q = c_nr p /\ c_nc q = c_nc p /\ c_col q = c_col p /\ c_obj q = c_obj p /\ c_mat q = c_mat p /\
      forall j, (j < k)%nat -> c_row q j = (or_else (bl j) (- DBL_MAX), or_else (bu j) DBL_MAX))).
    - repeat split; auto; lia.
    - intros j q Hj (H1 & H2 & H3 & H4 & H5 & H6 & H7). cbn. repeat (split; [assumption|]). intros k Hk.
      destruct (Nat.eq_dec k j) as [->|]; [apply upd_same|rewrite upd_other by lia; apply H7; lia]. }
  destruct G as (H1 & H2 & H3 & H4 & H5 & H6 & H7). cbn zeta. repeat (split; [assumption|]).
  intros j y Hj. rewrite H7 by auto. destruct (B j Hj), (W j Hj). unfold c_between, between. cbn [fst snd]. rewrite above_or, below_or by auto. tauto.
Qed.
Lemma clp_set_mat_ok p m n A lda : let q := clp_set_cstr_mat_gm p m n A lda in c_dir q = c_dir p /\ c_nr q = c_nr p /\ c_nc q = c_nc p /\ c_row q = c_row p /\ c_col q = c_col p /\ c_obj q = c_obj p /\
  forall i j, (i < m)%nat -> (j < n)%nat -> c_mat q i j = gm A lda i j.
Proof.
  apply (cloop_inv (fun k q => c_dir q = c_dir p /\ c_nr q = c_nr p /\ c_nc q = c_nc p /\ c_row q = c_row p /\ c_col q = c_col p /\ c_obj q = c_obj p /\
    forall i j, (i < m)%nat -> (j < k)%nat -> c_mat q i j = gm A lda i j)).
  - repeat split; auto; lia.
  - intros j q Hj (H1 & H2 & H3 & H4 & H5 & H6 & H7).
    pose proof (cloop_inv (fun k r => c_dir r = c_dir p /\ c_nr r = c_nr p /\ c_nc r = c_nc p /\ c_row r = c_row p /\ c_col r = c_col p /\ c_obj r = c_obj p /\
      (forall i, (i < k)%nat -> c_mat r i j = gm A lda i j) /\ forall i b, b <> j -> c_mat r i b = c_mat q i b) (fun i p => clp_modifyCoefficient p i j (A (j * lda + i)%nat)) m q) as G.
    destruct G as (G1 & G2 & G3 & G4 & G5 & G6 & G7 & G8).
    + repeat (split; [assumption|]). split; [lia|auto].
    + intros i r Hi (R1 & R2 & R3 & R4 & R5 & R6 & R7 & R8). cbn. repeat (split; [assumption|]). unfold upd2. split.
      * intros k Hk. rewrite Nat.eqb_refl, andb_true_r. destruct (Nat.eqb_spec k i) as [->|]; [unfold gm; f_equal; lia|apply R7; lia].
      * intros k b Hb. rewrite (proj2 (Nat.eqb_neq b j)) by auto. rewrite andb_false_r. apply R8; auto.
    + cbn. repeat (split; [assumption|]). intros i k Hi Hk. destruct (Nat.eq_dec k j) as [->|]; [apply G7; auto|]. rewrite G8 by auto. apply H7; lia.
Qed.

Definition c_rep (p : clp) (s : stmt) : Prop :=
  c_dir p = (if s_max s then - (1) else 1) /\ c_nr p = s_m s /\ c_nc p = s_n s /\
  (forall i y, (i < s_m s)%nat -> c_between (c_row p i) y <-> between (s_bl s i) (s_bu s i) y) /\
  (forall j y, (j < s_n s)%nat -> c_between (c_col p j) y <-> between (s_xl s j) (s_xu s j) y) /\
  (forall i j, (i < s_m s)%nat -> (j < s_n s)%nat -> c_mat p i j = s_A s i j) /\
  (forall j, (j < s_n s)%nat -> c_obj p j = s_c s j) /\
  forall j, s_int s j = false.
Lemma c_rep_means p s : c_rep p s -> clp_means H p s.
Proof.
  intros (H1 & H2 & H3 & H4 & H5 & H6 & H7 & H8). split; auto. split; auto. split.
  - intros x. split; intros [R C]; split.
    + intros i Hi. specialize (R i ltac:(lia)). cbn zeta in R. rewrite H3 in R. rewrite (lin_ext _ _ (s_A s i)) in R by (intros; apply H6; auto). now apply H4 in R.
    + intros j Hj. specialize (C j ltac:(lia)). apply H5 in C as [C D]; auto. split; [exact C|]. split; [exact D|]. rewrite H8. discriminate.
    + intros i Hi. cbn zeta. rewrite H3. rewrite (lin_ext _ _ (s_A s i)) by (intros; apply H6; auto; lia). apply H4; [lia|]. apply R. lia.
    + intros j Hj. destruct (C j ltac:(lia)) as (A & B & D). apply H5; [lia|]. split; auto.
  - intros x. unfold c_objective, s_objective. rewrite H3. apply lin_ext. auto.
Qed.
Lemma clp_gm_ok m n A lda bl bu c xl xu : bounds m bl bu -> bounds n xl xu -> bounds_within H m bl bu -> bounds_within H n xl xu ->
  c_rep (clp_gmcreate m n A lda bl bu c xl xu) (program m n (gm A lda) bl bu c xl xu).
Proof using HD.
  intros B C W X. unfold clp_gmcreate.
  set (p0 := cloop n _ _).
  assert (G : c_nr p0 = m /\ c_nc p0 = n /\ forall i j, (i < m)%nat -> (j < n)%nat -> c_mat p0 i j = gm A lda i j).
  { apply (cloop_inv (fun k q => c_nr q = m /\ c_nc q = k /\ forall i j, (i < m)%nat -> (j < k)%nat -> c_mat q i j = gm A lda i j)).
    - repeat split; auto; lia.
    - intros j q Hj (G1 & G2 & G3). cbn. repeat split; [auto|auto|]. intros i k Hi Hk. rewrite G2. destruct (Nat.eqb_spec k j) as [->|]; [|apply G3; auto; lia].
      unfold gm. rewrite (sparse_at 0 m (fun i => i) (fun i => A (j * lda + i)%nat) i) by (intros; lia). f_equal. lia. }
  clearbody p0. destruct G as (G1 & G2 & G3).
  destruct (clp_set_bnd_ok p0 n xl xu C X) as (S1 & S2 & S3 & S4 & S5 & S6 & S7). set (p1 := clp_set_bnd p0 n xl xu) in *. clearbody p1.
  destruct (clp_set_obj_ok p1 n c) as (R1 & R2 & R3 & R4 & R5 & R6 & R7). set (p2 := clp_set_obj p1 n c) in *. clearbody p2.
  destruct (clp_set_cstr_bnd_ok p2 m bl bu B W) as (T1 & T2 & T3 & T4 & T5 & T6 & T7). set (p3 := clp_set_cstr_bnd p2 m bl bu) in *. clearbody p3.
  unfold c_rep. cbn. split; auto. split; [congruence|]. split; [congruence|]. rewrite T4, T5, T6, R5, R6, S6. auto 10.
Qed.
Lemma clp_crs_ok m n vals cols ptr bl bu c xl xu : bounds m bl bu -> bounds n xl xu -> bounds_within H m bl bu -> bounds_within H n xl xu -> crs_ok m n cols ptr ->
  c_rep (clp_crscreate m n vals cols ptr bl bu c xl xu) (program m n (crs vals cols ptr) bl bu c xl xu).
Proof using HD.
  intros B C W X [K1 K2]. unfold clp_crscreate.
  set (p0 := cloop m _ _).
  assert (G : c_nr p0 = m /\ c_nc p0 = n /\ (forall i, (i < m)%nat -> c_row p0 i = (bl i, bu i)) /\ forall i j, (i < m)%nat -> (j < n)%nat -> c_mat p0 i j = crs vals cols ptr i j).
  { apply (cloop_inv (fun k q => c_nr q = k /\ c_nc q = n /\ (forall i, (i < k)%nat -> c_row q i = (bl i, bu i)) /\ forall i j, (i < k)%nat -> (j < n)%nat -> c_mat q i j = crs vals cols ptr i j)).
    - repeat split; auto; lia.
    - intros i q Hi (G1 & G2 & G3 & G4). cbn. rewrite G1. split; [auto|]. split; [auto|]. split.
      + intros k Hk. destruct (Nat.eq_dec k i) as [->|]; [apply upd_same|rewrite upd_other by lia; apply G3; lia].
      + intros k j Hk Hj. destruct (Nat.eqb_spec k i) as [->|]; [|apply G4; auto; lia].
        rewrite <- (Nat.add_0_r j) at 1. apply sparse_crs.
        * now rewrite (Nat.add_comm i 1).
        * intros. apply (K2 i); auto.
        * intros k Hk'. cbn. split; [lia|auto]. }
  clearbody p0. destruct G as (G1 & G2 & G3 & G4). unfold c_rep. cbn. split; auto. split; auto. split; auto. split; [|split; [|split; [|split]]]; auto.
  - intros i y Hi. rewrite G3 by auto. destruct (W i Hi). unfold c_between, between. cbn [fst snd]. rewrite above_within, below_within by auto. tauto.
  - intros j y Hj. destruct (X j Hj). unfold c_between, between. cbn [fst snd]. rewrite above_within, below_within by auto. tauto.
Qed.
Lemma clp_op_ok m n p s o : c_rep p s -> s_m s = m -> s_n s = n -> op_ok m n o -> op_within H m n o -> not_type o ->
  c_rep (clp_op m n p o) (restate s o) /\ s_m (restate s o) = m /\ s_n (restate s o) = n.
Proof using HD.
  intros (H1 & H2 & H3 & H4 & H5 & H6 & H7 & H8) E F O W N. destruct o; cbn in O, W, N |- *; try contradiction; subst m n.
  - split; [|auto]. unfold c_rep. cbn. auto 10.
  - destruct (clp_set_obj_ok p (s_n s) c) as (R1 & R2 & R3 & R4 & R5 & R6 & R7). split; [|auto]. unfold c_rep. cbn.
    rewrite R1, R2, R3, R4, R5, R6. auto 10.
  - destruct (clp_set_bnd_ok p (s_n s) xl xu O W) as (R1 & R2 & R3 & R4 & R5 & R6 & R7). split; [|auto]. unfold c_rep. cbn.
    rewrite R1, R2, R3, R4, R5, R6. auto 10.
  - unfold clp_set_cstr_gm. destruct (clp_set_mat_ok p (s_m s) (s_n s) A lda) as (R1 & R2 & R3 & R4 & R5 & R6 & R7). set (q := clp_set_cstr_mat_gm p _ _ A lda) in *. clearbody q.
    destruct (clp_set_cstr_bnd_ok q (s_m s) bl bu O W) as (T1 & T2 & T3 & T4 & T5 & T6 & T7). split; [|auto]. unfold c_rep. cbn.
    rewrite T1, T2, T3, T4, T5, T6, R1, R2, R3, R5, R6. auto 10.
Qed.
Lemma clp_run_ok m n ops : forall p s, c_rep p s -> s_m s = m -> s_n s = n -> Forall (op_ok m n) ops -> Forall (op_within H m n) ops -> Forall not_type ops ->
  c_rep (fold_left (clp_op m n) ops p) (fold_left restate ops s).
Proof using HD.
  induction ops as [|o r IH]; intros p s G E F O W N; [exact G|]. inversion O; inversion W; inversion N; subst. cbn.
  destruct (clp_op_ok _ _ p s o G eq_refl eq_refl) as (G' & E2 & E3); try assumption. apply IH; auto.
Qed.
End H.
