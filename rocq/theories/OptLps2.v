From Coq Require Import ZArith Arith List Bool Reals Lra Lia.
From Verif Require Import MatModel MatProofs OptModel OptSpec LaAlg OptProofs OptGlpk OptClp OptLps.
Import ListNotations.
Open Scope R_scope.

Section H.
Context (H : R) (HP : 0 < H) (HD : H <= DBL_MAX).
Lemma rows_hold_same p q x : l_nr q = l_nr p -> l_nc q = l_nc p -> l_type q = l_type p -> l_rh q = l_rh p -> l_mat q = l_mat p -> (rows_hold H q x <-> rows_hold H p x).
Proof. intros A B C D E. unfold rows_hold. rewrite A, B, C, D, E. tauto. Qed.
Lemma lps_finish_ok p n c xl xu : l_nc p = n -> bounds n xl xu -> bounds_within H n xl xu -> ordered n xl xu -> let q := lps_finish p n c xl xu in
  l_max q = l_max p /\ l_nr q = l_nr p /\ l_nc q = n /\ l_int q = l_int p /\ (forall x, rows_hold H q x <-> rows_hold H p x) /\
  (forall j y, (j < n)%nat -> c_between H (l_col q (S j)) y <-> between (xl j) (xu j) y) /\ forall j, (j < n)%nat -> l_obj q (S j) = c j.
Proof using HD.
  intros C B W O. unfold lps_finish. destruct (lps_set_obj_ok p n c C) as (A1 & A2 & A3 & A4 & A5 & A6 & A7 & A8 & A9). set (r := lps_set_obj p n c) in *. clearbody r.
  destruct (lps_set_bnd_ok H HD r n xl xu A3 B W O) as (B1 & B2 & B3 & B4 & B5 & B6 & B7 & B8 & B9). set (q := lps_set_bnd r n xl xu) in *. clearbody q. cbn zeta.
  split; [congruence|]. split; [congruence|]. split; [congruence|]. split; [congruence|]. split; [|split].
  - intros x. apply rows_hold_same; congruence.
  - exact B9.
  - rewrite B7. exact A9.
Qed.
(** the problem before its constraints are set *)
Lemma lps_start k n c xl xu : bounds n xl xu -> bounds_within H n xl xu -> ordered n xl xu ->
  let p := lps_set_obj (lps_set_bnd (l_set_dir (make_lp k n) true) n xl xu) n c in
  l_max p = true /\ l_nr p = k /\ l_nc p = n /\ l_type p = (fun _ => LE) /\ l_rh p = (fun _ => Fin 0) /\ l_mat p = (fun _ _ => 0) /\ l_int p = (fun _ => false).
Proof using HD.
  intros B W O. cbn zeta. destruct (lps_set_bnd_ok H HD (l_set_dir (make_lp k n) true) n xl xu eq_refl B W O) as (B1 & B2 & B3 & B4 & B5 & B6 & B7 & B8 & B9).
  set (q := lps_set_bnd _ n xl xu) in *. clearbody q. cbn in B1, B2, B4, B5, B6, B7, B8.
  destruct (lps_set_obj_ok q n c B3) as (A1 & A2 & A3 & A4 & A5 & A6 & A7 & A8 & A9). set (r := lps_set_obj q n c) in *. clearbody r. repeat split; congruence.
Qed.
Lemma lin_zero n x : lin n (fun _ => 0) x = 0.
Proof. unfold lin. apply bsum_zero. intros. lra. Qed.
Lemma lps_gm_cases asserts m n A lda bl bu c xl xu : bounds m bl bu -> bounds n xl xu -> bounds_within H n xl xu -> ordered n xl xu -> let E := emitted m 0 bl bu in
  exists q, l_max q = true /\ l_nr q = sides m bl bu /\ l_nc q = n /\ (forall j, l_int q j = false) /\
    (forall j y, (j < n)%nat -> c_between H (l_col q (S j)) y <-> between (xl j) (xu j) y) /\ (forall j, (j < n)%nat -> l_obj q (S j) = c j) /\
    (forall x, rows_hold H q x <-> Forall (e_holds H (fun i => lin n (gm A lda i) x)) (firstn (sides m bl bu) E)) /\
    lps_gmcreate asserts m n A lda bl bu c xl xu =
      if negb (Nat.ltb (fixed m bl bu) (frees m bl bu)) && asserts && negb (Nat.eqb (frees m bl bu) (fixed m bl bu)) then Abort else Ret q.
Proof using HP HD.
  intros B C W O E. unfold lps_gmcreate. rewrite count_sides.
  destruct (lps_start (sides m bl bu) n c xl xu C W O) as (P1 & P2 & P3 & P4 & P5 & P6 & P7). set (p := lps_set_obj _ n c) in *. clearbody p. cbn zeta.
  destruct (lps_cstr_ok asserts p m n A lda bl bu P3 B) as (q & F & V & ->). fold E in V |- *. pose proof (emitted_len m bl bu B) as L. fold E in L.
  destruct F as (F1 & F2 & F3 & F4 & F5 & F6). destruct (lps_finish_ok q n c xl xu) as (R1 & R2 & R3 & R4 & R5 & R6 & R7); [congruence|auto|auto|auto|].
  exists (lps_finish q n c xl xu). split; [congruence|]. split; [congruence|]. split; [congruence|]. split; [intros j; rewrite R4, F6, P7; reflexivity|].
  split; [exact R6|]. split; [exact R7|]. split.
  - intros x. rewrite R5. destruct (le_lt_dec (length E) (l_nr p)) as [I|I].
    + rewrite (rows_hold_all H p q n A lda E x) by (auto; repeat split; auto). rewrite firstn_all2 by lia. split; [tauto|]. intros X. split; auto.
      intros i Hi. rewrite P4, P5, P6. rewrite lin_zero. cbn. lra.
    + rewrite (rows_hold_first H p q n A lda E x) by (auto; try lia; repeat split; auto). rewrite P2. tauto.
  - rewrite P2. destruct (Nat.ltb_spec (sides m bl bu) (length E)) as [X|X], (Nat.ltb_spec (fixed m bl bu) (frees m bl bu)) as [Y|Y]; try lia; cbn [bind snd negb andb]; auto.
    destruct (asserts && negb (Nat.eqb (frees m bl bu) (fixed m bl bu))); reflexivity.
Qed.
Lemma lps_gm_ok asserts m n A lda bl bu c xl xu : bounds m bl bu -> bounds_within H m bl bu -> bounds n xl xu -> bounds_within H n xl xu -> ordered n xl xu ->
  (frees m bl bu <= fixed m bl bu)%nat -> (asserts = true -> frees m bl bu = fixed m bl bu) ->
  exists p, lps_gmcreate asserts m n A lda bl bu c xl xu = Ret p /\ l_nr p = sides m bl bu /\ l_rep H p (program m n (gm A lda) bl bu c xl xu).
Proof using HP HD.
  intros B X C W O Le Eq. destruct (lps_gm_cases asserts m n A lda bl bu c xl xu B C W O) as (q & Q1 & Q2 & Q3 & Q4 & Q5 & Q6 & Q7 & Q8).
  exists q. split; [|split; [auto|]].
  - rewrite Q8. destruct asserts; [rewrite (proj2 (Nat.eqb_eq _ _) (Eq eq_refl))|]; cbn; rewrite ?andb_false_r; reflexivity.
  - unfold l_rep. cbn. split; auto. split; auto. split; [|auto]. intros x. rewrite Q7, firstn_all2 by (pose proof (emitted_len m bl bu B); lia). now apply emitted_means.
Qed.
Lemma lps_gm_abort m n A lda bl bu c xl xu : bounds m bl bu -> bounds n xl xu -> bounds_within H n xl xu -> ordered n xl xu ->
  (frees m bl bu < fixed m bl bu)%nat -> lps_gmcreate true m n A lda bl bu c xl xu = Abort.
Proof using HP HD.
  intros B C W O L. destruct (lps_gm_cases true m n A lda bl bu c xl xu B C W O) as (q & Q1 & Q2 & Q3 & Q4 & Q5 & Q6 & Q7 & Q8). rewrite Q8.
  rewrite (proj2 (Nat.ltb_ge _ _)) by lia. rewrite (proj2 (Nat.eqb_neq _ _)) by lia. reflexivity.
Qed.
(** one free row and no equality: the last row, if it has one bound, is lost *)
Lemma lps_gm_lost asserts m n A lda bl bu c xl xu : bounds (S m) bl bu -> bounds_within H (S m) bl bu -> bounds n xl xu -> bounds_within H n xl xu -> ordered n xl xu ->
  frees m bl bu = 1%nat -> fixed m bl bu = 0%nat -> xorb (is_lbound (bl m)) (is_ubound (bu m)) = true ->
  exists p, lps_gmcreate asserts (S m) n A lda bl bu c xl xu = Ret p /\ l_rep H p (program m n (gm A lda) bl bu c xl xu).
Proof using HP HD.
  intros B X C W O Fr Fi One. destruct (lps_gm_cases asserts (S m) n A lda bl bu c xl xu B C W O) as (q & Q1 & Q2 & Q3 & Q4 & Q5 & Q6 & Q7 & Q8).
  assert (B' : bounds m bl bu) by (intros i Hi; apply B; lia). assert (X' : bounds_within H m bl bu) by (intros i Hi; apply X; lia).
  destruct (B m ltac:(lia)) as [L U]. assert (NE : is_eq (bl m) (bu m) = false).
  { destruct (is_eq (bl m) (bu m)) eqn:E; auto. destruct (eq_sides _ _ L U E) as [E1 E2]. rewrite E1, E2 in One. discriminate. }
  assert (Fr' : frees (S m) bl bu = 1%nat). { unfold frees in *. rewrite counted_S, Fr. destruct (is_lbound (bl m)), (is_ubound (bu m)); try discriminate; reflexivity. }
  assert (Fi' : fixed (S m) bl bu = 0%nat). { unfold fixed in *. rewrite counted_S, Fi, NE. reflexivity. }
  assert (Si : sides (S m) bl bu = S (sides m bl bu)). { unfold sides. rewrite !counted_S. destruct (is_lbound (bl m)), (is_ubound (bu m)); try discriminate; cbn; lia. }
  exists q. split; [rewrite Q8, Fr', Fi'; reflexivity|]. unfold l_rep. cbn. split; auto. split; auto. split; [|auto].
  intros x. rewrite Q7, Si, emitted_snoc. pose proof (emitted_len m bl bu B'). cbn [plus]. rewrite firstn_app, firstn_all2 by lia.
  replace (S (sides m bl bu) - length (emitted m 0 bl bu))%nat with 0%nat by lia. cbn [firstn]. rewrite app_nil_r. now apply emitted_means.
Qed.

(** ** Compressed rows *)
Lemma lps_add_ok p n vals cols ptr i t v (Ax := fun x => lin n (crs vals cols ptr i) x) : l_nc p = n -> crs_ok (S i) n cols ptr ->
  let q := add_constraintex p (ptr (i + 1)%nat - ptr i) (fun k => vals (ptr i + k)%nat) (fun k => cols (ptr i + k) + 1)%nat t v in
  l_max q = l_max p /\ l_nc q = n /\ l_int q = l_int p /\ (forall x, rows_hold H q x <-> rows_hold H p x /\ l_holds H t v (Ax x)).
Proof.
  intros C [K1 K2]. cbn zeta. unfold add_constraintex. cbn. split; [auto|]. split; [auto|]. split; [auto|]. intros x. unfold rows_hold. cbn [l_nr l_nc l_type l_rh l_mat].
  assert (X : lin n (fun j => if Nat.eqb (S (l_nr p)) (S (l_nr p)) then sparse 0 (ptr (i + 1)%nat - ptr i) (fun k => (cols (ptr i + k) + 1)%nat) (fun k => vals (ptr i + k)%nat) (S j) else l_mat p (S (l_nr p)) (S j)) x = Ax x).
  { apply lin_ext. intros j Hj. rewrite Nat.eqb_refl. replace (S j) with (j + 1)%nat by lia. apply sparse_crs.
    - now rewrite (Nat.add_comm i 1).
    - intros k Hk k' Hk'. apply (K2 i); auto.
    - intros k Hk. split; reflexivity. }
  rewrite C. split.
  - intros R. split.
    + intros k Hk. specialize (R k ltac:(lia)). rewrite !upd_other in R by lia. rewrite (proj2 (Nat.eqb_neq k (S (l_nr p)))) in R by lia. exact R.
    + specialize (R (S (l_nr p)) ltac:(lia)). rewrite !upd_same in R. rewrite X in R. exact R.
  - intros [R T] k Hk. destruct (Nat.eq_dec k (S (l_nr p))) as [->|].
    + rewrite !upd_same, X. exact T.
    + rewrite !upd_other by lia. rewrite (proj2 (Nat.eqb_neq k (S (l_nr p)))) by lia. apply R. lia.
Qed.
Lemma lps_crs_ok m n vals cols ptr bl bu c xl xu : bounds m bl bu -> bounds_within H m bl bu -> bounds n xl xu -> bounds_within H n xl xu -> ordered n xl xu -> crs_ok m n cols ptr ->
  l_rep H (lps_crscreate m n vals cols ptr bl bu c xl xu) (program m n (crs vals cols ptr) bl bu c xl xu).
Proof using HP HD.
  intros B X C W O [K1 K2]. unfold lps_crscreate.
  assert (K : forall i, (i < m)%nat -> crs_ok (S i) n cols ptr). { intros i Hi. split; [intros a; intros; apply (K1 a); auto; lia|intros a; intros; apply (K2 a); auto; lia]. }
  set (p0 := cloop m _ _).
  assert (G : l_max p0 = true /\ l_nc p0 = n /\ l_int p0 = (fun _ => false) /\ forall x, rows_hold H p0 x <-> forall i, (i < m)%nat -> between (bl i) (bu i) (lin n (crs vals cols ptr i) x)).
  { apply (cloop_inv (fun k q => l_max q = true /\ l_nc q = n /\ l_int q = (fun _ => false) /\ forall x, rows_hold H q x <-> forall i, (i < k)%nat -> between (bl i) (bu i) (lin n (crs vals cols ptr i) x))).
    - repeat (split; [reflexivity|]). intros x. split; [intros; lia|]. intros _ i. cbn. lia.
    - intros i q Hi (G1 & G2 & G3 & G4). destruct (B i Hi) as [L U], (X i Hi) as [WL WU].
      assert (D : forall r, (l_max r = true /\ l_nc r = n /\ l_int r = (fun _ => false) /\ forall x, rows_hold H r x <-> rows_hold H q x /\ between (bl i) (bu i) (lin n (crs vals cols ptr i) x)) ->
        l_max r = true /\ l_nc r = n /\ l_int r = (fun _ => false) /\ forall x, rows_hold H r x <-> forall k, (k < S i)%nat -> between (bl k) (bu k) (lin n (crs vals cols ptr k) x)).
      { intros r (D1 & D2 & D3 & D4). repeat (split; [assumption|]). intros x. rewrite D4, G4. split.
        - intros [Y Z] k Hk. destruct (Nat.eq_dec k i) as [->|]; [exact Z|apply Y; lia].
        - intros Y. split; [intros; apply Y; lia|apply Y; lia]. }
      apply D. clear D. pose proof (fun x => above_within H HD (bl i) (lin n (crs vals cols ptr i) x) WL) as AW. pose proof (fun x => below_within H HD (bu i) (lin n (crs vals cols ptr i) x) WU) as BW.
      unfold between. destruct (is_eq (bl i) (bu i)) eqn:E; [|destruct (is_leq (is_lbound (bl i)) (is_ubound (bu i))) eqn:LL; [|destruct (is_geq (is_lbound (bl i)) (is_ubound (bu i))) eqn:GG]].
      + destruct (lps_add_ok q n vals cols ptr i EQ (bu i) G2 (K i Hi)) as (Q1 & Q2 & Q3 & Q4). split; [rewrite Q1; exact G1|]. split; [exact Q2|]. split; [rewrite Q3; exact G3|]. intros x. rewrite Q4.
        apply is_eq_iff in E as (a & Ea & Eb). rewrite Ea, Eb in *. rewrite eq_bound by auto. cbn. split; [intros [Y [= Z]]; auto|]. intros [Y Z]. split; [auto|congruence].
      + destruct (lps_add_ok q n vals cols ptr i LE (bu i) G2 (K i Hi)) as (Q1 & Q2 & Q3 & Q4). split; [rewrite Q1; exact G1|]. split; [exact Q2|]. split; [rewrite Q3; exact G3|]. intros x. rewrite Q4.
        apply andb_prop in LL as [LL _]. apply negb_true_iff in LL. pose proof (lbound_no (bl i) (lin n (crs vals cols ptr i) x) L LL). cbn [l_holds]. rewrite BW. tauto.
      + destruct (lps_add_ok q n vals cols ptr i GE (bl i) G2 (K i Hi)) as (Q1 & Q2 & Q3 & Q4). split; [rewrite Q1; exact G1|]. split; [exact Q2|]. split; [rewrite Q3; exact G3|]. intros x. rewrite Q4.
        apply andb_prop in GG as [_ GG]. apply negb_true_iff in GG. pose proof (ubound_no (bu i) (lin n (crs vals cols ptr i) x) U GG). cbn [l_holds]. rewrite AW. tauto.
      + destruct (lps_add_ok q n vals cols ptr i LE (bu i) G2 (K i Hi)) as (Q1 & Q2 & Q3 & Q4). cbn zeta in *. set (q1 := add_constraintex q _ _ _ LE (bu i)) in *. clearbody q1.
        destruct (lps_add_ok q1 n vals cols ptr i GE (bl i) Q2 (K i Hi)) as (T1 & T2 & T3 & T4). split; [rewrite T1; congruence|]. split; [exact T2|]. split; [rewrite T3; congruence|]. intros x. rewrite T4, Q4.
        cbn [l_holds]. rewrite AW, BW. tauto. }
  clearbody p0. destruct G as (G1 & G2 & G3 & G4).
  destruct (lps_finish_ok p0 n c xl xu G2 C W O) as (R1 & R2 & R3 & R4 & R5 & R6 & R7). unfold l_rep. cbn. split; [congruence|]. split; [auto|]. split; [intros x; rewrite R5; apply G4|].
  split; [exact R6|]. split; [exact R7|]. intros j Hj. now rewrite R4, G3.
Qed.

(** ** Later calls *)
Lemma lps_op_ok asserts k m n p s o : l_rep H p s -> l_nr p = k -> s_m s = m -> s_n s = n -> op_ok m n o -> op_within H m n o -> op_sides k m n o -> 1 < H ->
  exists q, lps_op asserts m n p o = Ret q /\ l_rep H q (restate s o) /\ l_nr q = k /\ s_m (restate s o) = m /\ s_n (restate s o) = n.
Proof using HP HD.
  intros (H1 & H2 & H3 & H4 & H5 & H6) K E F O W S H1'. subst m n. destruct o; cbn in O, W, S |- *.
  - eexists. split; [reflexivity|]. split; [|auto]. unfold l_rep. cbn. split; auto.
  - destruct (lps_set_obj_ok p (s_n s) c H2) as (A1 & A2 & A3 & A4 & A5 & A6 & A7 & A8 & A9). eexists. split; [reflexivity|]. set (q := lps_set_obj p (s_n s) c) in *. clearbody q.
    split; [|split; [congruence|auto]]. unfold l_rep. cbn. split; [congruence|]. split; [congruence|]. split; [|rewrite A7, A8; auto]. intros x. eapply iff_trans; [|apply H3]. apply rows_hold_same; congruence.
  - destruct (lps_set_bnd_ok H HD p (s_n s) xl xu H2 O W S) as (A1 & A2 & A3 & A4 & A5 & A6 & A7 & A8 & A9). eexists. split; [reflexivity|]. set (q := lps_set_bnd p (s_n s) xl xu) in *. clearbody q.
    split; [|split; [congruence|auto]]. unfold l_rep. cbn. split; [congruence|]. split; [congruence|]. split; [|rewrite A7, A8; auto]. intros x. eapply iff_trans; [|apply H3]. apply rows_hold_same; congruence.
  - destruct S as (S1 & S2 & S3). destruct (lps_cstr_ok asserts p (s_m s) (s_n s) A lda bl bu H2 O) as (q & Fq & V & ->).
    pose proof (emitted_len (s_m s) bl bu O) as L. rewrite S1, S2, S3 in L. rewrite (proj2 (Nat.ltb_ge _ _)) by lia. rewrite S1, S2, Nat.eqb_refl, andb_false_r. cbn.
    exists q. split; auto. pose proof Fq as (F1 & F2 & F3 & F4 & F5 & F6). split; [|split; [congruence|auto]]. unfold l_rep. cbn. split; [congruence|]. split; [congruence|]. rewrite F4, F5, F6. split; [|auto].
    intros x. rewrite (rows_hold_all H p q (s_n s) A lda _ x Fq H2 V) by lia. rewrite emitted_means by auto. split; [tauto|]. intros Y. split; auto. intros i Hi. lia.
  - eexists. split; [reflexivity|]. destruct k0; cbn [lps_set_type restate].
    + unfold set_binary, set_int. rewrite (range1_ok (l_nc p) (i + 1)) by lia. cbn [l_nc]. rewrite range1_ok by (cbn; lia). split; [|auto]. unfold l_rep. cbn. split; [auto|]. split; [auto|]. split; [auto|]. split; [auto|]. split; [auto|].
      intros j Hj. rewrite (Nat.add_comm i 1). cbn. destruct (Nat.eq_dec j i) as [->|]; [now rewrite !upd_same|rewrite !upd_other by lia; auto].
    + unfold set_binary, set_int. rewrite (range1_ok (l_nc p) (i + 1)) by lia. unfold set_bounds. cbn [l_nc]. rewrite range1_ok by (cbn; lia).
      assert (crossed (Fin 0) (Fin 1) = false) as -> by (cbn; destruct (ltb 1 0) eqn:Z; auto; apply ltb_iff in Z; lra). cbn [negb andb]. split; [|auto]. unfold l_rep. cbn. split; [auto|]. split; [auto|].
      split; [auto|]. rewrite (Nat.add_comm i 1). cbn. split; [|split; [auto|]].
      * intros j y Hj. destruct (Nat.eq_dec j i) as [->|]; [rewrite !upd_same|rewrite !upd_other by lia; auto]. unfold c_between, between. cbn [fst snd].
        rewrite above_within, below_within by (auto; cbn; lra). tauto.
      * intros j Hj. destruct (Nat.eq_dec j i) as [->|]; [now rewrite !upd_same|rewrite !upd_other by lia; auto].
    + unfold set_int. rewrite range1_ok by lia. split; [|auto]. unfold l_rep. cbn. split; [auto|]. split; [auto|]. split; [auto|]. split; [auto|]. split; [auto|].
      intros j Hj. rewrite (Nat.add_comm i 1). cbn. destruct (Nat.eq_dec j i) as [->|]; [now rewrite !upd_same|rewrite !upd_other by lia; auto].
Qed.
Lemma lps_run_ok asserts k m n ops : 1 < H -> forall p s, l_rep H p s -> l_nr p = k -> s_m s = m -> s_n s = n -> Forall (op_ok m n) ops -> Forall (op_within H m n) ops -> Forall (op_sides k m n) ops ->
  exists q, run (lps_op asserts m n) p ops = Ret q /\ l_rep H q (fold_left restate ops s).
Proof using HP HD.
  intros H1. induction ops as [|o r IH]; intros p s G K E F O W N; [exists p; auto|]. inversion O; inversion W; inversion N; subst.
  destruct (lps_op_ok asserts _ _ _ p s o G eq_refl eq_refl eq_refl) as (q & E1 & G' & K' & E2 & E3); auto. rewrite run_app, E1. cbn. apply IH; auto.
Qed.
(** a second bound of the only row stays in force when it is dropped *)
Lemma lps_stale asserts n A lda bl bu c xl xu A' lda' u' : bounds 1 bl bu -> bounds_within H 1 bl bu -> bounds n xl xu -> bounds_within H n xl xu -> ordered n xl xu ->
  is_lbound (bl 0%nat) = true -> is_ubound (bu 0%nat) = true -> is_eq (bl 0%nat) (bu 0%nat) = false -> is_ubound u' = true -> high u' -> high_within H u' ->
  exists p q, lps_gmcreate asserts 1 n A lda bl bu c xl xu = Ret p /\ lps_op asserts 1 n p (OpCstr A' lda' (fun _ => NInf) (fun _ => u')) = Ret q /\
    forall x, rows_hold H q x <-> below DBL_MAX u' (lin n (gm A' lda' 0) x) /\ above DBL_MAX (bl 0%nat) (lin n (gm A lda 0) x).
Proof using HP HD.
  intros B X C W O LB UB NE U' HU WU. unfold lps_gmcreate. rewrite count_sides.
  assert (Si : sides 1 bl bu = 2%nat) by (unfold sides, counted; cbn; now rewrite LB, UB). rewrite Si.
  destruct (lps_start 2 n c xl xu C W O) as (P1 & P2 & P3 & P4 & P5 & P6 & P7). set (p := lps_set_obj _ n c) in *. clearbody p. cbn zeta.
  destruct (lps_cstr_ok asserts p 1 n A lda bl bu P3 B) as (q & F & V & ->).
  assert (Em : emitted 1 0 bl bu = [(0%nat, LE, bu 0%nat); (0%nat, GE, bl 0%nat)]) by (cbn; unfold emit1; rewrite LB, UB, NE; reflexivity). rewrite Em in *.
  assert (Fr : frees 1 bl bu = 0%nat) by (unfold frees, counted; cbn; rewrite LB; reflexivity).
  assert (Fi : fixed 1 bl bu = 0%nat) by (unfold fixed, counted; cbn; rewrite NE; reflexivity). rewrite P2, Fr, Fi. cbn [length Nat.ltb Nat.leb Nat.eqb negb]. rewrite andb_false_r. cbn [bind snd].
  pose proof F as (F1 & F2 & F3 & F4 & F5 & F6). destruct (lps_finish_ok q n c xl xu) as (R1 & R2 & R3 & R4 & R5 & R6 & R7); [congruence|auto|auto|auto|].
  assert (RR : l_type (lps_finish q n c xl xu) = l_type q /\ l_rh (lps_finish q n c xl xu) = l_rh q /\ l_mat (lps_finish q n c xl xu) = l_mat q).
  { unfold lps_finish. destruct (lps_set_obj_ok q n c ltac:(congruence)) as (A1 & A2 & A3 & A4 & A5 & A6 & _). set (r := lps_set_obj q n c) in *. clearbody r.
    destruct (lps_set_bnd_ok H HD r n xl xu A3 C W O) as (B1 & B2 & B3 & B4 & B5 & B6 & _). repeat split; congruence. }
  set (r := lps_finish q n c xl xu) in *. clearbody r. destruct RR as (RT & RH & RM).
  assert (B' : bounds 1 (fun _ => NInf) (fun _ => u')). { intros i _. split; [exact I|exact HU]. }
  assert (Si' : sides 1 (fun _ => NInf) (fun _ => u') = 1%nat) by (unfold sides, counted; cbn; now rewrite U').
  destruct (lps_cstr_ok asserts r 1 n A' lda' (fun _ => NInf) (fun _ => u') R3 B') as (t & Ft & Vt & Et).
  assert (Em' : emitted 1 0 (fun _ => NInf) (fun _ => u') = [(0%nat, LE, u')]) by (cbn; unfold emit1; cbn; rewrite U'; reflexivity). rewrite Em' in *.
  exists r, t. split; auto. split.
  - cbn [lps_op]. rewrite Et. rewrite R2, F2, P2. cbn [length Nat.ltb Nat.leb]. replace (frees 1 (fun _ => NInf) (fun _ => u')) with 0%nat by (unfold frees, counted; cbn; rewrite U'; reflexivity).
    replace (fixed 1 (fun _ => NInf) (fun _ => u')) with 0%nat by reflexivity. cbn. rewrite andb_false_r. reflexivity.
  - intros x. rewrite (rows_hold_all H r t n A' lda' _ x Ft R3 Vt) by (cbn; lia). cbn [length]. destruct V as [V _]. destruct (V 1%nat _ ltac:(lia) eq_refl) as (V1 & V2 & V3).
    destruct (X 0%nat ltac:(lia)) as [XL XU]. rewrite R2, F2, P2. split.
    + intros [Y Z]. inversion Y as [|? ? Y1 _]. cbn in Y1. split; [now apply (below_within H HD)|]. specialize (Z 2%nat ltac:(lia)). rewrite RT, RH, RM, V1, V2 in Z. cbn [l_holds] in Z.
      rewrite (lin_ext n _ (gm A lda 0)) in Z by (intros; apply V3; auto). now apply (above_within H HD) in Z.
    + intros [Y Z]. split; [repeat constructor; cbn; now apply (below_within H HD)|]. intros i Hi. replace i with 2%nat by lia. rewrite RT, RH, RM, V1, V2. cbn [l_holds].
      rewrite (lin_ext n _ (gm A lda 0)) by (intros; apply V3; auto). now apply (above_within H HD).
Qed.
End H.
