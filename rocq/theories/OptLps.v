From Coq Require Import ZArith Arith List Bool Reals Lra Lia.
From Verif Require Import MatModel MatProofs OptModel OptSpec LaAlg OptProofs OptGlpk OptClp.
Import ListNotations.
Open Scope R_scope.

(** ** The constraints as a list *)
Definition cstr := (nat * ltype * xr)%type.
Definition emit1 (i : nat) (l u : xr) : list cstr :=
  let lb := is_lbound l in let ub := is_ubound u in
  if is_free lb ub then [(i, FR, Fin 0)] else if is_eq l u then [(i, EQ, u)] else if is_leq lb ub then [(i, LE, u)] else if is_geq lb ub then [(i, GE, l)] else [(i, LE, u); (i, GE, l)].
Fixpoint emitted (todo i : nat) (bl bu : nat -> xr) : list cstr := match todo with O => [] | S t => emit1 i (bl i) (bu i) ++ emitted t (S i) bl bu end.
Fixpoint emit_rows (E : list cstr) (p : lps) (n : nat) (A : nat -> R) (lda ilp : nat) : lps * nat * bool :=
  match E with
  | [] => (p, ilp, false)
  | (i, t, v) :: r => let '(q, ok) := set_row p t n (fun k => A (i + k)%nat) lda ilp v in if ok then emit_rows r q n A lda (S ilp) else (q, ilp, true)
  end.
Lemma rows_gm_emit todo : forall i p n A lda bl bu ilp, rows_gm todo i p n A lda bl bu ilp = emit_rows (emitted todo i bl bu) p n A lda ilp.
Proof.
  induction todo as [|todo IH]; intros; [reflexivity|]. cbn [rows_gm emitted]. unfold emit1.
  destruct (is_free _ _); [|destruct (is_eq _ _); [|destruct (is_leq _ _); [|destruct (is_geq _ _)]]]; cbn [app emit_rows];
    destruct (set_row _ _ _ _ _ _ _) as [q []]; auto.
  destruct (set_row _ _ _ _ _ _ _) as [q' []]; auto.
Qed.

(** ** Writing them into the problem *)
Definition l_frame (p q : lps) : Prop := l_max q = l_max p /\ l_nr q = l_nr p /\ l_nc q = l_nc p /\ l_col q = l_col p /\ l_obj q = l_obj p /\ l_int q = l_int p.
Definition row_is (p : lps) (n : nat) (A : nat -> R) (lda k : nat) (e : cstr) : Prop :=
  let '(i, t, v) := e in l_type p k = t /\ l_rh p k = v /\ forall j, (j < n)%nat -> l_mat p k (S j) = gm A lda i j.
Definition row_same (p q : lps) (k : nat) : Prop := l_type q k = l_type p k /\ l_rh q k = l_rh p k /\ forall j, l_mat q k j = l_mat p k j.
Lemma row_same_trans p q r k : row_same p q k -> row_same q r k -> row_same p r k.
Proof. intros (A & B & C) (D & E & F). split; [congruence|]. split; [congruence|]. intros. now rewrite F. Qed.
Lemma row_is_same p q n A lda k e : row_same p q k -> row_is p n A lda k e -> row_is q n A lda k e.
Proof. destruct e as [[i t] v]. intros (X & Y & Z) (B & C & D). split; [congruence|]. split; [congruence|]. intros. rewrite Z. auto. Qed.
Lemma l_frame_trans p q r : l_frame p q -> l_frame q r -> l_frame p r.
Proof. intros (A & B & C & D & E & F) (G & H & I & J & K & L). repeat split; congruence. Qed.
Lemma set_row_in p t n i A lda ilp v : (1 <= ilp <= l_nr p)%nat -> l_nc p = n -> exists q, set_row p t n (fun k => A (i + k)%nat) lda ilp v = (q, true) /\
  l_frame p q /\ row_is q n A lda ilp (i, t, v) /\ forall k, k <> ilp -> row_same p q k.
Proof.
  intros R C. unfold set_row.
  pose proof (cloop_inv (fun c q => l_frame p q /\ l_type q = l_type p /\ l_rh q = l_rh p /\ (forall j, (j < c)%nat -> l_mat q ilp (S j) = gm A lda i j) /\ forall k j, k <> ilp -> l_mat q k j = l_mat p k j)
    (fun j p => set_mat p ilp (1 + j) (A (i + j * lda)%nat)) n p) as G.
  set (q := cloop n _ p) in *.
  destruct G as (G1 & G2 & G3 & G4 & G5).
  - split; [repeat split|]. split; auto. split; auto. split; [lia|auto].
  - intros j r Hj (G1 & G2 & G3 & G4 & G5). unfold set_mat. destruct G1 as (F1 & F2 & F3 & F4 & F5 & F6).
    rewrite !range1_ok by lia. cbn [andb]. split; [repeat split; cbn; auto|]. cbn. unfold upd2. repeat (split; [assumption|]). split.
    + intros k Hk. rewrite Nat.eqb_refl. cbn. destruct (Nat.eqb_spec k j) as [->|]; [reflexivity|apply G4; lia].
    + intros k b Hk. rewrite (proj2 (Nat.eqb_neq k ilp)) by auto. cbn. apply G5; auto.
  - clearbody q. destruct G1 as (F1 & F2 & F3 & F4 & F5 & F6). unfold set_rh. rewrite range1_ok by lia. unfold set_constr_type. cbn [l_nr]. rewrite range1_ok by lia. eexists. split; [reflexivity|].
    split; [repeat split; cbn; auto|]. split.
    + split; [apply upd_same|]. split; [apply upd_same|]. cbn. auto.
    + intros k Hk. split; [cbn; rewrite upd_other by auto; congruence|]. split; [cbn; rewrite upd_other by auto; congruence|]. cbn. auto.
Qed.
Lemma set_row_out p t n A lda ilp v : (l_nr p < ilp)%nat -> set_row p t n A lda ilp v = (p, false).
Proof.
  intros H. unfold set_row. assert (G : cloop n (fun j p => set_mat p ilp (1 + j) (A (j * lda)%nat)) p = p).
  { apply (cloop_inv (fun _ q => q = p)); auto. intros j q _ ->. unfold set_mat. now rewrite range1_no by auto. }
  rewrite G. unfold set_rh. rewrite range1_no by auto. unfold set_constr_type. rewrite range1_no by auto. reflexivity.
Qed.
Lemma emit_rows_ok n A lda E : forall p ilp, l_nc p = n -> (1 <= ilp)%nat ->
  exists q ilp' err, emit_rows E p n A lda ilp = (q, ilp', err) /\ l_frame p q /\
    (err = false -> (ilp' = ilp + length E)%nat) /\ (err = true <-> (E <> [] /\ l_nr p + 1 < ilp + length E)%nat) /\
    (forall k e, (ilp + k <= l_nr p)%nat -> nth_error E k = Some e -> row_is q n A lda (ilp + k) e) /\
    forall k, (k < ilp \/ ilp + length E <= k)%nat -> row_same p q k.
Proof.
  induction E as [|[[i t] v] r IH]; intros p ilp C L.
  - exists p, ilp, false. split; auto. split; [repeat split|]. split; [cbn; lia|]. split; [split; [discriminate|tauto]|]. split; [intros [] e _ H; discriminate H|]. intros. repeat split.
  - cbn [emit_rows]. destruct (le_lt_dec ilp (l_nr p)) as [I|O].
    + destruct (set_row_in p t n i A lda ilp v) as (q & -> & F & R & SM); auto; try lia.
      destruct F as (F1 & F2 & F3 & F4). destruct (IH q (S ilp)) as (q' & ilp' & err & -> & G1 & G2 & G3 & G4 & G5); [congruence|lia|].
      exists q', ilp', err. split; auto. split; [eapply l_frame_trans; [|apply G1]; split; auto|].
      cbn [length]. split; [intros X; specialize (G2 X); lia|]. split; [|split].
      * rewrite G3, F2. split; [intros [_ X]; split; [discriminate|lia]|]. intros [_ X]. split; [|lia]. intros ->. cbn in X. lia.
      * intros [|k] e Hk He; cbn in He.
        -- injection He as <-. rewrite Nat.add_0_r. eapply row_is_same; [apply G5; lia|exact R].
        -- replace (ilp + S k)%nat with (S ilp + k)%nat by lia. apply G4; auto. lia.
      * intros k Hk. eapply row_same_trans; [apply SM; lia|apply G5; lia].
    + rewrite set_row_out by auto. exists p, ilp, true. split; auto. split; [repeat split|]. split; [discriminate|]. split; [|split].
      * cbn [length]. split; [intros _; split; [discriminate|lia]|auto].
      * intros k e Hk. lia.
      * intros. repeat split.
Qed.

(** ** Counting *)
Lemma counted_S n f : counted (S n) f = (counted n f + if f n then 1 else 0)%nat.
Proof. unfold counted. rewrite seq_S, filter_app, app_length. cbn. destruct (f n); reflexivity. Qed.
Lemma count_sides m bl bu : count_rows m bl bu = sides m bl bu.
Proof.
  unfold count_rows. induction m as [|m IH]; [reflexivity|]. unfold cloop in *. rewrite seq_S, fold_left_app, IH. cbn [fold_left]. unfold sides. rewrite !counted_S.
  unfold is_free, is_bound. cbn [plus]. destruct (is_lbound (bl m)), (is_ubound (bu m)); cbn; lia.
Qed.
Lemma emitted_snoc todo : forall i bl bu, emitted (S todo) i bl bu = emitted todo i bl bu ++ emit1 (i + todo) (bl (i + todo)%nat) (bu (i + todo)%nat).
Proof.
  induction todo as [|t IH]; intros i bl bu; [cbn; now rewrite Nat.add_0_r, app_nil_r|].
  change (emitted (S (S t)) i bl bu) with (emit1 i (bl i) (bu i) ++ emitted (S t) (S i) bl bu). rewrite IH. cbn [emitted]. rewrite app_assoc. now replace (S i + t)%nat with (i + S t)%nat by lia.
Qed.
Lemma eq_sides l u : low l -> high u -> is_eq l u = true -> is_lbound l = true /\ is_ubound u = true.
Proof. intros L U E. apply is_eq_iff in E as (a & -> & ->). cbn in *. split; apply ltb_iff; auto. Qed.
Lemma emit1_len i l u : low l -> high u -> (length (emit1 i l u) + (if is_eq l u then 1 else 0) =
  (if is_lbound l then 1 else 0) + (if is_ubound u then 1 else 0) + (if negb (is_lbound l) && negb (is_ubound u) then 1 else 0))%nat.
Proof.
  intros L U. unfold emit1. destruct (is_eq l u) eqn:E.
  - destruct (eq_sides l u L U E) as [-> ->]. reflexivity.
  - destruct (is_lbound l), (is_ubound u); reflexivity.
Qed.
Lemma emitted_len m bl bu : bounds m bl bu -> (length (emitted m 0 bl bu) + fixed m bl bu = sides m bl bu + frees m bl bu)%nat.
Proof.
  induction m as [|m IH]; intros B; [reflexivity|]. rewrite emitted_snoc, app_length. cbn [plus]. unfold fixed, sides, frees in *. rewrite !counted_S.
  destruct (B m ltac:(lia)) as [L U]. pose proof (emit1_len m (bl m) (bu m) L U) as E. specialize (IH ltac:(intros i Hi; apply B; lia)). lia.
Qed.

(** ** Their meaning *)
Section H.
Context (H : R) (HP : 0 < H) (HD : H <= DBL_MAX).
Definition e_holds (Ax : nat -> R) (e : cstr) : Prop := let '(i, t, v) := e in l_holds H t v (Ax i).
Lemma emit1_means Ax i l u : low l -> high u -> low_within H l -> high_within H u -> (Forall (e_holds Ax) (emit1 i l u) <-> between l u (Ax i)).
Proof using HD.
  intros L U WL WU. unfold emit1, between. rewrite <- (above_within H HD l), <- (below_within H HD u) by auto.
  destruct (is_free _ _) eqn:Fr.
  - apply andb_prop in Fr as [F1 F2]. apply negb_true_iff in F1, F2. rewrite (above_within H HD l), (below_within H HD u) by auto.
    pose proof (lbound_no l (Ax i) L F1). pose proof (ubound_no u (Ax i) U F2). split; [auto|]. intros _. repeat constructor.
  - destruct (is_eq l u) eqn:E.
    + apply is_eq_iff in E as (a & -> & ->). rewrite (above_within H HD), (below_within H HD) by auto. rewrite eq_bound by auto.
      split; [intros F; inversion F as [|? ? X]; cbn in X; congruence|]. intros X. constructor; [cbn; congruence|constructor].
    + destruct (is_lbound l) eqn:B, (is_ubound u) eqn:C; cbn in Fr |- *; try discriminate.
      * split; [intros F; inversion F as [|? ? X Y]; inversion Y as [|? ? X' Y']; cbn in *; auto|]. intros [X Y]. repeat constructor; auto.
      * assert (below H u (Ax i)) by (apply below_within; auto; now apply ubound_no).
        split; [intros F; inversion F as [|? ? X Y]; cbn in *; auto|]. intros [X Y]. repeat constructor; auto.
      * assert (above H l (Ax i)) by (apply above_within; auto; now apply lbound_no).
        split; [intros F; inversion F as [|? ? X Y]; cbn in *; auto|]. intros [X Y]. repeat constructor; auto.
Qed.
Lemma emitted_means Ax m bl bu : bounds m bl bu -> bounds_within H m bl bu -> (Forall (e_holds Ax) (emitted m 0 bl bu) <-> forall i, (i < m)%nat -> between (bl i) (bu i) (Ax i)).
Proof using HD.
  induction m as [|m IH]; intros B W; [cbn; split; [lia|constructor]|]. rewrite emitted_snoc, Forall_app. cbn [plus].
  destruct (B m ltac:(lia)) as [L U], (W m ltac:(lia)) as [WL WU]. rewrite emit1_means by auto. rewrite IH by (intros i Hi; (apply B || apply W); lia). split.
  - intros [X Y] i Hi. destruct (Nat.eq_dec i m) as [->|]; [auto|apply X; lia].
  - intros X. split; [intros; apply X; lia|apply X; lia].
Qed.
Definition rows_hold (p : lps) (x : nat -> R) : Prop := forall i, (1 <= i <= l_nr p)%nat -> l_holds H (l_type p i) (l_rh p i) (lin (l_nc p) (fun j => l_mat p i (S j)) x).
Definition l_rep (p : lps) (s : stmt) : Prop :=
  l_max p = s_max s /\ l_nc p = s_n s /\
  (forall x, rows_hold p x <-> forall i, (i < s_m s)%nat -> between (s_bl s i) (s_bu s i) (lin (s_n s) (s_A s i) x)) /\
  (forall j y, (j < s_n s)%nat -> c_between H (l_col p (S j)) y <-> between (s_xl s j) (s_xu s j) y) /\
  (forall j, (j < s_n s)%nat -> l_obj p (S j) = s_c s j) /\
  forall j, (j < s_n s)%nat -> l_int p (S j) = s_int s j.
Lemma l_rep_means p s : l_rep p s -> lps_means H p s.
Proof.
  intros (H1 & H2 & H3 & H4 & H5 & H6). split; auto. split; auto. split.
  - intros x. split; intros [R C]; split.
    + intros i Hi. pose proof (proj1 (H3 x) R) as R'. exact (R' i Hi).
    + intros j Hj. destruct (C (S j) ltac:(lia)) as (C1 & C2 & C3). cbn [Nat.sub] in *. rewrite Nat.sub_0_r in *. rewrite H6 in C3 by auto.
      assert (X : c_between H (l_col p (S j)) (x j)) by (split; auto). apply H4 in X as [X Y]; auto.
    + apply (proj2 (H3 x)). intros i Hi. split; apply (R i Hi).
    + intros j Hj. destruct j as [|j]; [lia|]. cbn [Nat.sub]. rewrite Nat.sub_0_r. destruct (C j ltac:(lia)) as (C1 & C2 & C3). rewrite H6 by lia.
      assert (X : c_between H (l_col p (S j)) (x j)) by (apply H4; [lia|split; auto]). destruct X. auto.
  - intros x. unfold l_objective, s_objective. rewrite H2. apply lin_ext. auto.
Qed.

Lemma lps_set_obj_ok p n c : l_nc p = n -> let q := lps_set_obj p n c in l_max q = l_max p /\ l_nr q = l_nr p /\ l_nc q = n /\ l_type q = l_type p /\ l_rh q = l_rh p /\ l_mat q = l_mat p /\ l_col q = l_col p /\ l_int q = l_int p /\
  forall j, (j < n)%nat -> l_obj q (S j) = c j.
Proof.
  intros C. apply (cloop_inv (fun k q => l_max q = l_max p /\ l_nr q = l_nr p /\ l_nc q = n /\ l_type q = l_type p /\ l_rh q = l_rh p /\ l_mat q = l_mat p /\ l_col q = l_col p /\ l_int q = l_int p /\
    forall j, (j < k)%nat -> l_obj q (S j) = c j)).
  - repeat split; auto; lia.
  - intros j q Hj (H1 & H2 & H3 & H4 & H5 & H6 & H7 & H8 & H9). unfold l_set_obj1. rewrite range1_ok by lia. cbn. repeat (split; [assumption|]).
    intros k Hk. destruct (Nat.eq_dec k j) as [->|]; [apply upd_same|rewrite upd_other by lia; apply H9; lia].
Qed.
Lemma not_crossed n xl xu j : bounds n xl xu -> ordered n xl xu -> (j < n)%nat -> crossed (xl j) (xu j) = false.
Proof.
  intros B O Hj. destruct (B j Hj) as [L U]. specialize (O j). destruct (xl j) as [a| | |], (xu j) as [b| | |]; cbn in *; try contradiction; auto.
  specialize (O a b Hj eq_refl eq_refl). destruct (ltb b a) eqn:E; auto. apply ltb_iff in E. lra.
Qed.
Lemma lps_set_bnd_ok p n xl xu : l_nc p = n -> bounds n xl xu -> bounds_within H n xl xu -> ordered n xl xu -> let q := lps_set_bnd p n xl xu in
  l_max q = l_max p /\ l_nr q = l_nr p /\ l_nc q = n /\ l_type q = l_type p /\ l_rh q = l_rh p /\ l_mat q = l_mat p /\ l_obj q = l_obj p /\ l_int q = l_int p /\
  forall j y, (j < n)%nat -> c_between H (l_col q (S j)) y <-> between (xl j) (xu j) y.
Proof using HD.
  intros C B W O.
  assert (G : let q := lps_set_bnd p n xl xu in l_max q = l_max p /\ l_nr q = l_nr p /\ l_nc q = n /\ l_type q = l_type p /\ l_rh q = l_rh p /\ l_mat q = l_mat p /\ l_obj q = l_obj p /\ l_int q = l_int p /\
    forall j, (j < n)%nat -> l_col q (S j) = (xl j, xu j)).
  { apply (cloop_inv (fun k q => l_max q = l_max p /\ l_nr q = l_nr p /\ l_nc q = n /\ l_type q = l_type p /\ l_rh q = l_rh p /\ l_mat q = l_mat p /\ l_obj q = l_obj p /\ l_int q = l_int p /\
      forall j, (j < k)%nat -> l_col q (S j) = (xl j, xu j))).
    - repeat split; auto; lia.
    - intros j q Hj (H1 & H2 & H3 & H4 & H5 & H6 & H7 & H8 & H9). unfold set_bounds. rewrite range1_ok by lia. rewrite (not_crossed n) by auto. cbn. repeat (split; [assumption|]).
      intros k Hk. destruct (Nat.eq_dec k j) as [->|]; [apply upd_same|rewrite upd_other by lia; apply H9; lia]. }
  destruct G as (H1 & H2 & H3 & H4 & H5 & H6 & H7 & H8 & H9). cbn zeta. repeat (split; [assumption|]). intros j y Hj. rewrite H9 by auto. destruct (W j Hj).
  unfold c_between, between. cbn [fst snd]. rewrite (above_within H HD), (below_within H HD) by auto. tauto.
Qed.
(** the first [k] constraints are the rows of the problem *)
Definition cover (p q : lps) (n : nat) (A : nat -> R) (lda : nat) (E : list cstr) : Prop :=
  (forall k e, (S k <= l_nr p)%nat -> nth_error E k = Some e -> row_is q n A lda (S k) e) /\
  forall k, (S (length E) <= k)%nat -> row_same p q k.
Lemma rows_hold_first p q n A lda E x : l_frame p q -> l_nc p = n -> cover p q n A lda E -> (l_nr p <= length E)%nat ->
  (rows_hold q x <-> Forall (e_holds (fun i => lin n (gm A lda i) x)) (firstn (l_nr p) E)).
Proof.
  intros (F1 & F2 & F3 & F4) C [V _] L. unfold rows_hold. rewrite F2, F3, C, Forall_forall. split.
  - intros R e He. apply In_nth_error in He as (k & He).
    assert (Hk : (k < l_nr p)%nat). { assert (k < length (firstn (l_nr p) E))%nat by (apply nth_error_Some; congruence). rewrite firstn_length in *. lia. }
    assert (He' : nth_error E k = Some e). { rewrite <- (firstn_skipn (l_nr p) E). rewrite nth_error_app1; auto. apply nth_error_Some. congruence. }
    specialize (V k e ltac:(lia) He'). specialize (R (S k) ltac:(lia)). destruct e as [[i t] v]. destruct V as (V1 & V2 & V3). cbn. rewrite V1, V2 in R.
    erewrite lin_ext in R; [exact R|]. auto.
  - intros R i Hi. destruct i as [|k]; [lia|]. destruct (nth_error E k) as [e|] eqn:He; [|apply nth_error_None in He; lia].
    specialize (V k e ltac:(lia) He). assert (In e (firstn (l_nr p) E)).
    { apply (nth_error_In _ k). rewrite <- (firstn_skipn (l_nr p) E), nth_error_app1 in He; auto. rewrite firstn_length. lia. }
    specialize (R e H0). destruct e as [[i t] v]. destruct V as (V1 & V2 & V3). cbn in R. rewrite V1, V2. erewrite lin_ext; [exact R|]. auto.
Qed.
Lemma rows_hold_all p q n A lda E x : l_frame p q -> l_nc p = n -> cover p q n A lda E -> (length E <= l_nr p)%nat ->
  (rows_hold q x <-> Forall (e_holds (fun i => lin n (gm A lda i) x)) E /\
     forall i, (length E < i <= l_nr p)%nat -> l_holds H (l_type p i) (l_rh p i) (lin n (fun j => l_mat p i (S j)) x)).
Proof.
  intros (F1 & F2 & F3 & F4) C [V SM] L. unfold rows_hold. rewrite F2, F3, C, Forall_forall. split.
  - intros R. split.
    + intros e He. apply In_nth_error in He as (k & He). assert (Hk : (k < length E)%nat) by (apply nth_error_Some; congruence).
      specialize (V k e ltac:(lia) He). specialize (R (S k) ltac:(lia)). destruct e as [[i t] v]. destruct V as (V1 & V2 & V3). cbn. rewrite V1, V2 in R.
      erewrite lin_ext in R; [exact R|]. auto.
    + intros i Hi. destruct (SM i ltac:(lia)) as (S1 & S2 & S3). specialize (R i ltac:(lia)). rewrite S1, S2 in R. erewrite lin_ext in R; [exact R|]. intros. apply S3.
  - intros [R T] i Hi. destruct (le_lt_dec i (length E)).
    + destruct i as [|k]; [lia|]. destruct (nth_error E k) as [e|] eqn:He; [|apply nth_error_None in He; lia].
      specialize (V k e ltac:(lia) He). apply nth_error_In in He. specialize (R e He). destruct e as [[i t] v]. destruct V as (V1 & V2 & V3). cbn in R. rewrite V1, V2. erewrite lin_ext; [exact R|]. auto.
    + destruct (SM i ltac:(lia)) as (S1 & S2 & S3). rewrite S1, S2. erewrite lin_ext; [apply T; lia|]. intros. apply S3.
Qed.
Lemma lps_cstr_ok asserts p m n A lda bl bu : l_nc p = n -> bounds m bl bu -> let E := emitted m 0 bl bu in
  exists q, l_frame p q /\ cover p q n A lda E /\
  lps_set_cstr_gm asserts p m n A lda bl bu = if Nat.ltb (l_nr p) (length E) then Ret ((-1)%Z, q) else if asserts && negb (Nat.eqb (frees m bl bu) (fixed m bl bu)) then Abort else Ret (0%Z, q).
Proof.
  intros C B E. unfold lps_set_cstr_gm. rewrite rows_gm_emit. fold E. destruct (emit_rows_ok n A lda E p 1 C ltac:(lia)) as (q & ilp & err & -> & F & G1 & G2 & G3 & G4).
  exists q. split; auto. split.
  - split; [intros k e Hk He; now apply (G3 k e)|intros k Hk; apply G4; lia].
  - pose proof (emitted_len m bl bu B) as L. fold E in L. destruct (Nat.ltb_spec (l_nr p) (length E)) as [X|X].
    + assert (err = true) as -> by (apply G2; split; [intros Z; rewrite Z in X; cbn in X; lia|lia]). reflexivity.
    + assert (err = false) as -> by (destruct err; auto; destruct (proj1 G2 eq_refl); lia). rewrite (G1 eq_refl), count_sides.
      replace (Nat.eqb (1 + length E) (sides m bl bu + 1)) with (Nat.eqb (frees m bl bu) (fixed m bl bu)); [reflexivity|].
      destruct (Nat.eqb_spec (frees m bl bu) (fixed m bl bu)), (Nat.eqb_spec (1 + length E) (sides m bl bu + 1)); auto; lia.
Qed.
End H.
