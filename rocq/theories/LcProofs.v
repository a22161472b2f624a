(** Joint rates under limits: the linear program. *)
From Coq Require Import ZArith String List Bool Reals Lra Lia.
From Verif Require Import TfModel TfSpec SgModel SgSpec SgKinSpec SgClaims3 SgChainProofs IkSpec IkObj
  MatModel MatSpec MatProofs LaModel LaSpec LaAlg LaProofs La2Proofs La3Proofs La4Proofs WkRateModel WkRateSpec WkRate WkRate2 WkRate3 LcModel LcSpec.
Import ListNotations.
Open Scope R_scope.

Lemma Forall2_length_eq {A B} (P : A -> B -> Prop) l l' : Forall2 P l l' -> length l = length l'.
Proof. induction 1; cbn [length]; congruence. Qed.

(** ** Bounds of one joint *)
Lemma omax_ok a x y : at_least (omax a x) y <-> at_least a y /\ x <= y.
Proof.
  unfold omax. destruct a as [z|]; cbn [at_least]; [|tauto]. split.
  - intros H. pose proof (Rmax_l z x). pose proof (Rmax_r z x). lra.
  - intros [H1 H2]. now apply Rmax_lub.
Qed.
Lemma omin_ok a x y : at_most (omin a x) y <-> at_most a y /\ y <= x.
Proof.
  unfold omin. destruct a as [z|]; cbn [at_most]; [|tauto]. split.
  - intros H. pose proof (Rmin_l z x). pose proof (Rmin_r z x). lra.
  - intros [H1 H2]. now apply Rmin_glb.
Qed.
Lemma le_div a x dt : 0 < dt -> a <= x / dt <-> a * dt <= x.
Proof.
  intros H. split; intros L.
  - apply (Rmult_le_compat_r dt) in L; [|lra]. unfold Rdiv in L. rewrite Rmult_assoc, Rinv_l in L by lra. lra.
  - apply (Rmult_le_reg_r dt); [exact H|]. unfold Rdiv. rewrite Rmult_assoc, Rinv_l by lra. lra.
Qed.
Lemma div_le a x dt : 0 < dt -> x / dt <= a <-> x <= a * dt.
Proof.
  intros H. split; intros L.
  - apply (Rmult_le_compat_r dt) in L; [|lra]. unfold Rdiv in L. rewrite Rmult_assoc, Rinv_l in L by lra. lra.
  - apply (Rmult_le_reg_r dt); [exact H|]. unfold Rdiv. rewrite Rmult_assoc, Rinv_l by lra. lra.
Qed.
Lemma bound_allowed dt pos vel acc q v y : 0 < dt ->
  (at_least (fst (b_bound dt pos vel acc q v)) (y - v) /\ at_most (snd (b_bound dt pos vel acc q v)) (y - v)) <-> allowed dt pos vel acc q v y.
Proof.
  intros H.
  assert (V : (at_least (match vel with Some (a, _) => Some (a - v) | None => None end) (y - v) /\
    at_most (match vel with Some (_, b) => Some (b - v) | None => None end) (y - v)) <-> forall a b, vel = Some (a, b) -> a <= y <= b).
  { destruct vel as [[a b]|]; cbn [at_least at_most]; split.
    - intros [H1 H2] a' b' E. injection E as <- <-. lra.
    - intros X. specialize (X a b eq_refl). lra.
    - intros _ a b E. discriminate E.
    - auto. }
  unfold b_bound, allowed. destruct acc as [[am ax]|]; cbn [fst snd].
  - assert (P : (at_least (omax (match pos with Some (qmin, _) => omax (match vel with Some (a, _) => Some (a - v) | None => None end) ((qmin - q) / dt - ax * (dt / 2) - v)
        | None => match vel with Some (a, _) => Some (a - v) | None => None end end) (am * dt)) (y - v) /\
      at_most (match pos with Some (_, qmax) => omin (omin (match vel with Some (_, b) => Some (b - v) | None => None end) (ax * dt)) ((qmax - q) / dt - am * (dt / 2) - v)
        | None => omin (match vel with Some (_, b) => Some (b - v) | None => None end) (ax * dt) end) (y - v)) <->
      ((at_least (match vel with Some (a, _) => Some (a - v) | None => None end) (y - v) /\ at_most (match vel with Some (_, b) => Some (b - v) | None => None end) (y - v)) /\
       (am * dt <= y - v <= ax * dt) /\ forall l u, pos = Some (l, u) -> (l - q) / dt - ax * (dt / 2) - v <= y - v /\ y - v <= (u - q) / dt - am * (dt / 2) - v)).
    { destruct pos as [[l u]|]; rewrite ?omax_ok, ?omin_ok; split.
      - intros X. split; [tauto|]. split; [tauto|]. intros l' u' E. injection E as <- <-. tauto.
      - intros (X & Y & Z). specialize (Z l u eq_refl). tauto.
      - intros X. split; [tauto|]. split; [tauto|]. intros l' u' E. discriminate E.
      - tauto. }
    rewrite P, V. clear P V.
    assert (D1 : forall l, (l - q) / dt - ax * (dt / 2) - v <= y - v <-> l <= q + y * dt + 1 / 2 * ax * (dt * dt)).
    { intros l. transitivity ((l - q) / dt <= y + ax * (dt / 2)); [split; lra|]. rewrite div_le by exact H. split; lra. }
    assert (D2 : forall u, y - v <= (u - q) / dt - am * (dt / 2) - v <-> q + y * dt + 1 / 2 * am * (dt * dt) <= u).
    { intros u. transitivity (y + am * (dt / 2) <= (u - q) / dt); [split; lra|]. rewrite le_div by exact H. split; lra. }
    split.
    + intros (X & Y & Z). split; [exact X|]. split.
      * intros a b E. injection E as <- <-. rewrite le_div, div_le by exact H. exact Y.
      * intros a b l u E E'. injection E as <- <-. rewrite <- D1, <- D2. now apply Z.
    + intros (X & Y & Z). split; [exact X|]. split.
      * specialize (Y am ax eq_refl). rewrite le_div, div_le in Y by exact H. exact Y.
      * intros l u E. rewrite D1, D2. now apply Z.
  - rewrite V. split; [|tauto]. intros X. split; [exact X|]. split; intros; discriminate.
Qed.

Lemma chain_limits_of h s root tip tz ls ss k lims : chain_of h s root tip tz ls ss -> limits_of (declared h) s ls k lims ->
  Forall2 (fun c l => sg_get_limit s k c = Ok l) (ss_configs ss) lims.
Proof.
  intros [Rd Fo Pr Nn Zt Bt (rz & junk & n & Zr & Cn & Cc)] L.
  destruct (c50_chain h s root tip rz tz ls junk Rd Fo Zr Zt Bt) as (zs & cs & E & _ & H2). rewrite E in Cc. injection Cc as <-.
  cbn [ss_configs]. unfold limits_of in L. revert lims L. clear E. induction H2 as [|d c ds cs [Hc _] H IH]; intros lims L; inversion L as [|? l ? lims' (i & Hi & _ & Hl) L']; subst; constructor.
  - congruence.
  - apply IH. assumption.
Qed.
Lemma b_bounds_ok s dt ids : forall pos vel acc q v,
  Forall2 (fun c l => sg_get_limit s LPos c = Ok l) ids pos -> Forall2 (fun c l => sg_get_limit s LVel c = Ok l) ids vel ->
  Forall2 (fun c l => sg_get_limit s LAcc c = Ok l) ids acc -> length q = length ids -> length v = length ids ->
  exists rows, b_bounds s dt ids q v = Done rows /\ length rows = length ids /\
    forall i p w a x z, nth_error pos i = Some p -> nth_error vel i = Some w -> nth_error acc i = Some a ->
      nth_error q i = Some x -> nth_error v i = Some z -> nth_error rows i = Some (b_bound dt p w a x z).
Proof.
  induction ids as [|c ids IH]; intros pos vel acc q v Hp Hv Ha Lq Lv; inversion Hp; inversion Hv; inversion Ha; subst.
  - exists []. split; [reflexivity|]. split; [reflexivity|]. intros [|i]; discriminate.
  - destruct q as [|x q], v as [|z v]; try discriminate. cbn [length] in *.
    destruct (IH l' l'0 l'1 q v) as (rows & E & L & N); auto; try lia.
    cbn [b_bounds]. repeat match goal with H : sg_get_limit _ _ _ = Ok _ |- _ => rewrite H; clear H end. cbn [lift obind]. rewrite E. cbn [obind].
    eexists. split; [reflexivity|]. split; [cbn [length]; lia|]. intros [|i] p w a x' z'; cbn [nth_error]; [congruence|apply N].
Qed.
Lemma x_bound_ok c x : fst (x_bound c) <= x <= snd (x_bound c) <-> betw 0 c x.
Proof. unfold x_bound, betw. destruct (Rlt_dec 0 c); [|destruct (Rlt_dec c 0)]; cbn [fst snd]; lra. Qed.

(** ** The matrices *)
Section Run.
  Context (gesdd : nat -> nat -> (nat -> nat -> R) -> svdres) (junk : nat -> R).
  Context (o : wk_opts) (s : sg) (abs : list QV) (ss : ssg) (l : list (V3 * V3)) (r : svdres).
  Let n := length (ss_configs ss).
  Hypothesis Hn : (0 < n)%nat.
  Hypothesis HJ : chain_jacobian s abs ss = Ok l.
  Hypothesis HL : length l = n.
  Hypothesis HD : 0 < wo_s2min o \/ wo_kdls o <= 0 -> decomposes gesdd 6 n (colmat l) r.
  Lemma mats_ok : exists P, inverse_ok o n (colmat l) r P /\ forall M0, exists J Js N, lc3_mats gesdd junk M0 o s abs ss = Done (J, Js, N) /\
    (forall i j, (i < 6)%nat -> (j < n)%nat -> J i j = colmat l i j) /\ (forall i j, (i < n)%nat -> (j < 6)%nat -> Js i j = P i j) /\
    (forall i j, (i < n)%nat -> (j < n)%nat -> N i j = mmul 6 P (colmat l) i j - delta i j).
  Proof.
    destruct (js_matrix gesdd junk o s abs ss l r Hn HJ HL HD) as (P & HP & HM). exists P. split; [exact HP|]. intros M0.
    destruct (HM 0%nat (12 * n + n * n)%nat M0 ltac:(fold n; lia)) as (M1 & D1 & J1 & V1 & F1). fold n in D1, J1, V1.
    cbn [Nat.add] in D1, V1. unfold lc3_mats. fold n. rewrite D1. cbn [obind]. unfold wk_get_n.
    set (J := mkDM 6 n 0 6) in *. set (Js := mkDM n 6 (6 * n) n) in *. set (N := mkDM n n (12 * n) n) in *.
    destruct (dmat_gemm_ok false false 1 Js J 0 N M1) as (M2 & D2 & V2 & F2); try (unfold good_mat; cbn; lia); auto; try discriminate.
    rewrite D2. cbn [obind]. destruct (add_diag_ok (Ropp 1) (m_cols N) (m_data N) (m_ld N) M2) as [A1 A2]; [cbn; lia|].
    set (M3 := add_diag (Ropp 1) (m_cols N) (m_data N) (m_ld N) M2) in *.
    assert (O3 : forall a, ~ in_mat N a -> M3 a = M1 a).
    { intros a Ha. rewrite A2; [now apply F2|]. intros i Hi Ea. apply Ha. exists i, i. cbn in Hi. cbn. repeat split; auto. }
    exists (mget J M3), (mget Js M3), (mget N M3). split; [reflexivity|]. split; [|split].
    - intros i j Hi Hj. rewrite <- J1 by auto. apply O3. intros (i' & j' & H1 & H2 & E). cbn in H1, H2. unfold melem, J, N in E. cbn in E. nia.
    - intros i j Hi Hj. rewrite <- V1 by auto. apply O3. intros (i' & j' & H1 & H2 & E). cbn in H1, H2. unfold melem, Js, N in E. cbn in E. nia.
    - intros i j Hi Hj.
      assert (E2 : mget N M2 i j = mmul 6 P (colmat l) i j).
      { unfold mget. rewrite V2 by auto. cbn [ocols m_cols]. rewrite Rmult_1_l, Rmult_0_l, Rplus_0_r. apply bsum_ext. intros k Hk. f_equal; [now apply V1|now apply J1]. }
      unfold delta. destruct (Nat.eqb_spec i j) as [->|Ne].
      + rewrite <- E2. apply (A1 j). exact Hj.
      + rewrite <- E2. unfold mget. rewrite A2; [lra|]. intros k Hk. cbn in Hk. unfold melem, mad, N. cbn [m_data m_ld]. intros E. destruct (Nat.lt_trichotomy j k) as [H|[H|H]]; [nia| |nia]. subst. lia.
  Qed.

  (** ** The linear program *)
  Context (dt : R) (dx_r q_a dq_a dq_r : list R) (pos vel acc : list (option (R * R))).
  Hypothesis Hdt : 0 < dt.
  Hypothesis Lx : length dx_r = 6%nat.
  Hypothesis Lq : length q_a = n.
  Hypothesis La : length dq_a = n.
  Hypothesis Lr : length dq_r = n.
  Hypothesis Hpos : Forall2 (fun c l => sg_get_limit s LPos c = Ok l) (ss_configs ss) pos.
  Hypothesis Hvel : Forall2 (fun c l => sg_get_limit s LVel c = Ok l) (ss_configs ss) vel.
  Hypothesis Hacc : Forall2 (fun c l => sg_get_limit s LAcc c = Ok l) (ss_configs ss) acc.
  Definition vec_of (l : list R) (i : nat) : R := nth i l 0.
  Let J := colmat l.
  Let va := vec_of dq_a.
  Let vr := vec_of dq_r.
  (** the missing velocity of the tip, and the secondary rates *)
  Definition miss (i : nat) : R := (vec_of dx_r i - mulv n J va i) / dt.
  Definition second (P : nat -> nat -> R) (i : nat) : R := (vr i - va i) - mulv 6 P (mulv n J (fun k => vr k - va k)) i.
  Record program (P : nat -> nat -> R) (p : lp) : Prop := {
    pr_A : forall i j, (i < n)%nat -> (j < 6)%nat -> lp_A p i j = dt * P i j;
    pr_A6 : forall i, (i < n)%nat -> lp_A p i 6%nat = second P i;
    pr_c : forall j, (j < 6)%nat -> lp_c p j = miss j;
    pr_c6 : lp_c p 6%nat = 1;
    pr_x : forall j x, (j < 6)%nat -> lp_min p j <= x <= lp_max p j <-> betw 0 (miss j) x;
    pr_x6 : lp_min p 6%nat = 0 /\ lp_max p 6%nat = 1;
    pr_len : length (lp_rows p) = n;
    pr_rows : forall i p' w a x z, nth_error pos i = Some p' -> nth_error vel i = Some w -> nth_error acc i = Some a ->
      nth_error q_a i = Some x -> nth_error dq_a i = Some z -> nth_error (lp_rows p) i = Some (b_bound dt p' w a x z) }.
  (** the rates the program decides on *)
  Definition chosen (p : lp) (x : nat -> R) : list R := map (fun i => va i + mulv 7 (lp_A p) x i) (seq 0 n).
  Lemma program_ok : exists P, inverse_ok o n J r P /\ forall M0, exists p, program P p /\
    lc3_constraints gesdd junk M0 o s abs ss dt dx_r q_a dq_a dq_r = Done p.
  Proof.
    destruct mats_ok as (P & HP & HM). exists P. split; [exact HP|]. intros M0. destruct (HM M0) as (J0 & Js & N & E & H1 & H2 & H3).
    destruct (b_bounds_ok s dt (ss_configs ss) pos vel acc q_a dq_a Hpos Hvel Hacc Lq La) as (rows & Eb & Lb & Nb).
    unfold lc3_constraints. rewrite E. cbn [obind]. rewrite Eb. cbn [obind]. eexists. split; [|reflexivity].
    assert (C : forall j, (j < 6)%nat -> - (1) / dt * (bsum (length (ss_configs ss)) (fun k => J0 j k * nth k dq_a 0) - nth j dx_r 0) = miss j).
    { intros j Hj. unfold miss, mulv, va, vec_of. fold n. rewrite (bsum_ext n (fun k => J0 j k * nth k dq_a 0) (fun k => J j k * nth k dq_a 0)) by (intros; now rewrite H1).
      field. lra. }
    constructor; cbn [lp_A lp_c lp_min lp_max lp_rows].
    - intros i j Hi Hj. destruct (Nat.ltb_spec j 6); [|lia]. now rewrite H2.
    - intros i Hi. cbn [Nat.ltb Nat.leb]. fold n. unfold second.
      rewrite (bsum_ext n _ (fun k => (vr k - va k) * delta i k - mmul 6 P J i k * (vr k - va k))).
      2:{ intros k Hk. rewrite H3 by auto. unfold vr, va, vec_of, J. ring. }
      rewrite bsum_minus, bsum_delta by exact Hi. f_equal. exact (mulv_mmul 6 n P J (fun k => vr k - va k) i).
    - intros j Hj. destruct (Nat.ltb_spec j 6); [|lia]. now apply C.
    - reflexivity.
    - intros j x Hj. destruct (Nat.ltb_spec j 6); [|lia]. rewrite C by exact Hj. apply x_bound_ok.
    - split; reflexivity.
    - exact Lb.
    - exact Nb.
  Qed.
  Lemma chosen_val P p x i : program P p -> (i < n)%nat -> va i + mulv 7 (lp_A p) x i = va i + dt * mulv 6 P x i + x 6%nat * second P i.
  Proof.
    intros Pr Hi. unfold mulv at 1. cbn [bsum]. rewrite (pr_A6 _ _ Pr) by exact Hi. rewrite !(pr_A _ _ Pr) by (auto; lia). unfold mulv. cbn [bsum]. ring.
  Qed.
  Lemma nth_chosen p x i : (i < n)%nat -> nth_error (chosen p x) i = Some (va i + mulv 7 (lp_A p) x i).
  Proof. intros Hi. unfold chosen. erewrite map_nth_error; [reflexivity|]. rewrite (nth_error_nth' _ 0%nat) by (now rewrite seq_length). f_equal. now rewrite seq_nth. Qed.
  Lemma nth_vec l0 i x : nth_error l0 i = Some x -> vec_of l0 i = x.
  Proof. intros H. unfold vec_of. now apply nth_error_nth with (d := 0) in H. Qed.
  Lemma feasible_iff P p x : program P p ->
    feasible p x <-> (forall j, (j < 6)%nat -> betw 0 (miss j) (x j)) /\ 0 <= x 6%nat <= 1 /\ all_allowed dt pos vel acc q_a dq_a (chosen p x).
  Proof.
    intros Pr. unfold feasible. destruct (pr_x6 _ _ Pr) as [X0 X1].
    assert (B : (forall j, (j < 7)%nat -> lp_min p j <= x j <= lp_max p j) <-> (forall j, (j < 6)%nat -> betw 0 (miss j) (x j)) /\ 0 <= x 6%nat <= 1).
    { split.
      - intros H. split; [|rewrite <- X0, <- X1; apply H; lia]. intros j Hj. apply (pr_x _ _ Pr j); [exact Hj|apply H; lia].
      - intros [H H6] j Hj. destruct (Nat.eq_dec j 6) as [->|]; [rewrite X0, X1; exact H6|]. apply (pr_x _ _ Pr j); [lia|apply H; lia]. }
    rewrite B. clear B.
    assert (Len : forall {A} (l : list A) i a, nth_error l i = Some a -> (i < length l)%nat) by (intros A l0 i a H; apply nth_error_Some; congruence).
    assert (Lp : length pos = n) by (symmetry; eapply Forall2_length_eq; exact Hpos). assert (Lv : length vel = n) by (symmetry; eapply Forall2_length_eq; exact Hvel).
    assert (Lc : length acc = n) by (symmetry; eapply Forall2_length_eq; exact Hacc).
    assert (At : forall {A} (l : list A) i, (i < length l)%nat -> exists a, nth_error l i = Some a).
    { intros A l0 i H. destruct (nth_error l0 i) eqn:E; [eauto|]. apply nth_error_None in E. lia. }
    assert (R : (forall i lo hi, nth_error (lp_rows p) i = Some (lo, hi) -> at_least lo (mulv 7 (lp_A p) x i) /\ at_most hi (mulv 7 (lp_A p) x i)) <->
      all_allowed dt pos vel acc q_a dq_a (chosen p x)).
    { split.
      - intros H i p' w a y z rr Hp Hw Ha Hy Hz Hr. pose proof (pr_rows _ _ Pr i p' w a y z Hp Hw Ha Hy Hz) as N.
        assert (Hi : (i < n)%nat) by (rewrite <- Lp; eapply Len; exact Hp). rewrite nth_chosen in Hr by exact Hi. injection Hr as <-.
        apply bound_allowed; [exact Hdt|]. pose proof (nth_vec _ _ _ Hz) as Ez. fold va in Ez. rewrite Ez. replace (z + mulv 7 (lp_A p) x i - z) with (mulv 7 (lp_A p) x i) by ring.
        apply (H i). rewrite N. now destruct (b_bound _ _ _ _ _ _).
      - intros H i lo hi N. assert (Hi : (i < n)%nat) by (rewrite <- (pr_len _ _ Pr); eapply Len; exact N).
        destruct (At _ pos i) as [p' Hp]; [lia|]. destruct (At _ vel i) as [w Hw]; [lia|]. destruct (At _ acc i) as [a Ha]; [lia|].
        destruct (At _ q_a i) as [y Hy]; [lia|]. destruct (At _ dq_a i) as [z Hz]; [lia|].
        pose proof (H i p' w a y z _ Hp Hw Ha Hy Hz (nth_chosen p x i Hi)) as Al. apply bound_allowed in Al; [|exact Hdt].
        rewrite (pr_rows _ _ Pr i p' w a y z Hp Hw Ha Hy Hz) in N. injection N as N. rewrite N in Al. cbn [fst snd] in Al.
        pose proof (nth_vec _ _ _ Hz) as Ez. fold va in Ez. rewrite Ez in Al. replace (z + mulv 7 (lp_A p) x i - z) with (mulv 7 (lp_A p) x i) in Al by ring. exact Al. }
    rewrite R. tauto.
  Qed.

  (** ** The call *)
  Definition written (p : lp) (x : nat -> R) : list R :=
    map (fun i => if Nat.ltb i 6 then va i + bsum 6 (fun k => lp_A p i k * x k) + x 6%nat * lp_A p i 6 else va i + bsum 6 (fun k => lp_A p i k * x k)) (seq 0 n).
  Lemma lc3_run : exists P, inverse_ok o n J r P /\ forall M0, exists p, program P p /\ forall solve,
    wk_dx2dq_lc3 gesdd junk M0 solve o s abs ss dt dx_r q_a dq_a dq_r n =
    (let '(c, x) := solve p in if Z.eqb 0 c then if Nat.ltb n 6 then Undef else Done (c, Some (written p x)) else Done (c, None)).
  Proof.
    destruct program_ok as (P & HP & H). exists P. split; [exact HP|]. intros M0. destruct (H M0) as (p & Pr & E). exists p. split; [exact Pr|]. intros solve.
    unfold wk_dx2dq_lc3. destruct (Rle_dec dt 0); [lra|]. fold n. unfold check. rewrite Lx, Lq, La, Lr, !Nat.eqb_refl. cbn [Nat.eqb]. rewrite E. cbn [obind].
    destruct (solve p) as [c x]. reflexivity.
  Qed.
  Lemma written_chosen p x : n = 6%nat -> written p x = chosen p x.
  Proof.
    intros E. unfold written, chosen. apply map_ext_in. intros i Hi. apply in_seq in Hi. destruct (Nat.ltb_spec i 6); [|lia].
    unfold mulv. cbn [bsum]. ring.
  Qed.

  (** the tip *)
  Lemma tip_vel P p x i : program P p -> moore_penrose 6 n J P -> (forall b, exists z, forall i, (i < 6)%nat -> mulv n J z i = b i) -> (i < 6)%nat ->
    mulv n J (vec_of (chosen p x)) i = mulv n J va i + dt * x i.
  Proof.
    intros Pr MP On Hi.
    assert (S : forall i, (i < 6)%nat -> mulv n J (second P) i = 0).
    { intros k Hk. unfold second. rewrite (mulv_minus n J (fun i => vr i - va i) (mulv 6 P (mulv n J (fun k => vr k - va k)))).
      rewrite <- !mulv_mmul. apply Rminus_diag_eq. symmetry. unfold mulv. apply bsum_ext. intros j Hj. now rewrite (proj1 MP). }
    assert (X : forall b i, (i < 6)%nat -> mulv n J (mulv 6 P b) i = b i).
    { intros b k Hk. destruct (On b) as [z Hz]. rewrite (mulv_ext n J (mulv 6 P b) (mulv 6 P (mulv n J z))).
      - rewrite <- !mulv_mmul. rewrite <- Hz by exact Hk. unfold mulv. apply bsum_ext. intros j Hj. now rewrite (proj1 MP).
      - intros j Hj. apply mulv_ext. intros k' Hk'. now rewrite Hz. }
    transitivity (mulv n J (fun i => va i + dt * mulv 6 P x i + x 6%nat * second P i) i).
    - apply mulv_ext. intros j Hj. rewrite <- (chosen_val P p x j Pr Hj). apply nth_vec, nth_chosen, Hj.
    - rewrite (mulv_plus n J (fun i => va i + dt * mulv 6 P x i) (fun i => x 6%nat * second P i)), (mulv_plus n J va (fun i => dt * mulv 6 P x i)).
      assert (Sc : forall c f, mulv n J (fun i => c * f i) i = c * mulv n J f i).
      { intros c f. unfold mulv. rewrite <- bsum_scal. apply bsum_ext. intros. ring. }
      rewrite !Sc, S, X by exact Hi. ring.
  Qed.
  (** with the full step the program chooses the best rates *)
  Lemma full_step P p x i : program P p -> (forall j, (j < 6)%nat -> x j = miss j) -> x 6%nat = 1 -> (i < n)%nat ->
    va i + mulv 7 (lp_A p) x i = nullspace_solution 6 n J P (vec_of dx_r) vr i.
  Proof.
    intros Pr X X6 Hi. rewrite (chosen_val P p x i Pr Hi), X6. unfold nullspace_solution, second.
    rewrite (mulv_ext 6 P x (fun j => / dt * (vec_of dx_r j - mulv n J va j))).
    2:{ intros j Hj. rewrite X by exact Hj. unfold miss. field. lra. }
    assert (Sc : mulv 6 P (fun j => / dt * (vec_of dx_r j - mulv n J va j)) i = / dt * (mulv 6 P (vec_of dx_r) i - mulv 6 P (mulv n J va) i)).
    { rewrite <- mulv_minus. unfold mulv. rewrite <- bsum_scal. apply bsum_ext. intros. ring. }
    rewrite Sc. rewrite (mulv_ext 6 P (mulv n J (fun k => vr k - va k)) (fun j => mulv n J vr j - mulv n J va j)) by (intros; apply mulv_minus).
    rewrite mulv_minus. field. lra.
  Qed.
  Lemma best_step P p x y : program P p -> feasible p x -> feasible p y -> (forall j, (j < 6)%nat -> y j = miss j) -> y 6%nat = 1 ->
    dotp 7 (lp_c p) y <= dotp 7 (lp_c p) x -> (forall j, (j < 6)%nat -> x j = miss j) /\ x 6%nat = 1.
  Proof.
    intros Pr Fx Fy Y Y6 D. apply (feasible_iff P p x Pr) in Fx as (B & B6 & _).
    assert (T : forall j, (j < 7)%nat -> lp_c p j * x j <= lp_c p j * y j /\ (lp_c p j * y j <= lp_c p j * x j -> x j = y j)).
    { intros j Hj. destruct (Nat.eq_dec j 6) as [->|]; [rewrite (pr_c6 _ _ Pr), Y6; lra|]. rewrite (pr_c _ _ Pr) by lia. rewrite Y by lia.
      specialize (B j ltac:(lia)). unfold betw in B. split; [nra|]. intros H. destruct (Req_dec (miss j) 0) as [Z|Z]; [rewrite Z in *; lra|].
      apply (Rmult_eq_reg_l (miss j)); [|exact Z]. apply Rle_antisym; [nra|exact H]. }
    unfold dotp in D. cbn [bsum] in D.
    pose proof (T 0%nat ltac:(lia)) as [T0 E0]. pose proof (T 1%nat ltac:(lia)) as [T1 E1]. pose proof (T 2%nat ltac:(lia)) as [T2 E2]. pose proof (T 3%nat ltac:(lia)) as [T3 E3].
    pose proof (T 4%nat ltac:(lia)) as [T4 E4]. pose proof (T 5%nat ltac:(lia)) as [T5 E5]. pose proof (T 6%nat ltac:(lia)) as [T6 E6].
    split.
    - intros j Hj. rewrite <- Y by exact Hj. destruct j as [|[|[|[|[|[|j]]]]]]; [apply E0|apply E1|apply E2|apply E3|apply E4|apply E5|lia]; lra.
    - rewrite <- Y6. apply E6. lra.
  Qed.
End Run.
