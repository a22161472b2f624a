(** Parabolic blend trajectories: what the generation loop leaves. *)
From Coq Require Import List Reals Arith Lia Lra Bool.
From Verif Require Import TrModel TrSpec TrEvalProofs TrLinProofs.
Import ListNotations.
Open Scope R_scope.

Lemma dbl_min_pos : 0 < dbl_min.
Proof. unfold dbl_min. apply Rinv_0_lt_compat. apply pow_lt. lra. Qed.
Lemma dbl_max_pos : 0 < dbl_max.
Proof.
  unfold dbl_max. apply Rmult_lt_0_compat; [|apply pow_lt; lra].
  assert (/ 2 ^ 52 < 1); [|lra]. rewrite <- Rinv_1. apply Rinv_lt_contravar; [|]; rewrite ?Rmult_1_l; [apply pow_lt; lra|].
  apply Rlt_pow_R1; [lra|lia].
Qed.
Global Opaque dbl_min dbl_max.

Definition nojoint : pb := mkPB [] [] [] 0 0 0.

(** ** The limit function *)
Lemma pb_limit_loop_spec : forall d mn mx m0, length d = length mn -> length d = length mx ->
  m0 <= pb_limit_loop m0 d mn mx /\
  forall i, (i < length d)%nat -> axis_time (joint d i) (joint mn i) (joint mx i) <= pb_limit_loop m0 d mn mx.
Proof.
  induction d as [|x d IH]; intros [|a mn] [|b mx] m0 E1 E2; cbn in E1, E2; try lia; cbn [pb_limit_loop].
  - split; [lra|]. intros i Hi. cbn in Hi. lia.
  - set (m1 := if Rlt_b m0 (axis_time x a b) then axis_time x a b else m0).
    assert (m0 <= m1 /\ axis_time x a b <= m1) as (M1 & M2) by (unfold m1; rcase; rb; lra).
    destruct (IH mn mx m1 ltac:(lia) ltac:(lia)) as (A & B). split; [lra|].
    intros [|i] Hi; [unfold joint; cbn; lra|]. apply (B i). cbn in Hi. lia.
Qed.
Lemma pb_limit_spec n a b mn mx : length a = n -> length b = n -> length mn = n -> length mx = n ->
  (forall i, (i < n)%nat -> joint mn i < 0 < joint mx i) ->
  0 < pb_limit a b mn mx /\
  forall tau i, pb_limit a b mn mx <= tau -> (i < n)%nat -> joint mn i * tau <= joint a i - joint b i <= joint mx i * tau.
Proof.
  intros Ha Hb H1 H2 HL. unfold pb_limit.
  assert (Z : length (zip Rminus a b) = n) by (rewrite zip_length, Ha, Hb, Nat.min_id; auto).
  destruct (pb_limit_loop_spec (zip Rminus a b) mn mx dbl_min) as (A & B); try congruence.
  split; [pose proof dbl_min_pos; lra|]. intros tau i Ht Hi.
  specialize (B i ltac:(lia)). rewrite zip_joint in B by lia.
  apply (axis_time_bounds _ _ _ tau (HL i Hi)). lra.
Qed.

(** ** Lists of segments *)
Lemma hd_error_nth {A} (l : list A) : hd_error l = nth_error l 0.
Proof. destruct l; auto. Qed.

Definition before {A} (prev : option A) (l : list A) (k : nat) : option A :=
  match k with O => prev | S j => nth_error l j end.

Lemma update_len : forall l prev L, length (pb_update_all prev l L) = length l.
Proof. induction l; intros; cbn; auto. Qed.
Lemma update_nth : forall l prev L k c, nth_error l k = Some c ->
  nth_error (pb_update_all prev l L) k =
  Some (pb_update (before prev (pb_update_all prev l L) k) c (nth_error l (S k)) L).
Proof.
  induction l as [|x l IH]; intros prev L k c H; [destruct k; discriminate|].
  cbn [pb_update_all]. destruct k as [|k]; cbn [nth_error before] in *.
  - injection H as <-. rewrite hd_error_nth. reflexivity.
  - rewrite (IH _ L k c H). destruct k; reflexivity.
Qed.
Lemma overlaps_nth : forall l prev k c, nth_error l k = Some c ->
  nth_error (pb_overlaps prev l) k =
  Some (pb_overlap (before prev l k) c (nth_error l (S k)), pb_scale (before prev l k) c (nth_error l (S k))).
Proof.
  induction l as [|x l IH]; intros prev k c H; [destruct k; discriminate|].
  cbn [pb_overlaps]. destruct k as [|k]; cbn [nth_error before] in *.
  - injection H as <-. rewrite hd_error_nth. reflexivity.
  - rewrite (IH _ k c H). destruct k; reflexivity.
Qed.
Lemma overlaps_len : forall l prev, length (pb_overlaps prev l) = length l.
Proof. induction l; intros; cbn; auto. Qed.
Lemma stretch_len : forall l f, length (pb_stretch l f) = length l.
Proof. induction l as [|x [|y l] IH]; intros [|[o1 f1] [|[o2 f2] f]]; auto. transitivity (S (length (pb_stretch (y :: l) ((o2, f2) :: f)))); [reflexivity|]. rewrite IH. auto. Qed.
Lemma stretch_nth : forall l f k c, length l = length f -> nth_error l k = Some c ->
  nth_error (pb_stretch l f) k =
  Some (match nth_error l (S k), nth_error f k, nth_error f (S k) with
        | Some _, Some (_, x), Some (_, y) => mkPB (pb_q c) (pb_dq c) (pb_ddq c) (pb_t c) (pb_dt c / aa_min y x) (pb_b c)
        | _, _, _ => c
        end).
Proof.
  induction l as [|x l IH]; intros f k c E H; [destruct k; discriminate|].
  destruct f as [|[o1 f1] f]; [discriminate|]. destruct l as [|y l].
  - destruct k as [|k]; cbn in H; [|destruct k; discriminate]. injection H as <-. destruct f; reflexivity.
  - destruct f as [|[o2 f2] f]; [discriminate|].
    destruct k as [|k].
    + cbn in H. injection H as <-. reflexivity.
    + exact (IH ((o2, f2) :: f) k c ltac:(cbn in *; lia) H).
Qed.

Lemma nth_error_ext {A} : forall (a b : list A), (forall k, nth_error a k = nth_error b k) -> a = b.
Proof.
  induction a as [|x a IH]; intros [|y b] H; auto; try (specialize (H O); discriminate).
  f_equal; [specialize (H O); cbn in H; congruence|]. apply IH. intros k. apply (H (S k)).
Qed.

(** ** The loop *)
Section Loop.
Variables (n : nat) (L : limit) (pts : list (list R)).
Hypothesis HV : velocity_limits n L.
Hypothesis HA : acceleration_limits n L.
Hypothesis HP : way_points n pts.
Let N := length pts.
Let pt k := nth k pts [].

Lemma Npos : (0 < N)%nat.
Proof. unfold N. destruct HP as (A & _). destruct pts; [congruence|cbn; lia]. Qed.
Lemma pt_len k : (k < N)%nat -> length (pt k) = n.
Proof. intros Hk. destruct HP as (_ & F). rewrite Forall_forall in F. apply F. apply nth_In. auto. Qed.

Definition speed_ok (k : nat) (dt : R) : Prop :=
  forall i, (i < n)%nat -> joint (min_dq L) i * dt <= joint (pt (S k)) i - joint (pt k) i <= joint (max_dq L) i * dt.

(** between two rounds *)
Record ready (l : list pb) : Prop := {
  r_len : length l = N;
  r_q : forall k c, nth_error l k = Some c -> pb_q c = pt k /\ length (pb_dq c) = n /\ 0 < pb_dt c;
  r_speed : forall k c, nth_error l k = Some c -> (S k < N)%nat -> speed_ok k (pb_dt c);
  r_last : forall c, nth_error l (N - 1) = Some c -> pb_dq c = zeros n
}.

Definition vel_before (l : list pb) (k : nat) : list R :=
  match before None l k with Some p => pb_dq p | None => zeros n end.

(** after the update *)
Record updated (l : list pb) : Prop := {
  u_ready : ready l;
  u_dq : forall k c, nth_error l k = Some c -> (S k < N)%nat ->
    pb_dq c = zip (fun a b => (b - a) / pb_dt c) (pt k) (pt (S k));
  u_b : forall k c, nth_error l k = Some c -> 0 < pb_b c /\
    (forall i, (i < n)%nat -> joint (min_ddq L) i * pb_b c <= joint (pb_dq c) i - joint (vel_before l k) i <= joint (max_ddq L) i * pb_b c);
  u_ddq : forall k c, nth_error l k = Some c -> pb_ddq c = zip (fun x y => (x - y) / pb_b c) (pb_dq c) (vel_before l k);
  u_t : forall k c, nth_error l k = Some c ->
    pb_t c = match before None l k with Some p => pb_t p + pb_dt p | None => pb_b c / 2 end
}.

Lemma speed_more k dt dt' : dt <= dt' -> speed_ok k dt -> speed_ok k dt'.
Proof. intros H S i Hi. specialize (S i Hi). destruct HV as (_ & _ & V). specialize (V i Hi). nra. Qed.

Lemma init_len : forall p, length (pb_init p L) = length p.
Proof. induction p; cbn; auto. Qed.
Lemma init_nth : forall p k q, nth_error p k = Some q -> nth_error (pb_init p L) k = Some (pb_new q (nth_error p (S k)) L).
Proof.
  induction p as [|x p IH]; intros k q H; [destruct k; discriminate|]. cbn [pb_init].
  destruct k as [|k]; cbn [nth_error] in *; [injection H as <-; rewrite hd_error_nth; auto|]. rewrite (IH k q H). auto.
Qed.
Lemma pt_nth k : (k < N)%nat -> nth_error pts k = Some (pt k).
Proof. intros Hk. apply nth_error_nth'. auto. Qed.
Lemma nth_lt {A} (l : list A) k c : nth_error l k = Some c -> (k < length l)%nat.
Proof. intros H. apply nth_error_Some. congruence. Qed.

Lemma ready_init : ready (pb_init pts L).
Proof.
  assert (G : forall k c, nth_error (pb_init pts L) k = Some c -> (k < N)%nat /\ c = pb_new (pt k) (nth_error pts (S k)) L).
  { intros k c H. pose proof (nth_lt _ _ _ H) as Hk. rewrite init_len in Hk. split; auto.
    rewrite (init_nth pts k (pt k) (pt_nth k Hk)) in H. congruence. }
  assert (SP : forall k, (S k < N)%nat -> 0 < pb_limit (pt (S k)) (pt k) (min_dq L) (max_dq L) /\
              speed_ok k (pb_limit (pt (S k)) (pt k) (min_dq L) (max_dq L))).
  { intros k Hk. destruct HV as (V1 & V2 & V3).
    destruct (pb_limit_spec n (pt (S k)) (pt k) (min_dq L) (max_dq L)) as (A & B); try (apply pt_len; lia); auto.
    split; auto. intros i Hi. apply B; auto. lra. }
  split.
  - apply init_len.
  - intros k c H. destruct (G k c H) as (Hk & ->). unfold pb_new. cbn [pb_q pb_dq pb_dt].
    split; auto. split; [unfold zeros; rewrite repeat_length; apply pt_len; auto|].
    destruct (Nat.lt_ge_cases (S k) N) as [K|K].
    + rewrite pt_nth by auto. apply SP; auto.
    + destruct (nth_error pts (S k)) eqn:E; [apply nth_lt in E; unfold N in K; lia|apply dbl_max_pos].
  - intros k c H K. destruct (G k c H) as (Hk & ->). unfold pb_new. cbn [pb_dt]. rewrite pt_nth by auto. apply SP; auto.
  - intros c H. destruct (G _ c H) as (Hk & ->). unfold pb_new. cbn [pb_dq]. rewrite pt_len by auto. auto.
Qed.

Lemma zeros_len m : length (zeros m) = m. Proof. apply repeat_length. Qed.

Lemma update_ready l : ready l -> updated (pb_update_all None l L).
Proof.
  intros [R1 R2 R3 R4]. set (l' := pb_update_all None l L).
  assert (Ln : length l' = N) by (unfold l'; rewrite update_len; auto).
  assert (G : forall k c', nth_error l' k = Some c' -> exists c, nth_error l k = Some c /\ (k < N)%nat /\
            c' = pb_update (before None l' k) c (nth_error l (S k)) L).
  { intros k c' H. pose proof (nth_lt _ _ _ H) as Hk. rewrite Ln in Hk.
    destruct (nth_error l k) as [c|] eqn:E; [|apply nth_error_None in E; lia].
    exists c. repeat split; auto. unfold l' in H at 1. rewrite (update_nth l None L k c E) in H. fold l' in H. congruence. }
  assert (NX : forall k, (S k < N)%nat -> exists d, nth_error l (S k) = Some d /\ pb_q d = pt (S k)).
  { intros k Hk. destruct (nth_error l (S k)) as [d|] eqn:E; [|apply nth_error_None in E; lia].
    exists d. split; auto. apply (R2 _ _ E). }
  assert (LX : forall k, (k < N)%nat -> ~ (S k < N)%nat -> nth_error l (S k) = None).
  { intros k Hk Hn. apply nth_error_None. lia. }
  (* velocities *)
  assert (DQ : forall k c', nth_error l' k = Some c' -> (S k < N)%nat ->
             pb_dq c' = zip (fun a b => (b - a) / pb_dt c') (pt k) (pt (S k))).
  { intros k c' H Hk. destruct (G k c' H) as (c & C1 & C2 & ->). destruct (NX k Hk) as (d & D1 & D2).
    cbn [pb_update pb_dq pb_dt]. rewrite D1, D2. destruct (R2 k c C1) as (-> & _). auto. }
  assert (DL : forall c', nth_error l' (N - 1) = Some c' -> pb_dq c' = zeros n).
  { intros c' H. destruct (G _ c' H) as (c & C1 & C2 & ->). cbn [pb_update pb_dq]. rewrite LX by lia. apply R4; auto. }
  assert (DN : forall k c', nth_error l' k = Some c' -> length (pb_dq c') = n).
  { intros k c' H. destruct (G k c' H) as (c & C1 & C2 & _). destruct (Nat.lt_ge_cases (S k) N) as [K|K].
    - rewrite (DQ k c' H K). rewrite zip_length, !pt_len by lia. lia.
    - assert (k = N - 1)%nat by lia. subst k. rewrite (DL c' H). apply zeros_len. }
  assert (BV : forall k, (k < N)%nat -> length (vel_before l' k) = n).
  { intros [|k] Hk; unfold vel_before; cbn [before]; [apply zeros_len|].
    destruct (nth_error l' k) as [p|] eqn:E; [apply (DN k p E)|apply zeros_len]. }
  (* the blend *)
  assert (BL : forall k c', nth_error l' k = Some c' ->
             pb_b c' = pb_limit (pb_dq c') (vel_before l' k) (min_ddq L) (max_ddq L) /\
             pb_ddq c' = zip (fun x y => (x - y) / pb_b c') (pb_dq c') (vel_before l' k) /\
             pb_t c' = match before None l' k with Some p => pb_t p + pb_dt p | None => pb_b c' / 2 end).
  { intros k c' H. destruct (G k c' H) as (c & C1 & C2 & E).
    assert (V : match before None l' k with Some p => pb_dq p | None => zeros (length (pb_q c)) end = vel_before l' k).
    { unfold vel_before. destruct (before None l' k); auto. destruct (R2 k c C1) as (-> & _). rewrite pt_len; auto. }
    rewrite E. cbn [pb_update pb_b pb_dq pb_ddq pb_t]. rewrite V. auto. }
  assert (RD : ready l').
  { split; auto.
    - intros k c' H. destruct (G k c' H) as (c & C1 & C2 & E). destruct (R2 k c C1) as (Q1 & Q2 & Q3).
      split; [rewrite E; cbn; auto|]. split; [apply (DN k); auto|]. rewrite E. cbn. auto.
    - intros k c' H Hk. destruct (G k c' H) as (c & C1 & C2 & E). rewrite E. cbn [pb_update pb_dt]. apply (R3 k c C1 Hk). }
  split; auto.
  - intros k c' H. pose proof (nth_lt _ _ _ H) as Hk. rewrite Ln in Hk. destruct (BL k c' H) as (B1 & _).
    destruct HA as (A1 & A2 & A3).
    destruct (pb_limit_spec n (pb_dq c') (vel_before l' k) (min_ddq L) (max_ddq L)) as (P & Q); auto; [apply (DN k); auto|].
    rewrite <- B1 in *. split; auto. intros i Hi. apply Q; auto. lra.
  - intros k c' H. apply (BL k c' H).
  - intros k c' H. apply (BL k c' H).
Qed.

Lemma aa_min_le a b : aa_min a b <= a /\ aa_min a b <= b.
Proof. unfold aa_min. rcase; rb; lra. Qed.
Lemma aa_min_pos a b : 0 < a -> 0 < b -> 0 < aa_min a b.
Proof. unfold aa_min. rcase; rb; lra. Qed.

Lemma scale_range prev c next : (forall p, prev = Some p -> 0 < pb_dt p) -> 0 < pb_dt c -> 0 < pb_b c ->
  0 < pb_scale prev c next <= 1.
Proof.
  intros Hp Hc Hb. unfold pb_scale. destruct (pb_overlap prev c next) eqn:O; [|lra].
  set (pd := match prev with Some p => pb_dt p | None => dbl_max end).
  assert (0 < pd) by (unfold pd; destruct prev; [apply Hp; auto|apply dbl_max_pos]).
  pose proof (aa_min_pos pd (pb_dt c) ltac:(auto) Hc) as M. destruct (aa_min_le pd (pb_dt c)) as (M1 & M2).
  assert (I := Rinv_0_lt_compat _ Hb).
  split.
  - apply sqrt_lt_R0. apply Rmult_lt_0_compat; auto.
  - rewrite <- sqrt_1. apply sqrt_le_1_alt.
    assert (aa_min pd (pb_dt c) <= pb_b c).
    { unfold pb_overlap in O. apply orb_true_iff in O. destruct O as [O|O].
      - destruct prev as [p|]; [|discriminate]. apply andb_true_iff in O. destruct O as (O & _). rb. unfold pd in *. lra.
      - destruct next as [x|]; [|discriminate]. apply andb_true_iff in O. destruct O as (O & _). rb. lra. }
    unfold Rdiv. replace 1 with (pb_b c * / pb_b c) by (field; lra). apply Rmult_le_compat_r; lra.
Qed.

Lemma stretch_ready l : updated l -> ready (pb_stretch l (pb_overlaps None l)).
Proof.
  intros U. pose proof (u_ready l U) as [R1 R2 R3 R4]. set (f := pb_overlaps None l).
  assert (Lf : length l = length f) by (unfold f; rewrite overlaps_len; auto).
  assert (F : forall k o x, nth_error f k = Some (o, x) -> 0 < x <= 1).
  { intros k o x H. pose proof (nth_lt _ _ _ H) as Hk. rewrite <- Lf in Hk.
    destruct (nth_error l k) as [c|] eqn:E; [|apply nth_error_None in E; lia].
    unfold f in H. rewrite (overlaps_nth l None k c E) in H. injection H as <- <-.
    apply scale_range; [|apply (R2 k c E)|apply (u_b l U k c E)].
    intros p Hp. destruct k as [|k]; cbn in Hp; [discriminate|]. apply (R2 k p Hp). }
  assert (G : forall k c', nth_error (pb_stretch l f) k = Some c' -> exists c, nth_error l k = Some c /\ (k < N)%nat /\
            pb_q c' = pb_q c /\ pb_dq c' = pb_dq c /\ pb_dt c <= pb_dt c' /\ ((S k = N) -> c' = c)).
  { intros k c' H. pose proof (nth_lt _ _ _ H) as Hk. rewrite stretch_len, R1 in Hk.
    destruct (nth_error l k) as [c|] eqn:E; [|apply nth_error_None in E; lia].
    exists c. rewrite (stretch_nth l f k c Lf E) in H. split; auto. split; auto.
    destruct (nth_error l (S k)) as [d|] eqn:E1.
    2:{ injection H as <-. repeat split; auto. lra. }
    destruct (nth_error f k) as [[o x]|] eqn:E2.
    2:{ apply nth_error_None in E2. lia. }
    destruct (nth_error f (S k)) as [[o' y]|] eqn:E3.
    2:{ apply nth_error_None in E3. apply nth_lt in E1. lia. }
    injection H as <-. cbn [pb_q pb_dq pb_dt]. repeat split; auto.
    - pose proof (F _ _ _ E2). pose proof (F _ _ _ E3). pose proof (aa_min_pos y x ltac:(lra) ltac:(lra)).
      destruct (aa_min_le y x). destruct (R2 k c E) as (_ & _ & P).
      replace (pb_dt c) with (pb_dt c / aa_min y x * aa_min y x) at 1 by (field; lra).
      assert (0 < pb_dt c / aa_min y x) by (apply Rmult_lt_0_compat; auto; apply Rinv_0_lt_compat; auto). nra.
    - intros K. apply nth_lt in E1. lia. }
  split.
  - rewrite stretch_len. auto.
  - intros k c' H. destruct (G k c' H) as (c & C1 & C2 & C3 & C4 & C5 & _). rewrite C3, C4. destruct (R2 k c C1) as (A & B & C).
    repeat split; auto. lra.
  - intros k c' H Hk. destruct (G k c' H) as (c & C1 & C2 & C3 & C4 & C5 & _). eapply speed_more; [apply C5|]. apply (R3 k c C1 Hk).
  - intros c' H. destruct (G _ c' H) as (c & C1 & C2 & C3 & C4 & C5 & _). rewrite C4. apply R4; auto.
Qed.

(** no two neighbouring blends overlap *)
Definition apart (l : list pb) : Prop := forall k c d, nth_error l k = Some c -> nth_error l (S k) = Some d ->
  pb_b c + pb_b d <= 2 * pb_dt c.

Lemma no_overlap l : updated l -> existsb fst (pb_overlaps None l) = false ->
  apart l /\ pb_stretch l (pb_overlaps None l) = l.
Proof.
  intros U H. set (f := pb_overlaps None l) in *.
  assert (Lf : length l = length f) by (unfold f; rewrite overlaps_len; auto).
  assert (F : forall k c, nth_error l k = Some c ->
     pb_overlap (before None l k) c (nth_error l (S k)) = false /\ nth_error f k = Some (false, 1)).
  { intros k c E. assert (E' := overlaps_nth l None k c E). fold f in E'.
    assert (O : pb_overlap (before None l k) c (nth_error l (S k)) = false).
    { destruct (pb_overlap (before None l k) c (nth_error l (S k))) eqn:O; auto.
      assert (X : existsb fst f = true); [|congruence]. apply existsb_exists.
      eexists. split; [apply (nth_error_In _ _ E')|]. reflexivity. }
    split; auto. unfold pb_scale in E'. rewrite O in E'. auto. }
  split.
  - intros k c d Hc Hd. destruct (F k c Hc) as (O1 & _). destruct (F (S k) d Hd) as (O2 & _).
    unfold pb_overlap in *. apply orb_false_iff in O1. destruct O1 as (_ & O1). rewrite Hd in O1.
    apply orb_false_iff in O2. destruct O2 as (O2 & _). cbn [before] in O2. rewrite Hc in O2.
    apply andb_false_iff in O1. apply andb_false_iff in O2.
    destruct O1 as [O1|O1], O2 as [O2|O2]; rb; lra.
  - apply nth_error_ext. intros k. destruct (nth_error l k) as [c|] eqn:E.
    + rewrite (stretch_nth l f k c Lf E). destruct (F k c E) as (_ & E1). rewrite E1.
      destruct (nth_error l (S k)) as [d|] eqn:E2; auto. destruct (F (S k) d E2) as (_ & E3). rewrite E3.
      f_equal. assert (aa_min 1 1 = 1) as -> by (unfold aa_min; rcase; auto).
      destruct c; cbn. f_equal. field.
    + apply nth_error_None. rewrite stretch_len. apply nth_error_None. auto.
Qed.

Lemma loop_spec : forall fuel l l', ready l -> pb_loop fuel l L = Some l' -> updated l' /\ apart l'.
Proof.
  induction fuel as [|fuel IH]; intros l l' Hl E; [discriminate|]. cbn [pb_loop] in E.
  pose proof (update_ready l Hl) as U.
  destruct (existsb fst (pb_overlaps None (pb_update_all None l L))) eqn:O.
  - apply (IH _ _ (stretch_ready _ U) E).
  - destruct (no_overlap _ U O) as (A & B). rewrite B in E. injection E as <-. auto.
Qed.
End Loop.
