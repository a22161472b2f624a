(** The defects of the embedded steps, aa_ode_sol, aa_ode_path and the finite differences. *)
From Coq Require Import Reals List ZArith Arith Lra Lia FunctionalExtensionality.
From Verif Require Import MatModel TrModel RkModel RkSpec RkProofs RkOrder.
Import ListNotations.
Open Scope R_scope.

(** ** the steps on x' = t, x' = t^2 and x' = t^4 *)
Definition tpow (p : nat) : sysfun := fun t _ _ => t ^ p.
Ltac run := cbn -[Rmult Rplus Rdiv Rinv Ropp Rminus IZR pow].

Lemma dp_clock : forall x0 t0 dt k, agree 1 (k 0%nat) (tpow 1 t0 x0) ->
  x_lo (odestep_dorpri45 (tpow 1) t0 dt x0 k) 0%nat = x0 0%nat + (t0 * dt + dt^2/2) + dt^2 * (2187*8) / (6784*9).
Proof.
  intros x0 t0 dt k H. pose proof (H 0%nat (Nat.lt_0_succ 0)) as K. unfold tpow in K.
  unfold x_lo, odestep_dorpri45. run. unfold gemv. run. rewrite K. unfold tpow. change (Z.quot 8 9) with 0%Z. field.
Qed.
Lemma dp_clock_hi : forall x0 t0 dt k, agree 1 (k 0%nat) (tpow 1 t0 x0) ->
  x_hi (odestep_dorpri45 (tpow 1) t0 dt x0 k) 0%nat = x0 0%nat + (t0 * dt + dt^2/2) + dt^2 * (92097*8) / (339200*9).
Proof.
  intros x0 t0 dt k H. pose proof (H 0%nat (Nat.lt_0_succ 0)) as K. unfold tpow in K.
  unfold x_hi, odestep_dorpri45. run. unfold gemv. run. rewrite K. unfold tpow. change (Z.quot 8 9) with 0%Z. field.
Qed.
Lemma ck_clock : forall x0 t0 dt k, agree 1 (k 0%nat) (tpow 1 t0 x0) ->
  x_hi (odestep_rkck45 (tpow 1) t0 dt x0 k) 0%nat = x0 0%nat + (t0 * dt + dt^2/2) + dt^2 * (1/4 - 277/14336) / 8.
Proof.
  intros x0 t0 dt k H. pose proof (H 0%nat (Nat.lt_0_succ 0)) as K. unfold tpow in K.
  unfold x_hi, odestep_rkck45. run. unfold gemv. run. rewrite K. unfold tpow. field.
Qed.
Lemma bs_clock : forall x0 dt k, agree 1 (k 0%nat) (tpow 2 0 x0) ->
  x_hi (odestep_rkbs23 (tpow 2) 0 dt x0 k) 0%nat = x0 0%nat + dt^3/3 + dt^3 / 24.
Proof.
  intros x0 dt k H. pose proof (H 0%nat (Nat.lt_0_succ 0)) as K. unfold tpow in K.
  unfold x_hi, odestep_rkbs23. run. unfold gemv. run. rewrite K. unfold tpow. field.
Qed.
(** the clock s' = 1 with y' = s^4, which does not depend on the time *)
Definition clock4 : sysfun := fun _ x i => match i with O => 1 | _ => x 0%nat ^ 4 end.
Lemma dp_quartic : forall x0 t0 dt k, x0 0%nat = 0 -> agree 2 (k 0%nat) (clock4 t0 x0) ->
  let r := odestep_dorpri45 clock4 t0 dt x0 k in
  x_lo r 1%nat = x0 1%nat + dt^5 / 5 /\ x_hi r 1%nat = x0 1%nat + dt^5 / 5 - dt^5 * (71 / 270000).
Proof.
  intros x0 t0 dt k Z H r. pose proof (H 0%nat ltac:(lia)) as K0. pose proof (H 1%nat ltac:(lia)) as K1. cbn in K0, K1.
  unfold r, x_lo, x_hi, odestep_dorpri45. split; run; unfold gemv; run; rewrite K1, Z; unfold clock4; run; rewrite ?K0, ?Z; field.
Qed.

(** ** aa_ode_sol with a fixed step *)
Section Fixed.
Context {C : Type} (chk : C -> R -> vec -> vec -> C * Z) (n : nat) (f : sysfun).
Variables (m : fixed_method) (dt : R).

Fixpoint iter_steps (t0 : R) (x0 : vec) (i : nat) : vec :=
  match i with O => x0 | S j => fixed_step m f (t0 + INR j * dt) dt (iter_steps t0 x0 j) end.
Definition calls (t0 : R) (x0 : vec) (N : nat) : list call :=
  map (fun i => (t0 + INR i * dt, iter_steps t0 x0 i, f (t0 + INR i * dt) (iter_steps t0 x0 i))) (seq 1 N).

Lemma iter_shift : forall t0 x0 i, iter_steps (t0 + dt) (fixed_step m f t0 dt x0) i = iter_steps t0 x0 (S i).
Proof.
  induction i as [|i IH].
  - cbn [iter_steps]. replace (t0 + INR 0 * dt) with t0 by (cbn; ring). reflexivity.
  - cbn [iter_steps] in *. rewrite IH. f_equal. rewrite S_INR. ring.
Qed.
Lemma calls_shift : forall t0 x0 N, calls t0 x0 (S N) =
  (t0 + dt, fixed_step m f t0 dt x0, f (t0 + dt) (fixed_step m f t0 dt x0)) :: calls (t0 + dt) (fixed_step m f t0 dt x0) N.
Proof.
  intros. unfold calls. cbn [seq map]. f_equal.
  - cbn [iter_steps]. replace (t0 + INR 0 * dt) with t0 by (cbn; ring). replace (t0 + INR 1 * dt) with (t0 + dt) by (cbn; ring). reflexivity.
  - rewrite <- (seq_shift N 1), map_map. apply map_ext. intro i. rewrite iter_shift.
    replace (t0 + INR (S i) * dt) with (t0 + dt + INR i * dt) by (rewrite S_INR; ring). reflexivity.
Qed.

Lemma sol_fixed_run : forall fuel t0 x0 cx x1 r cx',
  sol_fixed chk f fuel (fixed_step m) t0 dt x0 cx = Some (x1, r, cx') ->
  exists N, (1 <= N <= fuel)%nat /\ checked chk cx (calls t0 x0 N) r cx' /\ x1 = iter_steps t0 x0 N.
Proof.
  induction fuel as [|fuel IH]; intros t0 x0 cx x1 r cx' H; [discriminate|].
  cbn [sol_fixed] in H. destruct (chk cx (t0 + dt) _ _) as [c1 r1] eqn:E.
  destruct (Z.eqb r1 0) eqn:Z0.
  - apply Z.eqb_eq in Z0. subst r1. destruct (IH _ _ _ _ _ _ H) as [N [B [K X]]].
    exists (S N). split; [lia|]. rewrite calls_shift. split; [eapply ck_more; eassumption|]. rewrite X. apply iter_shift.
  - apply Z.eqb_neq in Z0. inversion H; subst. exists 1%nat. split; [lia|]. rewrite calls_shift. split; [apply ck_last; assumption|].
    cbn [iter_steps]. replace (t0 + INR 0 * dt) with t0 by (cbn; ring). reflexivity.
Qed.
Lemma sol_fixed_stops : forall N t0 x0 cx r cx' fuel, (N <= fuel)%nat -> checked chk cx (calls t0 x0 N) r cx' ->
  sol_fixed chk f fuel (fixed_step m) t0 dt x0 cx = Some (iter_steps t0 x0 N, r, cx').
Proof.
  induction N as [|N IH]; intros t0 x0 cx r cx' fuel L K; [inversion K|].
  destruct fuel as [|fuel]; [lia|]. rewrite calls_shift in K. cbn [sol_fixed]. inversion K; subst.
  - match goal with E : chk _ _ _ _ = _ |- _ => rewrite E end. destruct (Z.eqb_spec r 0); [contradiction|].
    destruct N; [|unfold calls in *; discriminate]. cbn [iter_steps]. replace (t0 + INR 0 * dt) with t0 by (cbn; ring). reflexivity.
  - match goal with E : chk _ _ _ _ = _ |- _ => rewrite E end. cbn [Z.eqb]. rewrite (IH _ _ _ r cx') by (try lia; assumption). rewrite iter_shift. reflexivity.
Qed.
End Fixed.

Lemma path_checked : forall C (chk : C -> R -> vec -> vec -> C * Z) l cx p r cx', checked (path_chk chk) (cx, p) l r cx' ->
  checked chk cx l r (fst cx') /\ snd cx' = p ++ map (fun c => snd (fst c)) l.
Proof.
  intros C chk l. induction l as [|[[t x] y] l IH]; intros cx p r cx' H; inversion H; subst.
  - match goal with E : path_chk _ _ _ _ _ = _ |- _ => rename E into H6 end. unfold path_chk in H6. cbn in H6. destruct (chk cx t x y) as [c1 r1] eqn:E. inversion H6; subst. split; [apply ck_last; assumption|reflexivity].
  - match goal with E : path_chk _ _ _ _ _ = _ |- _ => rename E into H6 end. unfold path_chk in H6. cbn in H6. destruct (chk cx t x y) as [c1' r1] eqn:E. inversion H6; subst.
    match goal with E : checked _ _ _ _ _ |- _ => destruct (IH _ _ _ _ E) as [A B] end. split; [eapply ck_more; eassumption|]. rewrite B, <- app_assoc. reflexivity.
Qed.

(** ** aa_ode_sol with an adaptive step: the time stands still *)
Section Adaptive.
Context {C : Type} (chk : C -> R -> vec -> vec -> C * Z) (n : nat) (f : sysfun).

Lemma adaptive_still : forall fuel m o t dt px0 k cx x1 r cx',
  sol_adaptive chk n f fuel m o t dt px0 k cx = Some (x1, r, cx') ->
  exists l, checked chk cx l r cx' /\ Forall (fun c => fst (fst c) = t) l.
Proof.
  induction fuel as [|fuel IH]; intros m o t dt px0 k cx x1 r cx' H; [discriminate|].
  cbn [sol_adaptive] in H.
  destruct (Rlt_b (tol_dec o) _).
  - eapply IH; eassumption.
  - destruct (chk cx t _ _) as [c1 r1] eqn:E. destruct (Z.eqb r1 0) eqn:Z0.
    + apply Z.eqb_eq in Z0. subst r1. destruct (IH _ _ _ _ _ _ _ _ _ _ H) as [l [A B]].
      eexists. split; [eapply ck_more; eassumption|]. constructor; [reflexivity|exact B].
    + apply Z.eqb_neq in Z0. inversion H; subst. eexists. split; [apply ck_last; eassumption|]. constructor; [reflexivity|constructor].
Qed.
Lemma adaptive_endless : forall t, (forall c x y, snd (chk c t x y) = 0%Z) ->
  forall fuel m o dt px0 k cx, sol_adaptive chk n f fuel m o t dt px0 k cx = None.
Proof.
  intros t H. induction fuel as [|fuel IH]; intros m o dt px0 k cx; [reflexivity|].
  cbn [sol_adaptive]. destruct (Rlt_b (tol_dec o) _); [apply IH|].
  match goal with |- context [chk ?a ?b ?c ?d] => pose proof (H a c d) as Q; destruct (chk a b c d) as [c1 r1] end.
  cbn in Q. subst r1. apply IH.
Qed.
End Adaptive.

(** the accepted points *)
Definition ssd (n : nat) (x y : vec) : R := bsum n (fun i => (x i - y i) * (x i - y i)).

Section Accepted.
Context {C : Type} (chk : C -> R -> vec -> vec -> C * Z) (n : nat) (f : sysfun).

Lemma col0_kept : forall m t dt x k, k_of (adaptive_step m f t dt x k) 0%nat = k 0%nat.
Proof. intros [] t dt x k; reflexivity. Qed.

Lemma adaptive_first : forall fuel m o t dt px0 k cx x1 r cx',
  sol_adaptive chk n f fuel m o t dt px0 k cx = Some (x1, r, cx') ->
  exists j k1, k1 0%nat = k 0%nat /\
    (forall i, (i < j)%nat -> exists k2, k2 0%nat = k 0%nat /\ let s := adaptive_step m f t (dt * factor_dec o ^ i) px0 k2 in tol_dec o < ssd n (x_lo s) (x_hi s)) /\
    let s := adaptive_step m f t (dt * factor_dec o ^ j) px0 k1 in
    ssd n (x_lo s) (x_hi s) <= tol_dec o /\
    exists y l, checked chk cx ((t, x_hi s, y) :: l) r cx'.
Proof.
  induction fuel as [|fuel IH]; intros m o t dt px0 k cx x1 r cx' H; [discriminate|].
  cbn [sol_adaptive] in H. unfold Rlt_b in H at 1. destruct (Rlt_dec (tol_dec o) _) as [L|L].
  - destruct (IH _ _ _ _ _ _ _ _ _ _ H) as [j [k1 [A [B D]]]]. exists (S j), k1. rewrite col0_kept in *. split; [exact A|]. split.
    + intros [|i] Hi.
      * exists k. split; [reflexivity|]. replace (dt * factor_dec o ^ 0) with dt by (cbn; ring). exact L.
      * destruct (B i ltac:(lia)) as [k2 [E F]]. exists k2. split; [exact E|].
        replace (dt * factor_dec o ^ S i) with (dt * factor_dec o * factor_dec o ^ i) by (cbn; ring). exact F.
    + replace (dt * factor_dec o ^ S j) with (dt * factor_dec o * factor_dec o ^ j) by (cbn; ring). exact D.
  - exists 0%nat, k. replace (dt * factor_dec o ^ 0) with dt by (cbn; ring). split; [reflexivity|]. split; [intros; lia|].
    cbv zeta. split; [apply Rnot_lt_le; exact L|].
    match type of H with context [chk ?a ?b ?c ?d] => destruct (chk a b c d) as [c1 r1] eqn:E; exists d end.
    destruct (Z.eqb r1 0) eqn:Z0.
    + apply Z.eqb_eq in Z0. subst r1. destruct (adaptive_still _ _ _ _ _ _ _ _ _ _ _ _ _ _ H) as [l [K _]]. exists l. eapply ck_more; eassumption.
    + apply Z.eqb_neq in Z0. inversion H; subst. exists []. apply ck_last; assumption.
Qed.

(** each point given to check is the second output of a step from the one before, within the tolerance *)
Lemma adaptive_chain : forall fuel m o t dt px0 k cx x1 r cx',
  sol_adaptive chk n f fuel m o t dt px0 k cx = Some (x1, r, cx') ->
  exists l, checked chk cx l r cx' /\ last (map (fun c => snd (fst c)) l) x1 = x1 /\
    forall i, (i < length l)%nat ->
      exists h k', let s := adaptive_step m f t h (nth i (px0 :: map (fun c => snd (fst c)) l) px0) k' in
        nth (S i) (px0 :: map (fun c => snd (fst c)) l) px0 = x_hi s /\ ssd n (x_lo s) (x_hi s) <= tol_dec o.
Proof.
  induction fuel as [|fuel IH]; intros m o t dt px0 k cx x1 r cx' H; [discriminate|].
  cbn [sol_adaptive] in H. unfold Rlt_b in H at 1. destruct (Rlt_dec (tol_dec o) _) as [L|L]; [eapply IH; eassumption|].
  apply Rnot_lt_le in L.
  match type of H with context [chk ?a ?b ?c ?d] => destruct (chk a b c d) as [c1 r1] eqn:E; set (y := d) in *; set (x := c) in * end.
  destruct (Z.eqb r1 0) eqn:Z0.
  - apply Z.eqb_eq in Z0. subst r1. destruct (IH _ _ _ _ _ _ _ _ _ _ H) as [l [A [B D]]].
    exists ((t, x, y) :: l). split; [eapply ck_more; eassumption|]. split.
    + cbn [map]. destruct l as [|c l]; [inversion A|]. exact B.
    + intros [|i] Hi; [exists dt, k; split; [reflexivity|exact L]|].
      destruct (D i ltac:(cbn in Hi; lia)) as [h [k' [P Q]]]. exists h, k'.
      cbv zeta. cbn [map fst snd].
      unfold call in *. assert (G : forall q, (q <= length l)%nat -> nth (S q) (px0 :: x :: map (fun c => snd (fst c)) l) px0 = nth q (x :: map (fun c => snd (fst c)) l) x).
      { intros q Q1. change (nth (S q) (px0 :: x :: map (fun c => snd (fst c)) l) px0) with (nth q (x :: map (fun c => snd (fst c)) l) px0).
        apply nth_indep. cbn [length]. rewrite map_length. lia. }
      assert (length ((t, x, y) :: l) = S (length l)) as G1 by reflexivity.
      rewrite (G i), (G (S i)) by lia.
      split; [exact P|exact Q].
  - apply Z.eqb_neq in Z0. inversion H; subst. exists [(t, x, y)]. split; [apply ck_last; assumption|]. split; [reflexivity|].
    intros [|i] Hi; [|cbn in Hi; lia]. exists dt, k. split; [reflexivity|exact L].
Qed.
End Accepted.

(** ** x' = x with a check that asks for two steps *)
Definition grow : sysfun := fun _ x => x.
Definition twice (c : nat) (t : R) (x y : vec) : nat * Z := (S c, match c with O => 0%Z | S _ => 1%Z end).
Definition loose : sol_opts := {| tol_dec := 1000000; tol_inc := 0; factor_dec := 1/2; factor_inc := 2 |}.
Definition lo_c (m : adaptive_method) : R * R := match m with RK45_F => (3377/1404, 439/1404) | RK45_CK => (74089/30240, 5063/18900)
  | RK45_DP => (21347/8640, 10697/43200) | RK23_BS => (19/9, 5/9) end.
Definition hi_c (m : adaptive_method) : R * R := match m with RK45_F => (27005/11232, 1757/5616)
  | RK45_CK => (15765580633/6341787648, 1185481343/3963617280) | RK45_DP => (4269281/1728000, 2144531/8640000) | RK23_BS => (151/72, 11/18) end.
Definition kn_c (m : adaptive_method) : R * R := match m with RK45_F => (5009/2808, 1523/1404) | RK45_CK => (637/270, 221/675)
  | RK45_DP => (21347/8640, 10697/43200) | RK23_BS => (19/9, 5/9) end.

Lemma grow_step : forall m t x k, let s := adaptive_step m grow t 1 x k in
  x_lo s 0%nat = fst (lo_c m) * x 0%nat + snd (lo_c m) * k 0%nat 0%nat /\
  x_hi s 0%nat = fst (hi_c m) * x 0%nat + snd (hi_c m) * k 0%nat 0%nat /\
  k_of s (n_k m - 1)%nat 0%nat = fst (kn_c m) * x 0%nat + snd (kn_c m) * k 0%nat 0%nat.
Proof.
  intros [] t x k s; unfold s, adaptive_step, x_lo, x_hi, k_of, lo_c, hi_c, kn_c, n_k;
    unfold odestep_rkf45, odestep_rkck45, odestep_dorpri45, odestep_rkbs23; (split; [|split]);
    run; unfold gemv; run; unfold grow; run; field.
Qed.

Lemma grow_run : forall m, exists x1,
  ode_sol twice 1 grow 2 (inr m) loose 0 1 (fun _ => 1) 0%nat = Some (x1, 0%Z, 2%nat) /\
  let X := fun k x => x_hi (adaptive_step m grow 0 1 x k) in
  x1 0%nat = fst (hi_c m) * (fst (hi_c m) + snd (hi_c m)) + snd (hi_c m) * (fst (kn_c m) + snd (kn_c m)).
Proof.
  intro m. unfold ode_sol, sol_adaptive.
  set (s1 := adaptive_step m grow 0 1 (fun _ => 1) (fun _ => grow 0 (fun _ => 1))).
  destruct (grow_step m 0 (fun _ => 1) (fun _ => grow 0 (fun _ => 1))) as [A1 [A2 A3]]. fold s1 in A1, A2, A3.
  assert (E1 : Rlt_b (tol_dec loose) (bsum 1 (fun i => (x_lo s1 i - x_hi s1 i) * (x_lo s1 i - x_hi s1 i))) = false).
  { unfold Rlt_b. destruct (Rlt_dec _ _) as [L|]; [exfalso|reflexivity]. cbn [bsum tol_dec loose] in L. rewrite A1, A2 in L.
    unfold grow in L. destruct m; cbn [lo_c hi_c fst snd] in L; lra. }
  rewrite E1. cbn [twice Z.eqb].
  assert (E2 : Rlt_b (bsum 1 (fun i => (x_lo s1 i - x_hi s1 i) * (x_lo s1 i - x_hi s1 i))) (tol_inc loose) = false).
  { unfold Rlt_b. destruct (Rlt_dec _ _) as [L|]; [exfalso|reflexivity]. cbn [bsum tol_inc loose] in L.
    pose proof (Rle_0_sqr (x_lo s1 0%nat - x_hi s1 0%nat)) as Q. unfold Rsqr in Q. lra. }
  rewrite E2.
  set (k2 := setcol (k_of s1) 0 (k_of s1 (n_k m - 1)%nat)).
  set (s2 := adaptive_step m grow 0 1 (x_hi s1) k2).
  destruct (grow_step m 0 (x_hi s1) k2) as [B1 [B2 B3]]. fold s2 in B1, B2, B3.
  unfold k2 in B1, B2, B3. unfold setcol in B1, B2, B3. cbn [Nat.eqb] in B1, B2, B3. rewrite A2, A3 in *. unfold grow in B1, B2, A1, A2.
  assert (E3 : Rlt_b (tol_dec loose) (bsum 1 (fun i => (x_lo s2 i - x_hi s2 i) * (x_lo s2 i - x_hi s2 i))) = false).
  { unfold Rlt_b. destruct (Rlt_dec _ _) as [L|]; [exfalso|reflexivity]. cbn [bsum tol_dec loose] in L. rewrite B1, B2 in L.
    destruct m; cbn [lo_c hi_c kn_c fst snd] in L; lra. }
  rewrite E3. cbn. eexists. split; [reflexivity|]. rewrite B2. ring.
Qed.

Lemma second_step_wrong : forall m, exists x1,
  ode_sol twice 1 grow 2 (inr m) loose 0 1 (fun _ => 1) 0%nat = Some (x1, 0%Z, 2%nat) /\
  let X := fun x : vec => x_hi (adaptive_step m grow 0 1 x (fun _ => grow 0 x)) in
  x1 0%nat <> X (X (fun _ => 1)) 0%nat.
Proof.
  intro m. destruct (grow_run m) as [x1 [H E]]. exists x1. split; [exact H|]. cbv zeta in *. rewrite E.
  destruct (grow_step m 0 (fun _ => 1) (fun _ => grow 0 (fun _ => 1))) as [_ [A _]].
  set (y := x_hi (adaptive_step m grow 0 1 (fun _ => 1) (fun _ => grow 0 (fun _ => 1)))) in *.
  destruct (grow_step m 0 y (fun _ => grow 0 y)) as [_ [B _]]. rewrite B. unfold grow at 1. rewrite A. unfold grow.
  destruct m; cbn [hi_c kn_c fst snd]; lra.
Qed.

(** ** finite differences *)
Lemma upd1_same : forall y a v, upd1 y a v a = v.
Proof. intros. unfold upd1. rewrite Nat.eqb_refl. reflexivity. Qed.
Lemma upd1_other : forall y a v b, b <> a -> upd1 y a v b = y b.
Proof. intros. unfold upd1. destruct (Nat.eqb_spec b a); [contradiction|reflexivity]. Qed.
Lemma upd1_restore : forall p i v, upd1 (upd1 p i v) i (p i) = p.
Proof. intros. apply functional_extensionality. intro j. unfold upd1. destruct (Nat.eqb_spec j i); [subst; reflexivity|reflexivity]. Qed.
Lemma upd1_shift : forall x i h, upd1 x i (x i + h) = shift x i h.
Proof. intros. apply functional_extensionality. intro j. unfold upd1, shift. destruct (Nat.eqb_spec j i); [subst; reflexivity|reflexivity]. Qed.

Definition central (fn : vec -> R) (x : vec) (i : nat) (eps : R) : R := (fn (shift x i eps) - fn (shift x i (- eps))) / (2 * eps).

Definition grad_step (fn : vec -> R) (eps : R) (inc : nat) : vec * vec * vec -> nat -> vec * vec * vec :=
  fun '(y, p, m) i =>
      let orig := p i in
      let p1 := upd1 p i (p i + eps) in
      let m1 := upd1 m i (m i - eps) in
      let y := upd1 y (i * inc) ((fn p1 - fn m1) / (2 * eps)) in
      (y, upd1 p1 i orig, upd1 m1 i orig).
Lemma grad_loop : forall fn x eps inc l y,
  fold_left (grad_step fn eps inc) l (y, x, x) = (fold_left (fun y i => upd1 y (i * inc) (central fn x i eps)) l y, x, x).
Proof.
  intros fn x eps inc. induction l as [|i l IH]; intro y; [reflexivity|].
  cbn [fold_left]. unfold grad_step at 2. rewrite !upd1_restore, IH.
  rewrite upd1_shift. unfold Rminus at 2. rewrite upd1_shift. reflexivity.
Qed.
Lemma upd_fold : forall (v : nat -> R) (a : nat -> nat) l y, (forall i j, In i l -> In j l -> a i = a j -> i = j) ->
  (forall i, In i l -> fold_left (fun y i => upd1 y (a i) (v i)) l y (a i) = v i) /\
  (forall b, (forall i, In i l -> b <> a i) -> fold_left (fun y i => upd1 y (a i) (v i)) l y b = y b).
Proof.
  intros v a l. induction l as [|j l IH]; intros y I; [split; [intros ? []|reflexivity]|].
  destruct (IH (upd1 y (a j) (v j)) ltac:(intros; apply I; cbn; auto)) as [P Q]. cbn [fold_left]. split.
  - intros i Hi. destruct (in_dec Nat.eq_dec i l) as [M|M]; [apply P, M|].
    destruct Hi as [<-|Hi]; [|contradiction].
    rewrite Q; [apply upd1_same|]. intros i Hi E. assert (j = i) by (apply I; cbn; auto). subst. contradiction.
  - intros b Hb. rewrite Q by (intros; apply Hb; cbn; auto). apply upd1_other, Hb. cbn; auto.
Qed.

Lemma grad_fd : forall n fn x eps y inc, (1 <= inc)%nat ->
  (forall i, (i < n)%nat -> de_grad_fd n fn x eps y inc (i * inc)%nat = central fn x i eps) /\
  (forall a, (forall i, (i < n)%nat -> a <> (i * inc)%nat) -> de_grad_fd n fn x eps y inc a = y a).
Proof.
  intros n fn x eps y inc Hi. unfold de_grad_fd. change (fun '(y, p, m) i => _) with (grad_step fn eps inc). rewrite grad_loop.
  destruct (upd_fold (fun i => central fn x i eps) (fun i => (i * inc)%nat) (seq 0 n) y) as [P Q].
  { intros i j _ _ E. apply Nat.mul_cancel_r in E; [exact E|lia]. }
  split.
  - intros i L. apply P. apply in_seq. lia.
  - intros a H. apply Q. intros i I. apply in_seq in I. apply H. lia.
Qed.

(** the Jacobian: the columns do not overlap when m <= ld *)
Definition jac_step (m : nat) (fn : vec -> vec) (eps : R) (ld : nat) : vec * vec * vec -> nat -> vec * vec * vec :=
  fun '(J, p, mv) j =>
      let orig := p j in
      let p1 := upd1 p j (p j + eps) in
      let m1 := upd1 mv j (mv j - eps) in
      let jtmp := fn m1 in
      let J := fold_left (fun J i => upd1 J (j * ld + i) (fn p1 i)) (seq 0 m) J in
      let J := fold_left (fun J i => upd1 J (j * ld + i) (J (j * ld + i)%nat + -1 * jtmp i)) (seq 0 m) J in
      let J := fold_left (fun J i => upd1 J (j * ld + i) (1 / (2 * eps) * J (j * ld + i)%nat)) (seq 0 m) J in
      (J, upd1 p1 j orig, upd1 m1 j orig).
Lemma col_fold : forall (g : nat -> R -> R) (a : nat -> nat) l J, NoDup l -> (forall i j, In i l -> In j l -> a i = a j -> i = j) ->
  (forall i, In i l -> fold_left (fun J i => upd1 J (a i) (g i (J (a i)))) l J (a i) = g i (J (a i))) /\
  (forall b, (forall i, In i l -> b <> a i) -> fold_left (fun J i => upd1 J (a i) (g i (J (a i)))) l J b = J b).
Proof.
  intros g a l. induction l as [|j l IH]; intros J D I; [split; [intros ? []|reflexivity]|].
  inversion D as [|? ? D1 D2]; subst.
  destruct (IH (upd1 J (a j) (g j (J (a j)))) D2 ltac:(intros; apply I; cbn; auto)) as [P Q]. cbn [fold_left]. split.
  - intros i [<-|Hi].
    + rewrite Q; [apply upd1_same|]. intros i Hi E. assert (j = i) by (apply I; cbn; auto). subst. contradiction.
    + rewrite P by exact Hi. f_equal. apply upd1_other. intro E. assert (i = j) by (apply I; cbn; auto). subst. contradiction.
  - intros b Hb. rewrite Q by (intros; apply Hb; cbn; auto). apply upd1_other, Hb. cbn; auto.
Qed.

Lemma jac_step_col : forall m fn eps ld x J j, exists J', jac_step m fn eps ld (J, x, x) j = (J', x, x) /\
  (forall i, (i < m)%nat -> J' (j * ld + i)%nat = central (fun z => fn z i) x j eps) /\
  (forall b, (forall i, (i < m)%nat -> b <> (j * ld + i)%nat) -> J' b = J b).
Proof.
  intros m fn eps ld x J j. unfold jac_step. rewrite !upd1_restore. rewrite upd1_shift. unfold Rminus. rewrite upd1_shift.
  eexists. split; [reflexivity|].
  set (F1 := fun J i => upd1 J (j * ld + i) (fn (shift x j eps) i)).
  set (J1 := fold_left F1 (seq 0 m) J).
  set (F2 := fun (J : vec) i => upd1 J (j * ld + i) (J (j * ld + i)%nat + -1 * fn (shift x j (- eps)) i)).
  set (J2 := fold_left F2 (seq 0 m) J1).
  assert (I : forall i i', In i (seq 0 m) -> In i' (seq 0 m) -> (j * ld + i = j * ld + i')%nat -> i = i') by (intros; lia).
  destruct (col_fold (fun i _ => fn (shift x j eps) i) (fun i => (j * ld + i)%nat) (seq 0 m) J (seq_NoDup _ _) I) as [P1 Q1].
  destruct (col_fold (fun i v => v + -1 * fn (shift x j (- eps)) i) (fun i => (j * ld + i)%nat) (seq 0 m) J1 (seq_NoDup _ _) I) as [P2 Q2].
  destruct (col_fold (fun i v => 1 / (2 * eps) * v) (fun i => (j * ld + i)%nat) (seq 0 m) J2 (seq_NoDup _ _) I) as [P3 Q3].
  split.
  - intros i Hi. assert (In i (seq 0 m)) as M by (apply in_seq; lia).
    rewrite (P3 i M). unfold J2, F2. rewrite (P2 i M). unfold J1, F1. rewrite (P1 i M). unfold central, Rdiv. ring.
  - intros b Hb. assert (forall i, In i (seq 0 m) -> b <> (j * ld + i)%nat) as M by (intros i Hi; apply in_seq in Hi; apply Hb; lia).
    rewrite (Q3 b M). unfold J2, F2. rewrite (Q2 b M). unfold J1, F1. apply (Q1 b M).
Qed.

Lemma jac_loop : forall m fn x eps ld, (m <= ld)%nat -> forall l J, NoDup l -> exists J',
  fold_left (jac_step m fn eps ld) l (J, x, x) = (J', x, x) /\
  (forall j i, In j l -> (i < m)%nat -> J' (j * ld + i)%nat = central (fun z => fn z i) x j eps) /\
  (forall b, (forall j i, In j l -> (i < m)%nat -> b <> (j * ld + i)%nat) -> J' b = J b).
Proof.
  intros m fn x eps ld Hl. induction l as [|j l IH]; intros J D.
  - exists J. split; [reflexivity|]. split; [intros ? ? []|reflexivity].
  - inversion D as [|? ? D1 D2]; subst. cbn [fold_left].
    destruct (jac_step_col m fn eps ld x J j) as [J1 [E [A B]]]. rewrite E.
    destruct (IH J1 D2) as [J' [E' [A' B']]]. exists J'. split; [exact E'|]. split.
    + intros j' i [<-|Hj] Hi; [|apply A'; assumption].
      rewrite B'; [apply A, Hi|]. intros j' i' Hj' Hi' Q.
      assert (j = j') by nia. subst. contradiction.
    + intros b Hb. rewrite B' by (intros; apply Hb; cbn; auto). apply B. intros i Hi. apply Hb; cbn; auto.
Qed.

Lemma jac_fd : forall m n fn x eps J ld, (m <= ld)%nat ->
  (forall i j, (i < m)%nat -> (j < n)%nat -> de_jac_fd m n fn x eps J ld (j * ld + i)%nat = central (fun z => fn z i) x j eps) /\
  (forall a, (forall i j, (i < m)%nat -> (j < n)%nat -> a <> (j * ld + i)%nat) -> de_jac_fd m n fn x eps J ld a = J a).
Proof.
  intros m n fn x eps J ld Hl. replace (de_jac_fd m n fn x eps J ld) with (let '(J, _, _) := fold_left (jac_step m fn eps ld) (seq 0 n) (J, x, x) in J) by reflexivity.
  destruct (jac_loop m fn x eps ld Hl (seq 0 n) J (seq_NoDup _ _)) as [J' [E [A B]]]. rewrite E. split.
  - intros i j Hi Hj. apply A; [apply in_seq; lia|exact Hi].
  - intros a H. apply B. intros j i Hj Hi. apply in_seq in Hj. apply H; lia.
Qed.

(** the central difference tends to the partial derivative, and is exact on quadratics *)
Lemma central_limit : forall fn x i d, derivable_pt_lim (fun h => fn (shift x i h)) 0 d ->
  forall e, 0 < e -> exists delta : posreal, forall eps, eps <> 0 -> Rabs eps < delta -> Rabs (central fn x i eps - d) < e.
Proof.
  intros fn x i d H e He. destruct (H e He) as [delta D]. exists delta. intros eps N L.
  pose proof (D eps N L) as P. pose proof (D (- eps) ltac:(lra) ltac:(rewrite Rabs_Ropp; exact L)) as Q.
  rewrite Rplus_0_l in P, Q. unfold central.
  set (g := fun h => fn (shift x i h)) in *. change (fn (shift x i eps)) with (g eps). change (fn (shift x i (- eps))) with (g (- eps)).
  change (fn (shift x i eps)) with (g eps) in P. change (fn (shift x i (- eps))) with (g (- eps)) in Q. change (fn (shift x i 0)) with (g 0) in *.
  replace ((g eps - g (- eps)) / (2 * eps) - d) with (((g eps - g 0) / eps - d) / 2 + ((g (- eps) - g 0) / - eps - d) / 2) by (field; exact N).
  eapply Rle_lt_trans; [apply Rabs_triang|]. unfold Rdiv at 1 3. rewrite !Rabs_mult. rewrite (Rabs_pos_eq (/ 2)) by lra. lra.
Qed.
Lemma central_quadratic : forall fn x i a b c, (forall h, fn (shift x i h) = a + b * h + c * h * h) ->
  forall eps, eps <> 0 -> central fn x i eps = b /\ derivable_pt_lim (fun h => fn (shift x i h)) 0 b.
Proof.
  intros fn x i a b c H eps N. split; [unfold central; rewrite !H; field; exact N|].
  apply (derivable_pt_lim_ext (fun h => a + b * h + c * h * h)); [intro; symmetry; apply H|].
  apply (derivable_ext _ _ (0 + b * 1 + ((c * 1) * 0 + (c * 0) * 1))); [ring|].
  apply (derivable_pt_lim_plus (fun h => a + b * h) (fun h => c * h * h)).
  - apply (derivable_pt_lim_plus (fun _ => a) (fun h => b * h)); [apply derivable_pt_lim_const|]. apply (derivable_pt_lim_scal (fun h => h)), derivable_pt_lim_id.
  - apply (derivable_pt_lim_mult (fun h => c * h) (fun h => h)); [apply (derivable_pt_lim_scal (fun h => h)), derivable_pt_lim_id|apply derivable_pt_lim_id].
Qed.
