(** Davenport's mean is the best rotation; medians and means are the best
    translations; the plane fit finds planes off the origin. *)
From Coq Require Import Reals Lra Psatz List Permutation Arith Lia ZArith Setoid.
From Verif Require Import HeapModel HeapSpec HeapProofs TfModel AvgModel AvgSpec.
Import ListNotations.
Open Scope R_scope.

(** ** Davenport *)
Definition dot4 (a b : v4) : R := sum4 (fun i => a i * b i).
Fixpoint gain (wq : list (R * v4)) (x : v4) : R :=
  match wq with [] => 0 | (w, q) :: r => w * (dot4 x q * dot4 x q) + gain r x end.
Definition quad (M : m4) (x : v4) : R := sum4 (fun i => sum4 (fun j => x i * (M i j * x j))).

Lemma quad_fold wq : forall M0 x,
  quad (fold_left davenport_add wq M0) x = quad M0 x + gain wq x.
Proof.
  induction wq as [|(w, q) wq IH]; intros M0 x; cbn [fold_left gain]; [lra|].
  rewrite IH. unfold davenport_add, quad, dot4, sum4. cbn [fst snd]. ring.
Qed.
Lemma sym_fold wq : forall M0, (forall i j, M0 i j = M0 j i) ->
  forall i j, fold_left davenport_add wq M0 i j =
              fold_left davenport_add wq M0 j i.
Proof.
  induction wq as [|(w, q) wq IH]; intros M0 H i j; cbn [fold_left]; [apply H|].
  apply IH. intros a b. unfold davenport_add. cbn [fst snd]. rewrite (H a b). ring.
Qed.
Lemma quad_matrix wq x : quad (davenport_matrix wq) x = gain wq x.
Proof. unfold davenport_matrix. rewrite quad_fold. unfold quad, sum4. ring. Qed.
Lemma sym_matrix wq i j : davenport_matrix wq i j = davenport_matrix wq j i.
Proof. apply sym_fold. reflexivity. Qed.

Lemma maxloc_from_ok x k : forall imax i, (imax < i)%nat -> (forall j, (j < i)%nat -> x j <= x imax) ->
  let r := maxloc_from x imax (x imax) i k in
  (r < i + k)%nat /\ forall j, (j < i + k)%nat -> x j <= x r.
Proof.
  induction k as [|k IH]; intros imax i Hi H; cbn [maxloc_from].
  - rewrite Nat.add_0_r. auto.
  - destruct (Rlt_dec (x imax) (x i)) as [L|L].
    + destruct (IH i (S i)) as (A & B); [lia| |].
      * intros j Hj. destruct (Nat.eq_dec j i) as [->|]; [lra|]. assert (x j <= x imax) by (apply H; lia). lra.
      * cbn zeta in A, B |- *. split; [lia|]. intros j Hj. apply B. lia.
    + destruct (IH imax (S i)) as (A & B); [lia| |].
      * intros j Hj. destruct (Nat.eq_dec j i) as [->|]; [lra|]. apply H. lia.
      * cbn zeta in A, B |- *. split; [lia|]. intros j Hj. apply B. lia.
Qed.
Lemma maxloc_ok x n : (0 < n)%nat -> (maxloc n x < n)%nat /\ forall j, (j < n)%nat -> x j <= x (maxloc n x).
Proof.
  intros Hn. unfold maxloc. destruct (maxloc_from_ok x (n - 1) 0 1) as (A & B); [lia| |].
  - intros j Hj. assert (j = 0)%nat by lia. subst. lra.
  - cbn zeta in A, B. replace (1 + (n - 1))%nat with n in * by lia. auto.
Qed.

Lemma pair_scale d e g : 0 <= d -> 0 <= e -> (d - e) * g = 0 -> sqrt d * sqrt e * g = e * g.
Proof.
  intros Hd He H. destruct (Req_dec g 0) as [->|N]; [ring|].
  assert (E : d = e). { apply Rmult_integral in H. destruct H; [lra|tauto]. }
  subst. now rewrite sqrt_sqrt.
Qed.

(** The quadratic form of a symmetric matrix with spanning eigenvectors is
    bounded by its largest eigenvalue *)
Lemma rayleigh M (l : nat -> R) (V : nat -> v4) lam :
  (forall i j, M i j = M j i) ->
  (forall k i, (k < 4)%nat -> (i < 4)%nat -> sum4 (fun j => M i j * V k j) = l k * V k i) ->
  (forall k, (k < 4)%nat -> l k <= lam) ->
  forall x c, (forall i, (i < 4)%nat -> x i = sum4 (fun k => c k * V k i)) ->
  quad M x <= lam * dot4 x x.
Proof.
  intros Sy Eg Le x c Hx.
  (* M x, by coordinates *)
  assert (MV : forall i, (i < 4)%nat -> sum4 (fun j => M i j * x j) = sum4 (fun k => c k * l k * V k i)).
  { intros i Hi.
    transitivity (sum4 (fun k => c k * sum4 (fun j => M i j * V k j))).
    - unfold sum4 at 1. rewrite !Hx by lia. unfold sum4. ring.
    - unfold sum4 at 1 3. rewrite !Eg by lia. ring. }
  assert (Q1 : quad M x = sum4 (fun k => sum4 (fun k' => c k * c k' * (l k' * dot4 (V k) (V k'))))).
  { transitivity (sum4 (fun i => x i * sum4 (fun j => M i j * x j))); [unfold quad, sum4; ring|].
    unfold sum4 at 1. rewrite !MV by lia. rewrite !Hx by lia. unfold dot4, sum4. ring. }
  assert (Q2 : dot4 x x = sum4 (fun k => sum4 (fun k' => c k * c k' * dot4 (V k) (V k')))).
  { unfold dot4 at 1. unfold sum4 at 1. rewrite !Hx by lia. unfold dot4, sum4. ring. }
  assert (Gs : forall k k', (k < 4)%nat -> (k' < 4)%nat -> (l k - l k') * dot4 (V k) (V k') = 0).
  { intros k k' Hk Hk'.
    assert (E : sum4 (fun i => V k' i * sum4 (fun j => M i j * V k j)) = sum4 (fun i => V k i * sum4 (fun j => M i j * V k' j))).
    { unfold sum4. rewrite (Sy 1 0)%nat, (Sy 2 0)%nat, (Sy 3 0)%nat, (Sy 2 1)%nat, (Sy 3 1)%nat, (Sy 3 2)%nat. ring. }
    unfold sum4 at 1 3 in E. rewrite !Eg in E by lia. unfold dot4, sum4. lra. }
  set (s := fun k => sqrt (lam - l k)).
  assert (P : forall k k', (k < 4)%nat -> (k' < 4)%nat -> s k * s k' * dot4 (V k) (V k') = (lam - l k') * dot4 (V k) (V k')).
  { intros k k' Hk Hk'. unfold s. apply pair_scale.
    - specialize (Le k Hk). lra.
    - specialize (Le k' Hk'). lra.
    - specialize (Gs k k' Hk Hk'). lra. }
  set (y := fun i => sum4 (fun k => s k * c k * V k i)).
  assert (Y : dot4 y y = sum4 (fun k => sum4 (fun k' => c k * c k' * (s k * s k' * dot4 (V k) (V k'))))).
  { unfold dot4, y, sum4. ring. }
  assert (Y2 : dot4 y y = lam * dot4 x x - quad M x).
  { rewrite Y, Q1, Q2. unfold sum4 at 1 2. rewrite !P by lia. unfold sum4. ring. }
  assert (Y3 : 0 <= dot4 y y).
  { unfold dot4, sum4. pose proof (Rle_0_sqr (y 0%nat)). pose proof (Rle_0_sqr (y 1%nat)).
    pose proof (Rle_0_sqr (y 2%nat)). pose proof (Rle_0_sqr (y 3%nat)). unfold Rsqr in *. lra. }
  lra.
Qed.

Lemma mdist_dot x q : unit4 x -> unit4 q -> mdist2 (rot_of x) (rot_of q) = 8 * (1 - dot4 x q * dot4 x q).
Proof.
  unfold unit4, dot4, sum4, mdist2, rot_of. cbn [m00 m01 m02 m10 m11 m12 m20 m21 m22].
  generalize (x 0%nat) (x 1%nat) (x 2%nat) (x 3%nat) (q 0%nat) (q 1%nat) (q 2%nat) (q 3%nat).
  intros a b c d e f g h U W.
  assert (D1 : 1 - 2 * (b * b + c * c) = d * d + a * a - b * b - c * c) by lra.
  assert (D2 : 1 - 2 * (a * a + c * c) = d * d + b * b - a * a - c * c) by lra.
  assert (D3 : 1 - 2 * (a * a + b * b) = d * d + c * c - a * a - b * b) by lra.
  assert (D4 : 1 - 2 * (f * f + g * g) = h * h + e * e - f * f - g * g) by lra.
  assert (D5 : 1 - 2 * (e * e + g * g) = h * h + f * f - e * e - g * g) by lra.
  assert (D6 : 1 - 2 * (e * e + f * f) = h * h + g * g - e * e - f * f) by lra.
  rewrite D1, D2, D3, D4, D5, D6. clear D1 D2 D3 D4 D5 D6.
  transitivity (3 * ((a * a + b * b + c * c + d * d) * (a * a + b * b + c * c + d * d)) +
                3 * ((e * e + f * f + g * g + h * h) * (e * e + f * f + g * g + h * h)) +
                2 * ((a * a + b * b + c * c + d * d) * (e * e + f * f + g * g + h * h)) -
                8 * ((a * e + b * f + c * g + d * h) * (a * e + b * f + c * g + d * h))); [ring|].
  rewrite U, W. ring.
Qed.

Fixpoint wsum (wq : list (R * v4)) : R := match wq with [] => 0 | (w, _) :: r => w + wsum r end.
Lemma cost_gain wq x : unit4 x -> (forall w q, In (w, q) wq -> unit4 q) -> cost wq x = 8 * (wsum wq - gain wq x).
Proof.
  intros U. induction wq as [|(w, q) wq IH]; intros H; cbn [cost wsum gain]; [ring|].
  rewrite IH by (intros w' q' I; apply (H w' q'); now right). rewrite mdist_dot; [ring|exact U|]. apply (H w q). now left.
Qed.

Lemma cauchy x q : unit4 x -> unit4 q -> dot4 x q * dot4 x q <= 1.
Proof.
  unfold unit4, dot4, sum4. generalize (x 0%nat) (x 1%nat) (x 2%nat) (x 3%nat) (q 0%nat) (q 1%nat) (q 2%nat) (q 3%nat).
  intros a b c d e f g h U W.
  assert (L : (a * a + b * b + c * c + d * d) * (e * e + f * f + g * g + h * h) - (a * e + b * f + c * g + d * h) * (a * e + b * f + c * g + d * h)
    = (a * f - b * e)^2 + (a * g - c * e)^2 + (a * h - d * e)^2 + (b * g - c * f)^2 + (b * h - d * f)^2 + (c * h - d * g)^2) by ring.
  rewrite U, W in L.
  pose proof (pow2_ge_0 (a * f - b * e)). pose proof (pow2_ge_0 (a * g - c * e)). pose proof (pow2_ge_0 (a * h - d * e)).
  pose proof (pow2_ge_0 (b * g - c * f)). pose proof (pow2_ge_0 (b * h - d * f)). pose proof (pow2_ge_0 (c * h - d * g)). lra.
Qed.

Definition weights (w : option (list R)) (n : nat) : list R := match w with Some l => l | None => repeat (1 / INR n) n end.

Lemma davenport_best geev4 w qq :
  (forall M, (forall i j, M i j = M j i) -> geev_ok M (geev4 M)) ->
  (forall q, In q qq -> unit4 q) -> length (weights w (length qq)) = length qq ->
  (forall r, In r (weights w (length qq)) -> 0 <= r) ->
  unit4 (davenport geev4 w qq) /\
  forall x, unit4 x ->
    cost (combine (weights w (length qq)) qq) (davenport geev4 w qq) <= cost (combine (weights w (length qq)) qq) x.
Proof.
  intros G Uq Lw Pw.
  assert (Uc : forall a q, In (a, q) (combine (weights w (length qq)) qq) -> unit4 q).
  { intros a q I. apply in_combine_r in I. auto. }
  destruct qq as [|q1 [|q2 qs]].
  - cbn. split; [unfold unit4, sum4, quat_ident; cbn; ring|].
    intros x _. destruct (weights w 0); cbn; lra.
  - cbn [davenport]. assert (U1 : unit4 q1) by (apply Uq; now left). split; [exact U1|]. intros x Ux.
    destruct (weights w (length [q1])) as [|a [|]] eqn:E; try (cbn in Lw; discriminate).
    cbn [combine cost]. rewrite !mdist_dot by assumption.
    assert (D : dot4 q1 q1 = 1) by exact U1. rewrite D.
    assert (0 <= a) by (apply Pw; now left). pose proof (cauchy x q1 Ux U1). nra.
  - set (qq := q1 :: q2 :: qs) in *.
    assert (Ed : davenport geev4 w qq = snd (geev4 (davenport_matrix (combine (weights w (length qq)) qq)))
                   (maxloc 4 (fst (geev4 (davenport_matrix (combine (weights w (length qq)) qq)))))).
    { unfold qq at 1. cbn [davenport]. fold qq. change (match w with Some l => l | None => repeat (1 / INR (length qq)) (length qq) end) with (weights w (length qq)).
      now destruct (geev4 _). }
    set (wq := combine (weights w (length qq)) qq) in *. set (M := davenport_matrix wq) in *.
    destruct (G M (sym_matrix wq)) as (Eg & Un & Sp). destruct (geev4 M) as (l, V). cbn [fst snd] in *.
    destruct (maxloc_ok l 4) as (Lm & Mx); [lia|]. set (m := maxloc 4 l) in *.
    rewrite Ed. split; [apply Un; exact Lm|]. intros x Ux.
    rewrite !cost_gain by (try apply Un; assumption).
    assert (Gp : gain wq (V m) = l m).
    { rewrite <- quad_matrix. fold M.
      transitivity (sum4 (fun i => V m i * sum4 (fun j => M i j * V m j))); [unfold quad, sum4; ring|].
      unfold sum4 at 1. rewrite !Eg by lia. specialize (Un m Lm). unfold unit4, sum4 in Un.
      transitivity (l m * (V m 0%nat * V m 0%nat + V m 1%nat * V m 1%nat + V m 2%nat * V m 2%nat + V m 3%nat * V m 3%nat)); [ring|].
      rewrite Un. ring. }
    destruct (Sp x) as (c & Hc).
    pose proof (rayleigh M l V (l m) (sym_matrix wq) Eg Mx x c Hc) as Ry.
    unfold M in Ry. rewrite quad_matrix in Ry. change (dot4 x x) with (sum4 (fun i => x i * x i)) in Ry. rewrite Ux in Ry. lra.
Qed.

(** The leading dimension of the copy *)
Lemma all_some_in {B} (l : list (option B)) : all_some l = true <-> ~ In None l.
Proof.
  induction l as [|[x|] l IH]; cbn.
  - tauto.
  - rewrite IH. intuition discriminate.
  - split; [discriminate|]. intros H. exfalso. apply H. now left.
Qed.
Lemma eev_inside n A lda : (n <= lda)%nat -> (all_some (eev_reads n A lda) = true <-> (n <= 1)%nat \/ lda = n).
Proof.
  intros Hl. rewrite all_some_in. unfold eev_reads. rewrite in_flat_map. split.
  - intros H. destruct (le_lt_dec n 1) as [|L]; [now left|right].
    destruct (Nat.eq_dec lda n) as [|N]; [assumption|exfalso]. apply H.
    exists (n - 1)%nat. split; [apply in_seq; lia|]. apply in_map_iff. exists (n - 1)%nat. split; [|apply in_seq; lia].
    unfold dup. destruct (Nat.ltb _ _) eqn:E; [|reflexivity]. apply Nat.ltb_lt in E. nia.
  - intros H (j & Hj & I). apply in_map_iff in I. destruct I as (i & E & Hi). apply in_seq in Hi, Hj.
    unfold dup in E. destruct (Nat.ltb _ _) eqn:L; [discriminate|]. apply Nat.ltb_ge in L. destruct H as [H|H]; [|subst; nia].
    assert (n = 1)%nat by lia. subst. nia.
Qed.

(** ** Medians *)
Lemma compar_neg a b : (compar a b < 0)%Z <-> a < b.
Proof. unfold compar. destruct (Rlt_dec a b); [split; [tauto|lia]|]. destruct (Rlt_dec b a); split; try lia; lra. Qed.
Lemma compar_ge a b : ge_by compar a b <-> b <= a.
Proof. unfold ge_by. rewrite compar_neg. split; intros; lra. Qed.
Lemma compar_order : total_preorder compar.
Proof.
  split.
  - intros x y. rewrite compar_neg, compar_ge. lra.
  - intros x y z. rewrite !compar_ge. lra.
Qed.
Lemma sorted_asc l : non_decreasing compar l -> ascending l.
Proof.
  intros H i j Hij. apply compar_ge. apply (H i j); [lia| |]; apply nth_error_nth'; lia.
Qed.

Lemma nmedian_ok l : l <> [] -> exists m, nmedian l = Some m /\ is_median l m.
Proof.
  intros N. destruct l as [|a [|b r]]; [tauto| |].
  - exists a. split; [reflexivity|]. exists [a]. split; [reflexivity|]. split; [intros i j H; cbn in H; lia|]. cbn. lra.
  - set (l := a :: b :: r). destruct (heap_sort_ok compar compar_order l) as (s & Es & Ps & Hs).
    unfold nmedian, l. fold l. rewrite Es. pose proof (Nat.div_mod (length l) 2) as Dm.
    pose proof (Nat.mod_upper_bound (length l) 2).
    assert (L2 : (2 <= length l)%nat) by (unfold l; cbn; lia).
    destruct (Nat.eqb (length l mod 2) 1) eqn:E.
    + apply Nat.eqb_eq in E. eexists. split; [reflexivity|]. exists s. split; [exact Ps|]. split; [now apply sorted_asc|].
      replace ((length l - 1) / 2)%nat with (length l / 2)%nat; [lra|].
      apply (Nat.div_unique (length l - 1) 2 _ 0); lia.
    + apply Nat.eqb_neq in E. eexists. split; [reflexivity|]. exists s. split; [exact Ps|]. split; [now apply sorted_asc|].
      replace ((length l - 1) / 2)%nat with (length l / 2 - 1)%nat; [reflexivity|].
      apply (Nat.div_unique (length l - 1) 2 _ 1); lia.
Qed.

Lemma dev1_app a b t : dev1 (a ++ b) t = dev1 a t + dev1 b t.
Proof. induction a; cbn; [lra|]. rewrite IHa. lra. Qed.
Lemma dev1_perm a b t : Permutation a b -> dev1 a t = dev1 b t.
Proof. induction 1; cbn; lra. Qed.
Lemma pair_dev a : forall b m t, length a = length b -> (forall x, In x a -> x <= m) -> (forall x, In x b -> m <= x) ->
  dev1 a m + dev1 b m <= dev1 a t + dev1 b t.
Proof.
  induction a as [|x a IH]; intros [|y b] m t L Ha Hb; cbn in L; try discriminate; cbn [dev1]; [lra|].
  assert (IHm := IH b m t). specialize (IHm ltac:(lia) (fun z I => Ha z (or_intror I)) (fun z I => Hb z (or_intror I))).
  pose proof (Ha x (or_introl eq_refl)). pose proof (Hb y (or_introl eq_refl)).
  assert (Rabs (x - m) + Rabs (y - m) <= Rabs (x - t) + Rabs (y - t)).
  { rewrite (Rabs_left1 (x - m)) by lra. rewrite (Rabs_right (y - m)) by lra.
    pose proof (Rle_abs (- (x - t))). rewrite Rabs_Ropp in *. pose proof (Rle_abs (y - t)). lra. }
  lra.
Qed.

Lemma asc_le s i j : ascending s -> (i <= j < length s)%nat -> nth i s 0 <= nth j s 0.
Proof. intros A H. destruct (Nat.eq_dec i j) as [->|]; [lra|]. apply A. lia. Qed.

Lemma skipn_cons s : forall k, (k < length s)%nat -> skipn k s = nth k s 0 :: skipn (S k) s.
Proof. induction s as [|x s IH]; intros [|k] Kn; cbn in *; try lia; auto. apply IH. lia. Qed.
Lemma median_best l m : is_median l m -> forall t, dev1 l m <= dev1 l t.
Proof.
  intros (s & Ps & As & Em) t. rewrite !(dev1_perm l s) by assumption.
  rewrite (Permutation_length Ps) in Em. clear Ps l.
  set (n := length s) in *. set (k := (n / 2)%nat) in *.
  pose proof (Nat.div_mod n 2) as Dm. pose proof (Nat.mod_upper_bound n 2) as Mb. fold k in Dm.
  assert (Fk : length (firstn k s) = k) by (rewrite firstn_length; fold n; lia).
  assert (Fn : forall i, (i < k)%nat -> nth i (firstn k s) 0 = nth i s 0).
  { intros i Hi. rewrite <- (firstn_skipn k s) at 2. rewrite app_nth1 by lia. reflexivity. }
  assert (Sn : forall j i, (j <= n)%nat -> nth i (skipn j s) 0 = nth (j + i) s 0).
  { intros j i Hj. rewrite <- (firstn_skipn j s) at 2. rewrite app_nth2 by (rewrite firstn_length; fold n; lia).
    rewrite firstn_length. fold n. f_equal. lia. }
  assert (C : (n mod 2 = 0 \/ n mod 2 = 1)%nat) by lia. destruct C as [C|C].
  - (* even *)
    destruct (Nat.eq_dec k 0) as [K0|K0].
    + assert (n = 0)%nat by lia. destruct s; [cbn; lra|]. unfold n in H. cbn in H. lia.
    + assert (E1 : ((n - 1) / 2)%nat = (k - 1)%nat) by (symmetry; apply (Nat.div_unique (n - 1) 2 _ 1); lia).
      rewrite E1 in Em.
      assert (nth (k - 1) s 0 <= nth k s 0) by (apply asc_le; [assumption|fold n; lia]).
      rewrite <- (firstn_skipn k s). rewrite !dev1_app. apply pair_dev.
      * rewrite Fk, skipn_length. fold n. lia.
      * intros x I. apply (In_nth _ _ 0) in I. destruct I as (i & Hi & <-). rewrite Fn by lia.
        assert (nth i s 0 <= nth (k - 1) s 0) by (apply asc_le; [assumption|fold n; lia]). lra.
      * intros x I. apply (In_nth _ _ 0) in I. destruct I as (i & Hi & <-). rewrite skipn_length in Hi. fold n in Hi.
        rewrite Sn by lia. assert (nth k s 0 <= nth (k + i) s 0) by (apply asc_le; [assumption|fold n; lia]). lra.
  - (* odd *)
    assert (E1 : ((n - 1) / 2)%nat = k) by (symmetry; apply (Nat.div_unique (n - 1) 2 _ 0); lia).
    rewrite E1 in Em. assert (Em' : m = nth k s 0) by lra.
    assert (Sp : skipn k s = nth k s 0 :: skipn (S k) s).
    { apply skipn_cons. fold n. lia. }
    rewrite <- (firstn_skipn k s), Sp. rewrite !dev1_app. cbn [dev1].
    assert (P : dev1 (firstn k s) m + dev1 (skipn (S k) s) m <= dev1 (firstn k s) t + dev1 (skipn (S k) s) t).
    { apply pair_dev.
      - rewrite Fk, skipn_length. fold n. lia.
      - intros x I. apply (In_nth _ _ 0) in I. destruct I as (i & Hi & <-). rewrite Fn by lia.
        rewrite Em'. apply asc_le; [assumption|fold n; lia].
      - intros x I. apply (In_nth _ _ 0) in I. destruct I as (i & Hi & <-). rewrite skipn_length in Hi. fold n in Hi.
        rewrite Sn by lia. rewrite Em'. apply asc_le; [assumption|fold n; lia]. }
    rewrite <- Em'. rewrite Rminus_diag_eq, Rabs_R0 by reflexivity. pose proof (Rabs_pos (m - t)). lra.
Qed.

(** ** Relative translation *)
Fixpoint sumR (l : list R) : R := match l with [] => 0 | x :: r => x + sumR r end.
Fixpoint dev2 (l : list R) (t : R) : R := match l with [] => 0 | x :: r => (x - t)^2 + dev2 r t end.
Lemma fold3 z : forall a, fold_left (fun a v => mkV (vx a + vx v) (vy a + vy v) (vz a + vz v)) z a =
  mkV (vx a + sumR (map vx z)) (vy a + sumR (map vy z)) (vz a + sumR (map vz z)).
Proof.
  induction z as [|v z IH]; intros a; cbn [fold_left map sumR].
  - rewrite !Rplus_0_r. now destruct a.
  - rewrite IH. cbn [vx vy vz]. now rewrite !Rplus_assoc.
Qed.
Lemma dev2_mean l mu : INR (length l) * mu = sumR l -> forall t, dev2 l mu <= dev2 l t.
Proof.
  intros H t. assert (E : forall s, dev2 l s = dev2 l 0 - 2 * s * sumR l + INR (length l) * (s * s)).
  { intros s. clear H. induction l as [|x l IH]; [cbn; ring|]. cbn [dev2 sumR length]. rewrite S_INR, IH. ring. }
  rewrite (E mu), (E t), <- H. pose proof (pos_INR (length l)). pose proof (Rle_0_sqr (mu - t)) as Sq. unfold Rsqr in Sq.
  pose proof (Rmult_le_pos _ _ H0 Sq). lra.
Qed.
Lemma misfit2 R_ t xy : misfit d2 R_ t xy =
  dev2 (map vx (relx R_ xy)) (vx t) + dev2 (map vy (relx R_ xy)) (vy t) + dev2 (map vz (relx R_ xy)) (vz t).
Proof.
  induction xy as [|(x, y) xy IH]; [cbn; ring|]. unfold relx in *. cbn [misfit map dev2 fst snd]. rewrite IH.
  unfold d2, vadd, vsub. cbn [vx vy vz]. ring.
Qed.
Lemma misfit1 R_ t xy : misfit d1 R_ t xy =
  dev1 (map vx (relx R_ xy)) (vx t) + dev1 (map vy (relx R_ xy)) (vy t) + dev1 (map vz (relx R_ xy)) (vz t).
Proof.
  induction xy as [|(x, y) xy IH]; [cbn; ring|]. unfold relx in *. cbn [misfit map dev1 fst snd]. rewrite IH.
  unfold d1, vadd, vsub. cbn [vx vy vz].
  replace (vx y - (vx (mrot R_ x) + vx t)) with (vx y - vx (mrot R_ x) - vx t) by ring.
  replace (vy y - (vy (mrot R_ x) + vy t)) with (vy y - vy (mrot R_ x) - vy t) by ring.
  replace (vz y - (vz (mrot R_ x) + vz t)) with (vz y - vz (mrot R_ x) - vz t) by ring. ring.
Qed.
Lemma relx_mean_best R_ xy : xy <> [] -> forall t, misfit d2 R_ (relx_mean R_ xy) xy <= misfit d2 R_ t xy.
Proof.
  intros N t. rewrite !misfit2. unfold relx_mean, colmean3. rewrite fold3. cbn [vx vy vz].
  assert (Nz : INR (length (relx R_ xy)) <> 0).
  { unfold relx. rewrite map_length. destruct xy; [tauto|]. apply not_0_INR. cbn. lia. }
  assert (A : forall f : V3 -> R, dev2 (map f (relx R_ xy)) (1 / INR (length (relx R_ xy)) * (0 + sumR (map f (relx R_ xy)))) <= dev2 (map f (relx R_ xy)) 0 \/ True) by auto.
  clear A.
  assert (A : forall (f : V3 -> R) t0, dev2 (map f (relx R_ xy)) (1 / INR (length (relx R_ xy)) * (0 + sumR (map f (relx R_ xy)))) <= dev2 (map f (relx R_ xy)) t0).
  { intros f t0. apply dev2_mean. rewrite map_length. field. exact Nz. }
  pose proof (A vx (vx t)). pose proof (A vy (vy t)). pose proof (A vz (vz t)). lra.
Qed.
Lemma relx_median_best R_ xy : xy <> [] ->
  exists r, relx_median R_ xy = Some r /\ forall t, misfit d1 R_ r xy <= misfit d1 R_ t xy.
Proof.
  intros N. assert (Nz : forall f : V3 -> R, map f (relx R_ xy) <> []).
  { intros f. destruct xy; [tauto|]. discriminate. }
  destruct (nmedian_ok _ (Nz vx)) as (a & Ea & Ma). destruct (nmedian_ok _ (Nz vy)) as (b & Eb & Mb).
  destruct (nmedian_ok _ (Nz vz)) as (c & Ec & Mc).
  exists (mkV a b c). unfold relx_median, median. rewrite Ea, Eb, Ec. split; [reflexivity|]. intros t. rewrite !misfit1. cbn [vx vy vz].
  pose proof (median_best _ _ Ma (vx t)). pose proof (median_best _ _ Mb (vy t)). pose proof (median_best _ _ Mc (vz t)). lra.
Qed.

(** ** Plane fit *)
Lemma inner_scale_l k a b : inner (map (fun c => c / k) a) b = inner a b / k.
Proof. revert b. induction a as [|x a IH]; intros [|y b]; cbn; try (unfold Rdiv; ring). rewrite IH. unfold Rdiv. ring. Qed.
Lemma inner_scale_r k a b : inner a (map (fun c => c / k) b) = inner a b / k.
Proof. revert b. induction a as [|x a IH]; intros [|y b]; cbn; try (unfold Rdiv; ring). rewrite IH. unfold Rdiv. ring. Qed.
Lemma inner_comm a b : inner a b = inner b a.
Proof. revert b. induction a as [|x a IH]; intros [|y b]; cbn; try ring. rewrite IH. ring. Qed.
Lemma nrm2_inner l : nrm2 l = sqrt (inner l l).
Proof.
  unfold nrm2. f_equal. assert (E : forall s, fold_left (fun s x => s + x * x) l s = s + inner l l).
  { induction l as [|x l IH]; intros s; cbn; [ring|]. rewrite IH. ring. }
  rewrite E. ring.
Qed.
Lemma inner_self_pos l : 0 <= inner l l.
Proof. induction l as [|x l IH]; cbn; [lra|]. pose proof (Rle_0_sqr x). unfold Rsqr in *. lra. Qed.
Lemma inner_self_0 l : inner l l = 0 -> forall b, inner l b = 0.
Proof.
  induction l as [|x l IH]; cbn; [intros _ []; reflexivity|]. intros H b.
  pose proof (inner_self_pos l). pose proof (Rle_0_sqr x). unfold Rsqr in *.
  assert (x * x = 0) by lra. assert (x = 0) by nra. assert (inner l l = 0) by lra. subst. destruct b; [reflexivity|]. rewrite IH by assumption. ring.
Qed.
Lemma resid_pos A : forall b x, 0 <= resid A b x.
Proof. induction A as [|a A IH]; intros [|c b] x; cbn [resid]; try lra. pose proof (pow2_ge_0 (inner a x - c)). specialize (IH b x). lra. Qed.
Definition lsub (x y : list R) : list R := map (fun p => fst p - snd p) (combine x y).
Lemma inner_sub a : forall x y, length x = length a -> length y = length a -> inner a (lsub x y) = inner a x - inner a y.
Proof.
  induction a as [|c a IH]; intros [|x xs] [|y ys] L1 L2; cbn in *; try discriminate; [ring|].
  unfold lsub in IH. rewrite IH by lia. ring.
Qed.
Lemma lsub_0 x : forall y, length x = length y -> (forall c, In c (lsub x y) -> c = 0) -> x = y.
Proof.
  induction x as [|a x IH]; intros [|b y] L H; cbn in *; try discriminate; [reflexivity|].
  f_equal.
  - specialize (H (a - b) (or_introl eq_refl)). lra.
  - apply IH; [lia|]. intros c I. apply H. now right.
Qed.
Lemma lsub_len x y : length x = length y -> length (lsub x y) = length x.
Proof. intros L. unfold lsub. rewrite map_length, combine_length. lia. Qed.

Lemma colfit_plane lls pts m a d :
  (forall p, In p pts -> length p = m) -> length a = m -> inner a a = 1 -> 0 < d ->
  (forall p, In p pts -> inner a p + d = 0) ->
  (forall x, length x = m -> (forall p, In p pts -> inner p x = 0) -> forall c, In c x -> c = 0) ->
  (forall A b, lls_ok m A b (lls A b)) ->
  colfit lls pts = Some (a ++ [d]).
Proof.
  intros Lp La Na Pd Pl Rk Lls. unfold colfit.
  set (At := map _ pts). set (b := map _ pts). destruct (Lls At b) as (Lx & Best & _). set (xo := lls At b) in *.
  set (x0 := map (fun c => c / d) a).
  assert (L0 : length x0 = m) by (unfold x0; now rewrite map_length).
  assert (R0 : resid At b x0 = 0).
  { unfold At, b. clear -Pl Pd. induction pts as [|p pts IH]; cbn [map resid]; [reflexivity|].
    rewrite IH by (intros q I; apply Pl; now right). rewrite inner_scale_l. unfold x0. rewrite inner_scale_r.
    pose proof (Pl p (or_introl eq_refl)) as H. rewrite (inner_comm p a). replace (inner a p) with (- d) by lra.
    replace (- d / d) with (-1) by (field; lra). unfold Rdiv. ring. }
  assert (Rx : resid At b xo = 0) by (specialize (Best x0 L0); pose proof (resid_pos At b xo); lra).
  assert (G : forall p, In p pts -> inner p xo = -1).
  { unfold At, b in Rx. clearbody xo. clear -Rx Pl Pd. induction pts as [|p pts IH]; [intros p []|]. cbn [map resid] in Rx.
    pose proof (pow2_ge_0 (inner (map (fun c => c / nrm2 p) p) xo - -1 / nrm2 p)) as S1.
    pose proof (resid_pos (map (fun p => map (fun c => c / nrm2 p) p) pts) (map (fun p => -1 / nrm2 p) pts) xo) as S2.
    intros q [->|I].
    - assert (E : (inner (map (fun c => c / nrm2 q) q) xo - -1 / nrm2 q)^2 = 0) by lra.
      rewrite inner_scale_l in E.
      assert (Ng : nrm2 q <> 0).
      { rewrite nrm2_inner. intros Z. apply sqrt_eq_0 in Z; [|apply inner_self_pos].
        pose proof (Pl q (or_introl eq_refl)) as H. rewrite inner_comm, (inner_self_0 q Z) in H. lra. }
      assert (E2 : inner q xo / nrm2 q - -1 / nrm2 q = 0).
      { cbn in E. rewrite Rmult_1_r in E. apply Rmult_integral in E. tauto. }
      replace (inner q xo / nrm2 q - -1 / nrm2 q) with ((inner q xo + 1) / nrm2 q) in E2 by (field; exact Ng).
      unfold Rdiv in E2. apply Rmult_integral in E2. destruct E2 as [E2|E2]; [lra|]. exfalso. revert E2. now apply Rinv_neq_0_compat.
    - apply IH; [intros q2 I2; apply Pl; now right|lra|exact I]. }
  assert (Ex : xo = x0).
  { apply lsub_0; [lia|]. apply Rk; [rewrite lsub_len; lia|]. intros p I. rewrite inner_sub; [|rewrite (Lp p I); lia|rewrite (Lp p I); lia].
    rewrite G by exact I. unfold x0. rewrite inner_scale_r, inner_comm. pose proof (Pl p I). replace (inner a p) with (- d) by lra. field. lra. }
  assert (Nx : nrm2 xo = 1 / d).
  { rewrite Ex, nrm2_inner. unfold x0. rewrite inner_scale_l, inner_scale_r, Na.
    replace (1 / d / d) with ((1 / d) * (1 / d)) by (field; lra). rewrite sqrt_square; [reflexivity|].
    unfold Rdiv. rewrite Rmult_1_l. left. now apply Rinv_0_lt_compat. }
  rewrite Nx. assert (Dp : 1 / d <> 0) by (unfold Rdiv; rewrite Rmult_1_l; apply Rinv_neq_0_compat; lra).
  destruct (Req_EM_T (1 / d) 0) as [Z|_]; [tauto|]. f_equal. f_equal.
  - rewrite Ex. unfold x0. rewrite map_map. transitivity (map (fun c => c) a); [|apply map_id]. apply map_ext. intros c. field. lra.
  - f_equal. field. lra.
Qed.

Lemma colfit_origin lls : (forall A b, lls_ok 3 A b (lls A b)) ->
  colfit lls [[1; 0; 0]; [-1; 0; 0]; [0; 1; 0]; [0; -1; 0]] = None.
Proof.
  intros Lls. unfold colfit. cbn [map].
  assert (N : forall l, inner l l = 1 -> nrm2 l = 1) by (intros l H; rewrite nrm2_inner, H; apply sqrt_1).
  rewrite (N [1; 0; 0]), (N [-1; 0; 0]), (N [0; 1; 0]), (N [0; -1; 0]) by (cbn; ring).
  set (At := [_; _; _; _]). set (b := [_; _; _; _]). destruct (Lls At b) as (Lx & Best & Sh). set (xo := lls At b) in *.
  destruct xo as [|x [|y [|z [|]]]]; try discriminate.
  specialize (Best [0; 0; 0] eq_refl). specialize (Sh [0; 0; 0] eq_refl).
  assert (Rv : forall x y z, resid At b [x; y; z] = 2 * (x * x) + 2 * (y * y) + 4) by (intros; unfold At, b; cbn; field).
  rewrite !Rv in *. assert (x = 0) by nra. assert (y = 0) by nra. subst.
  specialize (Sh eq_refl). cbn in Sh. assert (z = 0) by nra. subst.
  assert (Z : nrm2 [0; 0; 0] = 0) by (rewrite nrm2_inner; replace (inner [0; 0; 0] [0; 0; 0]) with 0 by (cbn; ring); apply sqrt_0).
  rewrite Z. now destruct (Req_EM_T 0 0).
Qed.
