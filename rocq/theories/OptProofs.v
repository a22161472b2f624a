From Coq Require Import ZArith Arith List Bool Reals Lra Lia.
From Verif Require Import MatModel OptModel OptSpec LaAlg.
Import ListNotations.
Open Scope R_scope.

Lemma dbl_max_big : 1 < DBL_MAX.
Proof. unfold DBL_MAX. apply IZR_lt. reflexivity. Qed.
Global Opaque DBL_MAX.
Lemma ltb_iff x y : ltb x y = true <-> x < y.
Proof. unfold ltb. destruct (Rlt_dec x y); split; intros; try discriminate; auto; lra. Qed.
Lemma leb_iff x y : leb x y = true <-> x <= y.
Proof. unfold leb. destruct (Rle_dec x y); split; intros; try discriminate; auto; lra. Qed.
Lemma is_eq_iff l u : is_eq l u = true <-> exists a, l = Fin a /\ u = Fin a.
Proof.
  split.
  - destruct l, u; cbn; try discriminate. intros H. apply leb_iff in H. exists r. split; auto. f_equal.
    pose proof (Rabs_pos (r - r0)). assert (A : Rabs (r - r0) = 0) by lra. destruct (Req_dec (r - r0) 0); [lra|]. exfalso. now apply (Rabs_no_R0 _ H1).
  - intros (a & -> & ->). cbn. apply leb_iff. replace (a - a) with 0 by lra. rewrite Rabs_R0. lra.
Qed.
Lemma is_eq_no l u : is_eq l u = false -> forall a b, l = Fin a -> u = Fin b -> a <> b.
Proof. intros H a b -> -> ->. assert (is_eq (Fin b) (Fin b) = true) by (apply is_eq_iff; eauto). congruence. Qed.

(** ** Bounds *)
Lemma lbound_yes l y : is_lbound l = true -> (above DBL_MAX l y <-> at_or_above l y).
Proof. destruct l; cbn; try discriminate. intros H. apply ltb_iff in H. lra. Qed.
Lemma lbound_no l y : low l -> is_lbound l = false -> above DBL_MAX l y.
Proof. destruct l; cbn; try tauto. intros L H. left. destruct (Rlt_dec (- DBL_MAX) r); [|lra]. exfalso. apply ltb_iff in r0. congruence. Qed.
Lemma ubound_yes u y : is_ubound u = true -> (below DBL_MAX u y <-> at_or_below u y).
Proof. destruct u; cbn; try discriminate. intros H. apply ltb_iff in H. lra. Qed.
Lemma ubound_no u y : high u -> is_ubound u = false -> below DBL_MAX u y.
Proof. destruct u; cbn; try tauto. intros L H. left. destruct (Rlt_dec r DBL_MAX); [|lra]. exfalso. apply ltb_iff in r0. congruence. Qed.
Lemma eq_bound a y : low (Fin a) -> high (Fin a) -> (above DBL_MAX (Fin a) y /\ below DBL_MAX (Fin a) y <-> a = y).
Proof. cbn. intros. lra. Qed.
Lemma bounds_type_ok l u y : low l -> high u -> (g_holds (bounds_type l u, l, u) y <-> above DBL_MAX l y /\ below DBL_MAX u y).
Proof.
  intros L U. unfold bounds_type. destruct (is_eq l u) eqn:E.
  - apply is_eq_iff in E as (a & -> & ->). rewrite eq_bound by auto. cbn. split; [now intros [= ->]|now intros ->].
  - destruct (is_lbound l) eqn:B, (is_ubound u) eqn:C; cbn.
    + rewrite lbound_yes, ubound_yes by auto. tauto.
    + rewrite lbound_yes by auto. pose proof (ubound_no u y U C). tauto.
    + rewrite ubound_yes by auto. pose proof (lbound_no l y L B). tauto.
    + pose proof (ubound_no u y U C). pose proof (lbound_no l y L B). tauto.
Qed.

(** ** Loops *)
Lemma loop_inv {P} (I : nat -> P -> Prop) (f : nat -> P -> out P) : forall n p, I 0%nat p ->
  (forall j q, (j < n)%nat -> I j q -> exists q', f j q = Ret q' /\ I (S j) q') -> exists q, loop n f p = Ret q /\ I n q.
Proof.
  induction n as [|n IH]; intros p H0 Hs; [exists p; auto|].
  destruct (IH p H0) as (q & E & Iq); [intros; apply Hs; auto; lia|].
  unfold loop in *. rewrite seq_S, fold_left_app, E. cbn. destruct (Hs n q) as (q' & E' & I'); [lia|auto|]. exists q'. auto.
Qed.
Lemma cloop_inv {P} (I : nat -> P -> Prop) (f : nat -> P -> P) : forall n p, I 0%nat p ->
  (forall j q, (j < n)%nat -> I j q -> I (S j) (f j q)) -> I n (cloop n f p).
Proof.
  induction n as [|n IH]; intros p H0 Hs; [exact H0|].
  unfold cloop in *. rewrite seq_S, fold_left_app. cbn. apply Hs; [lia|]. apply IH; auto.
Qed.
Lemma range1_ok n i : (1 <= i <= n)%nat -> range1 n i = true.
Proof. intros. unfold range1. rewrite !(proj2 (Nat.leb_le _ _)) by lia. reflexivity. Qed.
Lemma range1_no n i : (n < i)%nat -> range1 n i = false.
Proof. intros. unfold range1. rewrite (proj2 (Nat.leb_gt i n)) by lia. apply andb_false_r. Qed.
Lemma upd_same {A} (f : nat -> A) i x : upd f i x i = x.
Proof. unfold upd. now rewrite Nat.eqb_refl. Qed.
Lemma upd_other {A} (f : nat -> A) i j x : j <> i -> upd f i x j = f j.
Proof. intros. unfold upd. now rewrite (proj2 (Nat.eqb_neq j i)) by auto. Qed.

(** ** Sparse vectors *)
Lemma nodupb_ok l : NoDup l -> nodupb l = true.
Proof.
  induction 1 as [|x l N D IH]; cbn; auto. rewrite IH, andb_true_r. apply negb_true_iff.
  destruct (existsb (Nat.eqb x) l) eqn:E; auto. apply existsb_exists in E as (y & Hy & E). apply Nat.eqb_eq in E. subst. contradiction.
Qed.
Lemma nodup_map k0 len (ind : nat -> nat) : (forall k k', (k0 <= k < k0 + len)%nat -> (k0 <= k' < k0 + len)%nat -> ind k = ind k' -> k = k') -> NoDup (map ind (seq k0 len)).
Proof.
  intros H. assert (G : forall l, NoDup l -> (forall k k', In k l -> In k' l -> ind k = ind k' -> k = k') -> NoDup (map ind l)).
  { induction 1 as [|x l N D IH]; intros I; cbn; constructor.
    - intros M. apply in_map_iff in M as (y & E & Hy). apply I in E; cbn; auto. subst. contradiction.
    - apply IH. intros. apply I; cbn; auto. }
  apply G; [apply seq_NoDup|]. intros k k' A B. apply in_seq in A, B. apply H; lia.
Qed.
Lemma indices_yes k0 len ind lo hi : (forall k, (k0 <= k < k0 + len)%nat -> (lo <= ind k <= hi)%nat) ->
  (forall k k', (k0 <= k < k0 + len)%nat -> (k0 <= k' < k0 + len)%nat -> ind k = ind k' -> k = k') -> indices_ok k0 len ind lo hi = true.
Proof.
  intros R D. unfold indices_ok. rewrite nodupb_ok, andb_true_r by now apply nodup_map.
  apply forallb_forall. intros i Hi. apply in_map_iff in Hi as (k & <- & Hk). apply in_seq in Hk.
  specialize (R k ltac:(lia)). rewrite !(proj2 (Nat.leb_le _ _)) by lia. reflexivity.
Qed.
Lemma sparse_at k0 len ind val k : (k0 <= k < k0 + len)%nat ->
  (forall k', (k0 <= k' < k0 + len)%nat -> ind k' = ind k -> k' = k) -> sparse k0 len ind val (ind k) = val k.
Proof.
  intros H U. unfold sparse. destruct (find _ _) eqn:E.
  - apply find_some in E as (Hn & E). apply Nat.eqb_eq in E. apply in_seq in Hn. now rewrite (U n) by (auto; lia).
  - apply find_none with (x := k) in E; [|apply in_seq; lia]. apply Nat.eqb_neq in E. congruence.
Qed.
Lemma sparse_none k0 len ind val r : (forall k, (k0 <= k < k0 + len)%nat -> ind k <> r) -> sparse k0 len ind val r = 0.
Proof.
  intros U. unfold sparse. destruct (find _ _) eqn:E; auto. apply find_some in E as (Hn & E). apply Nat.eqb_eq in E. apply in_seq in Hn. exfalso. apply (U n); auto; lia.
Qed.
(** a row of a matrix stored by compressed rows *)
Lemma bsum_single n k f : (k < n)%nat -> (forall i, (i < n)%nat -> i <> k -> f i = 0) -> bsum n f = f k.
Proof.
  induction n as [|n IH]; intros Hk H; [lia|]. cbn. destruct (Nat.eq_dec k n) as [->|E].
  - rewrite bsum_zero; [lra|]. intros i Hi. apply H; lia.
  - rewrite IH, (H n) by (try lia; intros; apply H; lia). lra.
Qed.
Lemma dec_range (P : nat -> Prop) (D : forall k, {P k} + {~ P k}) k0 len : {k | (k0 <= k < k0 + len)%nat /\ P k} + {forall k, (k0 <= k < k0 + len)%nat -> ~ P k}.
Proof.
  induction len as [|len [[k [H1 H2]]|H]]; [right; intros; lia|left; exists k; split; [lia|auto]|].
  destruct (D (k0 + len)%nat) as [Y|N]; [left; exists (k0 + len)%nat; split; [lia|auto]|].
  right. intros k Hk. destruct (Nat.eq_dec k (k0 + len)) as [->|]; [auto|apply H; lia].
Qed.
Lemma sparse_crs vals cols ptr i j len k0 (sh : nat) (ind : nat -> nat) (v : nat -> R) : len = (ptr (S i) - ptr i)%nat ->
  (forall k, (ptr i <= k < ptr (S i))%nat -> forall k', (ptr i <= k' < ptr (S i))%nat -> cols k = cols k' -> k = k') ->
  (forall k, (k < len)%nat -> ind (k0 + k)%nat = (cols (ptr i + k) + sh)%nat /\ v (k0 + k)%nat = vals (ptr i + k)%nat) ->
  sparse k0 len ind v (j + sh)%nat = crs vals cols ptr i j.
Proof.
  intros -> U A. unfold crs. set (len := (ptr (S i) - ptr i)%nat) in *.
  destruct (dec_range (fun k => cols (ptr i + k)%nat = j) (fun k => Nat.eq_dec _ _) 0 len) as [[k [Hk E]]|N].
  - destruct (A k ltac:(lia)) as [A1 A2]. rewrite (bsum_single len k).
    + rewrite E, Nat.eqb_refl, <- A2. replace (j + sh)%nat with (ind (k0 + k)%nat) by lia. apply sparse_at; [lia|].
      intros k' Hk' E'. destruct (A (k' - k0)%nat ltac:(lia)) as [A3 _]. replace (k0 + (k' - k0))%nat with k' in A3 by lia.
      enough (ptr i + (k' - k0) = ptr i + k)%nat by lia. apply U; lia.
    + lia.
    + intros k' Hk' Ne. destruct (Nat.eqb_spec (cols (ptr i + k')%nat) j) as [E'|]; auto. exfalso. apply Ne.
      enough (ptr i + k' = ptr i + k)%nat by lia. apply U; lia.
  - rewrite bsum_zero; [|intros k Hk; destruct (Nat.eqb_spec (cols (ptr i + k)%nat) j) as [E'|]; auto; exfalso; apply (N k); auto; lia].
    apply sparse_none. intros k' Hk' E'. destruct (A (k' - k0)%nat ltac:(lia)) as [A3 _]. replace (k0 + (k' - k0))%nat with k' in A3 by lia.
    apply (N (k' - k0)%nat); lia.
Qed.
