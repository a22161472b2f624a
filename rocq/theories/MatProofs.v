(** Proofs about views and element-wise operations. *)
From Coq Require Import Reals Arith List Bool Lra Lia.
From Verif Require Import MatModel MatSpec.
Open Scope R_scope.

Lemma upd_same m a x : upd m a x a = x.
Proof. unfold upd. now rewrite Nat.eqb_refl. Qed.
Lemma upd_other m a x b : b <> a -> upd m a x b = m b.
Proof. intros H. unfold upd. apply Nat.eqb_neq in H. now rewrite H. Qed.

(** a loop that writes [F i] at [g i], where F i reads only the old value there and unwritten places *)
Lemma loop_map n g F m0 :
  (forall i j, (i < n)%nat -> (j < n)%nat -> g i = g j -> i = j) ->
  (forall i m, (i < n)%nat -> m (g i) = m0 (g i) -> (forall a, (forall k, (k < n)%nat -> a <> g k) -> m a = m0 a) -> F i m = F i m0) ->
  forall k, (k <= n)%nat ->
  let m' := loop k (fun i m => upd m (g i) (F i m)) m0 in
  (forall i, (i < k)%nat -> m' (g i) = F i m0) /\ (forall a, (forall i, (i < k)%nat -> a <> g i) -> m' a = m0 a).
Proof.
  intros inj loc k. induction k as [|k IH]; intros Hk m'; [split; [lia|]; intros; reflexivity|].
  destruct (IH ltac:(lia)) as [I1 I2]. unfold m'. cbn [loop]. split.
  - intros i Hi. destruct (Nat.eq_dec i k) as [->|Hne].
    + rewrite upd_same. apply loc; [lia| |].
      * apply I2. intros i Hi' E. apply inj in E; lia.
      * intros a Ha. apply I2. intros j Hj. apply Ha. lia.
    + rewrite upd_other by (intros E; apply inj in E; lia). apply I1. lia.
  - intros a Ha. rewrite upd_other by (apply Ha; lia). apply I2. intros i Hi. apply Ha. lia.
Qed.

(** the same for a nested loop *)
Lemma loop2_map r c g F m0 :
  (forall i j i' j', (i < r)%nat -> (j < c)%nat -> (i' < r)%nat -> (j' < c)%nat -> g i j = g i' j' -> i = i' /\ j = j') ->
  (forall i j m, (i < r)%nat -> (j < c)%nat -> m (g i j) = m0 (g i j) ->
     (forall a, (forall i j, (i < r)%nat -> (j < c)%nat -> a <> g i j) -> m a = m0 a) -> F i j m = F i j m0) ->
  forall k, (k <= c)%nat ->
  let m' := loop k (fun j => loop r (fun i m => upd m (g i j) (F i j m))) m0 in
  (forall i j, (i < r)%nat -> (j < k)%nat -> m' (g i j) = F i j m0) /\
  (forall a, (forall i j, (i < r)%nat -> (j < k)%nat -> a <> g i j) -> m' a = m0 a).
Proof.
  intros inj loc k. induction k as [|k IH]; intros Hk m'; [split; [lia|]; intros; reflexivity|].
  destruct (IH ltac:(lia)) as [I1 I2]. clear IH. unfold m'. cbn [loop].
  set (m1 := loop k _ m0) in *.
  destruct (loop_map r (fun i => g i k) (fun i => F i k) m1) with (k := r) as [L1 L2]; [| |lia|].
  - intros i j Hi Hj E. apply inj in E; lia.
  - intros i m Hi E1 E2. rewrite (loc i k m), (loc i k m1); auto; try lia.
    + apply I2. intros i' j' Hi' Hj' E. apply inj in E; lia.
    + intros a Ha. apply I2. intros i' j' ? ?. apply Ha; lia.
    + rewrite E1. apply I2. intros i' j' Hi' Hj' E. apply inj in E; lia.
    + intros a Ha. rewrite E2; [|intros; apply Ha; lia]. apply I2. intros i' j' ? ?. apply Ha; lia.
  - split.
    + intros i j Hi Hj. destruct (Nat.eq_dec j k) as [->|Hne].
      * rewrite (L1 i Hi). apply loc; auto; try lia.
        -- apply I2. intros i' j' Hi' Hj' E. apply inj in E; lia.
        -- intros a Ha. apply I2. intros i' j' ? ?. apply Ha; lia.
      * rewrite L2; [apply I1; lia|]. intros i' Hi' E. apply inj in E; lia.
    + intros a Ha. rewrite L2 by (intros; apply Ha; lia). apply I2. intros; apply Ha; lia.
Qed.

Lemma vec_inj v : good_vec v -> forall i j, velem v i = velem v j -> i = j.
Proof. unfold good_vec, velem. intros. nia. Qed.
Lemma mat_inj A i j i' j' : good_mat A -> (i < m_rows A)%nat -> (i' < m_rows A)%nat -> melem A i j = melem A i' j' -> i = i' /\ j = j'.
Proof.
  unfold good_mat, melem. intros H Hi Hi' E.
  assert (j = j'). { destruct (Nat.lt_trichotomy j j') as [?|[?|?]]; auto; nia. }
  subst. lia.
Qed.

(** pointer loops are counted loops *)
Lemma ptr_loop_eq inc f : (0 < inc)%nat -> forall n fuel x m, (n <= fuel)%nat ->
  ptr_loop fuel x (x + n * inc) inc f m = loop n (fun i => f (x + i * inc)%nat) m.
Proof.
  intros Hi.
  assert (L : forall n x m, loop (S n) (fun i => f (x + i * inc)%nat) m = loop n (fun i => f (x + inc + i * inc)%nat) (f x m)).
  { induction n as [|n IH]; intros x m; [cbn; now rewrite Nat.add_0_r|].
    cbn [loop] in *. rewrite IH. f_equal. lia. }
  induction n as [|n IH]; intros fuel x m Hf.
  - rewrite Nat.add_0_r. destruct fuel; [reflexivity|]. cbn [ptr_loop]. rewrite Nat.ltb_irrefl. reflexivity.
  - destruct fuel as [|fuel]; [lia|]. cbn [ptr_loop].
    replace (x <? x + S n * inc)%nat with true by (symmetry; apply Nat.ltb_lt; nia).
    rewrite L, <- (IH fuel) by lia. f_equal. lia.
Qed.
Lemma ptr_loop_zero x f m : ptr_loop 0 x (x + 0) 0 f m = m. Proof. reflexivity. Qed.
Lemma s_inc_eq n alpha x inc m : (0 < inc)%nat -> s_inc n alpha x inc m = loop n (fun i m => upd m (x + i * inc) (m (x + i * inc)%nat + alpha)) m.
Proof. intros H. unfold s_inc. rewrite ptr_loop_eq; auto. nia. Qed.

Lemma vec_loop v F m0 : good_vec v ->
  (forall i m, (i < v_len v)%nat -> m (velem v i) = m0 (velem v i) -> (forall a, ~ in_vec v a -> m a = m0 a) -> F i m = F i m0) ->
  vec_becomes v m0 (loop (v_len v) (fun i m => upd m (velem v i) (F i m)) m0) (fun i => F i m0).
Proof.
  intros G loc. destruct (loop_map (v_len v) (velem v) F m0) with (k := v_len v) as [L1 L2]; auto.
  - intros; eapply vec_inj; eauto.
  - intros i m Hi E1 E2. apply loc; auto. intros a Ha. apply E2. intros k Hk ->. apply Ha. exists k. auto.
  - split; auto. intros a Ha. apply L2. intros i Hi ->. apply Ha. exists i. auto.
Qed.
Lemma mat_loop A F m0 : good_mat A ->
  (forall i j m, (i < m_rows A)%nat -> (j < m_cols A)%nat -> m (melem A i j) = m0 (melem A i j) ->
     (forall a, ~ in_mat A a -> m a = m0 a) -> F i j m = F i j m0) ->
  mat_becomes A m0 (loop (m_cols A) (fun j => loop (m_rows A) (fun i m => upd m (melem A i j) (F i j m))) m0) (fun i j => F i j m0).
Proof.
  intros G loc. destruct (loop2_map (m_rows A) (m_cols A) (melem A) F m0) with (k := m_cols A) as [L1 L2]; auto.
  - intros; eapply mat_inj; eauto.
  - intros i j m Hi Hj E1 E2. apply loc; auto. intros a Ha. apply E2. intros i' j' ? ? ->. apply Ha. exists i', j'. auto.
  - split; auto. intros a Ha. apply L2. intros i j Hi Hj ->. apply Ha. exists i, j. auto.
Qed.
Lemma becomes_ext v m m' f g : (forall i, (i < v_len v)%nat -> f i = g i) -> vec_becomes v m m' f -> vec_becomes v m m' g.
Proof. intros E [H1 H2]. split; auto. intros i Hi. rewrite H1; auto. Qed.
Lemma mat_becomes_ext A m m' f g : (forall i j, (i < m_rows A)%nat -> (j < m_cols A)%nat -> f i j = g i j) ->
  mat_becomes A m m' f -> mat_becomes A m m' g.
Proof. intros E [H1 H2]. split; auto. intros i j Hi Hj. rewrite H1; auto. Qed.

(** ** Vectors *)
Lemma dvec_set_ok v a m : good_vec v -> vec_becomes v m (dvec_set v a m) (fun _ => a).
Proof.
  intros G. unfold dvec_set. rewrite ptr_loop_eq by (unfold good_vec in G; nia).
  apply (vec_loop v (fun _ _ => a) m G). reflexivity.
Qed.
Lemma dvec_inc_ok a v m : good_vec v -> vec_becomes v m (dvec_inc a v m) (fun i => vget v m i + a).
Proof.
  intros G. unfold dvec_inc. rewrite s_inc_eq by exact G.
  apply (vec_loop v (fun i m => m (velem v i) + a) m G). intros. now rewrite H0.
Qed.
Lemma dvec_scal_ok a v m : good_vec v -> vec_becomes v m (dvec_scal a v m) (fun i => a * vget v m i).
Proof.
  intros G. unfold dvec_scal, b_scal. apply (vec_loop v (fun i m => a * m (velem v i)) m G). intros. now rewrite H0.
Qed.
Definition same_or_apart x y := x = y \/ apart (in_vec y) (in_vec x).
Lemma read_other x y (m m' : mem) i : (forall a, ~ in_vec y a -> m a = m' a) -> apart (in_vec y) (in_vec x) -> (i < v_len x)%nat -> m (velem x i) = m' (velem x i).
Proof. intros H A Hi. apply H. intros Hy. apply (A _ Hy). exists i. auto. Qed.
Lemma dvec_copy_ok x y m : good_vec y -> v_len x = v_len y -> same_or_apart x y ->
  exists m', dvec_copy x y m = Done m' /\ vec_becomes y m m' (fun i => vget x m i).
Proof.
  intros G L SEP. unfold dvec_copy, check. rewrite L, Nat.eqb_refl. eexists. split; [reflexivity|].
  apply (vec_loop y (fun i m => m (velem x i)) m G). intros i m' Hi E1 E2. destruct SEP as [->|SEP]; auto.
  eapply read_other; eauto. lia.
Qed.
Lemma dvec_axpy_ok a x y m : good_vec y -> v_len x = v_len y -> same_or_apart x y ->
  exists m', dvec_axpy a x y m = Done m' /\ vec_becomes y m m' (fun i => vget y m i + a * vget x m i).
Proof.
  intros G L SEP. unfold dvec_axpy, check. rewrite L, Nat.eqb_refl. eexists. split; [reflexivity|].
  apply (vec_loop y (fun i m => m (velem y i) + a * m (velem x i)) m G). intros i m' Hi E1 E2. rewrite E1. destruct SEP as [->|SEP].
  - now rewrite E1.
  - erewrite (read_other x y m' m); eauto. lia.
Qed.
Lemma dvec_swap_ok x y m : good_vec x -> good_vec y -> v_len x = v_len y -> apart (in_vec y) (in_vec x) ->
  exists m', dvec_swap x y m = Done m' /\
  (forall i, (i < v_len x)%nat -> vget x m' i = vget y m i /\ vget y m' i = vget x m i) /\
  (forall a, ~ in_vec x a -> ~ in_vec y a -> m' a = m a).
Proof.
  intros Gx Gy L SEP. unfold dvec_swap, check. rewrite L, Nat.eqb_refl. eexists. split; [reflexivity|].
  assert (Sx : forall i j, (i < v_len x)%nat -> (j < v_len y)%nat -> velem y j <> velem x i).
  { intros i j Hi Hj E. apply (SEP (velem y j)); [exists j; auto|exists i; auto]. }
  unfold b_swap. rewrite <- L.
  assert (K : forall k, (k <= v_len x)%nat ->
    let m' := loop k (fun i m => upd (upd m (velem x i) (m (velem y i))) (velem y i) (m (velem x i))) m in
    (forall i, (i < k)%nat -> vget x m' i = vget y m i /\ vget y m' i = vget x m i) /\
    (forall a, (forall i, (i < k)%nat -> a <> velem x i /\ a <> velem y i) -> m' a = m a)).
  { induction k as [|k IH]; intros Hk m'; [split; [lia|auto]|].
    destruct (IH ltac:(lia)) as [I1 I2]. clear IH. unfold m'. cbn [loop]. set (m1 := loop k _ m) in *. split.
    - intros i Hi. unfold vget. destruct (Nat.eq_dec i k) as [->|Hne].
      + rewrite upd_same. rewrite upd_other by (intros E; symmetry in E; revert E; apply Sx; lia). rewrite upd_same.
        split; apply I2; intros j Hj; split; intros E.
        * revert E. apply Sx; lia.
        * apply vec_inj in E; auto; lia.
        * apply vec_inj in E; auto; lia.
        * symmetry in E. revert E. apply Sx; lia.
      + destruct (I1 i ltac:(lia)) as [J1 J2]. unfold vget in J1, J2. split.
        * rewrite upd_other by (intros E; symmetry in E; revert E; apply Sx; lia).
          rewrite upd_other by (intros E; apply vec_inj in E; auto; lia). exact J1.
        * rewrite upd_other by (intros E; apply vec_inj in E; auto; lia). rewrite upd_other by (apply Sx; lia). exact J2.
    - intros a Ha. rewrite !upd_other by (apply Ha; lia). apply I2. intros i Hi. apply Ha. lia. }
  destruct (K (v_len x) (le_n _)) as [K1 K2]. split; [exact K1|]. intros a Hx Hy. apply K2. intros i Hi. split; intros ->.
  - apply Hx. exists i. auto.
  - apply Hy. exists i. split; auto. lia.
Qed.

(** ** Matrices *)
Definition msame_or_apart X Y := X = Y \/ apart (in_mat Y) (in_mat X).
Lemma mread_other X Y (m m' : mem) i j : (forall a, ~ in_mat Y a -> m a = m' a) -> apart (in_mat Y) (in_mat X) -> (i < m_rows X)%nat -> (j < m_cols X)%nat ->
  m (melem X i j) = m' (melem X i j).
Proof. intros H A Hi Hj. apply H. intros Hy. apply (A _ Hy). exists i, j. auto. Qed.
Lemma dmat_set_ok A a b m : good_mat A -> mat_becomes A m (dmat_set A a b m) (fun i j => if Nat.eqb i j then b else a).
Proof. intros G. apply (mat_loop A (fun i j _ => if Nat.eqb i j then b else a) m G). reflexivity. Qed.
Lemma dmat_scal_ok A a m : good_mat A -> mat_becomes A m (dmat_scal A a m) (fun i j => a * mget A m i j).
Proof. intros G. apply (mat_loop A (fun i j m => a * m (melem A i j)) m G). intros. now rewrite H1. Qed.
Lemma dmat_copy_ok A B m : good_mat B -> m_rows A = m_rows B -> m_cols A = m_cols B -> msame_or_apart A B ->
  exists m', dmat_copy A B m = Done m' /\ mat_becomes B m m' (fun i j => mget A m i j).
Proof.
  intros G E1 E2 SEP. unfold dmat_copy, check. rewrite E1, E2, !Nat.eqb_refl. eexists. split; [reflexivity|].
  apply (mat_loop B (fun i j m => m (melem A i j)) m G). intros i j m' Hi Hj F1 F2. destruct SEP as [->|SEP]; auto.
  eapply mread_other; eauto; lia.
Qed.

Lemma loop_ext n f g m : (forall i m, (i < n)%nat -> f i m = g i m) -> loop n f m = loop n g m.
Proof.
  induction n as [|n IH]; intros H; [reflexivity|]. cbn [loop]. rewrite IH by (intros; apply H; lia). apply H. lia.
Qed.
Lemma dmat_inc_ok A a m : good_mat A -> m_rows A <> m_cols A \/ m_rows A = m_ld A ->
  mat_becomes A m (dmat_inc A a m) (fun i j => mget A m i j + a).
Proof.
  intros G H. unfold dmat_inc. destruct (Nat.eqb_spec (m_rows A) (m_cols A)) as [E|E].
  - destruct H as [H|H]; [contradiction|]. rewrite s_inc_eq by lia.
    set (r := m_rows A) in *.
    destruct (loop_map (r * m_cols A) (fun k => m_data A + k * 1)%nat (fun k m => m (m_data A + k * 1)%nat + a) m) with (k := (r * m_cols A)%nat) as [L1 L2]; auto.
    + intros; lia.
    + intros. now rewrite H1.
    + split.
      * intros i j Hi Hj. fold r in Hi. unfold mget, melem. rewrite <- H.
        replace (m_data A + r * j + i)%nat with (m_data A + (r * j + i) * 1)%nat by lia. rewrite L1 by nia. reflexivity.
      * intros b Hb. apply L2. intros k Hk ->. apply Hb. exists (k mod r)%nat, (k / r)%nat.
        assert (Hr : r <> 0%nat) by (intros ->; lia). split; [apply Nat.mod_upper_bound; auto|].
        split; [apply Nat.div_lt_upper_bound; auto|]. unfold melem. rewrite <- H. rewrite (Nat.div_mod k r Hr) at 1. lia.
  - clear H. destruct (Nat.eq_dec (m_ld A) 0) as [Z|Z].
    + rewrite Z, Nat.mul_0_r. cbn. unfold good_mat in G. split; [intros; lia|auto].
    + rewrite ptr_loop_eq by nia.
      erewrite loop_ext. 2:{ intros j m' Hj. rewrite s_inc_eq by lia. apply loop_ext. intros i m'' Hi.
        replace (m_data A + j * m_ld A + i * 1)%nat with (melem A i j) by (unfold melem; lia). reflexivity. }
      apply (mat_loop A (fun i j m => m (melem A i j) + a) m G). intros. now rewrite H1.
Qed.
(** square views of a larger matrix *)
Lemma dmat_inc_wrong A a m : m_rows A = m_cols A -> (2 <= m_rows A)%nat -> (m_rows A < m_ld A)%nat -> a <> 0 ->
  let m' := dmat_inc A a m in
  let n := m_rows A in
  (~ in_mat A (m_data A + n)%nat /\ m' (m_data A + n)%nat <> m (m_data A + n)%nat) /\ mget A m' (n - 1) (n - 1) = mget A m (n - 1) (n - 1).
Proof.
  intros E H2 H3 Ha m' n. unfold m', dmat_inc. rewrite <- E, Nat.eqb_refl. rewrite s_inc_eq by lia. fold n.
  destruct (loop_map (n * n) (fun k => m_data A + k * 1)%nat (fun k m => m (m_data A + k * 1)%nat + a) m) with (k := (n * n)%nat) as [L1 L2]; auto.
  - intros; lia.
  - intros. now rewrite H0.
  - split; [split|].
    + intros (i & j & Hi & Hj & Q). unfold melem in Q. fold n in Hi, H3. destruct j; [lia|]. nia.
    + replace (m_data A + n)%nat with (m_data A + n * 1)%nat by lia. rewrite L1 by (fold n in H2; nia). lra.
    + unfold mget, melem. apply L2. intros k Hk Q. fold n in H2, H3. nia.
Qed.

Lemma axpy_cols_eq ldx r alpha ldy : (0 < ldx)%nat -> forall n fuel x y m, (n <= fuel)%nat ->
  axpy_cols fuel x (x + n * ldx) ldx y ldy r alpha m = loop n (fun j => b_axpy r alpha (x + j * ldx) 1 (y + j * ldy) 1) m.
Proof.
  intros Hi.
  assert (L : forall n x y m, loop (S n) (fun j => b_axpy r alpha (x + j * ldx) 1 (y + j * ldy) 1) m =
     loop n (fun j => b_axpy r alpha (x + ldx + j * ldx) 1 (y + ldy + j * ldy) 1) (b_axpy r alpha x 1 y 1 m)).
  { induction n as [|n IH]; intros x y m; [cbn [loop]; now rewrite !Nat.add_0_r|].
    change (loop (S (S n)) ?f m) with (f (S n) (loop (S n) f m)). cbv beta. rewrite IH.
    cbn [loop]. f_equal; lia. }
  induction n as [|n IH]; intros fuel x y m Hf.
  - rewrite Nat.add_0_r. destruct fuel; [reflexivity|]. cbn [axpy_cols]. rewrite Nat.ltb_irrefl. reflexivity.
  - destruct fuel as [|fuel]; [lia|]. cbn [axpy_cols].
    replace (x <? x + S n * ldx)%nat with true by (symmetry; apply Nat.ltb_lt; nia).
    rewrite L, <- (IH fuel) by lia. f_equal. lia.
Qed.
Lemma dmat_axpy_ok a X Y m : good_mat X -> good_mat Y -> m_rows X = m_rows Y -> m_cols X = m_cols Y -> msame_or_apart X Y ->
  exists m', dmat_axpy a X Y m = Done m' /\ mat_becomes Y m m' (fun i j => mget Y m i j + a * mget X m i j).
Proof.
  intros GX GY E1 E2 SEP. unfold dmat_axpy, check. rewrite E1, E2, !Nat.eqb_refl. eexists. split; [reflexivity|].
  destruct (Nat.eqb_spec (m_rows Y) (m_ld X)) as [F1|F1]; cbn [andb]; [destruct (Nat.eqb_spec (m_rows Y) (m_ld Y)) as [F2|F2]|].
  - set (r := m_rows Y) in *. unfold b_axpy.
    assert (AX : forall k, (k < r * m_cols Y)%nat -> exists i j, (i < r)%nat /\ (j < m_cols Y)%nat /\ k = (r * j + i)%nat).
    { intros k Hk. assert (Hr : r <> 0%nat) by (intros Z; rewrite Z in Hk; lia). exists (k mod r)%nat, (k / r)%nat.
      split; [apply Nat.mod_upper_bound; auto|]. split; [apply Nat.div_lt_upper_bound; auto|]. apply Nat.div_mod; auto. }
    destruct (loop_map (r * m_cols Y) (fun k => m_data Y + k * 1)%nat (fun k m => m (m_data Y + k * 1)%nat + a * m (m_data X + k * 1)%nat) m)
      with (k := (r * m_cols Y)%nat) as [L1 L2]; auto.
    + intros; lia.
    + intros k m' Hk G1 G2. rewrite G1. f_equal. f_equal. destruct SEP as [->|SEP]; [exact G1|]. apply G2.
      intros k' Hk' Q. destruct (AX k Hk) as (i & j & Hi & Hj & ->). destruct (AX k' Hk') as (i' & j' & Hi' & Hj' & ->).
      apply (SEP (melem Y i' j')); [exists i', j'; auto|]. exists i, j. split; [lia|]. split; [lia|]. unfold melem. rewrite <- F1, <- F2. lia.
    + split.
      * intros i j Hi Hj. fold r in Hi. unfold mget, melem. rewrite <- F1, <- F2.
        replace (m_data Y + r * j + i)%nat with (m_data Y + (r * j + i) * 1)%nat by lia. rewrite L1 by nia.
        do 3 f_equal; lia.
      * intros b Hb. apply L2. intros k Hk ->. destruct (AX k Hk) as (i & j & Hi & Hj & ->). apply Hb. exists i, j.
        unfold melem. rewrite <- F2. split; auto. split; auto. lia.
  - destruct (Nat.eq_dec (m_ld X) 0) as [Z|Z]; [unfold good_mat in GX; rewrite Z, Nat.mul_0_r; cbn; split; [intros; lia|auto]|].
    rewrite axpy_cols_eq by nia. unfold b_axpy.
    erewrite loop_ext. 2:{ intros j m' Hj. apply loop_ext. intros i m'' Hi.
      replace (m_data Y + j * m_ld Y + i * 1)%nat with (melem Y i j) by (unfold melem; lia).
      replace (m_data X + j * m_ld X + i * 1)%nat with (melem X i j) by (unfold melem; lia). reflexivity. }
    apply (mat_loop Y (fun i j m => m (melem Y i j) + a * m (melem X i j)) m GY).
    intros i j m' Hi Hj G1 G2. rewrite G1. destruct SEP as [->|SEP]; [now rewrite G1|]. erewrite (mread_other X Y m' m); eauto; lia.
  - destruct (Nat.eq_dec (m_ld X) 0) as [Z|Z]; [unfold good_mat in GX; rewrite Z, Nat.mul_0_r; cbn; split; [intros; lia|auto]|].
    rewrite axpy_cols_eq by nia. unfold b_axpy.
    erewrite loop_ext. 2:{ intros j m' Hj. apply loop_ext. intros i m'' Hi.
      replace (m_data Y + j * m_ld Y + i * 1)%nat with (melem Y i j) by (unfold melem; lia).
      replace (m_data X + j * m_ld X + i * 1)%nat with (melem X i j) by (unfold melem; lia). reflexivity. }
    apply (mat_loop Y (fun i j m => m (melem Y i j) + a * m (melem X i j)) m GY).
    intros i j m' Hi Hj G1 G2. rewrite G1. destruct SEP as [->|SEP]; [now rewrite G1|]. erewrite (mread_other X Y m' m); eauto; lia.
Qed.

Lemma trans_loop_eq lda ldb r : forall n fuel b a m, (n <= fuel)%nat ->
  trans_loop fuel b (b + n) a lda ldb r m = loop n (fun k => b_copy r (a + k * lda) 1 (b + k) ldb) m.
Proof.
  assert (L : forall n b a m, loop (S n) (fun k => b_copy r (a + k * lda) 1 (b + k) ldb) m =
     loop n (fun k => b_copy r (a + lda + k * lda) 1 (b + 1 + k) ldb) (b_copy r a 1 b ldb m)).
  { induction n as [|n IH]; intros b a m; [cbn [loop]; now rewrite !Nat.add_0_r|].
    change (loop (S (S n)) ?f m) with (f (S n) (loop (S n) f m)). cbv beta. rewrite IH.
    cbn [loop]. f_equal; lia. }
  induction n as [|n IH]; intros fuel b a m Hf.
  - rewrite Nat.add_0_r. destruct fuel; [reflexivity|]. cbn [trans_loop]. rewrite Nat.ltb_irrefl. reflexivity.
  - destruct fuel as [|fuel]; [lia|]. cbn [trans_loop].
    replace (b <? b + S n)%nat with true by (symmetry; apply Nat.ltb_lt; lia).
    rewrite L, <- (IH fuel) by lia. f_equal. lia.
Qed.
Lemma dmat_trans_ok A B m : good_mat B -> m_rows A = m_cols B -> m_cols A = m_rows B -> apart (in_mat B) (in_mat A) ->
  exists m', dmat_trans A B m = Done m' /\ mat_becomes B m m' (fun i j => mget A m j i).
Proof.
  intros G E1 E2 SEP. unfold dmat_trans, check. rewrite E1, E2, !Nat.eqb_refl. eexists. split; [reflexivity|].
  rewrite trans_loop_eq by lia. unfold b_copy.
  destruct (loop2_map (m_cols B) (m_rows B) (fun j i => m_data B + i + j * m_ld B)%nat
     (fun j i m => m (m_data A + i * m_ld A + j * 1)%nat) m) with (k := m_rows B) as [L1 L2]; [| |lia|].
  - intros j i j' i' Hj Hi Hj' Hi' Q. destruct (mat_inj B i j i' j' G Hi Hi'); [unfold melem; lia|]. auto.
  - intros j i m' Hj Hi Q1 Q2. apply Q2. intros j' i' Hj' Hi' Q. apply (SEP (melem B i' j')); [exists i', j'; auto|].
    exists j, i. split; [lia|]. split; [lia|]. unfold melem. lia.
  - split.
    + intros i j Hi Hj. unfold mget, melem. specialize (L1 j i Hj Hi). cbv beta in L1.
      replace (m_data B + m_ld B * j + i)%nat with (m_data B + i + j * m_ld B)%nat by lia. rewrite L1. f_equal. lia.
    + intros b Hb. apply L2. intros j i Hj Hi ->. apply Hb. exists i, j. split; auto. split; auto. unfold melem. lia.
Qed.

(** ** Sums *)
Lemma bsum_ext n f g : (forall i, (i < n)%nat -> f i = g i) -> bsum n f = bsum n g.
Proof. induction n as [|n IH]; intros H; [reflexivity|]. cbn. rewrite IH by (intros; apply H; lia). rewrite H; auto. Qed.
Lemma s_ssd_eq n a x incx y incy m : (0 < incx)%nat ->
  s_ssd n a x incx y incy m = a + bsum n (fun i => (m (x + i * incx)%nat - m (y + i * incy)%nat) * (m (x + i * incx)%nat - m (y + i * incy)%nat)).
Proof.
  intros Hi. unfold s_ssd.
  assert (L : forall n f, bsum (S n) f = f 0%nat + bsum n (fun i => f (S i))).
  { induction n0 as [|n0 IH]; intros f; [cbn; lra|]. change (bsum (S (S n0)) f) with (bsum (S n0) f + f (S n0)). rewrite IH. cbn. lra. }
  assert (K : forall n fuel x y a, (n <= fuel)%nat -> s_ssd_loop fuel x (x + n * incx) incx y incy a m =
    a + bsum n (fun i => (m (x + i * incx)%nat - m (y + i * incy)%nat) * (m (x + i * incx)%nat - m (y + i * incy)%nat))).
  { induction n0 as [|n0 IH]; intros fuel x0 y0 a0 Hf.
    - rewrite Nat.mul_0_l, Nat.add_0_r. destruct fuel; cbn [s_ssd_loop bsum]; [lra|]. rewrite Nat.ltb_irrefl. lra.
    - destruct fuel as [|fuel]; [lia|]. cbn [s_ssd_loop].
      replace (x0 <? x0 + S n0 * incx)%nat with true by (symmetry; apply Nat.ltb_lt; nia).
      replace (x0 + S n0 * incx)%nat with (x0 + incx + n0 * incx)%nat by lia. rewrite IH by lia. rewrite L.
      rewrite !Nat.mul_0_l, !Nat.add_0_r. rewrite <- Rplus_assoc. f_equal. apply bsum_ext. intros i Hi'.
      replace (x0 + incx + i * incx)%nat with (x0 + S i * incx)%nat by lia.
      replace (y0 + incy + i * incy)%nat with (y0 + S i * incy)%nat by lia. reflexivity. }
  apply K. nia.
Qed.
Lemma dvec_ssd_ok x y m : good_vec x -> v_len x = v_len y ->
  dvec_ssd x y m = Done (bsum (v_len x) (fun i => (vget x m i - vget y m i) * (vget x m i - vget y m i))).
Proof. intros G L. unfold dvec_ssd, check. rewrite L, Nat.eqb_refl. rewrite s_ssd_eq by exact G. f_equal. unfold vget, velem. rewrite Rplus_0_l. reflexivity. Qed.
Lemma dmat_ssd_ok A B m : good_mat A -> m_rows A = m_rows B -> m_cols A = m_cols B ->
  dmat_ssd A B m = Done (bsum (m_cols A) (fun j => bsum (m_rows A) (fun i => (mget A m i j - mget B m i j) * (mget A m i j - mget B m i j)))).
Proof.
  intros G E1 E2. unfold dmat_ssd, check. rewrite <- E1, <- E2, !Nat.eqb_refl. f_equal.
  assert (L : forall n f, bsum (S n) f = f 0%nat + bsum n (fun i => f (S i))).
  { induction n as [|n IH]; intros f; [cbn; lra|]. change (bsum (S (S n)) f) with (bsum (S n) f + f (S n)). rewrite IH. cbn. lra. }
  destruct (Nat.eq_dec (m_ld A) 0) as [Z|Z].
  - rewrite Z, Nat.mul_0_r. cbn. unfold good_mat in G. replace (m_rows A) with 0%nat by lia. cbn.
    clear. induction (m_cols A) as [|n IH]; cbn; [reflexivity|]. rewrite <- IH. lra.
  - assert (K : forall n fuel x y a, (n <= fuel)%nat -> dmat_ssd_loop fuel x (x + n * m_ld A) (m_ld A) y (m_ld B) (m_rows A) a m =
      a + bsum n (fun j => bsum (m_rows A) (fun i => (m (x + m_ld A * j + i)%nat - m (y + m_ld B * j + i)%nat) * (m (x + m_ld A * j + i)%nat - m (y + m_ld B * j + i)%nat)))).
    { induction n as [|n IH]; intros fuel x0 y0 a0 Hf.
      - rewrite Nat.mul_0_l, Nat.add_0_r. destruct fuel; cbn [dmat_ssd_loop bsum]; [lra|]. rewrite Nat.ltb_irrefl. lra.
      - destruct fuel as [|fuel]; [lia|]. cbn [dmat_ssd_loop].
        replace (x0 <? x0 + S n * m_ld A)%nat with true by (symmetry; apply Nat.ltb_lt; nia).
        replace (x0 + S n * m_ld A)%nat with (x0 + m_ld A + n * m_ld A)%nat by lia. rewrite IH by lia. rewrite L.
        rewrite s_ssd_eq by lia. rewrite <- Rplus_assoc. f_equal; [f_equal|]; apply bsum_ext; intros i Hi'.
        + replace (x0 + m_ld A * 0 + i)%nat with (x0 + i * 1)%nat by lia. replace (y0 + m_ld B * 0 + i)%nat with (y0 + i * 1)%nat by lia. reflexivity.
        + apply bsum_ext. intros k Hk.
          replace (x0 + m_ld A + m_ld A * i + k)%nat with (x0 + m_ld A * S i + k)%nat by lia.
          replace (y0 + m_ld B + m_ld B * i + k)%nat with (y0 + m_ld B * S i + k)%nat by lia. reflexivity. }
    rewrite K by nia. rewrite Rplus_0_l. reflexivity.
Qed.

(** ** Products *)
Lemma dmat_gemv_ok tr alpha A x beta y m : good_vec y -> v_len y = orows tr A -> v_len x = ocols tr A ->
  exists m', dmat_gemv tr alpha A x beta y m = Done m' /\
  vec_becomes y m m' (fun i => alpha * bsum (ocols tr A) (fun k => oget tr A m i k * vget x m k) + beta * vget y m i).
Proof.
  intros G E1 E2. unfold dmat_gemv, check.
  assert (E : forall X : out mem, (if tr then if (m_rows A =? v_len x)%nat then if (m_cols A =? v_len y)%nat then X else Fail else Fail
    else if (m_rows A =? v_len y)%nat then if (m_cols A =? v_len x)%nat then X else Fail else Fail) = X).
  { intros X. destruct tr; cbn [orows ocols] in *; rewrite E1, E2, !Nat.eqb_refl; reflexivity. }
  rewrite E. eexists. split; [reflexivity|]. unfold b_gemv.
  replace (if tr then m_cols A else m_rows A) with (v_len y) by (rewrite E1; destruct tr; reflexivity).
  eapply becomes_ext; [|apply (vec_loop y (fun i _ => alpha * bsum (if tr then m_rows A else m_cols A)
     (fun k => b_op tr (m_data A) (m_ld A) i k m * m (v_data x + k * v_inc x)%nat) + beta * m (v_data y + i * v_inc y)%nat) m G)]; [|reflexivity].
  intros i Hi. cbv beta. destruct tr; reflexivity.
Qed.
Lemma dmat_gemm_ok ta tb alpha A B beta C m : good_mat A -> good_mat B -> good_mat C ->
  m_rows C = orows ta A -> m_cols C = ocols tb B -> ocols ta A = orows tb B ->
  (ta = true -> m_rows A = m_cols A) -> (tb = true -> m_rows B = m_cols B) ->
  exists m', dmat_gemm ta tb alpha A B beta C m = Done m' /\
  mat_becomes C m m' (fun i j => alpha * bsum (ocols ta A) (fun k => oget ta A m i k * oget tb B m k j) + beta * mget C m i j).
Proof.
  intros GA GB GC E1 E2 E3 Ha Hb. unfold dmat_gemm, check.
  assert (R1 : m_rows A = m_rows C) by (destruct ta; cbn in *; [rewrite Ha; auto|auto]).
  assert (R2 : m_cols A = m_rows B) by (destruct ta, tb; cbn in *; try rewrite (Ha eq_refl) in *; try rewrite (Hb eq_refl) in *; congruence).
  assert (R3 : m_cols B = m_cols C) by (destruct tb; cbn in *; [rewrite <- Hb; auto|auto]).
  rewrite R1, R2, R3, !Nat.eqb_refl. unfold good_mat in GA, GB. rewrite R1 in GA.
  rewrite (proj2 (Nat.leb_le _ _) GA), (proj2 (Nat.leb_le _ _) GB), (proj2 (Nat.leb_le _ _) GC). cbn [andb].
  eexists. split; [reflexivity|]. unfold b_gemm. rewrite <- R1 in *.
  replace (_ || _ || _)%bool with false.
  2:{ symmetry. apply orb_false_intro; [apply orb_false_intro|]; apply Nat.ltb_ge; [destruct ta|destruct tb|]; unfold good_mat in *; try specialize (Ha eq_refl); try specialize (Hb eq_refl); lia. }
  rewrite R1.
  eapply mat_becomes_ext; [|apply (mat_loop C (fun i j _ => alpha * bsum (m_rows B) (fun k => b_op ta (m_data A) (m_ld A) i k m * b_op tb (m_data B) (m_ld B) k j m)
    + beta * m (melem C i j)) m GC); reflexivity].
  intros i j Hi Hj. cbv beta. f_equal. f_equal.
  replace (ocols ta A) with (m_rows B) by (destruct ta; cbn; [rewrite <- R2; symmetry; auto|auto]). apply bsum_ext. intros k Hk.
  unfold b_op, oget, mget, melem, mad. destruct ta, tb; reflexivity.
Qed.
(** transposing a matrix that is not square never works *)
Lemma dmat_gemm_wrong tb alpha A B beta C m : m_rows C = orows true A -> m_rows A <> m_cols A ->
  dmat_gemm true tb alpha A B beta C m = Fail.
Proof. intros E N. unfold dmat_gemm, check. cbn in E. rewrite E. destruct (Nat.eqb_spec (m_rows A) (m_cols A)); [contradiction|reflexivity]. Qed.
Lemma dmat_gemm_wrong_b ta alpha A B beta C m : m_cols C = ocols true B -> m_rows B <> m_cols B ->
  dmat_gemm ta true alpha A B beta C m = Fail.
Proof.
  intros E N. unfold dmat_gemm, check. cbn in E. rewrite E. destruct (m_rows A =? m_rows C)%nat; [|reflexivity].
  destruct (m_cols A =? m_rows B)%nat; [|reflexivity]. destruct (Nat.eqb_spec (m_cols B) (m_rows B)); [congruence|reflexivity].
Qed.

(** ** Expressions *)
Lemma oread tr A y (m m' : mem) i k : (forall a, ~ in_vec y a -> m a = m' a) -> apart (in_vec y) (in_mat A) ->
  (i < orows tr A)%nat -> (k < ocols tr A)%nat -> oget tr A m i k = oget tr A m' i k.
Proof.
  intros H SEP Hi Hk. unfold oget, mget. destruct tr; cbn in Hi, Hk; apply H; intros Q; apply (SEP _ Q); [exists k, i|exists i, k]; auto.
Qed.
Lemma assign_ok t e m : good_vec t -> sized (v_len t) e -> separate t e ->
  exists m', assign t e m = Done m' /\ vec_becomes t m m' (fun i => value e m i).
Proof.
  intros G. revert m. induction e as [x|a e IH|a x y IH|tr a A x|tr a A x b y IH]; intros m SZ SP; cbn [assign value sized separate] in *.
  - apply dvec_copy_ok; auto.
  - destruct (IH m SZ SP) as (m1 & E & B1 & B2). rewrite E. cbn [obind]. eexists. split; [reflexivity|].
    destruct (dvec_scal_ok a t m1 G) as [C1 C2]. split.
    + intros i Hi. rewrite C1 by auto. unfold vget. now rewrite B1.
    + intros c Hc. rewrite C2, B2; auto.
  - destruct SZ as [SZ1 SZ2]. destruct SP as [SP1 SP2]. destruct (IH m SZ2 SP2) as (m1 & E & B1 & B2). rewrite E. cbn [obind].
    destruct (dvec_axpy_ok a x t m1 G SZ1 (or_intror SP1)) as (m2 & E2 & C1 & C2). exists m2. split; [exact E2|]. split.
    + intros i Hi. rewrite C1 by auto. unfold vget at 1. rewrite B1 by auto. unfold vget.
      rewrite (read_other x t m1 m) by (auto; lia). lra.
    + intros c Hc. rewrite C2, B2; auto.
  - destruct SZ as [SZ1 SZ2]. destruct SP as [SP1 SP2].
    destruct (dmat_gemv_ok tr a A x 0 t m G (eq_sym SZ1) SZ2) as (m' & E & B). exists m'. split; [exact E|].
    eapply becomes_ext; [|exact B]. intros i Hi. cbv beta. lra.
  - destruct SZ as (SZ1 & SZ2 & SZ3). destruct SP as (SP1 & SP2 & SP3). destruct (IH m SZ3 SP3) as (m1 & E & B1 & B2). rewrite E. cbn [obind].
    destruct (dmat_gemv_ok tr a A x b t m1 G (eq_sym SZ1) SZ2) as (m2 & E2 & C1 & C2). exists m2. split; [exact E2|]. split.
    + intros i Hi. rewrite C1 by auto. unfold vget at 2. rewrite B1 by auto. f_equal. f_equal. apply bsum_ext. intros k Hk.
      rewrite (oread tr A t m1 m i k) by (auto; lia). unfold vget. rewrite (read_other x t m1 m) by (auto; lia). reflexivity.
    + intros c Hc. rewrite C2, B2; auto.
Qed.
Lemma e_scale_ok a e m i : value (e_scale a e) m i = a * value e m i.
Proof. destruct e; cbn; lra. Qed.
Lemma e_add_mv_ok tr a A x e m i : value (e_add_mv tr a A x e) m i = value (EMV1 tr a A x) m i + value e m i.
Proof. destruct e; cbn; lra. Qed.

(** x = x + y *)
Lemma self_add x y m : good_vec x -> v_len x = v_len y -> apart (in_vec x) (in_vec y) ->
  exists m', assign x (e_add_vec x (EVec y)) m = Done m' /\ vec_becomes x m m' (fun i => 2 * vget y m i).
Proof.
  intros G L SEP. unfold e_add_vec. cbn [assign].
  destruct (dvec_copy_ok y x m G) as (m1 & E & B1 & B2); [auto|right; auto|]. rewrite E. cbn [obind].
  destruct (dvec_axpy_ok 1 x x m1 G eq_refl (or_introl eq_refl)) as (m2 & E2 & C1 & C2). exists m2. split; [exact E2|]. split.
  - intros i Hi. rewrite C1 by auto. unfold vget at 1 2. rewrite B1 by auto. lra.
  - intros a Ha. rewrite C2, B2; auto.
Qed.

(** ** Views *)
Lemma slice_ok v start stop step : good_vec v -> (start <= stop)%nat -> (stop <= v_len v)%nat -> (0 < step)%nat ->
  exists w, dvec_slice v start stop step = Done w /\ good_vec w /\
  (forall i, velem w i = velem v (start + i * step)) /\
  (forall i, (i < v_len w)%nat <-> (start + S i * step <= stop)%nat).
Proof.
  intros G H1 H2 H3. unfold dvec_slice.
  rewrite (proj2 (Nat.ltb_ge _ _) H2), (proj2 (Nat.ltb_ge _ _) H1). cbn [orb].
  destruct (Nat.eqb_spec step 0); [lia|]. eexists. split; [reflexivity|]. split; [unfold good_vec in *; cbn; nia|]. split.
  - intros i. unfold velem. cbn. nia.
  - intros i. cbn [v_len]. split; intros H.
    + assert (step * S i <= stop - start)%nat; [|lia]. etransitivity; [|apply (Nat.mul_div_le (stop - start) step); lia]. nia.
    + assert (S i <= (stop - start) / step)%nat; [|lia]. apply Nat.div_le_lower_bound; lia.
Qed.
Lemma slice_err v start stop step : (v_len v < stop)%nat \/ (stop < start)%nat -> dvec_slice v start stop step = Fail.
Proof.
  intros H. unfold dvec_slice. replace (_ || _)%bool with true; [reflexivity|]. symmetry. apply orb_true_iff. rewrite !Nat.ltb_lt. exact H.
Qed.
Lemma row_ok A r : (r < m_rows A)%nat -> good_mat A -> exists w, dmat_row_vec A r = Done w /\ good_vec w /\ v_len w = m_cols A /\
  forall j, velem w j = melem A r j.
Proof.
  intros H G. unfold dmat_row_vec. rewrite (proj2 (Nat.leb_gt _ _) H). eexists. split; [reflexivity|].
  split; [unfold good_vec, good_mat in *; cbn; lia|]. split; [reflexivity|]. intros j. unfold velem, melem. cbn. lia.
Qed.
Lemma col_ok A c : (c < m_cols A)%nat -> exists w, dmat_col_vec A c = Done w /\ good_vec w /\ v_len w = m_rows A /\
  forall i, velem w i = melem A i c.
Proof.
  intros H. unfold dmat_col_vec. rewrite (proj2 (Nat.leb_gt _ _) H). eexists. split; [reflexivity|].
  split; [unfold good_vec; cbn; lia|]. split; [reflexivity|]. intros j. unfold velem, melem. cbn. lia.
Qed.
Lemma diag_ok A : good_vec (dmat_diag_vec A) /\ (forall i, (i < v_len (dmat_diag_vec A))%nat <-> (i < m_rows A)%nat /\ (i < m_cols A)%nat) /\
  forall i, velem (dmat_diag_vec A) i = melem A i i.
Proof.
  unfold dmat_diag_vec. split; [unfold good_vec; cbn; lia|]. split.
  - intros i. cbn [v_len]. destruct (Nat.ltb_spec (m_rows A) (m_cols A)); lia.
  - intros i. unfold velem, melem. cbn. lia.
Qed.
Lemma block_ok A rs cs re ce : good_mat A -> (rs < re)%nat -> (re <= m_rows A)%nat -> (cs < ce)%nat -> (ce <= m_cols A)%nat ->
  exists B, dmat_block A rs cs re ce = Done B /\ good_mat B /\ m_rows B = (re - rs)%nat /\ m_cols B = (ce - cs)%nat /\
  forall i j, melem B i j = melem A (rs + i) (cs + j).
Proof.
  intros G H1 H2 H3 H4. unfold dmat_block.
  replace (_ || _)%bool with false.
  2:{ symmetry. repeat apply orb_false_intro; first [apply Nat.leb_gt; lia | apply Nat.ltb_ge; lia]. }
  eexists. split; [reflexivity|]. split; [unfold good_mat in *; cbn; lia|]. split; [reflexivity|]. split; [reflexivity|].
  intros i j. unfold melem. cbn. nia.
Qed.
Lemma block_err A rs cs re ce : (re <= rs)%nat \/ (m_rows A < re)%nat \/ (ce <= cs)%nat \/ (m_cols A < ce)%nat -> dmat_block A rs cs re ce = Fail.
Proof.
  intros H. unfold dmat_block. replace (_ || _)%bool with true; [reflexivity|]. symmetry.
  rewrite !orb_true_iff, !Nat.ltb_lt, !Nat.leb_le. lia.
Qed.

(** ** Statements used in Properties_Mat *)
Lemma slice_divides v start stop step : good_vec v -> (start <= stop)%nat -> (stop <= v_len v)%nat -> (0 < step)%nat ->
  ((stop - start) mod step = 0)%nat ->
  exists w, dvec_slice v start stop step = Done w /\ good_vec w /\
  (forall i, velem w i = velem v (start + i * step)) /\
  (forall i, (i < v_len w)%nat <-> (start + i * step < stop)%nat).
Proof.
  intros G H1 H2 H3 H4. destruct (slice_ok v start stop step G H1 H2 H3) as (w & E & Gw & A & L). exists w.
  split; auto. split; auto. split; auto. intros i. rewrite L. apply Nat.mod_divides in H4; [|lia]. destruct H4 as [c Hc].
  assert (stop = start + step * c)%nat by lia. subst stop. split; intros H; [|assert (i < c)%nat by nia]; nia.
Qed.
Lemma slice_not_divides v start stop step : (start <= stop)%nat -> (stop <= v_len v)%nat -> (0 < step)%nat ->
  ((stop - start) mod step <> 0)%nat ->
  exists w, dvec_slice v start stop step = Done w /\ exists i, (start + i * step < stop)%nat /\ ~ (i < v_len w)%nat.
Proof.
  intros H1 H2 H3 H4. unfold dvec_slice.
  rewrite (proj2 (Nat.ltb_ge _ _) H2), (proj2 (Nat.ltb_ge _ _) H1). cbn [orb].
  destruct (Nat.eqb_spec step 0); [lia|]. eexists. split; [reflexivity|]. exists ((stop - start) / step)%nat. cbn [v_len]. split; [|lia].
  pose proof (Nat.div_mod (stop - start) step ltac:(lia)). nia.
Qed.
Lemma slice_zero v start stop : (start <= stop)%nat -> (stop <= v_len v)%nat -> dvec_slice v start stop 0 = Undef.
Proof. intros H1 H2. unfold dvec_slice. now rewrite (proj2 (Nat.ltb_ge _ _) H2), (proj2 (Nat.ltb_ge _ _) H1). Qed.
Lemma cpp_slice_wrong v start stop step : (start + step < stop)%nat -> (stop <= v_len v)%nat -> (0 < step)%nat ->
  exists w, DVec_slice v start stop step = Done w /\ ~ (1 < v_len w)%nat.
Proof.
  intros H1 H2 H3. unfold DVec_slice, dvec_slice.
  rewrite (proj2 (Nat.ltb_ge _ _) H2), (proj2 (Nat.ltb_ge stop start) ltac:(lia)). cbn [orb].
  destruct (Nat.eqb_spec stop 0); [lia|]. eexists. split; [reflexivity|]. cbn [v_len].
  assert ((stop - start) / stop < 2)%nat; [|lia]. apply Nat.div_lt_upper_bound; lia.
Qed.
Lemma cpp_view_wrong len data inc i : (0 < i)%nat -> inc <> 1%nat -> velem (DVec_view_const len data inc) i <> velem (mkDV len data inc) i.
Proof. unfold velem, DVec_view_const. cbn. intros. nia. Qed.
Lemma diag_lt A : good_mat A -> forall i, (i < v_len (dmat_diag_vec A))%nat -> in_mat A (velem (dmat_diag_vec A) i).
Proof. intros G i Hi. destruct (diag_ok A) as (_ & D & E). apply D in Hi. rewrite E. exists i, i. tauto. Qed.
Lemma row_col_err A k : ((m_rows A <= k)%nat -> dmat_row_vec A k = Fail) /\ ((m_cols A <= k)%nat -> dmat_col_vec A k = Fail).
Proof. split; intros H; [unfold dmat_row_vec|unfold dmat_col_vec]; now rewrite (proj2 (Nat.leb_le _ _) H). Qed.
Lemma size_err a x y A B m :
  (v_len x <> v_len y -> dvec_copy x y m = Fail /\ dvec_axpy a x y m = Fail /\ dvec_swap x y m = Fail /\ dvec_ssd x y m = Fail /\ dvec_dot x y m = Fail) /\
  (m_rows A <> m_rows B \/ m_cols A <> m_cols B -> dmat_copy A B m = Fail /\ dmat_axpy a A B m = Fail /\ dmat_ssd A B m = Fail) /\
  (m_rows A <> m_cols B \/ m_cols A <> m_rows B -> dmat_trans A B m = Fail).
Proof.
  split; [|split].
  - intros H. apply Nat.eqb_neq in H. unfold dvec_copy, dvec_axpy, dvec_swap, dvec_ssd, dvec_dot, check. rewrite H. auto.
  - intros H. unfold dmat_copy, dmat_axpy, dmat_ssd, check.
    destruct (Nat.eqb_spec (m_rows A) (m_rows B)) as [E|_]; auto. destruct (Nat.eqb_spec (m_cols A) (m_cols B)) as [F|_]; auto. exfalso. lia.
  - intros H. unfold dmat_trans, check.
    destruct (Nat.eqb_spec (m_rows A) (m_cols B)) as [E|_]; auto. destruct (Nat.eqb_spec (m_cols A) (m_rows B)) as [F|_]; auto. exfalso. lia.
Qed.
Lemma gemm_transposed ta tb alpha A B beta C m :
  m_rows C = orows ta A -> m_cols C = ocols tb B -> ocols ta A = orows tb B ->
  (ta = true /\ m_rows A <> m_cols A) \/ (tb = true /\ m_rows B <> m_cols B) ->
  dmat_gemm ta tb alpha A B beta C m = Fail.
Proof. intros E1 E2 _ [[-> H]|[-> H]]; [now apply dmat_gemm_wrong|now apply dmat_gemm_wrong_b]. Qed.
Lemma operators_ok a tr A x e m i :
  value (e_scale a e) m i = a * value e m i /\
  value (e_add_vec x e) m i = vget x m i + value e m i /\
  value (e_add_scaled a x e) m i = a * vget x m i + value e m i /\
  value (e_mul tr A x) m i = bsum (ocols tr A) (fun k => oget tr A m i k * vget x m k) /\
  value (e_add_mv tr a A x e) m i = a * bsum (ocols tr A) (fun k => oget tr A m i k * vget x m k) + value e m i.
Proof.
  split; [apply e_scale_ok|]. split; [cbn; lra|]. split; [reflexivity|]. split; [cbn; lra|]. rewrite e_add_mv_ok. reflexivity.
Qed.
