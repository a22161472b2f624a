(** The augmentation step, the initial state, and the optimality of what the solver returns. *)
From Coq Require Import List Arith ZArith Bool Reals Lra Lia Permutation.
From Verif Require Import TrModel HgModel HgSpec HgBase.
Import ListNotations.
Open Scope nat_scope.

(** ** step 5 *)
Section Path.
Variables (n zi zj : nat) (M : list (list nat)).
Hypothesis Hzi : zi < n.
Hypothesis Hzj : zj < n.
Hypothesis Hz : get 0 M zi zj = 2.
Hypothesis Hz1 : forall k, k < n -> get 0 M zi k <> 1.

Record path_ok (k : nat) (p : list (nat * nat)) : Prop := {
  p_ne : exists h t, p = h :: t;
  p_nodup : NoDup p;
  p_rng : forall i j, In (i, j) p -> i < n /\ j < n /\ ((i, j) = (zi, zj) \/ (i < k /\ i <> zi));
  p_val : forall i j, In (i, j) p -> get 0 M i j = 1 \/ get 0 M i j = 2;
  p_prime : forall i j, In (i, j) p -> get 0 M i j = 2 -> (i, j) = (zi, zj) \/ exists c, In (i, c) p /\ get 0 M i c = 1;
  p_one : forall i j j', In (i, j) p -> In (i, j') p -> get 0 M i j = 2 -> get 0 M i j' = 2 -> j = j';
  p_len : length p + 2 * (if zi <? k then 1 else 0) <= 1 + 2 * k }.

Lemma path_start : path_ok 0 [(zi, zj)].
Proof.
  constructor.
  - eauto.
  - constructor; [intros []|constructor].
  - intros i j [E|[]]. inversion E; subst. auto.
  - intros i j [E|[]]. inversion E; subst. auto.
  - intros i j [E|[]] _. left. auto.
  - intros i j j' [E|[]] [E'|[]] _ _. congruence.
  - cbn. lia.
Qed.

Lemma path_step : forall k p, k < n -> path_ok k p -> path_ok (S k) (path_row n M p k).
Proof.
  intros k p Hk P. unfold path_row. cbv zeta.
  destruct (p_ne _ _ P) as [[hi hj] [t Ep]].
  set (c := snd (hd (0, 0) p)). assert (Ec : c = hj) by (unfold c; rewrite Ep; reflexivity).
  assert (Hc : c < n).
  { destruct (p_rng _ _ P hi hj) as [_ [H _]]; [rewrite Ep; left; reflexivity|]. lia. }
  clearbody c. clear Ec Ep.
  assert (Fresh : forall j, In (k, j) p -> (k, j) = (zi, zj)).
  { intros j H. destruct (p_rng _ _ P k j H) as [_ [_ [E|[A _]]]]; [exact E|lia]. }
  destruct (get 0 M k c =? 1) eqn:C.
  - apply Nat.eqb_eq in C.
    assert (Nz : k <> zi) by (intro; subst k; exact (Hz1 c Hc C)).
    assert (Nin : forall j, ~ In (k, j) p) by (intros j H; apply Fresh in H; congruence).
    assert (L : forall l : list (nat * nat), length l <= 2 + length p -> length l + 2 * (if zi <? S k then 1 else 0) <= 1 + 2 * S k).
    { intros l Hl. pose proof (p_len _ _ P) as Q.
      destruct (zi <? S k) eqn:Z1; destruct (zi <? k) eqn:Z2; try lia.
      apply Nat.ltb_lt in Z1. apply Nat.ltb_ge in Z2. lia. }
    destruct (find (fun j => get 0 M k j =? 2) (seq 0 n)) as [j|] eqn:F.
    + apply find_some in F. destruct F as [Fj F2]. apply in_seq in Fj. apply Nat.eqb_eq in F2.
      assert (Ncj : c <> j) by congruence.
      constructor.
      * eauto.
      * constructor; [|constructor; [apply Nin|exact (p_nodup _ _ P)]].
        intros [E|H]; [inversion E; congruence|exact (Nin _ H)].
      * intros i' j' [E|[E|H]]; [inversion E; subst; repeat split; lia|inversion E; subst i' j'; repeat split; lia|].
        destruct (p_rng _ _ P i' j' H) as [A [B [D|[D D']]]]; repeat split; auto; right; lia.
      * intros i' j' [E|[E|H]]; [inversion E; subst; auto|inversion E; subst i' j'; auto|exact (p_val _ _ P i' j' H)].
      * intros i' j' [E|[E|H]] V.
        -- inversion E; subst i' j'. right. exists c. split; [right; left; reflexivity|exact C].
        -- inversion E; subst i' j'. congruence.
        -- destruct (p_prime _ _ P i' j' H V) as [Q|[c' [Q1 Q2]]]; [left; exact Q|]. right. exists c'. split; [right; right; exact Q1|exact Q2].
      * intros i' j1 j2 H1 H2 V1 V2.
        assert (D : forall jj, In (i', jj) ((k, j) :: (k, c) :: p) -> get 0 M i' jj = 2 -> (i' = k /\ jj = j) \/ (i' <> k /\ In (i', jj) p) \/ (In (i', jj) p)).
        { intros jj [E|[E|H]] V; [inversion E; auto|inversion E; subst i' jj; congruence|auto]. }
        destruct (D _ H1 V1) as [[A1 B1]|[[A1 B1]|B1]]; destruct (D _ H2 V2) as [[A2 B2]|[[A2 B2]|B2]]; try congruence;
          try (subst i'; exfalso; eapply Nin; eassumption); try (eapply (p_one _ _ P); eassumption).
      * apply L. cbn. lia.
    + constructor.
      * eauto.
      * constructor; [apply Nin|exact (p_nodup _ _ P)].
      * intros i' j' [E|H]; [inversion E; subst i' j'; repeat split; lia|].
        destruct (p_rng _ _ P i' j' H) as [A [B [D|[D D']]]]; repeat split; auto; right; lia.
      * intros i' j' [E|H]; [inversion E; subst i' j'; auto|exact (p_val _ _ P i' j' H)].
      * intros i' j' [E|H] V; [inversion E; subst i' j'; congruence|].
        destruct (p_prime _ _ P i' j' H V) as [Q|[c' [Q1 Q2]]]; [left; exact Q|]. right. exists c'. split; [right; exact Q1|exact Q2].
      * intros i' j1 j2 [E1|H1] [E2|H2] V1 V2; try (inversion E1; subst i' j1; congruence); try (inversion E2; subst i' j2; congruence).
        eapply (p_one _ _ P); eassumption.
      * apply L. cbn. lia.
  - constructor.
    + exact (p_ne _ _ P).
    + exact (p_nodup _ _ P).
    + intros i' j' H. destruct (p_rng _ _ P i' j' H) as [A [B [D|[D D']]]]; repeat split; auto; right; lia.
    + exact (p_val _ _ P).
    + exact (p_prime _ _ P).
    + exact (p_one _ _ P).
    + pose proof (p_len _ _ P) as Q. destruct (zi <? S k); destruct (zi <? k); lia.
Qed.

Lemma path_fold : forall k, k <= n -> path_ok k (fold_left (path_row n M) (seq 0 k) [(zi, zj)]).
Proof.
  induction k as [|k IH]; intros H; [exact path_start|].
  replace (seq 0 (S k)) with (seq 0 k ++ [k]) by (rewrite <- Nat.add_1_r, seq_app; reflexivity).
  rewrite fold_left_app. cbn [fold_left]. apply path_step; [lia|]. apply IH. lia.
Qed.
End Path.

Lemma flip_fold : forall n l M, NoDup l -> (forall i j, In (i, j) l -> i < n /\ j < n) ->
  forall i j, i < n -> j < n ->
  (In (i, j) l -> get 0 (fold_left (flip n) l M) i j = if get 0 M i j =? 1 then 0 else 1) /\
  (~ In (i, j) l -> get 0 (fold_left (flip n) l M) i j = get 0 M i j).
Proof.
  induction l as [|[a b] l IH]; intros M N Rg i j Hi Hj; cbn [fold_left].
  - split; [intros []|reflexivity].
  - inversion N; subst.
    assert (Rg' : forall i j, In (i, j) l -> i < n /\ j < n) by (intros; apply Rg; right; assumption).
    destruct (IH (flip n M (a, b)) H2 Rg' i j Hi Hj) as [I1 I2].
    assert (G : get 0 (flip n M (a, b)) i j = if (i =? a) && (j =? b) then (if get 0 M a b =? 1 then 0 else 1) else get 0 M i j).
    { unfold flip. cbn [fst snd]. apply get_mset; assumption. }
    split.
    + intros [E|H].
      * inversion E; subst a b. rewrite I2 by assumption. rewrite G, !Nat.eqb_refl. reflexivity.
      * rewrite I1 by exact H. rewrite G.
        destruct ((i =? a) && (j =? b)) eqn:E; [|reflexivity].
        apply andb_true_iff in E. destruct E as [E1 E2]. apply Nat.eqb_eq in E1. apply Nat.eqb_eq in E2. subst. contradiction.
    + intros H. rewrite I2 by (intro; apply H; right; assumption). rewrite G.
      destruct ((i =? a) && (j =? b)) eqn:E; [|reflexivity].
      apply andb_true_iff in E. destruct E as [E1 E2]. apply Nat.eqb_eq in E1. apply Nat.eqb_eq in E2. subst.
      exfalso. apply H. left. reflexivity.
Qed.

Lemma in_dec_cell : forall (p : nat * nat) l, In p l \/ ~ In p l.
Proof.
  assert (D : forall a b : nat * nat, {a = b} + {a <> b}) by (decide equality; apply Nat.eq_dec).
  intros. destruct (in_dec D p l); auto.
Qed.

Lemma step5_ok : forall n A0 s zi zj, inv n A0 s -> hph s = S5 zi zj ->
  exists s', step5 n zi zj s = Done s' /\ inv n A0 s'.
Proof.
  intros n A0 s zi zj I P.
  pose proof (i_ph _ _ _ I) as Q. rewrite P in Q. destruct Q as [[Hzi [Hzj Hz]] Hz1].
  assert (Hz1' : forall k, k < n -> get 0 (hmask s) zi k <> 1).
  { intros k Hk E. apply (Hz1 k). repeat split; assumption. }
  pose proof (path_fold n zi zj (hmask s) Hzi Hzj Hz Hz1' n (le_n n)) as K.
  unfold step5. cbv zeta. set (path := fold_left (path_row n (hmask s)) (seq 0 n) [(zi, zj)]) in *.
  assert (L : (n * n <? length path) = false).
  { apply Nat.ltb_ge. pose proof (p_len _ _ _ _ _ _ K) as Q. replace (zi <? n) with true in Q by (symmetry; apply Nat.ltb_lt; exact Hzi).
    destruct n; [lia|]. nia. }
  rewrite L. eexists. split; [reflexivity|].
  assert (F : forall i j, i < n -> j < n ->
     (In (i, j) path -> get 0 (fold_left (flip n) (rev path) (hmask s)) i j = if mk s i j =? 1 then 0 else 1) /\
     (~ In (i, j) path -> get 0 (fold_left (flip n) (rev path) (hmask s)) i j = mk s i j)).
  { intros i j Hi Hj. pose proof (flip_fold n (rev path) (hmask s)) as X.
    specialize (X (NoDup_rev (p_nodup _ _ _ _ _ _ K))).
    assert (Y : forall i j, In (i, j) (rev path) -> i < n /\ j < n).
    { intros a b H. apply in_rev in H. destruct (p_rng _ _ _ _ _ _ K a b H) as [A [B _]]. auto. }
    specialize (X Y i j Hi Hj). rewrite <- in_rev in X. exact X. }
  set (m := fold_left (flip n) (rev path) (hmask s)) in *.
  set (s' := mkh _ _ _ _ _).
  assert (Gm : forall i j, i < n -> j < n -> mk s' i j = if get 0 m i j =? 2 then 0 else get 0 m i j).
  { intros i j Hi Hj. unfold mk, s'. cbn [hmask]. rewrite get_tab by assumption. reflexivity. }
  assert (St : forall i j, star n s' i j -> (In (i, j) path /\ prime n s i j) \/ (~ In (i, j) path /\ star n s i j)).
  { intros i j [Hi [Hj E]]. rewrite Gm in E by assumption.
    destruct (F i j Hi Hj) as [F1 F2]. destruct (in_dec_cell (i, j) path) as [H|H].
    - left. split; [exact H|]. split; [exact Hi|]. split; [exact Hj|]. rewrite (F1 H) in E.
      destruct (p_val _ _ _ _ _ _ K i j H) as [V|V]; [|exact V].
      change (mk s i j = 1) in V. rewrite V in E. discriminate.
    - right. split; [exact H|]. split; [exact Hi|]. split; [exact Hj|]. rewrite (F2 H) in E.
      destruct (mk s i j =? 2); [discriminate|exact E]. }
  constructor.
  - exact (i_dual _ _ _ I).
  - exact (i_pos _ _ _ I).
  - intros i j H. destruct (St i j H) as [[_ Q]|[_ Q]]; [apply (i_prime _ _ _ I), Q|apply (i_star _ _ _ I), Q].
  - intros i j [Hi [Hj E]]. exfalso. rewrite Gm in E by assumption.
    destruct (get 0 m i j =? 2) eqn:C; [discriminate|]. apply Nat.eqb_neq in C. contradiction.
  - assert (Mix : forall i j j', In (i, j) path -> prime n s i j -> ~ In (i, j') path -> star n s i j' -> False).
    { intros i j j' H [Hi [Hj V]] H' S'. destruct (p_prime _ _ _ _ _ _ K i j H V) as [E|[c [C1 C2]]].
      - inversion E; subst. exact (Hz1 _ S').
      - destruct (p_rng _ _ _ _ _ _ K i c C1) as [_ [Hc _]].
        assert (star n s i c) by (repeat split; assumption).
        rewrite (i_row _ _ _ I i c j' H0 S') in C1. contradiction. }
    intros i j j' H H'. destruct (St i j H) as [[A1 B1]|[A1 B1]]; destruct (St i j' H') as [[A2 B2]|[A2 B2]].
    + exact (p_one _ _ _ _ _ _ K i j j' A1 A2 (proj2 (proj2 B1)) (proj2 (proj2 B2))).
    + exfalso. eapply Mix; eassumption.
    + exfalso. eapply Mix; eassumption.
    + exact (i_row _ _ _ I i j j' B1 B2).
  - cbn. split; [|split].
    + intros i j [Hi [Hj E]]. rewrite Gm in E by assumption.
      destruct (get 0 m i j =? 2) eqn:C; [discriminate|]. apply Nat.eqb_neq in C. contradiction.
    + intros i Hi. unfold rcov, s'. cbn [hrc]. apply (nth_vtab _ n (fun _ => false)), Hi.
    + intros j Hj. unfold ccov, s'. cbn [hcc]. apply (nth_vtab _ n (fun _ => false)), Hj.
Qed.

(** ** steps 1 and 2 *)
Lemma reduced : forall n A, 0 < n ->
  (exists u v : nat -> R, forall i j, i < n -> j < n ->
     get 0%R (red_rows 0%R Rminus Rle_b n (red_cols 0%R Rminus Rle_b n A)) i j = (get 0%R A i j - u i - v j)%R) /\
  (forall i j, i < n -> j < n -> (0 <= get 0%R (red_rows 0%R Rminus Rle_b n (red_cols 0%R Rminus Rle_b n A)) i j)%R).
Proof.
  intros n A Hn.
  set (B := red_cols 0%R Rminus Rle_b n A).
  assert (EB : forall i j, i < n -> j < n ->
    get 0%R B i j = (get 0%R A i j - get 0%R A (minloc Rle_b n (fun i' => get 0%R A i' j)) j)%R).
  { intros. unfold B, red_cols. apply (get_tab _ _ n (fun i j => (get 0%R A i j - get 0%R A (minloc Rle_b n (fun i' => get 0%R A i' j)) j)%R)); assumption. }
  assert (EC : forall i j, i < n -> j < n ->
    get 0%R (red_rows 0%R Rminus Rle_b n B) i j = (get 0%R B i j - get 0%R B i (minloc Rle_b n (fun j' => get 0%R B i j')))%R).
  { intros. unfold red_rows. apply (get_tab _ _ n (fun i j => (get 0%R B i j - get 0%R B i (minloc Rle_b n (fun j' => get 0%R B i j')))%R)); assumption. }
  split.
  - exists (fun i => get 0%R B i (minloc Rle_b n (fun j' => get 0%R B i j'))),
           (fun j => get 0%R A (minloc Rle_b n (fun i' => get 0%R A i' j)) j).
    intros i j Hi Hj. rewrite EC, EB by assumption. lra.
  - intros i j Hi Hj. rewrite EC by assumption.
    destruct (minloc_spec n (fun j' => get 0%R B i j') Hn) as [_ M]. specialize (M j Hj). cbv beta in M. lra.
Qed.

Definition pre n (s : stR) : Prop :=
  (forall i j, star n s i j -> (cR s i j <= 0)%R /\ rcov s i = true) /\
  (forall i j, ~ prime n s i j) /\
  (forall i j j', star n s i j -> star n s i j' -> j = j').

Lemma star_col_pre : forall n s j, j < n -> pre n s -> hA (star_col 0%R Rle_b n s j) = hA s /\ pre n (star_col 0%R Rle_b n s j).
Proof.
  intros n s j Hj [P1 [P2 P3]]. unfold star_col.
  destruct (find (open s) (map (fun i => (i, j)) (seq 0 n))) as [[i x]|] eqn:F; [|split; [reflexivity|split; [exact P1|split; assumption]]].
  split; [reflexivity|].
  apply find_some in F. destruct F as [F O]. apply in_map_iff in F. destruct F as [i' [E Hi]]. inversion E; subst i' x.
  apply in_seq in Hi. apply open_true in O. destruct O as [O1 [O2 O3]].
  set (m := mset n (hmask s) i j 1).
  assert (Gm : forall i' j', i' < n -> j' < n -> get 0 m i' j' = if (i' =? i) && (j' =? j) then 1 else mk s i' j')
    by (intros; apply get_mset; assumption).
  assert (St : forall i' j', i' < n -> j' < n -> get 0 m i' j' = 1 -> (i' = i /\ j' = j) \/ star n s i' j').
  { intros i' j' Hi' Hj' V. rewrite Gm in V by assumption.
    destruct ((i' =? i) && (j' =? j)) eqn:Z; [|right; repeat split; assumption].
    apply andb_true_iff in Z. destruct Z as [Z1 Z2]. apply Nat.eqb_eq in Z1. apply Nat.eqb_eq in Z2. left. auto. }
  split; [|split].
  - intros i' j' [A [B C]]. unfold rcov. cbn [hrc]. rewrite nth_vset by exact A.
    destruct (St i' j' A B C) as [[-> ->]|D].
    + rewrite Nat.eqb_refl. split; [exact O1|reflexivity].
    + destruct (P1 i' j' D) as [X Y]. split; [exact X|]. destruct (i' =? i); [reflexivity|exact Y].
  - intros i' j' [A [B C]]. change (get 0 m i' j' = 2) in C. rewrite Gm in C by assumption.
    destruct ((i' =? i) && (j' =? j)); [discriminate|]. apply (P2 i' j'). repeat split; assumption.
  - intros i' j1 j2 [A1 [B1 C1]] [A2 [B2 C2]].
    destruct (St i' j1 A1 B1 C1) as [[X1 Y1]|D1]; destruct (St i' j2 A2 B2 C2) as [[X2 Y2]|D2].
    + congruence.
    + subst i'. destruct (P1 i j2 D2) as [_ Z]. congruence.
    + subst i'. destruct (P1 i j1 D1) as [_ Z]. congruence.
    + exact (P3 i' j1 j2 D1 D2).
Qed.

Lemma init_inv : forall n A, 0 < n -> inv n (get 0%R A) (init 0%R Rminus Rle_b n A).
Proof.
  intros n A Hn. unfold init. cbv zeta.
  set (B := red_rows 0%R Rminus Rle_b n (red_cols 0%R Rminus Rle_b n A)).
  set (z := vtab n (fun _ => false)).
  set (s0 := mkh B (tab n (fun _ _ => 0)) z z S3).
  assert (P0 : pre n s0).
  { split; [|split].
    - intros i j [Hi [Hj E]]. unfold mk, s0 in E. cbn [hmask] in E. rewrite get_tab in E by assumption. discriminate.
    - intros i j [Hi [Hj E]]. unfold mk, s0 in E. cbn [hmask] in E. rewrite get_tab in E by assumption. discriminate.
    - intros i j j' [Hi [Hj E]]. unfold mk, s0 in E. cbn [hmask] in E. rewrite get_tab in E by assumption. discriminate. }
  assert (G : forall l s, (forall j, In j l -> j < n) -> pre n s ->
     hA (fold_left (star_col 0%R Rle_b n) l s) = hA s /\ pre n (fold_left (star_col 0%R Rle_b n) l s)).
  { induction l as [|j l IH]; intros s Hl Ps; [split; [reflexivity|exact Ps]|]. cbn [fold_left].
    destruct (star_col_pre n s j (Hl j (or_introl eq_refl)) Ps) as [E1 P1].
    destruct (IH _ (fun j' H => Hl j' (or_intror H)) P1) as [E2 P2]. split; [congruence|exact P2]. }
  destruct (G (seq 0 n) s0) as [EA [P1 [P2 P3]]]; [intros j Hj; apply in_seq in Hj; lia|exact P0|].
  set (s := fold_left (star_col 0%R Rle_b n) (seq 0 n) s0) in *.
  destruct (reduced n A Hn) as [D1 D2]. fold B in D1, D2.
  assert (ECR : forall i j, cR {| hA := hA s; hmask := hmask s; hrc := z; hcc := z; hph := S3 |} i j = get 0%R B i j).
  { intros. unfold cR, cA. cbn [hA]. rewrite EA. reflexivity. }
  constructor.
  - destruct D1 as [u [v D]]. exists u, v. intros. rewrite ECR. apply D; assumption.
  - intros. rewrite ECR. apply D2; assumption.
  - intros i j H. exact (proj1 (P1 i j H)).
  - intros i j H. exfalso. exact (P2 i j H).
  - exact P3.
  - cbn. split; [exact P2|]. split; intros; apply (nth_vtab _ n (fun _ => false)); assumption.
Qed.

(** ** the loop *)
Definition final n A0 (s : stR) : Prop :=
  (exists u v : nat -> R, forall i j, i < n -> j < n ->
     (0 <= A0 i j - u i - v j)%R /\ (star n s i j -> (A0 i j - u i - v j <= 0)%R)) /\
  (forall i j j', star n s i j -> star n s i j' -> j = j') /\
  (forall j, j < n -> exists i, star n s i j).

Lemma loop_final : forall fuel n A0 maxc s, inv n A0 s ->
  match loop 0%R Rplus Rminus Rle_b fuel n maxc s with
  | Done s' => final n A0 s'
  | NoFuel => True
  | AssertFail => False
  | Overflow => False
  end.
Proof.
  induction fuel as [|f IH]; intros n A0 maxc s I; [exact Logic.I|].
  cbn [loop]. destruct (hph s) as [| |zi zj|] eqn:P.
  - destruct (step3_assert n A0 s I P) as [b [s' E]]. rewrite E. destruct b.
    + destruct (step3_done n A0 s s' I P E) as [M C].
      assert (ES : forall i j, star n s' i j <-> star n s i j) by (intros; unfold star, mk; rewrite M; tauto).
      split; [|split].
      * destruct (i_dual _ _ _ I) as [u [v D]]. exists u, v. intros i j Hi Hj. rewrite <- D by assumption.
        split; [apply (i_pos _ _ _ I); assumption|]. intro H. apply ES in H. apply (i_star _ _ _ I), H.
      * intros i j j' H H'. apply ES in H. apply ES in H'. exact (i_row _ _ _ I i j j' H H').
      * intros j Hj. destruct (C j Hj) as [i H]. exists i. apply ES, H.
    + apply IH. exact (step3_next n A0 s s' I P E).
  - apply IH. apply step4_inv; assumption.
  - destruct (step5_ok n A0 s zi zj I P) as [s' [E I']]. rewrite E. apply IH, I'.
  - destruct (Rle_lt_dec maxc 0) as [L|L].
    + pose proof (i_ph _ _ _ I) as Q. rewrite P in Q. destruct Q as [_ [_ N]].
      pose proof (stuck4 (S f) n maxc s L N (or_intror P)) as K. cbn [loop] in K. rewrite P in K. rewrite K. exact Logic.I.
    + apply IH. apply step6_inv; [lra|assumption..].
Qed.

(** ** sums over matchings *)
Fixpoint lsum (l : list R) : R := match l with [] => 0%R | x :: l' => (x + lsum l')%R end.
Lemma lsum_perm : forall l l', Permutation l l' -> lsum l = lsum l'.
Proof. induction 1; cbn; lra. Qed.
Lemma lsum_app : forall l l', lsum (l ++ l') = (lsum l + lsum l')%R.
Proof. induction l; intros; cbn; [lra|rewrite IHl; lra]. Qed.
Lemma total_app : forall A l l', total A (l ++ l') = (total A l + total A l')%R.
Proof. induction l as [|[i j] l IH]; intros; cbn; [lra|rewrite IH; lra]. Qed.
Lemma total_zero : forall A l, (forall i j, In (i, j) l -> A i j = 0%R) -> total A l = 0%R.
Proof.
  induction l as [|[i j] l IH]; intros H; cbn; [lra|]. rewrite (H i j (or_introl eq_refl)), IH; [lra|].
  intros; apply H; right; assumption.
Qed.
Lemma total_ext : forall A B l, (forall i j, In (i, j) l -> A i j = B i j) -> total A l = total B l.
Proof.
  induction l as [|[i j] l IH]; intros H; cbn; [lra|]. rewrite (H i j (or_introl eq_refl)), IH; [lra|].
  intros; apply H; right; assumption.
Qed.

Lemma total_dual : forall A u v l, total A l =
  (total (fun i j => A i j - u i - v j)%R l + lsum (map u (map fst l)) + lsum (map v (map snd l)))%R.
Proof. induction l as [|[i j] l IH]; cbn; [lra|]. rewrite IH. lra. Qed.
Lemma total_pos : forall A l, (forall i j, In (i, j) l -> (0 <= A i j)%R) -> (0 <= total A l)%R.
Proof.
  induction l as [|[i j] l IH]; intros H; cbn; [lra|]. pose proof (H i j (or_introl eq_refl)).
  assert (0 <= total A l)%R by (apply IH; intros; apply H; right; assumption). lra.
Qed.
Lemma total_neg : forall A l, (forall i j, In (i, j) l -> (A i j <= 0)%R) -> (total A l <= 0)%R.
Proof.
  induction l as [|[i j] l IH]; intros H; cbn; [lra|]. pose proof (H i j (or_introl eq_refl)).
  assert (total A l <= 0)%R by (apply IH; intros; apply H; right; assumption). lra.
Qed.

Lemma nodup_full : forall n (l : list nat), NoDup l -> (forall x, In x l -> x < n) -> length l = n -> Permutation l (seq 0 n).
Proof.
  intros n l N B L. apply NoDup_Permutation_bis; [exact N|rewrite seq_length; lia|].
  intros x H. apply in_seq. specialize (B x H). lia.
Qed.

Lemma matching_rows : forall n L, matching n n L -> Permutation (map fst L) (seq 0 n).
Proof.
  intros n L [B [N1 [N2 Len]]]. apply nodup_full; [exact N1| |rewrite map_length; lia].
  intros x H. apply in_map_iff in H. destruct H as [[i j] [<- H]]. apply (B i j H).
Qed.
Lemma matching_cols : forall n L, matching n n L -> Permutation (map snd L) (seq 0 n).
Proof.
  intros n L [B [N1 [N2 Len]]]. apply nodup_full; [exact N2| |rewrite map_length; lia].
  intros x H. apply in_map_iff in H. destruct H as [[i j] [<- H]]. apply (B i j H).
Qed.

(** the dual certificate proves minimality *)
Lemma certificate : forall n A u v L, matching n n L ->
  (forall i j, i < n -> j < n -> (0 <= A i j - u i - v j)%R) ->
  (forall i j, In (i, j) L -> (A i j - u i - v j <= 0)%R) ->
  min_assignment n n A L.
Proof.
  intros n A u v L ML Pos Ze. split; [exact ML|]. intros L' ML'.
  rewrite (total_dual A u v L), (total_dual A u v L').
  rewrite (lsum_perm _ _ (Permutation_map u (matching_rows n L ML))), (lsum_perm _ _ (Permutation_map v (matching_cols n L ML))).
  rewrite (lsum_perm _ _ (Permutation_map u (matching_rows n L' ML'))), (lsum_perm _ _ (Permutation_map v (matching_cols n L' ML'))).
  pose proof (total_neg (fun i j => A i j - u i - v j)%R L Ze).
  assert (0 <= total (fun i j => A i j - u i - v j)%R L')%R.
  { apply total_pos. intros i j H'. destruct ML' as [B _]. destruct (B i j H'). apply Pos; assumption. }
  lra.
Qed.

(** ** from the final mask to the matching *)
Definition stars n (s : stR) : list (nat * nat) := filter (fun p => mk s (fst p) (snd p) =? 1) (cells n n).

Lemma in_stars : forall n s i j, In (i, j) (stars n s) <-> star n s i j.
Proof.
  intros. unfold stars, star. rewrite filter_In, in_cells. cbn [fst snd]. rewrite Nat.eqb_eq. tauto.
Qed.

Lemma final_matching : forall n A0 s, final n A0 s -> exists f : nat -> nat,
  (forall i j, star n s i j <-> j < n /\ i = f j) /\
  matching n n (map (fun j => (f j, j)) (seq 0 n)) /\
  min_assignment n n A0 (map (fun j => (f j, j)) (seq 0 n)).
Proof.
  intros n A0 s [[u [v D]] [Row Col]].
  set (f := fun j => match find (fun i => mk s i j =? 1) (seq 0 n) with Some i => i | None => 0 end).
  assert (Sf : forall j, j < n -> star n s (f j) j).
  { intros j Hj. unfold f. destruct (find (fun i => mk s i j =? 1) (seq 0 n)) as [i|] eqn:F.
    - apply find_some in F. destruct F as [F1 F2]. apply in_seq in F1. apply Nat.eqb_eq in F2. repeat split; [lia|assumption..].
    - destruct (Col j Hj) as [i [Hi [_ E]]]. pose proof (find_none _ _ F i) as N. cbv beta in N.
      rewrite E in N. exfalso. discriminate N. apply in_seq. lia. }
  assert (Inj : forall j j', j < n -> j' < n -> f j = f j' -> j = j').
  { intros j j' Hj Hj' E. apply (Row (f j)); [apply Sf, Hj|rewrite E; apply Sf, Hj']. }
  assert (N1 : NoDup (map f (seq 0 n))).
  { assert (G : forall l, NoDup l -> (forall x, In x l -> x < n) -> NoDup (map f l)).
    { induction l as [|a l IH]; intros N B; cbn; constructor; inversion N; subst.
      - intro H. apply in_map_iff in H. destruct H as [b [E Hb]].
        assert (b = a) by (apply Inj; [apply B; right; exact Hb|apply B; left; reflexivity|exact E]). subst. contradiction.
      - apply IH; [assumption|]. intros; apply B; right; assumption. }
    apply G; [apply seq_NoDup|]. intros x H. apply in_seq in H. lia. }
  assert (B1 : forall x, In x (map f (seq 0 n)) -> x < n).
  { intros x H. apply in_map_iff in H. destruct H as [j [<- H]]. apply in_seq in H. apply (Sf j). lia. }
  pose proof (nodup_full n _ N1 B1) as Pm. rewrite map_length, seq_length in Pm. specialize (Pm eq_refl).
  assert (St : forall i j, star n s i j <-> j < n /\ i = f j).
  { intros i j. split; [|intros [Hj ->]; apply Sf, Hj]. intro H. pose proof H as [Hi [Hj _]]. split; [exact Hj|].
    assert (Q : In i (map f (seq 0 n))) by (apply (Permutation_in i (Permutation_sym Pm)), in_seq; lia).
    apply in_map_iff in Q. destruct Q as [j' [E Hj']]. apply in_seq in Hj'. subst i.
    rewrite (Row (f j') j j' H (Sf j' ltac:(lia))). reflexivity. }
  exists f. split; [exact St|].
  assert (ML : matching n n (map (fun j => (f j, j)) (seq 0 n))).
  { split; [|split; [|split]].
    - intros i j H. apply in_map_iff in H. destruct H as [j' [E H]]. inversion E; subst. apply in_seq in H.
      destruct (Sf j ltac:(lia)) as [A [B _]]. auto.
    - rewrite map_map. exact N1.
    - rewrite map_map. cbn. rewrite map_id. apply seq_NoDup.
    - rewrite map_length, seq_length. lia. }
  split; [exact ML|].
  apply (certificate n A0 u v); [exact ML| |].
  - intros i j Hi Hj. apply D; assumption.
  - intros i j H. apply in_map_iff in H. destruct H as [j' [E H]]. inversion E; subst. apply in_seq in H.
    pose proof (Sf j ltac:(lia)) as Q. destruct Q as [A [B C]]. apply D; [exact A|exact B|]. repeat split; assumption.
Qed.

(** ** reading the vectors off the mask *)
Lemma read_row : forall M l v i j,
  (forall j', In (i, j') l -> get 0 M i j' = 1 -> j' = j) ->
  (In (i, j) l /\ get 0 M i j = 1) \/ fst v i = Z.of_nat j ->
  fst (fold_left (fun v p => if get 0 M (fst p) (snd p) =? 1
                        then (upd (fst v) (fst p) (Z.of_nat (snd p)), upd (snd v) (snd p) (Z.of_nat (fst p)))
                        else v) l v) i = Z.of_nat j.
Proof.
  intros M. induction l as [|[a b] l IH]; intros v i j U H; cbn [fold_left fst snd].
  - destruct H as [[[] _]|H]. exact H.
  - apply IH; [intros j' H'; apply U; right; exact H'|].
    destruct (get 0 M a b =? 1) eqn:C.
    + cbn [fst]. unfold upd. destruct (i =? a) eqn:E.
      * apply Nat.eqb_eq in E. subst a. right. f_equal. apply U; [left; reflexivity|apply Nat.eqb_eq, C].
      * destruct H as [[[H|H] V]|H]; [inversion H; subst; rewrite Nat.eqb_refl in E; discriminate|left; auto|right; exact H].
    + destruct H as [[[H|H] V]|H]; [inversion H; subst; rewrite V in C; discriminate|left; auto|right; exact H].
Qed.

Lemma read_col : forall M l v i j,
  (forall i', In (i', j) l -> get 0 M i' j = 1 -> i' = i) ->
  (In (i, j) l /\ get 0 M i j = 1) \/ snd v j = Z.of_nat i ->
  snd (fold_left (fun v p => if get 0 M (fst p) (snd p) =? 1
                        then (upd (fst v) (fst p) (Z.of_nat (snd p)), upd (snd v) (snd p) (Z.of_nat (fst p)))
                        else v) l v) j = Z.of_nat i.
Proof.
  intros M. induction l as [|[a b] l IH]; intros v i j U H; cbn [fold_left fst snd].
  - destruct H as [[[] _]|H]. exact H.
  - apply IH; [intros j' H'; apply U; right; exact H'|].
    destruct (get 0 M a b =? 1) eqn:C.
    + cbn [snd]. unfold upd. destruct (j =? b) eqn:E.
      * apply Nat.eqb_eq in E. subst b. right. f_equal. apply U; [left; reflexivity|apply Nat.eqb_eq, C].
      * destruct H as [[[H|H] V]|H]; [inversion H; subst; rewrite Nat.eqb_refl in E; discriminate|left; auto|right; exact H].
    + destruct H as [[[H|H] V]|H]; [inversion H; subst; rewrite V in C; discriminate|left; auto|right; exact H].
Qed.

Notation optR := (opt_hungarian 0%R Rplus Rminus Rle_b).

Lemma opt_done : forall fuel n A row col, 0 < n ->
  match optR fuel n A row col with
  | Done (r, c) => exists L, matching n n L /\ min_assignment n n (get 0%R A) L /\
      forall i j, In (i, j) L -> r i = Z.of_nat j /\ c j = Z.of_nat i
  | NoFuel => True
  | _ => False
  end.
Proof.
  intros fuel n A row col Hn. unfold opt_hungarian.
  pose proof (loop_final fuel n (get 0%R A) (mat_max Rle_b n n (get 0%R A)) _ (init_inv n A Hn)) as F.
  destruct (loop _ _ _ _ fuel n _ _) as [s| | |]; try exact F.
  destruct (final_matching n _ s F) as [f [St [ML MA]]].
  unfold read_mask. destruct (fold_left _ (cells n n) (row, col)) as [r c] eqn:E.
  exists (map (fun j => (f j, j)) (seq 0 n)). split; [exact ML|]. split; [exact MA|].
  intros i j H. apply in_map_iff in H. destruct H as [j' [E' H]]. inversion E'; subst. apply in_seq in H.
  assert (Q : star n s (f j) j) by (apply St; split; [lia|reflexivity]).
  pose proof Q as [Q1 [Q2 Q3]].
  split.
  - change r with (fst (r, c)). rewrite <- E. apply read_row.
    + intros j' I V. apply in_cells in I. destruct F as [_ [Row _]]. apply (Row (f j)); [repeat split; try tauto; exact V|exact Q].
    + left. split; [apply in_cells; auto|exact Q3].
  - change c with (snd (r, c)). rewrite <- E. apply read_col.
    + intros i' I V. apply in_cells in I. assert (S' : star n s i' j) by (repeat split; try tauto; exact V).
      apply St in S'. tauto.
    + left. split; [apply in_cells; auto|exact Q3].
Qed.
