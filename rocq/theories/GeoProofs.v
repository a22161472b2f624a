From Coq Require Import ZArith List Bool Reals Lia Permutation.
From Verif Require Import GeoModel GeoSpec.
Import ListNotations.
Open Scope Z_scope.

(** Reference counts as functions. *)
Definition inc (G : nat -> Z) (g : nat) (d : Z) : nat -> Z :=
  fun i => if (i =? g)%nat then G i + d else G i.

Fixpoint shownF (l : list (opt * shape)) (i : nat) (G : nat -> Z) (m : nat) : Z :=
  match l with
  | [] => 0
  | p :: r => (if uses p m && (0 <? G i) then 1 else 0) + shownF r (S i) G m
  end.

Lemma shown_F l : forall i refs m, shown l i refs m = shownF l i (cnt refs) m.
Proof. induction l as [|p r IH]; intros; cbn; [reflexivity|]. now rewrite IH. Qed.

Lemma shownF_pos l : forall i G G' m,
  (forall j, (i <= j < i + length l)%nat -> (0 < G j <-> 0 < G' j)) -> shownF l i G m = shownF l i G' m.
Proof.
  induction l as [|p r IH]; intros i G G' m H; cbn; [reflexivity|].
  rewrite (IH (S i) G G' m).
  - assert (E : (0 <? G i) = (0 <? G' i)).
    { apply eq_true_iff_eq. rewrite !Z.ltb_lt. apply H. cbn. lia. }
    now rewrite E.
  - intros j Hj. apply H. cbn. lia.
Qed.

Lemma shownF_nonneg l : forall i G m, 0 <= shownF l i G m.
Proof. induction l as [|p r IH]; intros; cbn; [lia|]. specialize (IH (S i) G m). destruct (_ && _); lia. Qed.

Lemma shownF_ge l : forall i G m g p, nth_error l g = Some p -> uses p m = true -> 0 < G (i + g)%nat ->
  1 <= shownF l i G m.
Proof.
  induction l as [|q r IH]; intros i G m g p H U P; [destruct g; discriminate|].
  destruct g as [|g]; cbn [nth_error] in H; cbn [shownF].
  - injection H as ->. rewrite U. rewrite Nat.add_0_r in P. apply Z.ltb_lt in P. rewrite P. cbn [andb].
    pose proof (shownF_nonneg r (S i) G m). lia.
  - specialize (IH (S i) G m g p H U). replace (S i + g)%nat with (i + S g)%nat in IH by lia.
    specialize (IH P). destruct (uses q m && (0 <? G i)); lia.
Qed.

Lemma shownF_drop l : forall i G m g p, nth_error l g = Some p -> G (i + g)%nat = 1 ->
  shownF l i (inc G (i + g) (-1)) m = shownF l i G m - (if uses p m then 1 else 0).
Proof.
  induction l as [|q r IH]; intros i G m g p H P; [destruct g; discriminate|].
  destruct g as [|g]; cbn [nth_error] in H; cbn [shownF].
  - injection H as ->. rewrite Nat.add_0_r in *.
    rewrite (shownF_pos r (S i) (inc G i (-1)) G).
    2:{ intros j Hj. unfold inc. destruct (Nat.eqb_spec j i); [lia|tauto]. }
    unfold inc at 1. rewrite Nat.eqb_refl, P. change (0 <? 1 + -1) with false. change (0 <? 1) with true.
    rewrite andb_false_r, andb_true_r. destruct (uses p m); lia.
  - assert (E : (i + S g = S i + g)%nat) by lia. rewrite E in *. rewrite (IH (S i) G m g p H P).
    unfold inc at 1. destruct (Nat.eqb_spec i (S i + g)); [lia|].
    destruct (uses q m && (0 <? G i)); lia.
Qed.

Lemma shownF_app l : forall l' i G m,
  shownF (l ++ l') i G m = shownF l i G m + shownF l' (i + length l) G m.
Proof.
  induction l as [|q r IH]; intros l' i G m; cbn [app shownF length].
  - now rewrite Nat.add_0_r.
  - rewrite IH. replace (S i + length r)%nat with (i + S (length r))%nat by lia. lia.
Qed.

(** The heap agrees with counts [G] (geometry) and [M] (the caller's meshes). *)
Definition GI (gs : list geom) (mk : list (opt * shape)) (G : nat -> Z) : Prop :=
  length gs = length mk /\
  (forall i, 0 <= G i < 2 ^ 32) /\
  (forall i, (length mk <= i)%nat -> G i = 0) /\
  forall i c p, nth_error gs i = Some c -> nth_error mk i = Some p ->
    g_opt c = fst p /\ g_shape c = snd p /\ (g_live c = true <-> 0 < G i) /\
    (g_live c = true -> g_rc c = G i).
Definition MI (ms : list mesh) (Rf : nat -> Z) : Prop :=
  (forall m, 0 <= Rf m < 2 ^ 32) /\
  (forall m, (length ms <= m)%nat -> Rf m = 0) /\
  forall m c, nth_error ms m = Some c ->
    (m_live c = true <-> 0 < Rf m) /\ (m_live c = true -> m_rc c = Rf m).
Definition mrefs (mk : list (opt * shape)) (G M : nat -> Z) (m : nat) : Z := M m + shownF mk 0 G m.
Definition HI (s : st) (mk : list (opt * shape)) (G M : nat -> Z) : Prop :=
  GI (geoms s) mk G /\ MI (meshes s) (mrefs mk G M).

Lemma nth_error_upd {A} (l : list A) : forall i x j,
  nth_error (upd l i x) j = if (i =? j)%nat then match nth_error l j with Some _ => Some x | None => None end
                            else nth_error l j.
Proof.
  induction l as [|a r IH]; intros i x j.
  - destruct i, j; cbn; try reflexivity. now destruct (i =? j)%nat.
  - destruct i, j; cbn; try reflexivity. apply IH.
Qed.
Lemma length_upd {A} (l : list A) : forall i x, length (upd l i x) = length l.
Proof. induction l as [|a r IH]; intros [|i] x; cbn; [reflexivity|reflexivity| |]; rewrite ?IH; reflexivity. Qed.
Lemma repl_upd {A} (l : list A) : forall i x, repl l i x = upd l i x.
Proof. induction l as [|a r IH]; intros [|i] x; cbn; [reflexivity|reflexivity| |]; rewrite ?IH; reflexivity. Qed.

Lemma GI_ext gs mk G G' : (forall i, G i = G' i) -> GI gs mk G -> GI gs mk G'.
Proof.
  intros E (H1 & H2 & H3 & H4). split; [exact H1|]. split; [intros i; rewrite <- E; apply H2|].
  split; [intros i Hi; rewrite <- E; now apply H3|]. intros i c p Hc Hp. rewrite <- E. now apply H4.
Qed.
Lemma MI_ext ms R1 R2 : (forall i, R1 i = R2 i) -> MI ms R1 -> MI ms R2.
Proof.
  intros E (H1 & H2 & H4). split; [intros i; rewrite <- E; apply H1|].
  split; [intros i Hi; rewrite <- E; now apply H2|]. intros i c Hc. rewrite <- E. now apply H4.
Qed.
Lemma mrefs_ext mk G G' M M' : (forall i, G i = G' i) -> (forall i, M i = M' i) ->
  forall m, mrefs mk G M m = mrefs mk G' M' m.
Proof.
  intros E F m. unfold mrefs. rewrite F. f_equal. apply shownF_pos. intros j _. rewrite E. tauto.
Qed.
Lemma HI_ext s mk G G' M M' : (forall i, G i = G' i) -> (forall i, M i = M' i) ->
  HI s mk G M -> HI s mk G' M'.
Proof.
  intros E F [H1 H2]. split; [now apply GI_ext with G|].
  apply MI_ext with (2 := H2). now apply mrefs_ext.
Qed.

Definition same_rest (s s' : st) : Prop := opts s' = opts s /\ graphs s' = graphs s.
Lemma same_rest_refl s : same_rest s s. Proof. now split. Qed.
Lemma same_rest_trans a b c : same_rest a b -> same_rest b c -> same_rest a c.
Proof. intros [H1 H2] [H3 H4]. split; congruence. Qed.

Lemma geom_at_ok s mk G M g : HI s mk G M -> 0 < G g ->
  exists c p, geom_at s g = Ok c /\ nth_error (geoms s) g = Some c /\ nth_error mk g = Some p /\
    g_opt c = fst p /\ g_shape c = snd p /\ g_live c = true /\ g_rc c = G g.
Proof.
  intros [(H1 & H2 & H3 & H4) _] Hg.
  assert (L : (g < length mk)%nat).
  { destruct (Nat.le_gt_cases (length mk) g) as [Q|Q]; [|exact Q]. rewrite (H3 g Q) in Hg. lia. }
  destruct (nth_error (geoms s) g) as [c|] eqn:Ec.
  2:{ apply nth_error_None in Ec. lia. }
  destruct (nth_error mk g) as [p|] eqn:Ep.
  2:{ apply nth_error_None in Ep. lia. }
  destruct (H4 g c p Ec Ep) as (A & B & C & D). exists c, p.
  assert (V : g_live c = true) by (apply C; exact Hg).
  unfold geom_at. rewrite Ec, V. repeat split; auto.
Qed.

Lemma mesh_at_ok ms Rf s m : MI ms Rf -> ms = meshes s -> 0 < Rf m ->
  exists c, mesh_at s m = Ok c /\ nth_error ms m = Some c /\ m_live c = true /\ m_rc c = Rf m.
Proof.
  intros (H1 & H2 & H3) -> Hm.
  destruct (nth_error (meshes s) m) as [c|] eqn:Ec.
  2:{ apply nth_error_None in Ec. rewrite (H2 m Ec) in Hm. lia. }
  destruct (H3 m c Ec) as (A & B). assert (V : m_live c = true) by (apply A; exact Hm).
  exists c. unfold mesh_at. rewrite Ec, V. repeat split; auto.
Qed.

Lemma GI_upd gs mk G g c' G' :
  GI gs mk G -> (forall i, i <> g -> G' i = G i) -> 0 <= G' g < 2 ^ 32 -> (g < length mk)%nat ->
  (forall p, nth_error mk g = Some p -> g_opt c' = fst p /\ g_shape c' = snd p) ->
  (g_live c' = true <-> 0 < G' g) -> (g_live c' = true -> g_rc c' = G' g) ->
  GI (upd gs g c') mk G'.
Proof.
  intros (H1 & H2 & H3 & H4) E B L P V W. split; [now rewrite length_upd|]. split.
  { intros i. destruct (Nat.eq_dec i g) as [->|N]; [exact B|rewrite E by exact N; apply H2]. }
  split.
  { intros i Hi. rewrite E by lia. now apply H3. }
  intros i c p Hc Hp. rewrite nth_error_upd in Hc. destruct (Nat.eqb_spec g i) as [<-|N].
  - destruct (nth_error gs g); [|discriminate]. injection Hc as <-. destruct (P p Hp). tauto.
  - rewrite E by congruence. now apply H4.
Qed.

Lemma MI_upd ms Rf m c' R' :
  MI ms Rf -> (forall i, i <> m -> R' i = Rf i) -> 0 <= R' m < 2 ^ 32 -> (m < length ms)%nat ->
  (m_live c' = true <-> 0 < R' m) -> (m_live c' = true -> m_rc c' = R' m) ->
  MI (upd ms m c') R'.
Proof.
  intros (H1 & H2 & H3) E B L V W. split.
  { intros i. destruct (Nat.eq_dec i m) as [->|N]; [exact B|rewrite E by exact N; apply H1]. }
  split.
  { intros i Hi. rewrite length_upd in Hi. rewrite E by lia. now apply H2. }
  intros i c Hc. rewrite nth_error_upd in Hc. destruct (Nat.eqb_spec m i) as [<-|N].
  - destruct (nth_error ms m); [|discriminate]. injection Hc as <-. tauto.
  - rewrite E by congruence. now apply H3.
Qed.

Lemma wrap_small z : 0 <= z < 2 ^ 32 -> wrap32 z = z.
Proof. intros H. unfold wrap32. now apply Z.mod_small. Qed.

Lemma lt_nth {A} (l : list A) i x : nth_error l i = Some x -> (i < length l)%nat.
Proof. intros H. apply nth_error_Some. congruence. Qed.

(** aa_rx_mesh_destroy on a mesh with references *)
Lemma mesh_destroy_MI s Rf m : MI (meshes s) Rf -> 0 < Rf m ->
  exists s', mesh_destroy s m = Ok s' /\ MI (meshes s') (inc Rf m (-1)) /\ geoms s' = geoms s /\ same_rest s s'.
Proof.
  intros H Hm. destruct (mesh_at_ok _ _ s m H eq_refl Hm) as (c & E1 & E2 & E3 & E4).
  unfold mesh_destroy. rewrite E1. cbn [bind]. eexists. split; [reflexivity|]. split; [|split; [reflexivity|now split]].
  cbn. destruct H as [HB HH] eqn:EH. pose proof (HB m) as Bm. clear EH.
  eapply MI_upd with (Rf := Rf); [exact H| | | | |].
  - intros i N. unfold inc. destruct (Nat.eqb_spec i m); [congruence|reflexivity].
  - unfold inc. rewrite Nat.eqb_refl. lia.
  - now apply lt_nth with c.
  - unfold inc. rewrite Nat.eqb_refl. cbn. rewrite negb_true_iff, Z.eqb_neq, E4. lia.
  - intros _. unfold inc. rewrite Nat.eqb_refl. cbn. rewrite E4. apply wrap_small. lia.
Qed.

Lemma mesh_inc_MI s Rf m : MI (meshes s) Rf -> 0 < Rf m -> Rf m + 1 < 2 ^ 32 ->
  exists s', mesh_inc s m = Ok s' /\ MI (meshes s') (inc Rf m 1) /\ geoms s' = geoms s /\ same_rest s s'.
Proof.
  intros H Hm Hb. destruct (mesh_at_ok _ _ s m H eq_refl Hm) as (c & E1 & E2 & E3 & E4).
  unfold mesh_inc. rewrite E1. cbn [bind]. eexists. split; [reflexivity|]. split; [|split; [reflexivity|now split]].
  cbn. eapply MI_upd with (Rf := Rf); [exact H| | | | |].
  - intros i N. unfold inc. destruct (Nat.eqb_spec i m); [congruence|reflexivity].
  - unfold inc. rewrite Nat.eqb_refl. lia.
  - now apply lt_nth with c.
  - unfold inc. rewrite Nat.eqb_refl. cbn. lia.
  - intros _. unfold inc. rewrite Nat.eqb_refl. cbn. rewrite E4. apply wrap_small. lia.
Qed.

Lemma geom_copy_HI s mk G M g : HI s mk G M -> 0 < G g -> G g + 1 < 2 ^ 32 ->
  exists s', geom_copy s g = Ok s' /\ HI s' mk (inc G g 1) M /\ same_rest s s'.
Proof.
  intros H Hg Hb. destruct (geom_at_ok _ _ _ _ _ H Hg) as (c & p & E1 & E2 & E3 & E4 & E5 & E6 & E7).
  unfold geom_copy. rewrite E1. cbn [bind]. destruct (Z.eqb_spec (g_rc c) 0); [lia|].
  eexists. split; [reflexivity|]. split; [|now split]. destruct H as [HG HM]. split; cbn.
  - eapply GI_upd with (G := G); [exact HG| | | | | |].
    + intros i N. unfold inc. destruct (Nat.eqb_spec i g); [congruence|reflexivity].
    + unfold inc. rewrite Nat.eqb_refl. lia.
    + now apply lt_nth with p.
    + intros p' Hp. cbn. rewrite E3 in Hp. injection Hp as <-. now split.
    + unfold inc. rewrite Nat.eqb_refl. cbn. lia.
    + intros _. unfold inc. rewrite Nat.eqb_refl. cbn. rewrite E7. apply wrap_small. lia.
  - apply MI_ext with (2 := HM). intros m. unfold mrefs. f_equal. apply shownF_pos. intros j _.
    unfold inc. destruct (Nat.eqb_spec j g) as [->|N]; [lia|tauto].
Qed.

Lemma geom_destroy_HI s mk G M g : HI s mk G M -> (forall m, 0 <= M m) -> 0 < G g ->
  exists s', geom_destroy s g = Ok s' /\ HI s' mk (inc G g (-1)) M /\ same_rest s s'.
Proof.
  intros H HMn Hg. destruct (geom_at_ok _ _ _ _ _ H Hg) as (c & p & E1 & E2 & E3 & E4 & E5 & E6 & E7).
  unfold geom_destroy. rewrite E1. cbn [bind]. destruct (Z.eqb_spec (g_rc c) 0); [lia|].
  destruct H as [HG HM]. pose proof HG as (HL & HB & _ & _). pose proof (HB g) as Bg.
  destruct (Z.eqb_spec (g_rc c) 1) as [N1|N1].
  - assert (G1 : G g = 1) by lia.
    assert (PG : forall gs, length gs = length mk -> GI gs mk G ->
        GI (upd gs g (mkGeom (g_opt c) (g_shape c) 0 false false false)) mk (inc G g (-1))).
    { intros gs _ Hgs. eapply GI_upd with (G := G); [exact Hgs| | | | | |].
      - intros i N. unfold inc. destruct (Nat.eqb_spec i g); [congruence|reflexivity].
      - unfold inc. rewrite Nat.eqb_refl. lia.
      - now apply lt_nth with p.
      - intros p' Hp. cbn. rewrite E3 in Hp. injection Hp as <-. now split.
      - unfold inc. rewrite Nat.eqb_refl. cbn. split; [discriminate|lia].
      - discriminate. }
    assert (PM : forall m, mrefs mk (inc G g (-1)) M m = mrefs mk G M m - (if uses p m then 1 else 0)).
    { intros m. unfold mrefs. pose proof (shownF_drop mk 0 G m g p E3) as Q. cbn in Q. rewrite Q by exact G1. lia. }
    destruct (g_shape c) as [x y z|r|h r|h r0 r1|d0 d1 e0 e1 w|a0 r0 r1|m] eqn:Es.
    1-6: cbn [bind]; eexists; (split; [reflexivity|]); (split; [|now split]); split; cbn;
      [ now apply PG
      | apply MI_ext with (2 := HM); intros m; rewrite PM; unfold uses; rewrite <- E5; lia ].
    assert (U : forall k, uses p k = (m =? k)%nat) by (intros k; unfold uses; now rewrite <- E5).
    assert (Hm : 0 < mrefs mk G M m).
    { unfold mrefs. pose proof (shownF_ge mk 0 G m g p E3) as Q. cbn in Q.
      rewrite U, Nat.eqb_refl in Q. specialize (Q eq_refl Hg). specialize (HMn m). lia. }
    destruct (mesh_destroy_MI s _ m HM Hm) as (s1 & F1 & F2 & F3 & F4). rewrite F1. cbn [bind].
    eexists. split; [reflexivity|]. split; [|exact F4]. split; cbn.
    + rewrite F3. now apply PG.
    + apply MI_ext with (2 := F2). intros k. rewrite PM, U. unfold inc.
      destruct (Nat.eqb_spec k m), (Nat.eqb_spec m k); lia.
  - eexists. split; [reflexivity|]. split; [|now split]. split; cbn.
    + eapply GI_upd with (G := G); [exact HG| | | | | |].
      * intros i N. unfold inc. destruct (Nat.eqb_spec i g); [congruence|reflexivity].
      * unfold inc. rewrite Nat.eqb_refl. lia.
      * now apply lt_nth with p.
      * intros p' Hp. cbn. rewrite E3 in Hp. injection Hp as <-. now split.
      * unfold inc. rewrite Nat.eqb_refl. cbn. lia.
      * intros _. unfold inc. rewrite Nat.eqb_refl. cbn. lia.
    + apply MI_ext with (2 := HM). intros m. unfold mrefs. f_equal. apply shownF_pos. intros j _.
      unfold inc. destruct (Nat.eqb_spec j g) as [->|N]; [lia|tauto].
Qed.

Lemma geom_new_HI s mk G M x sh : HI s mk G M ->
  (forall m, sh = Mesh m -> 0 < mrefs mk G M m /\ mrefs mk G M m + 1 < 2 ^ 32) ->
  exists s', geom_new s x sh = Ok (s', length (geoms s)) /\
    HI s' (mk ++ [(x, sh)]) (inc G (length mk) 1) M /\ same_rest s s'.
Proof.
  intros [HG HM] Hs. pose proof HG as (HL & HB & HZ & HC).
  assert (Z0 : G (length mk) = 0) by (apply HZ; lia).
  assert (PG : GI (geoms s ++ [mkGeom x sh 1 false false true]) (mk ++ [(x, sh)]) (inc G (length mk) 1)).
  { split; [rewrite !app_length; cbn; lia|]. split.
    { intros i. unfold inc. destruct (Nat.eqb_spec i (length mk)) as [->|N]; [lia|apply HB]. }
    split.
    { intros i Hi. rewrite app_length in Hi. cbn in Hi. unfold inc.
      destruct (Nat.eqb_spec i (length mk)); [lia|]. apply HZ. lia. }
    intros i c p Hc Hp. unfold inc. destruct (Nat.eqb_spec i (length mk)) as [->|N].
    - rewrite nth_error_app2 in Hc by lia. rewrite nth_error_app2 in Hp by lia.
      rewrite HL, Nat.sub_diag in Hc. rewrite Nat.sub_diag in Hp. cbn in Hc, Hp. injection Hc as <-. injection Hp as <-.
      cbn. rewrite Z0. repeat split; lia.
    - assert (i < length mk)%nat.
      { apply lt_nth in Hp. rewrite app_length in Hp. cbn in Hp. lia. }
      rewrite nth_error_app1 in Hc by lia. rewrite nth_error_app1 in Hp by lia. now apply HC. }
  assert (PM : forall m, mrefs (mk ++ [(x, sh)]) (inc G (length mk) 1) M m
                 = mrefs mk G M m + (if uses (x, sh) m then 1 else 0)).
  { intros m. unfold mrefs. rewrite shownF_app. cbn [shownF]. rewrite Nat.add_0_l.
    rewrite (shownF_pos mk 0 (inc G (length mk) 1) G).
    2:{ intros j Hj. unfold inc. destruct (Nat.eqb_spec j (length mk)); [lia|tauto]. }
    unfold inc. rewrite Nat.eqb_refl, Z0. change (0 <? 0 + 1) with true. rewrite andb_true_r. destruct (uses _ m); lia. }
  destruct sh as [a b c|r|h r|h r0 r1|d0 d1 e0 e1 w|a0 r0 r1|m]; cbn [geom_new].
  1-6: eexists; (split; [reflexivity|]); (split; [|now split]); split; cbn;
     [exact PG | apply MI_ext with (2 := HM); intros k; rewrite PM; unfold uses; cbn; lia].
  destruct (Hs m eq_refl) as [Hm1 Hm2].
  destruct (mesh_inc_MI s _ m HM Hm1 Hm2) as (s1 & F1 & F2 & F3 & F4). rewrite F1. cbn [bind].
  eexists. split; [reflexivity|]. split; [|exact F4]. split; cbn.
  - rewrite F3. exact PG.
  - apply MI_ext with (2 := F2). intros k. rewrite PM. unfold uses, inc. cbn.
    destruct (Nat.eqb_spec k m), (Nat.eqb_spec m k); lia.
Qed.

Lemma mesh_new_HI s mk G M : HI s mk G M ->
  HI (set_meshes s (meshes s ++ [mkMesh 1 true])) mk G (inc M (length (meshes s)) 1).
Proof.
  intros [HG (H1 & H2 & H3)]. split; [exact HG|]. cbn.
  set (n := length (meshes s)). assert (Z0 : mrefs mk G M n = 0) by (apply H2; unfold n; lia).
  assert (E : forall m, mrefs mk G (inc M n 1) m = inc (mrefs mk G M) n 1 m).
  { intros m. unfold mrefs, inc. destruct (Nat.eqb m n); lia. }
  apply MI_ext with (inc (mrefs mk G M) n 1); [intros; now rewrite E|]. split.
  { intros m. unfold inc. destruct (Nat.eqb_spec m n) as [->|N]; [lia|apply H1]. }
  split.
  { intros m Hm. rewrite app_length in Hm. cbn in Hm. fold n in Hm. unfold inc.
    destruct (Nat.eqb_spec m n); [lia|]. apply H2. fold n. lia. }
  intros m c Hc. unfold inc. destruct (Nat.eqb_spec m n) as [->|N].
  - unfold n in Hc at 1. rewrite nth_error_app2 in Hc by lia. rewrite Nat.sub_diag in Hc. cbn in Hc. injection Hc as <-.
    cbn. rewrite Z0. split; [split; [lia|reflexivity]|reflexivity].
  - assert (m < n)%nat. { apply lt_nth in Hc. rewrite app_length in Hc. cbn in Hc. fold n in Hc. lia. }
    rewrite nth_error_app1 in Hc by (unfold n in *; lia). now apply H3.
Qed.

Lemma mesh_destroy_HI s mk G M m : HI s mk G M -> 0 < M m ->
  exists s', mesh_destroy s m = Ok s' /\ HI s' mk G (inc M m (-1)) /\ same_rest s s'.
Proof.
  intros [HG HM] Hm. assert (P : 0 < mrefs mk G M m).
  { unfold mrefs. pose proof (shownF_nonneg mk 0 G m). lia. }
  destruct (mesh_destroy_MI s _ m HM P) as (s1 & F1 & F2 & F3 & F4).
  exists s1. split; [exact F1|]. split; [|exact F4]. split.
  - now rewrite F3.
  - apply MI_ext with (2 := F2). intros k. unfold mrefs, inc. destruct (Nat.eqb k m); lia.
Qed.

(** Lists of references. *)
Definition incs (G : nat -> Z) (l : list nat) (d : Z) : nat -> Z := fun i => G i + d * cnt l i.

Lemma cnt_nil x : cnt [] x = 0. Proof. reflexivity. Qed.
Lemma cnt_cons y l x : cnt (y :: l) x = (if (y =? x)%nat then 1 else 0) + cnt l x.
Proof.
  unfold cnt. cbn [count_occ]. destruct (Nat.eq_dec y x) as [->|N].
  - rewrite Nat.eqb_refl. lia.
  - apply Nat.eqb_neq in N. rewrite N. reflexivity.
Qed.
Lemma cnt_app a b x : cnt (a ++ b) x = cnt a x + cnt b x.
Proof. unfold cnt. rewrite count_occ_app. lia. Qed.
Lemma cnt_nonneg l x : 0 <= cnt l x. Proof. unfold cnt. lia. Qed.
Lemma cnt_perm a b x : Permutation a b -> cnt a x = cnt b x.
Proof. intros H. unfold cnt. f_equal. now apply Permutation_count_occ. Qed.
Lemma cnt_drop x l y : 0 < cnt l x -> cnt (drop x l) y = cnt l y - (if (x =? y)%nat then 1 else 0).
Proof.
  induction l as [|z r IH]; intros H; [rewrite cnt_nil in H; lia|].
  cbn [drop]. rewrite cnt_cons in H |- *. destruct (Nat.eqb_spec z x) as [->|N].
  - lia.
  - rewrite cnt_cons, IH by lia. lia.
Qed.

Lemma destroy_all_HI l : forall s mk G M, HI s mk G M -> (forall m, 0 <= M m) ->
  (forall g, cnt l g <= G g) ->
  exists s', destroy_all s l = Ok s' /\ HI s' mk (incs G l (-1)) M /\ same_rest s s'.
Proof.
  induction l as [|g r IH]; intros s mk G M H HMn Hl; cbn [destroy_all].
  - exists s. split; [reflexivity|]. split; [|apply same_rest_refl].
    apply HI_ext with (3 := H); [|reflexivity]. intros i. unfold incs. rewrite cnt_nil. lia.
  - assert (Hg : 0 < G g).
    { specialize (Hl g). rewrite cnt_cons, Nat.eqb_refl in Hl. pose proof (cnt_nonneg r g). lia. }
    destruct (geom_destroy_HI _ _ _ _ _ H HMn Hg) as (s1 & F1 & F2 & F3). rewrite F1. cbn [bind].
    destruct (IH s1 mk _ M F2 HMn) as (s2 & F4 & F5 & F6).
    { intros i. specialize (Hl i). rewrite cnt_cons in Hl. unfold inc.
      destruct (Nat.eqb_spec i g), (Nat.eqb_spec g i); try congruence; lia. }
    exists s2. split; [exact F4|]. split; [|now apply same_rest_trans with s1].
    apply HI_ext with (3 := F5); [|reflexivity]. intros i. unfold incs, inc. rewrite cnt_cons.
    destruct (Nat.eqb_spec i g), (Nat.eqb_spec g i); try congruence; lia.
Qed.

Lemma copy_all_HI l : forall s mk G M, HI s mk G M ->
  (forall g, 0 < cnt l g -> 0 < G g) -> (forall g, G g + cnt l g < 2 ^ 32) ->
  exists s', copy_all s l = Ok s' /\ HI s' mk (incs G l 1) M /\ same_rest s s'.
Proof.
  induction l as [|g r IH]; intros s mk G M H Hl Hb; cbn [copy_all].
  - exists s. split; [reflexivity|]. split; [|apply same_rest_refl].
    apply HI_ext with (3 := H); [|reflexivity]. intros i. unfold incs. rewrite cnt_nil. lia.
  - assert (Hg : 0 < G g).
    { apply Hl. rewrite cnt_cons, Nat.eqb_refl. pose proof (cnt_nonneg r g). lia. }
    assert (Hg2 : G g + 1 < 2 ^ 32).
    { specialize (Hb g). rewrite cnt_cons, Nat.eqb_refl in Hb. pose proof (cnt_nonneg r g). lia. }
    destruct (geom_copy_HI _ _ _ _ _ H Hg Hg2) as (s1 & F1 & F2 & F3). rewrite F1. cbn [bind].
    destruct (IH s1 mk _ M F2) as (s2 & F4 & F5 & F6).
    { intros i Hi. specialize (Hl i). rewrite cnt_cons in Hl. unfold inc.
      destruct (Nat.eqb_spec i g) as [->|N]; [lia|]. apply Hl. destruct (g =? i)%nat; lia. }
    { intros i. specialize (Hb i). rewrite cnt_cons in Hb. unfold inc.
      destruct (Nat.eqb_spec i g), (Nat.eqb_spec g i); try congruence; lia. }
    exists s2. split; [exact F4|]. split; [|now apply same_rest_trans with s1].
    apply HI_ext with (3 := F5); [|reflexivity]. intros i. unfold incs, inc. rewrite cnt_cons.
    destruct (Nat.eqb_spec i g), (Nat.eqb_spec g i); try congruence; lia.
Qed.

(** Initialisation passes only set flags. *)
Lemma cl_one_HI s mk G M g : HI s mk G M -> (forall m, 0 <= M m) -> 0 < G g ->
  exists s', cl_one s g = Ok s' /\ HI s' mk G M /\ same_rest s s'.
Proof.
  intros H HMn Hg. destruct (geom_at_ok _ _ _ _ _ H Hg) as (c & p & E1 & E2 & E3 & E4 & E5 & E6 & E7).
  unfold cl_one. rewrite E1. cbn [bind].
  assert (T : exists s', Ok s = Ok s' /\ HI s' mk G M /\ same_rest s s') by (exists s; split; [reflexivity|split; [exact H|apply same_rest_refl]]).
  destruct (negb _); [exact T|]. destruct (g_cl c); [exact T|]. destruct (cl_shape _) eqn:Ecs; [|exact T]. clear T.
  assert (HS : HI (set_geoms s (upd (geoms s) g (mkGeom (g_opt c) (g_shape c) (g_rc c) true (g_gl c) true))) mk G M).
  { destruct H as [HG HM]. split; [|exact HM]. cbn. pose proof HG as (_ & HB & _).
    eapply GI_upd with (G := G); [exact HG|reflexivity|apply HB|now apply lt_nth with p| | |].
    - intros p' Hp. cbn. rewrite E3 in Hp. injection Hp as <-. now split.
    - cbn. tauto.
    - intros _. exact E7. }
  destruct (g_shape c) as [x y z|r|h r|h r0 r1|d0 d1 e0 e1 w|a0 r0 r1|m] eqn:Es; try discriminate Ecs.
  1-3: cbn [bind]; eexists; (split; [reflexivity|]); (split; [exact HS|now split]).
  assert (Hm : 0 < mrefs mk G M m).
  { unfold mrefs. pose proof (shownF_ge mk 0 G m g p E3) as Q. cbn in Q. unfold uses in Q. rewrite <- E5, Nat.eqb_refl in Q.
    specialize (Q eq_refl Hg). specialize (HMn m). lia. }
  destruct (mesh_at_ok _ _ s m (proj2 H) eq_refl Hm) as (cm & F1 & _). rewrite F1. cbn [bind].
  eexists. split; [reflexivity|]. split; [exact HS|now split].
Qed.
Lemma gl_one_HI s mk G M g : HI s mk G M -> (forall m, 0 <= M m) -> 0 < G g ->
  exists s', gl_one s g = Ok s' /\ HI s' mk G M /\ same_rest s s'.
Proof.
  intros H HMn Hg. destruct (geom_at_ok _ _ _ _ _ H Hg) as (c & p & E1 & E2 & E3 & E4 & E5 & E6 & E7).
  unfold gl_one. rewrite E1. cbn [bind].
  assert (T : exists s', Ok s = Ok s' /\ HI s' mk G M /\ same_rest s s') by (exists s; split; [reflexivity|split; [exact H|apply same_rest_refl]]).
  destruct (g_gl c); [exact T|]. clear T.
  assert (HS : HI (set_geoms s (upd (geoms s) g (mkGeom (g_opt c) (g_shape c) (g_rc c) (g_cl c) true true))) mk G M).
  { destruct H as [HG HM]. split; [|exact HM]. cbn. pose proof HG as (_ & HB & _).
    eapply GI_upd with (G := G); [exact HG|reflexivity|apply HB|now apply lt_nth with p| | |].
    - intros p' Hp. cbn. rewrite E3 in Hp. injection Hp as <-. now split.
    - cbn. tauto.
    - intros _. exact E7. }
  destruct (g_shape c) as [x y z|r|h r|h r0 r1|d0 d1 e0 e1 w|a0 r0 r1|m] eqn:Es.
  1-6: cbn [bind]; eexists; (split; [reflexivity|]); (split; [exact HS|now split]).
  assert (Hm : 0 < mrefs mk G M m).
  { unfold mrefs. pose proof (shownF_ge mk 0 G m g p E3) as Q. cbn in Q. unfold uses in Q. rewrite <- E5, Nat.eqb_refl in Q.
    specialize (Q eq_refl Hg). specialize (HMn m). lia. }
  destruct (mesh_at_ok _ _ s m (proj2 H) eq_refl Hm) as (cm & F1 & _). rewrite F1. cbn [bind].
  eexists. split; [reflexivity|]. split; [exact HS|now split].
Qed.
Lemma each_HI f : (forall s mk G M g, HI s mk G M -> (forall m, 0 <= M m) -> 0 < G g ->
    exists s', f s g = Ok s' /\ HI s' mk G M /\ same_rest s s') ->
  forall l s mk G M, HI s mk G M -> (forall m, 0 <= M m) -> (forall g, 0 < cnt l g -> 0 < G g) ->
  exists s', each f s l = Ok s' /\ HI s' mk G M /\ same_rest s s'.
Proof.
  intros Hf l. induction l as [|g r IH]; intros s mk G M H HMn Hl; cbn [each].
  - exists s. split; [reflexivity|]. split; [exact H|apply same_rest_refl].
  - assert (Hg : 0 < G g).
    { apply Hl. rewrite cnt_cons, Nat.eqb_refl. pose proof (cnt_nonneg r g). lia. }
    destruct (Hf _ _ _ _ _ H HMn Hg) as (s1 & F1 & F2 & F3). rewrite F1. cbn [bind].
    destruct (IH s1 mk G M F2 HMn) as (s2 & F4 & F5 & F6).
    { intros i Hi. apply Hl. rewrite cnt_cons. destruct (g =? i)%nat; lia. }
    exists s2. split; [exact F4|]. split; [exact F5|now apply same_rest_trans with s1].
Qed.
