From Coq Require Import ZArith List Bool Reals Lia Lra.
From Verif Require Import GeoModel GeoSpec GeoProofs GeoRun.
Import ListNotations.
Open Scope Z_scope.
#[local] Arguments cnt : simpl never.
#[local] Arguments refs_g : simpl never.
#[local] Arguments refs_m : simpl never.
#[local] Arguments held : simpl never.

Lemma run_app h1 : forall s h2, run s (h1 ++ h2) = bind (run s h1) (fun s' => run s' h2).
Proof.
  induction h1 as [|c r IH]; intros s h2; cbn; [reflexivity|].
  destruct (step s c) as [| |s1]; cbn; auto.
Qed.

Lemma sim_start : Sim start a_start.
Proof.
  split; [|cbn; auto]. split.
  - split; [reflexivity|]. split; [intros i; change (cnt (refs_g a_start) i) with 0; lia|]. split; [reflexivity|].
    intros i c p H. destruct i; discriminate.
  - split; [intros m; change (mrefs (made a_start) (cnt (refs_g a_start)) (cnt (own_m a_start)) m) with 0; lia|].
    split; [reflexivity|]. intros i c H. destruct i; discriminate.
Qed.

Lemma run_sim h a : meaning h a -> exists s, run start h = Ok s /\ Sim s a.
Proof.
  induction 1 as [|h a c a' _ (s & E & HS) He Hs].
  - exists start. split; [reflexivity|exact sim_start].
  - destruct (step_sim s a c a' HS He Hs) as (s' & E' & HS'). exists s'. split; [|exact HS'].
    rewrite run_app, E. cbn. now rewrite E'.
Qed.

Lemma sim_agrees s a : Sim s a -> agrees s a.
Proof.
  intros (((H1 & H2 & H3 & H4) & M1 & M2 & M3) & L & O & A & U).
  split; [exact O|]. split; [exact H1|]. split; [exact L|]. split.
  { intros g c p Hc Hp. destruct (H4 g c p Hc Hp) as (Q1 & Q2 & Q3 & Q4). split; [exact Q3|]. auto. }
  split.
  { intros m c Hc. rewrite refs_m_eq. now apply M3. }
  rewrite <- A, map_map. apply map_ext. intros [g|]; reflexivity.
Qed.

Theorem lifetimes h a : meaning h a -> exists s, run start h = Ok s /\ agrees s a.
Proof.
  intros H. destruct (run_sim h a H) as (s & E & HS). exists s. split; [exact E|now apply sim_agrees].
Qed.

Theorem nothing_left h a s : meaning h a -> all_released a -> run start h = Ok s ->
  (forall g c, nth_error (geoms s) g = Some c -> g_live c = false) /\
  (forall m c, nth_error (meshes s) m = Some c -> m_live c = false).
Proof.
  intros Hm (E1 & E2 & E3) Hr. destruct (lifetimes h a Hm) as (s' & E & _ & L1 & _ & G1 & M1 & _).
  assert (s' = s) by congruence. subst s'.
  assert (RZ : forall g, cnt (refs_g a) g = 0).
  { intros g. rewrite refs_g_eq, E1. replace (gtotal (a_graphs a)) with (@nil nat); [reflexivity|].
    unfold gtotal. induction (a_graphs a) as [|k r IH]; [reflexivity|]. cbn. rewrite (E3 k) by now left.
    cbn. apply IH. intros x Hx. apply E3. now right. }
  split.
  - intros g c Hc. destruct (nth_error (made a) g) as [p|] eqn:Ep.
    2:{ apply nth_error_None in Ep. apply lt_nth in Hc. lia. }
    destruct (G1 g c p Hc Ep) as [Q _]. rewrite RZ in Q. destruct (g_live c); [|reflexivity].
    destruct Q as [Q _]. specialize (Q eq_refl). lia.
  - intros m c Hc. destruct (M1 m c Hc) as [Q _].
    assert (Z : refs_m a m = 0).
    { rewrite refs_m_eq. unfold mrefs. rewrite E2, cnt_nil.
      rewrite (shownF_pos _ _ _ (fun _ => 0)).
      2:{ intros j _. rewrite RZ. tauto. }
      generalize (made a) 0%nat. intros l. induction l as [|p r IH]; intros i; cbn; [reflexivity|].
      rewrite andb_false_r. specialize (IH (S i)). lia. }
    rewrite Z in Q. destruct (m_live c); [|reflexivity]. destruct Q as [Q _]. specialize (Q eq_refl). lia.
Qed.

(** * The collision and GL passes *)
Definition mono (s s' : st) : Prop :=
  (length (geoms s) <= length (geoms s'))%nat /\
  forall i c c', nth_error (geoms s) i = Some c -> nth_error (geoms s') i = Some c' -> g_live c' = true ->
    g_live c = true /\ g_opt c' = g_opt c /\ g_shape c' = g_shape c /\
    (g_cl c = true -> g_cl c' = true) /\ (g_gl c = true -> g_gl c' = true).
Lemma mono_refl s : mono s s.
Proof. split; [lia|]. intros i c c' H1 H2 L. replace c' with c in * by congruence. auto. Qed.
Lemma mono_trans a b c : mono a b -> mono b c -> mono a c.
Proof.
  intros [L1 H1] [L2 H2]. split; [lia|]. intros i x z Hx Hz Lz.
  destruct (nth_error (geoms b) i) as [y|] eqn:Ey.
  - destruct (H2 i y z Ey Hz Lz) as (P1 & P2 & P3 & P4 & P5).
    destruct (H1 i x y Hx Ey P1) as (Q1 & Q2 & Q3 & Q4 & Q5). repeat split; auto; congruence.
  - apply nth_error_None in Ey. apply lt_nth in Hx. lia.
Qed.
Lemma mono_geoms s s' : geoms s' = geoms s -> mono s s'.
Proof. intros E. unfold mono. rewrite E. apply mono_refl. Qed.
Lemma mono_upd s ms g c c' : nth_error (geoms s) g = Some c -> g_live c = true ->
  (g_live c' = true -> g_opt c' = g_opt c /\ g_shape c' = g_shape c /\ (g_cl c = true -> g_cl c' = true) /\
     (g_gl c = true -> g_gl c' = true)) ->
  geoms ms = upd (geoms s) g c' -> mono s ms.
Proof.
  intros Hc Hl H E. unfold mono. rewrite E, length_upd. split; [lia|]. intros i x x' Hx Hx' L.
  rewrite nth_error_upd in Hx'. destruct (Nat.eqb_spec g i) as [->|N].
  - rewrite Hx in Hx'. injection Hx' as <-. replace x with c in * by congruence. destruct (H L) as (? & ? & ? & ?). auto.
  - replace x' with x in * by congruence. auto.
Qed.
Lemma geom_at_inv s g c : geom_at s g = Ok c -> nth_error (geoms s) g = Some c /\ g_live c = true.
Proof.
  unfold geom_at. destruct (nth_error (geoms s) g) as [x|]; [|discriminate].
  destruct (g_live x) eqn:E; [|discriminate]. intros H. injection H as <-. auto.
Qed.
Lemma mesh_destroy_geoms s m s' : mesh_destroy s m = Ok s' -> geoms s' = geoms s.
Proof.
  unfold mesh_destroy. destruct (mesh_at s m); cbn; try discriminate. intros H; injection H as <-. reflexivity.
Qed.
Lemma destroy_mono s g s' : geom_destroy s g = Ok s' -> mono s s'.
Proof.
  unfold geom_destroy. destruct (geom_at s g) as [| |c] eqn:E; cbn; try discriminate.
  apply geom_at_inv in E. destruct E as [E L]. destruct (g_rc c =? 0); [discriminate|].
  destruct (g_rc c =? 1).
  - destruct (match g_shape c with Mesh m => mesh_destroy s m | _ => Ok s end) as [| |s1] eqn:Em; cbn; try discriminate.
    assert (Eg : geoms s1 = geoms s).
    { destruct (g_shape c); try (injection Em as <-; reflexivity). now apply mesh_destroy_geoms in Em. }
    intros H; injection H as <-. eapply mono_upd; [exact E|exact L| |cbn; now rewrite Eg]. cbn. discriminate.
  - intros H; injection H as <-. eapply mono_upd; [exact E|exact L| |reflexivity]. cbn. auto.
Qed.
Lemma copy_mono s g s' : geom_copy s g = Ok s' -> mono s s'.
Proof.
  unfold geom_copy. destruct (geom_at s g) as [| |c] eqn:E; cbn; try discriminate.
  apply geom_at_inv in E. destruct E as [E L]. destruct (g_rc c =? 0); [discriminate|].
  intros H; injection H as <-. eapply mono_upd; [exact E|exact L| |reflexivity]. cbn. auto.
Qed.
Lemma destroy_all_mono l : forall s s', destroy_all s l = Ok s' -> mono s s'.
Proof.
  induction l as [|g r IH]; intros s s' H; cbn in H; [injection H as ->; apply mono_refl|].
  destruct (geom_destroy s g) as [| |s1] eqn:E; cbn in H; try discriminate.
  apply mono_trans with s1; [now apply destroy_mono with g|now apply IH].
Qed.
Lemma copy_all_mono l : forall s s', copy_all s l = Ok s' -> mono s s'.
Proof.
  induction l as [|g r IH]; intros s s' H; cbn in H; [injection H as ->; apply mono_refl|].
  destruct (geom_copy s g) as [| |s1] eqn:E; cbn in H; try discriminate.
  apply mono_trans with s1; [now apply copy_mono with g|now apply IH].
Qed.
Lemma mono_app s s' l : geoms s' = geoms s ++ l -> mono s s'.
Proof.
  intros E. unfold mono. rewrite E, app_length. split; [lia|]. intros i c c' H1 H2 L.
  rewrite nth_error_app1 in H2 by now apply lt_nth in H1. replace c' with c in * by congruence. auto.
Qed.
Lemma geom_new_mono s x sh p : geom_new s x sh = Ok p -> mono s (fst p).
Proof.
  destruct sh as [a b c|r|h r|h r0 r1|d0 d1 e0 e1 w|a0 r0 r1|m]; cbn;
    try (intros H; injection H as <-; cbn; now eapply mono_app).
  unfold mesh_inc. destruct (mesh_at s m) as [| |cm]; cbn; try discriminate.
  intros H; injection H as <-. cbn. now eapply mono_app.
Qed.
Lemma cl_mono s g s' : cl_one s g = Ok s' -> mono s s' /\
  exists c', nth_error (geoms s') g = Some c' /\ (collis (g_opt c') = true -> cl_shape (g_shape c') = true -> g_cl c' = true).
Proof.
  unfold cl_one. destruct (geom_at s g) as [| |c] eqn:E; cbn; try discriminate.
  apply geom_at_inv in E. destruct E as [E L].
  destruct (collis (g_opt c)) eqn:Ec; cbn.
  2:{ intros H; injection H as <-. split; [apply mono_refl|]. exists c. split; [exact E|congruence]. }
  destruct (g_cl c) eqn:El.
  { intros H; injection H as <-. split; [apply mono_refl|]. exists c. split; [exact E|auto]. }
  destruct (cl_shape (g_shape c)) eqn:Es.
  2:{ intros H; injection H as <-. split; [apply mono_refl|]. exists c. split; [exact E|congruence]. }
  destruct (match g_shape c with Mesh m => _ | _ => _ end); cbn; try discriminate.
  intros H; injection H as <-. split.
  - eapply mono_upd; [exact E|exact L| |reflexivity]. cbn. auto.
  - eexists. cbn. rewrite nth_error_upd, Nat.eqb_refl, E. split; [reflexivity|]. auto.
Qed.
Lemma gl_mono s g s' : gl_one s g = Ok s' -> mono s s' /\
  exists c', nth_error (geoms s') g = Some c' /\ g_gl c' = true.
Proof.
  unfold gl_one. destruct (geom_at s g) as [| |c] eqn:E; cbn; try discriminate.
  apply geom_at_inv in E. destruct E as [E L].
  destruct (g_gl c) eqn:El.
  { intros H; injection H as <-. split; [apply mono_refl|]. exists c. split; [exact E|auto]. }
  destruct (match g_shape c with Mesh m => _ | _ => _ end); cbn; try discriminate.
  intros H; injection H as <-. split.
  - eapply mono_upd; [exact E|exact L| |reflexivity]. cbn. auto.
  - eexists. cbn. rewrite nth_error_upd, Nat.eqb_refl, E. split; [reflexivity|]. auto.
Qed.

Definition done_cl (s : st) (x : nat) : Prop := forall c, nth_error (geoms s) x = Some c -> g_live c = true ->
  collis (g_opt c) = true -> cl_shape (g_shape c) = true -> g_cl c = true.
Definition done_gl (s : st) (x : nat) : Prop := forall c, nth_error (geoms s) x = Some c -> g_live c = true -> g_gl c = true.

Lemma done_cl_mono s s' x : (x < length (geoms s))%nat -> mono s s' -> done_cl s x -> done_cl s' x.
Proof.
  intros Hx [L M] D c' Hc' Hl H1 H2. destruct (nth_error (geoms s) x) as [c|] eqn:E.
  2:{ apply nth_error_None in E. lia. }
  destruct (M x c c' E Hc' Hl) as (P1 & P2 & P3 & P4 & _). apply P4. apply (D c E P1); congruence.
Qed.
Lemma done_gl_mono s s' x : (x < length (geoms s))%nat -> mono s s' -> done_gl s x -> done_gl s' x.
Proof.
  intros Hx [L M] D c' Hc' Hl. destruct (nth_error (geoms s) x) as [c|] eqn:E.
  2:{ apply nth_error_None in E. lia. }
  destruct (M x c c' E Hc' Hl) as (P1 & P2 & P3 & _ & P4). apply P4. apply (D c E P1).
Qed.

Lemma each_cl l : forall s s', each cl_one s l = Ok s' -> mono s s' /\ forall x, In x l -> done_cl s' x.
Proof.
  induction l as [|g r IH]; intros s s' H; cbn in H.
  - injection H as ->. split; [apply mono_refl|intros x []].
  - destruct (cl_one s g) as [| |s1] eqn:E; cbn in H; try discriminate.
    destruct (cl_mono _ _ _ E) as [M (c' & E1 & E2)]. destruct (IH _ _ H) as [M2 D].
    split; [now apply mono_trans with s1|]. intros x [->|Hx]; [|now apply D].
    apply done_cl_mono with s1; [now apply lt_nth with c'|exact M2|]. intros c Hc _. replace c with c' by congruence. exact E2.
Qed.
Lemma each_gl l : forall s s', each gl_one s l = Ok s' -> mono s s' /\ forall x, In x l -> done_gl s' x.
Proof.
  induction l as [|g r IH]; intros s s' H; cbn in H.
  - injection H as ->. split; [apply mono_refl|intros x []].
  - destruct (gl_one s g) as [| |s1] eqn:E; cbn in H; try discriminate.
    destruct (gl_mono _ _ _ E) as [M (c' & E1 & E2)]. destruct (IH _ _ H) as [M2 D].
    split; [now apply mono_trans with s1|]. intros x [->|Hx]; [|now apply D].
    apply done_gl_mono with s1; [now apply lt_nth with c'|exact M2|]. intros c Hc _. replace c with c' by congruence. exact E2.
Qed.

(** A clean flag says that nothing in the graph is left to do. *)
Definition FG (s : st) (g : graph) : Prop :=
  (d_cl g = false -> forall x, In x (held (fr g)) -> (x < length (geoms s))%nat /\ done_cl s x) /\
  (d_gl g = false -> forall x, In x (held (fr g)) -> (x < length (geoms s))%nat /\ done_gl s x).
Definition FI (s : st) : Prop := forall k g, nth_error (graphs s) k = Some (Some g) -> FG s g.

Lemma FG_mono s s' g : mono s s' -> FG s g -> FG s' g.
Proof.
  intros M [H1 H2]. split; intros D x Hx.
  - destruct (H1 D x Hx) as [L Q]. split; [destruct M; lia|now apply done_cl_mono with s].
  - destruct (H2 D x Hx) as [L Q]. split; [destruct M; lia|now apply done_gl_mono with s].
Qed.
Lemma FI_mono s s' : mono s s' -> graphs s' = graphs s -> FI s -> FI s'.
Proof. intros M E H k g Hk. rewrite E in Hk. apply FG_mono with s; [exact M|]. now apply H with k. Qed.
Lemma FI_put s s1 k g' : mono s s1 -> graphs s1 = graphs s -> FI s -> FG s1 g' -> FI (put s1 k g').
Proof.
  intros M E H HG j g Hj. cbn in Hj. rewrite nth_error_upd in Hj. destruct (Nat.eqb_spec k j) as [->|N].
  - destruct (nth_error (graphs s1) j); [|discriminate]. injection Hj as <-. exact HG.
  - rewrite E in Hj. apply FG_mono with s; [exact M|]. now apply H with j.
Qed.

Lemma graph_at_inv s k g : graph_at s k = Ok g -> nth_error (graphs s) k = Some (Some g).
Proof.
  unfold graph_at. destruct (nth_error (graphs s) k) as [[x|]|]; try discriminate. intros H. now injection H as ->.
Qed.
Lemma same_graphs_destroy s g s' : geom_destroy s g = Ok s' -> graphs s' = graphs s.
Proof.
  unfold geom_destroy. destruct (geom_at s g) as [| |c]; cbn; try discriminate.
  destruct (g_rc c =? 0); [discriminate|]. destruct (g_rc c =? 1).
  - destruct (g_shape c) as [x y z|r|h r|h r0 r1|d0 d1 e0 e1 w|a0 r0 r1|m]; cbn;
      try (intros H; injection H as <-; reflexivity).
    unfold mesh_destroy. destruct (mesh_at s m) as [| |cm]; cbn; try discriminate.
    intros H; injection H as <-. reflexivity.
  - intros H; injection H as <-; reflexivity.
Qed.
Lemma same_graphs_copy s g s' : geom_copy s g = Ok s' -> graphs s' = graphs s.
Proof.
  unfold geom_copy. destruct (geom_at s g) as [| |c]; cbn; try discriminate.
  destruct (g_rc c =? 0); [discriminate|]. intros H; injection H as <-; reflexivity.
Qed.
Lemma same_graphs_destroy_all l : forall s s', destroy_all s l = Ok s' -> graphs s' = graphs s.
Proof.
  induction l as [|g r IH]; intros s s' H; cbn in H; [now injection H as ->|].
  destruct (geom_destroy s g) as [| |s1] eqn:E; cbn in H; try discriminate.
  rewrite (IH _ _ H). now apply same_graphs_destroy with g.
Qed.
Lemma same_graphs_copy_all l : forall s s', copy_all s l = Ok s' -> graphs s' = graphs s.
Proof.
  induction l as [|g r IH]; intros s s' H; cbn in H; [now injection H as ->|].
  destruct (geom_copy s g) as [| |s1] eqn:E; cbn in H; try discriminate.
  rewrite (IH _ _ H). now apply same_graphs_copy with g.
Qed.
Lemma same_graphs_new s x sh p : geom_new s x sh = Ok p -> graphs (fst p) = graphs s.
Proof.
  destruct sh as [a b c|r|h r|h r0 r1|d0 d1 e0 e1 w|a0 r0 r1|m]; cbn;
    try (intros H; injection H as <-; reflexivity).
  unfold mesh_inc. destruct (mesh_at s m) as [| |cm]; cbn; try discriminate.
  intros H; injection H as <-. reflexivity.
Qed.
Lemma same_graphs_each f : (forall s g s', f s g = Ok s' -> graphs s' = graphs s) ->
  forall l s s', each f s l = Ok s' -> graphs s' = graphs s.
Proof.
  intros Hf l. induction l as [|g r IH]; intros s s' H; cbn in H; [now injection H as ->|].
  destruct (f s g) as [| |s1] eqn:E; cbn in H; try discriminate.
  rewrite (IH _ _ H). now apply Hf with g.
Qed.
Lemma same_graphs_cl s g s' : cl_one s g = Ok s' -> graphs s' = graphs s.
Proof.
  unfold cl_one. destruct (geom_at s g) as [| |c]; cbn; try discriminate.
  destruct (negb _); [intros H; now injection H as ->|]. destruct (g_cl c); [intros H; now injection H as ->|].
  destruct (cl_shape _); [|intros H; now injection H as ->].
  destruct (match g_shape c with Mesh m => _ | _ => _ end); cbn; try discriminate.
  intros H; now injection H as <-.
Qed.
Lemma same_graphs_gl s g s' : gl_one s g = Ok s' -> graphs s' = graphs s.
Proof.
  unfold gl_one. destruct (geom_at s g) as [| |c]; cbn; try discriminate.
  destruct (g_gl c); [intros H; now injection H as ->|].
  destruct (match g_shape c with Mesh m => _ | _ => _ end); cbn; try discriminate.
  intros H; now injection H as <-.
Qed.

Lemma in_store f n l x : In x (held (store n l f)) -> In x (held f) \/ In x l.
Proof.
  unfold held. induction f as [|[k v] r IH]; cbn; [rewrite app_nil_r; tauto|].
  destruct (k =? n)%nat; cbn; rewrite !in_app_iff; [tauto|]. intros [Q|Q]; [tauto|]. destruct (IH Q); tauto.
Qed.
Lemma in_erase f n x : In x (held (erase n f)) -> In x (held f).
Proof.
  unfold held. induction f as [|[k v] r IH]; cbn; [tauto|].
  destruct (k =? n)%nat; cbn; rewrite !in_app_iff; [tauto|]. intros [Q|Q]; [tauto|]. right. now apply IH.
Qed.

Lemma FI_start : FI start.
Proof. intros k g H. destruct k; discriminate. Qed.

Lemma sim_held s a k g x : Sim s a -> nth_error (graphs s) k = Some (Some g) -> In x (held (fr g)) ->
  exists c, nth_error (geoms s) x = Some c /\ g_live c = true.
Proof.
  intros HS Hk Hx. pose proof HS as (HI0 & _ & _ & A & _).
  assert (P : 0 < cnt (refs_g a) x).
  { rewrite refs_g_eq. pose proof (cnt_nonneg (own_g a) x).
    assert (Ek : nth_error (a_graphs a) k = Some (Some (mkA (fr g) (negb (d_ind g))))).
    { rewrite <- A, nth_error_map, Hk. reflexivity. }
    pose proof (cnt_gtotal_le _ _ _ x Ek) as Q. cbn in Q. fold (held (fr g)) in Q.
    apply (count_occ_In Nat.eq_dec) in Hx. unfold cnt in *. lia. }
  destruct (geom_at_ok _ _ _ _ _ HI0 P) as (c & p & _ & E & _ & _ & _ & L & _). now exists c.
Qed.

Lemma FI_step s a c s' : Sim s a -> FI s -> step s c = Ok s' -> FI s'.
Proof.
  intros HS HF H.
  destruct c as [|o u|o| |m|o sh|g|g o|g|b1 b2|k n|k n|k n x|k x y|k ok|k b1 b2|k|k|k]; cbn [step] in H.
  - injection H as <-. exact HF.
  - destruct (opt_at s o); try discriminate. injection H as <-. exact HF.
  - destruct (opt_at s o); try discriminate. injection H as <-. exact HF.
  - injection H as <-. exact HF.
  - apply FI_mono with s; [apply mono_geoms; now apply mesh_destroy_geoms in H| |exact HF].
    unfold mesh_destroy in H. destruct (mesh_at s m); try discriminate. injection H as <-. reflexivity.
  - destruct (opt_at s o) as [| |x]; try discriminate. cbn in H.
    destruct (geom_new s x sh) as [| |p] eqn:E; try discriminate. injection H as <-.
    apply FI_mono with s; [now apply geom_new_mono with x sh|now apply same_graphs_new with x sh|exact HF].
  - apply FI_mono with s; [now apply copy_mono with g|now apply same_graphs_copy with g|exact HF].
  - destruct (opt_at s o) as [| |x]; try discriminate. cbn in H. unfold geom_modify in H.
    destruct (geom_at s g) as [| |cg]; try discriminate. cbn in H.
    destruct (geom_new s x (g_shape cg)) as [| |p] eqn:E; try discriminate. injection H as <-.
    apply FI_mono with s; [now apply geom_new_mono with x (g_shape cg)|now apply same_graphs_new with x (g_shape cg)|exact HF].
  - apply FI_mono with s; [now apply destroy_mono with g|now apply same_graphs_destroy with g|exact HF].
  - injection H as <-. intros k g Hk. cbn in Hk.
    destruct (Nat.lt_ge_cases k (length (graphs s))) as [L|L].
    + rewrite nth_error_app1 in Hk by exact L. apply (HF k g Hk).
    + rewrite nth_error_app2 in Hk by exact L. destruct (k - length (graphs s))%nat as [|q]; cbn in Hk.
      * injection Hk as <-. split; intros _ x [].
      * destruct q; discriminate.
  - unfold add_frame in H. destruct (graph_at s k) as [| |g] eqn:Eg; try discriminate. cbn [bind] in H.
    apply graph_at_inv in Eg. pose proof (HF k g Eg) as FGg.
    assert (D : exists s1, mono s s1 /\ graphs s1 = graphs s /\ s' = put s1 k (mkGraph (store n [] (fr g)) true (d_cl g) (d_gl g))).
    { destruct (find n (fr g)) as [l|].
      - destruct (destroy_all s l) as [| |s1] eqn:E; try discriminate. cbn in H. injection H as <-.
        exists s1. split; [now apply destroy_all_mono with l|]. split; [now apply same_graphs_destroy_all with l|reflexivity].
      - cbn in H. injection H as <-. exists s. split; [apply mono_refl|now split]. }
    destruct D as (s1 & M & E & ->). apply FI_put with s; auto. destruct (FG_mono _ _ _ M FGg) as [Q1 Q2].
    split; cbn; intros D x Hx; (apply in_store in Hx; destruct Hx as [Hx|[]]); auto.
  - unfold rm_frame in H. destruct (graph_at s k) as [| |g] eqn:Eg; try discriminate. cbn [bind] in H.
    apply graph_at_inv in Eg. pose proof (HF k g Eg) as FGg.
    assert (D : exists s1, mono s s1 /\ graphs s1 = graphs s /\ s' = put s1 k (mkGraph (erase n (fr g)) true (d_cl g) (d_gl g))).
    { destruct (find n (fr g)) as [l|].
      - destruct (destroy_all s l) as [| |s1] eqn:E; try discriminate. cbn in H. injection H as <-.
        exists s1. split; [now apply destroy_all_mono with l|]. split; [now apply same_graphs_destroy_all with l|reflexivity].
      - cbn in H. injection H as <-. exists s. split; [apply mono_refl|now split]. }
    destruct D as (s1 & M & E & ->). apply FI_put with s; auto. destruct (FG_mono _ _ _ M FGg) as [Q1 Q2].
    split; cbn; intros D x Hx; apply in_erase in Hx; auto.
  - unfold attach in H. destruct (graph_at s k) as [| |g] eqn:Eg; try discriminate. cbn [bind] in H.
    destruct (find n (fr g)) as [l|]; [|discriminate]. injection H as <-.
    apply FI_put with s; auto; [apply mono_refl|]. split; cbn; discriminate.
  - unfold copy_frame_geom in H. destruct (graph_at s k) as [| |g] eqn:Eg; try discriminate. cbn [bind] in H.
    destruct (find x (fr g)) as [lx|]; [|discriminate]. destruct (find y (fr g)) as [ly|]; [|discriminate].
    destruct lx as [|x0 lx].
    + injection H as <-. apply FI_put with s; auto; [apply mono_refl|]. split; cbn; discriminate.
    + destruct (x =? y)%nat; [discriminate|]. destruct (copy_all s (x0 :: lx)) as [| |s1] eqn:E; try discriminate.
      cbn in H. injection H as <-. apply FI_put with s; auto.
      * now apply copy_all_mono with (x0 :: lx).
      * now apply same_graphs_copy_all with (x0 :: lx).
      * split; cbn; discriminate.
  - unfold sg_init in H. destruct (graph_at s k) as [| |g] eqn:Eg; try discriminate. cbn [bind] in H.
    apply graph_at_inv in Eg. pose proof (HF k g Eg) as FGg.
    destruct (d_ind g && negb ok); injection H as <-; [exact HF|].
    apply FI_put with s; auto; [apply mono_refl].
  - unfold sg_copy in H. destruct (graph_at s k) as [| |g] eqn:Eg; try discriminate. cbn [bind] in H.
    destruct (d_ind g); [discriminate|]. destruct (copy_all s (held (fr g))) as [| |s1] eqn:E; try discriminate.
    cbn in H. injection H as <-. pose proof (copy_all_mono _ _ _ E) as M. pose proof (same_graphs_copy_all _ _ _ E) as EG.
    intros j gj Hj. cbn in Hj. rewrite EG in Hj. destruct (Nat.lt_ge_cases j (length (graphs s))) as [L|L].
    + rewrite nth_error_app1 in Hj by exact L. apply (FG_mono s s1 gj M (HF j gj Hj)).
    + rewrite nth_error_app2 in Hj by exact L. destruct (j - length (graphs s))%nat as [|q]; cbn in Hj.
      * injection Hj as <-. destruct (held (fr g)) as [|z r] eqn:Eh; cbn.
        -- split; cbn; intros _ x; rewrite Eh; intros [].
        -- split; cbn; rewrite orb_true_r; discriminate.
      * destruct q; discriminate.
  - unfold sg_destroy in H. destruct (graph_at s k) as [| |g] eqn:Eg; try discriminate. cbn [bind] in H.
    destruct (destroy_all s (held (fr g))) as [| |s1] eqn:E; try discriminate. cbn in H. injection H as <-.
    pose proof (destroy_all_mono _ _ _ E) as M. pose proof (same_graphs_destroy_all _ _ _ E) as EG.
    intros j gj Hj. cbn in Hj. rewrite EG, nth_error_upd in Hj. destruct (k =? j)%nat.
    + destruct (nth_error (graphs s) j); discriminate.
    + apply (FG_mono s s1 gj M (HF j gj Hj)).
  - unfold cl_init in H. destruct (graph_at s k) as [| |g] eqn:Eg; try discriminate. cbn [bind] in H.
    apply graph_at_inv in Eg. destruct (negb (d_cl g)); [injection H as <-; exact HF|].
    destruct (d_ind g); [discriminate|]. destruct (each cl_one s (held (fr g))) as [| |s1] eqn:E; try discriminate.
    cbn in H. injection H as <-. destruct (each_cl _ _ _ E) as [M D].
    apply FI_put with s; auto; [now apply (same_graphs_each cl_one same_graphs_cl) with (held (fr g))|].
    destruct (FG_mono _ _ _ M (HF k g Eg)) as [_ Q2]. split; cbn; [|exact Q2]. intros _ x Hx. split; [|now apply D].
    destruct (sim_held _ _ _ _ _ HS Eg Hx) as (c & Ec & _). apply lt_nth in Ec. destruct M. lia.
  - unfold gl_init in H. destruct (graph_at s k) as [| |g] eqn:Eg; try discriminate. cbn [bind] in H.
    apply graph_at_inv in Eg. destruct (negb (d_gl g)); [injection H as <-; exact HF|].
    destruct (d_ind g); [discriminate|]. destruct (each gl_one s (held (fr g))) as [| |s1] eqn:E; try discriminate.
    cbn in H. injection H as <-. destruct (each_gl _ _ _ E) as [M D].
    apply FI_put with s; auto; [now apply (same_graphs_each gl_one same_graphs_gl) with (held (fr g))|].
    destruct (FG_mono _ _ _ M (HF k g Eg)) as [Q1 _]. split; cbn; [exact Q1|]. intros _ x Hx. split; [|now apply D].
    destruct (sim_held _ _ _ _ _ HS Eg Hx) as (c & Ec & _). apply lt_nth in Ec. destruct M. lia.
Qed.

Lemma run_flags h a : meaning h a -> exists s, run start h = Ok s /\ Sim s a /\ FI s.
Proof.
  induction 1 as [|h a c a' _ (s & E & HS & HF) He Hs].
  - exists start. split; [reflexivity|]. split; [exact sim_start|exact FI_start].
  - destruct (step_sim s a c a' HS He Hs) as (s' & E' & HS'). exists s'. split; [|split; [exact HS'|]].
    + rewrite run_app, E. cbn. now rewrite E'.
    + now apply FI_step with s a c.
Qed.

Lemma snoc_inj {A} (h1 h2 : list A) x y : h1 ++ [x] = h2 ++ [y] -> h1 = h2 /\ x = y.
Proof. apply app_inj_tail. Qed.

(** After a pass every attached geometry has its object, whatever was attached, copied and
    removed before, and whatever the uninitialised flags were. *)
Theorem cl_complete h k a : meaning (h ++ [ClInit k]) a -> exists s, run start (h ++ [ClInit k]) = Ok s /\
  forall ag x, a_graph a k = Some ag -> In x (concat (map snd (a_frames ag))) -> has_cl s x.
Proof.
  intros Hm. destruct (run_flags _ _ Hm) as (s & E & HS & HF). exists s. split; [exact E|].
  intros ag x Ek Hx. destruct (sim_graph _ _ _ _ HS Ek) as (g & K1 & K2 & K3 & K4 & K5 & K6).
  rewrite <- K4 in Hx. fold (held (fr g)) in Hx.
  assert (D : d_cl g = false).
  { rewrite run_app in E. destruct (run start h) as [| |s0]; try discriminate. cbn in E.
    destruct (cl_init s0 k) as [| |s1] eqn:E1; try discriminate. cbn in E. injection E as <-.
    unfold cl_init in E1. destruct (graph_at s0 k) as [| |g0] eqn:Eg; try discriminate. cbn [bind] in E1.
    destruct (d_cl g0) eqn:Ed; cbn [negb] in E1.
    - destruct (d_ind g0); [discriminate|]. destruct (each cl_one s0 _) as [| |s2] eqn:E2; try discriminate.
      cbn in E1. injection E1 as <-. unfold put in K2. cbn in K2. rewrite nth_error_upd, Nat.eqb_refl in K2.
      destruct (nth_error (graphs s2) k); [|discriminate]. injection K2 as <-. reflexivity.
    - injection E1 as <-. assert (g = g0) by congruence. now subst g0. }
  destruct (HF k g K2) as [Q _]. destruct (Q D x Hx) as [_ DC].
  destruct (sim_held _ _ _ _ _ HS K2 Hx) as (c & Ec & Lc). exists c. split; [exact Ec|].
  intros Cc. specialize (DC c Ec Lc Cc). destruct (g_shape c); try exact I; now apply DC.
Qed.
Theorem gl_complete h k a : meaning (h ++ [GlInit k]) a -> exists s, run start (h ++ [GlInit k]) = Ok s /\
  forall ag x, a_graph a k = Some ag -> In x (concat (map snd (a_frames ag))) -> has_gl s x.
Proof.
  intros Hm. destruct (run_flags _ _ Hm) as (s & E & HS & HF). exists s. split; [exact E|].
  intros ag x Ek Hx. destruct (sim_graph _ _ _ _ HS Ek) as (g & K1 & K2 & K3 & K4 & K5 & K6).
  rewrite <- K4 in Hx. fold (held (fr g)) in Hx.
  assert (D : d_gl g = false).
  { rewrite run_app in E. destruct (run start h) as [| |s0]; try discriminate. cbn in E.
    destruct (gl_init s0 k) as [| |s1] eqn:E1; try discriminate. cbn in E. injection E as <-.
    unfold gl_init in E1. destruct (graph_at s0 k) as [| |g0] eqn:Eg; try discriminate. cbn [bind] in E1.
    destruct (d_gl g0) eqn:Ed; cbn [negb] in E1.
    - destruct (d_ind g0); [discriminate|]. destruct (each gl_one s0 _) as [| |s2] eqn:E2; try discriminate.
      cbn in E1. injection E1 as <-. unfold put in K2. cbn in K2. rewrite nth_error_upd, Nat.eqb_refl in K2.
      destruct (nth_error (graphs s2) k); [|discriminate]. injection K2 as <-. reflexivity.
    - injection E1 as <-. assert (g = g0) by congruence. now subst g0. }
  destruct (HF k g K2) as [_ Q]. destruct (Q D x Hx) as [_ DC].
  destruct (sim_held _ _ _ _ _ HS K2 Hx) as (c & Ec & Lc). exists c. split; [exact Ec|]. now apply DC.
Qed.

(** A check that a history is allowed. *)
Definition smallb (a : ast) : bool :=
  (length (refs_g a) <? 100)%nat && (length (made a) <? 100)%nat && (length (own_m a) <? 100)%nat.
Fixpoint efold (a : ast) (h : list op) : option ast :=
  match h with
  | [] => Some a
  | c :: r => match effect a c with Some a' => if smallb a' then efold a' r else None | None => None end
  end.
Lemma smallb_small a : smallb a = true -> small a.
Proof.
  unfold smallb. rewrite !andb_true_iff, !Nat.ltb_lt. intros [[L1 L2] L3]. split.
  - intros g. pose proof (count_occ_bound Nat.eq_dec g (refs_g a)) as Q. unfold cnt. lia.
  - intros m. rewrite refs_m_eq. unfold mrefs.
    pose proof (count_occ_bound Nat.eq_dec m (own_m a)) as Q.
    assert (B : forall l i G, shownF l i G m <= Z.of_nat (length l)).
    { induction l as [|p r IH]; intros i G; cbn [shownF length]; [lia|]. specialize (IH (S i) G).
      destruct (uses p m && (0 <? G i)); lia. }
    specialize (B (made a) 0%nat (cnt (refs_g a))). unfold cnt at 1. lia.
Qed.
Lemma efold_meaning h' : forall h a a', meaning h a -> efold a h' = Some a' -> meaning (h ++ h') a'.
Proof.
  induction h' as [|c r IH]; intros h a a' Hm H; cbn in H.
  - injection H as <-. now rewrite app_nil_r.
  - destruct (effect a c) as [a1|] eqn:E; [|discriminate]. destruct (smallb a1) eqn:S; [|discriminate].
    replace (h ++ c :: r) with ((h ++ [c]) ++ r) by now rewrite <- app_assoc.
    apply IH with a1; [|exact H]. apply meaning_snoc with a; [exact Hm|exact E|now apply smallb_small].
Qed.
Lemma efold_start h a : efold a_start h = Some a -> meaning h a.
Proof. apply (efold_meaning h [] a_start a). constructor. Qed.

(** Copying a frame's geometry onto the frame itself. *)
Theorem self_copy_ub : exists h a, meaning h a /\ run start (h ++ [CopyFrameGeom 0 7 7]) = Ub.
Proof.
  exists [OptNew; GeomNew 0 (Sphere 1%R); SgNew true true; AddFrame 0 7; Attach 0 7 0]. eexists.
  split; [|reflexivity]. apply efold_start. reflexivity.
Qed.

(** * Options *)
Lemma opt_run_app l1 : forall l2 o, opt_run (l1 ++ l2) o = opt_run l2 (opt_run l1 o).
Proof. induction l1 as [|u r IH]; intros l2 o; cbn; [reflexivity|apply IH]. Qed.

Lemma read_back {A} (f : oset -> option A) (d : A) (get : opt -> A) :
  get opt_new = d ->
  (forall u o, get (opt_set u o) = match f u with Some x => x | None => get o end) ->
  forall l, get (opt_run l opt_new) = last_set f l d.
Proof.
  intros H0 Hs l. assert (Q : forall l o, get (opt_run l o) = last_set f l (get o)).
  { clear l. induction l as [|u r IH]; intros o; cbn; [reflexivity|]. rewrite IH, Hs. reflexivity. }
  rewrite Q, H0. reflexivity.
Qed.
Lemma options_read_back l : let o := opt_run l opt_new in
  get_color_red o = last_set set_red l (5/10)%R /\
  get_color_green o = last_set set_green l (5/10)%R /\
  get_color_blue o = last_set set_blue l (5/10)%R /\
  get_alpha o = last_set set_alpha l 1%R /\
  get_specular_red o = last_set set_spec_red l 0%R /\
  get_scale o = last_set set_scale l 1%R /\
  get_no_shadow o = truth (last_set set_no_shadow l 0) /\
  get_visual o = truth (last_set set_visual l 1) /\
  get_collision o = truth (last_set set_collision l 1).
Proof.
  assert (TB : forall (f : oset -> option Z) (d : Z) (get : opt -> Z),
    get opt_new = truth d ->
    (forall u o, get (opt_set u o) = match f u with Some x => truth x | None => get o end) ->
    forall l, get (opt_run l opt_new) = truth (last_set f l d)).
  { intros f d get H0 Hs l0. revert l0.
    assert (Q : forall l o d, get o = truth d -> get (opt_run l o) = truth (last_set f l d)).
    { induction l0 as [|u r IH]; intros o d0 E; cbn; [exact E|]. apply IH. rewrite Hs. destruct (f u); [reflexivity|exact E]. }
    intros l0. now apply Q. }
  cbv zeta. repeat split.
  - apply read_back; [reflexivity|]. intros [] []; reflexivity.
  - apply read_back; [reflexivity|]. intros [] []; reflexivity.
  - apply read_back; [reflexivity|]. intros [] []; reflexivity.
  - apply read_back; [reflexivity|]. intros [] []; reflexivity.
  - apply read_back; [reflexivity|]. intros [] []; reflexivity.
  - apply read_back; [reflexivity|]. intros [] []; reflexivity.
  - apply TB; [reflexivity|]. intros [] []; cbn; unfold get_no_shadow, truth, cbool; cbn; try reflexivity. now destruct (_ =? 0).
  - apply TB; [reflexivity|]. intros [] []; cbn; unfold get_visual, truth, cbool; cbn; try reflexivity. now destruct (_ =? 0).
  - apply TB; [reflexivity|]. intros [] []; cbn; unfold get_collision, truth, cbool; cbn; try reflexivity. now destruct (_ =? 0).
Qed.
Lemma specular_swapped l : let o := opt_run l opt_new in
  get_specular_green o = last_set set_spec_blue l 0%R /\ get_specular_blue o = last_set set_spec_green l 0%R.
Proof. cbv zeta. split; apply read_back; try reflexivity; intros [] []; reflexivity. Qed.
Lemma specular_not_read_back : exists l, let o := opt_run l opt_new in
  get_specular_green o <> last_set set_spec_green l 0%R /\ get_specular_blue o <> last_set set_spec_blue l 0%R.
Proof. exists [SetSpecular 0 1 0]%R. cbn. split; lra. Qed.
