From Coq Require Import ZArith List Bool Reals Lia.
From Verif Require Import GeoModel GeoSpec GeoProofs.
Import ListNotations.
Open Scope Z_scope.
#[local] Arguments cnt : simpl never.
#[local] Arguments held : simpl never.
#[local] Arguments refs_g : simpl never.
#[local] Arguments refs_m : simpl never.
#[local] Arguments Z.mul : simpl never.
#[local] Arguments Z.add : simpl never.
#[local] Arguments Z.sub : simpl never.

(** * Frames by name *)
Lemma known_find f n : known_frame f n = match find n f with Some _ => true | None => false end.
Proof.
  induction f as [|[k v] r IH]; cbn; [reflexivity|]. destruct (k =? n)%nat; [reflexivity|]. exact IH.
Qed.
Lemma attached_find f n : attached f n = match find n f with Some l => l | None => [] end.
Proof.
  unfold attached. induction f as [|[k v] r IH]; cbn; [reflexivity|].
  destruct (k =? n)%nat; [reflexivity|]. exact IH.
Qed.
Lemma find_none_notin f n : find n f = None -> ~ In n (map fst f).
Proof.
  induction f as [|[k v] r IH]; cbn; [tauto|]. destruct (Nat.eqb_spec k n); [discriminate|].
  intros H [Q|Q]; [congruence|]. now apply IH.
Qed.
Lemma map_other f n l : ~ In n (map fst f) ->
  map (fun p : nat * list nat => if (fst p =? n)%nat then (n, l) else p) f = f.
Proof.
  induction f as [|[k v] r IH]; cbn; intros H; [reflexivity|].
  destruct (Nat.eqb_spec k n); [tauto|]. f_equal. apply IH. tauto.
Qed.
Lemma filter_other f n : ~ In n (map fst f) ->
  filter (fun p : nat * list nat => negb (fst p =? n)%nat) f = f.
Proof.
  induction f as [|[k v] r IH]; cbn; intros H; [reflexivity|].
  destruct (Nat.eqb_spec k n); [tauto|]. cbn. f_equal. apply IH. tauto.
Qed.
Lemma store_with f n l : NoDup (map fst f) -> store n l f = with_frame f n l.
Proof.
  unfold with_frame. induction f as [|[k v] r IH]; cbn; intros H; [reflexivity|].
  inversion H as [|x y Hn Hr]; subst. destruct (Nat.eqb_spec k n) as [->|N]; cbn.
  - now rewrite map_other.
  - rewrite IH by exact Hr. unfold known_frame. destruct (existsb _ r); reflexivity.
Qed.
Lemma erase_without f n : NoDup (map fst f) -> erase n f = without_frame f n.
Proof.
  unfold without_frame. induction f as [|[k v] r IH]; cbn; intros H; [reflexivity|].
  inversion H as [|x y Hn Hr]; subst. destruct (Nat.eqb_spec k n) as [->|N]; cbn.
  - now rewrite filter_other.
  - now rewrite IH.
Qed.
Lemma store_fst f n l : forall x, In x (map fst (store n l f)) <-> In x (map fst f) \/ x = n.
Proof.
  induction f as [|[k v] r IH]; intros x; cbn; [intuition congruence|].
  destruct (Nat.eqb_spec k n) as [->|N]; cbn; [intuition congruence|]. rewrite IH. tauto.
Qed.
Lemma store_nodup f n l : NoDup (map fst f) -> NoDup (map fst (store n l f)).
Proof.
  induction f as [|[k v] r IH]; cbn; intros H; [repeat constructor; tauto|].
  inversion H as [|x y Hn Hr]; subst. destruct (Nat.eqb_spec k n) as [->|N]; cbn; [now constructor|].
  constructor; [|now apply IH]. rewrite store_fst. intros [Q|Q]; congruence.
Qed.
Lemma erase_fst f n : forall x, In x (map fst (erase n f)) -> In x (map fst f).
Proof.
  induction f as [|[k v] r IH]; intros x; cbn; [tauto|].
  destruct (Nat.eqb_spec k n) as [->|N]; cbn; [tauto|]. intros [Q|Q]; [tauto|]. right. now apply IH.
Qed.
Lemma erase_nodup f n : NoDup (map fst f) -> NoDup (map fst (erase n f)).
Proof.
  induction f as [|[k v] r IH]; cbn; intros H; [constructor|].
  inversion H as [|x y Hn Hr]; subst. destruct (Nat.eqb_spec k n) as [->|N]; cbn; [exact Hr|].
  constructor; [|now apply IH]. intros Q. now apply erase_fst in Q.
Qed.
Definition at_frame (n : nat) (f : list (nat * list nat)) : list nat :=
  match find n f with Some l => l | None => [] end.
Lemma cnt_store f n l i : cnt (held (store n l f)) i = cnt (held f) i - cnt (at_frame n f) i + cnt l i.
Proof.
  unfold at_frame, held. induction f as [|[k v] r IH]; cbn [store find map concat snd].
  - rewrite app_nil_r, !cnt_nil. lia.
  - destruct (k =? n)%nat; cbn [map concat snd]; rewrite ?cnt_app in *; lia.
Qed.
Lemma cnt_erase f n i : cnt (held (erase n f)) i = cnt (held f) i - cnt (at_frame n f) i.
Proof.
  unfold at_frame, held. induction f as [|[k v] r IH]; cbn [erase find map concat snd].
  - rewrite !cnt_nil. lia.
  - destruct (k =? n)%nat; cbn [map concat snd]; rewrite ?cnt_app in *; lia.
Qed.
Lemma cnt_at_le f n i : cnt (at_frame n f) i <= cnt (held f) i.
Proof.
  unfold at_frame, held. induction f as [|[k v] r IH]; cbn [find map concat snd]; [rewrite cnt_nil; lia|].
  rewrite cnt_app. pose proof (cnt_nonneg v i). pose proof (cnt_nonneg (concat (map snd r)) i).
  destruct (k =? n)%nat; lia.
Qed.

(** * Graphs *)
Definition absg (k : option graph) : option agraph := option_map (fun g => mkA (fr g) (negb (d_ind g))) k.
Definition gtotal (l : list (option agraph)) : list nat := concat (map geoms_of l).
#[local] Arguments gtotal : simpl never.

Lemma cnt_gtotal_upd l : forall k old x i, nth_error l k = Some old ->
  cnt (gtotal (upd l k x)) i = cnt (gtotal l) i - cnt (geoms_of old) i + cnt (geoms_of x) i.
Proof.
  unfold gtotal. induction l as [|y r IH]; intros k old x i H; [destruct k; discriminate|].
  destruct k as [|k]; cbn [nth_error] in H; cbn [upd map concat]; rewrite !cnt_app.
  - injection H as ->. lia.
  - rewrite (IH k old x i H). lia.
Qed.
Lemma cnt_gtotal_app l x i : cnt (gtotal (l ++ [x])) i = cnt (gtotal l) i + cnt (geoms_of x) i.
Proof. unfold gtotal. rewrite map_app, concat_app, cnt_app. cbn. now rewrite app_nil_r. Qed.
Lemma cnt_gtotal_le l k x i : nth_error l k = Some x -> cnt (geoms_of x) i <= cnt (gtotal l) i.
Proof.
  unfold gtotal. revert k. induction l as [|y r IH]; intros k H; [destruct k; discriminate|].
  cbn [map concat]. rewrite cnt_app. destruct k as [|k]; cbn [nth_error] in H.
  - injection H as ->. pose proof (cnt_nonneg (concat (map geoms_of r)) i). lia.
  - specialize (IH k H). pose proof (cnt_nonneg (geoms_of y) i). lia.
Qed.
Lemma map_upd {A B} (f : A -> B) l : forall k x, map f (upd l k x) = upd (map f l) k (f x).
Proof. induction l as [|a r IH]; intros [|k] x; cbn; try reflexivity. now rewrite IH. Qed.
Lemma Forall_upd {A} (P : A -> Prop) l : forall k x, Forall P l -> P x -> Forall P (upd l k x).
Proof.
  induction l as [|a r IH]; intros [|k] x H Hx; cbn; try constructor; inversion H; subst; auto.
Qed.

Definition uniq (k : option graph) : Prop :=
  match k with Some g => NoDup (map fst (fr g)) | None => True end.

Definition Sim (s : st) (a : ast) : Prop :=
  HI s (made a) (cnt (refs_g a)) (cnt (own_m a)) /\
  length (meshes s) = n_mesh a /\ opts s = a_opts a /\
  map absg (graphs s) = a_graphs a /\ Forall uniq (graphs s).

Lemma sim_opt s a o x : Sim s a -> a_opt a o = Some x -> opt_at s o = Ok x.
Proof.
  intros (_ & _ & E & _) H. unfold opt_at, a_opt in *. rewrite E.
  destruct (nth_error (a_opts a) o) as [[y|]|]; try discriminate. now injection H as ->.
Qed.
Lemma sim_graph s a k ag : Sim s a -> a_graph a k = Some ag ->
  exists g, graph_at s k = Ok g /\ nth_error (graphs s) k = Some (Some g) /\
    nth_error (a_graphs a) k = Some (Some ag) /\
    fr g = a_frames ag /\ a_indexed ag = negb (d_ind g) /\ NoDup (map fst (fr g)).
Proof.
  intros (_ & _ & _ & E & U) H. unfold graph_at, a_graph in *. rewrite <- E in H |- *.
  rewrite nth_error_map in H |- *. destruct (nth_error (graphs s) k) as [[g|]|] eqn:En; cbn in H |- *; try discriminate.
  injection H as <-. exists g. cbn. repeat split; try reflexivity.
  rewrite Forall_forall in U. apply nth_error_In in En. apply (U _ En).
Qed.

Lemma refs_g_eq a i : cnt (refs_g a) i = cnt (own_g a) i + cnt (gtotal (a_graphs a)) i.
Proof. unfold refs_g, gtotal. apply cnt_app. Qed.

Lemma refs_m_eq a m : refs_m a m = mrefs (made a) (cnt (refs_g a)) (cnt (own_m a)) m.
Proof. unfold refs_m, mrefs. now rewrite shown_F. Qed.

Lemma cnt_single y i : cnt [y] i = if (y =? i)%nat then 1 else 0.
Proof. rewrite cnt_cons, cnt_nil. lia. Qed.

Lemma eqb_sym_if (i g : nat) (x y : Z) : (if (i =? g)%nat then x else y) = (if (g =? i)%nat then x else y).
Proof. now rewrite Nat.eqb_sym. Qed.

Lemma own_m_nonneg a : forall m, 0 <= cnt (own_m a) m.
Proof. intros. apply cnt_nonneg. Qed.

(** the graph [k] is replaced after the heap changed by [d] *)
Lemma sim_put s a k ag g s1 g' (og' : list nat) G' :
  Sim s a -> nth_error (a_graphs a) k = Some (Some ag) -> nth_error (graphs s) k = Some (Some g) ->
  HI s1 (made a) G' (cnt (own_m a)) -> same_rest s s1 -> length (meshes s1) = length (meshes s) ->
  NoDup (map fst (fr g')) ->
  (forall i, G' i = cnt og' i + (cnt (gtotal (a_graphs a)) i - cnt (held (a_frames ag)) i + cnt (held (fr g')) i)) ->
  Sim (put s1 k g')
      (mkAst (a_opts a) (made a) (n_mesh a) og' (own_m a)
             (repl (a_graphs a) k (Some (mkA (fr g') (negb (d_ind g')))))).
Proof.
  intros (H1 & H2 & H3 & H4 & H5) Ek Eg HH [R1 R2] HL U HG. unfold Sim, put. cbn.
  split; [|split; [|split; [|split]]].
  - apply HI_ext with (3 := HH); [|reflexivity]. intros i. rewrite HG, refs_g_eq. cbn.
    rewrite repl_upd, (cnt_gtotal_upd _ _ _ _ _ Ek). reflexivity.
  - congruence.
  - congruence.
  - rewrite R2, map_upd, H4. reflexivity.
  - rewrite R2. apply Forall_upd; [exact H5|exact U].
Qed.

(** ** the number of mesh cells does not change *)
Lemma len_destroy s g s' : geom_destroy s g = Ok s' -> length (meshes s') = length (meshes s).
Proof.
  unfold geom_destroy. destruct (geom_at s g) as [| |c]; cbn; try discriminate.
  destruct (g_rc c =? 0); [discriminate|]. destruct (g_rc c =? 1).
  - destruct (g_shape c) as [x y z|r|h r|h r0 r1|d0 d1 e0 e1 w|a0 r0 r1|m]; cbn;
      try (intros H; injection H as <-; reflexivity).
    unfold mesh_destroy. destruct (mesh_at s m) as [| |cm]; cbn; try discriminate.
    intros H; injection H as <-. cbn. apply length_upd.
  - intros H; injection H as <-; reflexivity.
Qed.
Lemma len_copy s g s' : geom_copy s g = Ok s' -> length (meshes s') = length (meshes s).
Proof.
  unfold geom_copy. destruct (geom_at s g) as [| |c]; cbn; try discriminate.
  destruct (g_rc c =? 0); [discriminate|]. intros H; injection H as <-; reflexivity.
Qed.
Lemma len_destroy_all l : forall s s', destroy_all s l = Ok s' -> length (meshes s') = length (meshes s).
Proof.
  induction l as [|g r IH]; intros s s' H; cbn in H; [now injection H as ->|].
  destruct (geom_destroy s g) as [| |s1] eqn:E; cbn in H; try discriminate.
  rewrite (IH _ _ H). now apply len_destroy with g.
Qed.
Lemma len_copy_all l : forall s s', copy_all s l = Ok s' -> length (meshes s') = length (meshes s).
Proof.
  induction l as [|g r IH]; intros s s' H; cbn in H; [now injection H as ->|].
  destruct (geom_copy s g) as [| |s1] eqn:E; cbn in H; try discriminate.
  rewrite (IH _ _ H). now apply len_copy with g.
Qed.
Lemma len_new s x sh s' n : geom_new s x sh = Ok (s', n) -> length (meshes s') = length (meshes s).
Proof.
  destruct sh as [a b c|r|h r|h r0 r1|d0 d1 e0 e1 w|a0 r0 r1|m]; cbn;
    try (intros H; injection H as <- _; reflexivity).
  unfold mesh_inc. destruct (mesh_at s m) as [| |cm]; cbn; try discriminate.
  intros H; injection H as <- _. cbn. apply length_upd.
Qed.
Lemma len_mdestroy s m s' : mesh_destroy s m = Ok s' -> length (meshes s') = length (meshes s).
Proof.
  unfold mesh_destroy. destruct (mesh_at s m) as [| |cm]; cbn; try discriminate.
  intros H; injection H as <-. cbn. apply length_upd.
Qed.
Lemma len_each f : (forall s g s', f s g = Ok s' -> length (meshes s') = length (meshes s)) ->
  forall l s s', each f s l = Ok s' -> length (meshes s') = length (meshes s).
Proof.
  intros Hf l. induction l as [|g r IH]; intros s s' H; cbn in H; [now injection H as ->|].
  destruct (f s g) as [| |s1] eqn:E; cbn in H; try discriminate.
  rewrite (IH _ _ H). now apply Hf with g.
Qed.
Lemma len_cl s g s' : cl_one s g = Ok s' -> length (meshes s') = length (meshes s).
Proof.
  unfold cl_one. destruct (geom_at s g) as [| |c]; cbn; try discriminate.
  destruct (negb _); [intros H; now injection H as ->|]. destruct (g_cl c); [intros H; now injection H as ->|].
  destruct (cl_shape _); [|intros H; now injection H as ->].
  destruct (match g_shape c with Mesh m => _ | _ => _ end); cbn; try discriminate.
  intros H; now injection H as <-.
Qed.
Lemma len_gl s g s' : gl_one s g = Ok s' -> length (meshes s') = length (meshes s).
Proof.
  unfold gl_one. destruct (geom_at s g) as [| |c]; cbn; try discriminate.
  destruct (g_gl c); [intros H; now injection H as ->|].
  destruct (match g_shape c with Mesh m => _ | _ => _ end); cbn; try discriminate.
  intros H; now injection H as <-.
Qed.

Ltac rw_if := repeat match goal with |- context [if (?i =? ?g)%nat then _ else _] => destruct (Nat.eqb_spec i g) end.

Lemma step_sim s a c a' : Sim s a -> effect a c = Some a' -> small a' ->
  exists s', step s c = Ok s' /\ Sim s' a'.
Proof.
  intros HS He [Sg Sm]. pose proof HS as (HI0 & HL & HO & HA & HU).
  assert (ON := own_m_nonneg a). pose proof (refs_m_eq a) as RM. pose proof (refs_g_eq a) as RG.
  destruct c as [|o u|o| |m|o sh|g|g o|g|b1 b2|k n|k n|k n x|k x y|k ok|k b1 b2|k|k|k]; cbn [step].
  - (* OptNew *) destruct a as [os mk nm og om gs]. cbn in *. injection He as <-. eexists. split; [reflexivity|].
    split; [exact HI0|]. cbn. rewrite HO. auto.
  - destruct a as [os mk nm og om gs]. unfold effect in He. destruct (a_opt _ o) as [x|] eqn:Eo; [|discriminate].
    injection He as <-. rewrite (sim_opt _ _ _ _ HS Eo). cbn. eexists. split; [reflexivity|].
    split; [exact HI0|]. cbn in *. rewrite HO. repeat split; auto.
  - destruct a as [os mk nm og om gs]. unfold effect in He. destruct (a_opt _ o) as [x|] eqn:Eo; [|discriminate].
    injection He as <-. rewrite (sim_opt _ _ _ _ HS Eo). cbn. eexists. split; [reflexivity|].
    split; [exact HI0|]. cbn in *. rewrite HO. repeat split; auto.
  - (* MeshNew *) destruct a as [os mk nm og om gs]. cbn in *. injection He as <-. eexists. split; [reflexivity|].
    pose proof (mesh_new_HI _ _ _ _ HI0) as Q. split; [|cbn; rewrite app_length; cbn; repeat split; auto; lia].
    apply HI_ext with (3 := Q); [reflexivity|]. cbn. intros i. rewrite HL, cnt_app, cnt_single. unfold inc.
    rewrite (Nat.eqb_sym nm i). destruct (i =? nm)%nat; lia.
  - (* MeshDestroy *) destruct a as [os mk nm og om gs]. cbn in *. destruct (Z.ltb_spec 0 (cnt om m)) as [P|]; [|discriminate].
    injection He as <-. destruct (mesh_destroy_HI _ _ _ _ m HI0 P) as (s1 & F1 & F2 & F3 & F4).
    exists s1. split; [exact F1|]. split; [|cbn; rewrite (len_mdestroy _ _ _ F1), F3, F4; auto].
    apply HI_ext with (3 := F2); [reflexivity|]. cbn. intros i. rewrite (cnt_drop m om i P). unfold inc.
    rewrite (Nat.eqb_sym m i). destruct (i =? m)%nat; lia.
  - (* GeomNew *) destruct (a_opt a o) as [x|] eqn:Eo.
    2:{ destruct a as [os mk nm og om gs]. unfold effect in He. rewrite Eo in He. discriminate. }
    rewrite (sim_opt _ _ _ _ HS Eo). cbn [bind].
    assert (Hok : (match sh with Mesh m => 0 <? refs_m a m | _ => true end) = true /\
      a' = mkAst (a_opts a) (made a ++ [(x, sh)]) (n_mesh a) (own_g a ++ [length (made a)]) (own_m a) (a_graphs a)).
    { destruct a as [os mk nm og om gs]. unfold effect in He. rewrite Eo in He.
      destruct (match sh with Mesh m => _ | _ => _ end); [|discriminate]. injection He as <-. now split. }
    destruct Hok as [Hok ->].
    assert (RG' : forall i, cnt (refs_g (mkAst (a_opts a) (made a ++ [(x, sh)]) (n_mesh a) (own_g a ++ [length (made a)]) (own_m a) (a_graphs a))) i
              = inc (cnt (refs_g a)) (length (made a)) 1 i).
    { intros i. rewrite refs_g_eq. cbn. rewrite cnt_app, cnt_single. unfold inc. rewrite RG.
      rewrite (Nat.eqb_sym (length (made a)) i). destruct (i =? _)%nat; lia. }
    pose proof HI0 as ((_ & _ & HZ & _) & _).
    destruct (geom_new_HI s (made a) (cnt (refs_g a)) (cnt (own_m a)) x sh HI0) as (s1 & F1 & F2 & F3 & F4).
    { intros m ->. rewrite <- RM. apply Z.ltb_lt in Hok. split; [exact Hok|].
      specialize (Sm m). rewrite refs_m_eq in Sm. cbn [made own_m] in Sm.
      rewrite (mrefs_ext _ _ _ _ (cnt (own_m a)) RG' (fun _ => eq_refl)) in Sm.
      unfold mrefs in Sm. rewrite shownF_app in Sm. cbn [shownF] in Sm.
      rewrite (shownF_pos (made a) 0 _ (cnt (refs_g a))) in Sm.
      2:{ intros j Hj. unfold inc. destruct (Nat.eqb_spec j (length (made a))); [lia|tauto]. }
      unfold inc in Sm at 1. rewrite Nat.add_0_l, Nat.eqb_refl, (HZ (length (made a))) in Sm by lia.
      unfold uses in Sm. cbn [snd] in Sm. rewrite Nat.eqb_refl in Sm. change (0 <? 0 + 1) with true in Sm.
      cbn [andb] in Sm. rewrite RM. unfold mrefs. lia. }
    rewrite F1. cbn. exists s1. split; [reflexivity|].
    split; [|cbn; rewrite (len_new _ _ _ _ _ F1), F3, F4; auto].
    apply HI_ext with (3 := F2); [|reflexivity]. intros i. now rewrite RG'.
  - (* GeomCopy *)
    assert (Hok : 0 < cnt (refs_g a) g /\ a' = mkAst (a_opts a) (made a) (n_mesh a) (own_g a ++ [g]) (own_m a) (a_graphs a)).
    { destruct a as [os mk nm og om gs]. unfold effect in He. destruct (Z.ltb_spec 0 (cnt (refs_g (mkAst os mk nm og om gs)) g)); [|discriminate].
      injection He as <-. now split. }
    destruct Hok as [P ->].
    assert (RG' : forall i, cnt (refs_g (mkAst (a_opts a) (made a) (n_mesh a) (own_g a ++ [g]) (own_m a) (a_graphs a))) i
              = inc (cnt (refs_g a)) g 1 i).
    { intros i. rewrite refs_g_eq. cbn. rewrite cnt_app, cnt_single. unfold inc. rewrite RG.
      rewrite (Nat.eqb_sym g i). destruct (i =? _)%nat; lia. }
    destruct (geom_copy_HI _ _ _ _ g HI0 P) as (s1 & F1 & F2 & F3 & F4).
    { specialize (Sg g). rewrite RG' in Sg. unfold inc in Sg. rewrite Nat.eqb_refl in Sg. exact Sg. }
    exists s1. split; [exact F1|]. split; [|cbn; rewrite (len_copy _ _ _ F1), F3, F4; auto].
    apply HI_ext with (3 := F2); [|reflexivity]. intros i. now rewrite RG'.
  - (* GeomModify *)
    destruct (a_opt a o) as [x|] eqn:Eo.
    2:{ destruct a as [os mk nm og om gs]. unfold effect in He. rewrite Eo in He. discriminate. }
    rewrite (sim_opt _ _ _ _ HS Eo). cbn [bind].
    destruct (nth_error (made a) g) as [[x0 sh]|] eqn:Em.
    2:{ destruct a as [os mk nm og om gs]. unfold effect in He. rewrite Eo in He. cbn in Em. rewrite Em in He. discriminate. }
    assert (Hok : 0 < cnt (refs_g a) g /\
      a' = mkAst (a_opts a) (made a ++ [(x, sh)]) (n_mesh a) (own_g a ++ [length (made a)]) (own_m a) (a_graphs a)).
    { destruct a as [os mk nm og om gs]. unfold effect in He. rewrite Eo in He. cbn in Em. rewrite Em in He.
      destruct (Z.ltb_spec 0 (cnt (refs_g (mkAst os mk nm og om gs)) g)); [|discriminate]. injection He as <-. now split. }
    destruct Hok as [P ->].
    assert (RG' : forall i, cnt (refs_g (mkAst (a_opts a) (made a ++ [(x, sh)]) (n_mesh a) (own_g a ++ [length (made a)]) (own_m a) (a_graphs a))) i
              = inc (cnt (refs_g a)) (length (made a)) 1 i).
    { intros i. rewrite refs_g_eq. cbn. rewrite cnt_app, cnt_single. unfold inc. rewrite RG.
      rewrite (Nat.eqb_sym (length (made a)) i). destruct (i =? _)%nat; lia. }
    pose proof HI0 as ((_ & _ & HZ & _) & _).
    destruct (geom_at_ok _ _ _ _ _ HI0 P) as (c & p & E1 & _ & E3 & _ & E5 & _).
    rewrite Em in E3. injection E3 as <-. cbn in E5. unfold geom_modify. rewrite E1. cbn [bind]. rewrite E5.
    destruct (geom_new_HI s (made a) (cnt (refs_g a)) (cnt (own_m a)) x sh HI0) as (s1 & F1 & F2 & F3 & F4).
    { intros m ->. split.
      { unfold mrefs. pose proof (shownF_ge (made a) 0 (cnt (refs_g a)) m g _ Em) as Q.
        unfold uses in Q. cbn [snd] in Q. rewrite Nat.eqb_refl in Q. specialize (Q eq_refl P). specialize (ON m). lia. }
      specialize (Sm m). rewrite refs_m_eq in Sm. cbn [made own_m] in Sm.
      rewrite (mrefs_ext _ _ _ _ (cnt (own_m a)) RG' (fun _ => eq_refl)) in Sm.
      unfold mrefs in Sm. rewrite shownF_app in Sm. cbn [shownF] in Sm.
      rewrite (shownF_pos (made a) 0 _ (cnt (refs_g a))) in Sm.
      2:{ intros j Hj. unfold inc. destruct (Nat.eqb_spec j (length (made a))); [lia|tauto]. }
      unfold inc in Sm at 1. rewrite Nat.add_0_l, Nat.eqb_refl, (HZ (length (made a))) in Sm by lia.
      unfold uses in Sm. cbn [snd] in Sm. rewrite Nat.eqb_refl in Sm. change (0 <? 0 + 1) with true in Sm.
      cbn [andb] in Sm. unfold mrefs. lia. }
    rewrite F1. cbn. exists s1. split; [reflexivity|].
    split; [|cbn; rewrite (len_new _ _ _ _ _ F1), F3, F4; auto].
    apply HI_ext with (3 := F2); [|reflexivity]. intros i. now rewrite RG'.
  - (* GeomDestroy *)
    assert (Hok : 0 < cnt (own_g a) g /\ a' = mkAst (a_opts a) (made a) (n_mesh a) (drop g (own_g a)) (own_m a) (a_graphs a)).
    { destruct a as [os mk nm og om gs]. unfold effect in He. destruct (Z.ltb_spec 0 (cnt og g)); [|discriminate].
      injection He as <-. now split. }
    destruct Hok as [P ->].
    destruct (geom_destroy_HI _ _ _ _ g HI0 ON) as (s1 & F1 & F2 & F3 & F4).
    { rewrite RG. pose proof (cnt_nonneg (gtotal (a_graphs a)) g). lia. }
    exists s1. split; [exact F1|]. split; [|cbn; rewrite (len_destroy _ _ _ F1), F3, F4; auto].
    apply HI_ext with (3 := F2); [|reflexivity]. intros i. rewrite refs_g_eq. cbn. rewrite (cnt_drop g _ i P).
    unfold inc. rewrite RG, (Nat.eqb_sym g i). destruct (i =? g)%nat; lia.
  - (* SgNew *) destruct a as [os mk nm og om gs]. cbn in *. injection He as <-. eexists. split; [reflexivity|].
    split; [|split; [exact HL|split; [exact HO|split]]]; cbn.
    + apply HI_ext with (3 := HI0); [|reflexivity]. intros i. rewrite !refs_g_eq. cbn.
      rewrite cnt_gtotal_app. cbn. rewrite cnt_nil. lia.
    + rewrite map_app, HA. reflexivity.
    + apply Forall_app. split; [exact HU|]. repeat constructor.
  - (* AddFrame *)
    destruct (a_graph a k) as [ag|] eqn:Ek.
    2:{ destruct a as [os mk nm og om gs]. unfold effect in He. rewrite Ek in He. discriminate. }
    destruct (sim_graph _ _ _ _ HS Ek) as (g & K1 & K2 & K3 & K4 & K5 & K6).
    unfold add_frame. rewrite K1. cbn [bind].
    pose proof (fun i => cnt_gtotal_le (a_graphs a) k (Some ag) i K3) as LE.
    assert (D : exists s1, match find n (fr g) with Some l => destroy_all s l | None => Ok s end = Ok s1 /\
       HI s1 (made a) (incs (cnt (refs_g a)) (at_frame n (fr g)) (-1)) (cnt (own_m a)) /\ same_rest s s1 /\
       length (meshes s1) = length (meshes s)).
    { unfold at_frame. pose proof (cnt_at_le (fr g) n) as CL. unfold at_frame in CL.
      destruct (find n (fr g)) as [l|].
      - destruct (destroy_all_HI l s _ _ _ HI0 ON) as (s1 & F1 & F2 & F3).
        { intros i. rewrite RG. specialize (CL i). specialize (LE i). cbn in LE. rewrite <- K4 in LE. fold (held (fr g)) in LE.
          pose proof (cnt_nonneg (own_g a) i). lia. }
        exists s1. split; [exact F1|]. split; [exact F2|]. split; [exact F3|]. now apply len_destroy_all with l.
      - exists s. split; [reflexivity|]. split; [|split; [apply same_rest_refl|reflexivity]].
        apply HI_ext with (3 := HI0); [|reflexivity]. intros i. unfold incs. rewrite cnt_nil. lia. }
    destruct D as (s1 & -> & F2 & F3 & F4). cbn [bind]. eexists. split; [reflexivity|].
    assert (a' = mkAst (a_opts a) (made a) (n_mesh a) (own_g a) (own_m a)
             (repl (a_graphs a) k (Some (mkA (store n [] (fr g)) (negb true))))) as ->.
    { rewrite (store_with _ _ _ K6), K4. destruct a as [os mk nm og om gs]. unfold effect in He. rewrite Ek in He. now injection He as <-. }
    apply (sim_put s a k ag g s1 (mkGraph (store n [] (fr g)) true (d_cl g) (d_gl g)) (own_g a) _ HS K3 K2 F2 F3 F4).
    + cbn. now apply store_nodup.
    + intros i. cbn. rewrite cnt_store, cnt_nil, <- K4. unfold incs. rewrite RG. lia.
  - (* RmFrame *)
    destruct (a_graph a k) as [ag|] eqn:Ek.
    2:{ destruct a as [os mk nm og om gs]. unfold effect in He. rewrite Ek in He. discriminate. }
    destruct (sim_graph _ _ _ _ HS Ek) as (g & K1 & K2 & K3 & K4 & K5 & K6).
    unfold rm_frame. rewrite K1. cbn [bind].
    pose proof (fun i => cnt_gtotal_le (a_graphs a) k (Some ag) i K3) as LE.
    assert (D : exists s1, match find n (fr g) with Some l => destroy_all s l | None => Ok s end = Ok s1 /\
       HI s1 (made a) (incs (cnt (refs_g a)) (at_frame n (fr g)) (-1)) (cnt (own_m a)) /\ same_rest s s1 /\
       length (meshes s1) = length (meshes s)).
    { unfold at_frame. pose proof (cnt_at_le (fr g) n) as CL. unfold at_frame in CL.
      destruct (find n (fr g)) as [l|].
      - destruct (destroy_all_HI l s _ _ _ HI0 ON) as (s1 & F1 & F2 & F3).
        { intros i. rewrite RG. specialize (CL i). specialize (LE i). cbn in LE. rewrite <- K4 in LE. fold (held (fr g)) in LE.
          pose proof (cnt_nonneg (own_g a) i). lia. }
        exists s1. split; [exact F1|]. split; [exact F2|]. split; [exact F3|]. now apply len_destroy_all with l.
      - exists s. split; [reflexivity|]. split; [|split; [apply same_rest_refl|reflexivity]].
        apply HI_ext with (3 := HI0); [|reflexivity]. intros i. unfold incs. rewrite cnt_nil. lia. }
    destruct D as (s1 & -> & F2 & F3 & F4). cbn [bind]. eexists. split; [reflexivity|].
    assert (a' = mkAst (a_opts a) (made a) (n_mesh a) (own_g a) (own_m a)
             (repl (a_graphs a) k (Some (mkA (erase n (fr g)) (negb true))))) as ->.
    { rewrite (erase_without _ _ K6), K4. destruct a as [os mk nm og om gs]. unfold effect in He. rewrite Ek in He. now injection He as <-. }
    apply (sim_put s a k ag g s1 (mkGraph (erase n (fr g)) true (d_cl g) (d_gl g)) (own_g a) _ HS K3 K2 F2 F3 F4).
    + cbn. now apply erase_nodup.
    + intros i. cbn. rewrite cnt_erase, <- K4. unfold incs. rewrite RG. lia.
  - (* Attach *)
    destruct (a_graph a k) as [ag|] eqn:Ek.
    2:{ destruct a as [os mk nm og om gs]. unfold effect in He. rewrite Ek in He. discriminate. }
    destruct (sim_graph _ _ _ _ HS Ek) as (g & K1 & K2 & K3 & K4 & K5 & K6).
    unfold attach. rewrite K1. cbn [bind].
    assert (Hok : known_frame (a_frames ag) n = true /\ 0 < cnt (own_g a) x /\
      a' = mkAst (a_opts a) (made a) (n_mesh a) (drop x (own_g a)) (own_m a)
             (repl (a_graphs a) k (Some (mkA (with_frame (a_frames ag) n (attached (a_frames ag) n ++ [x])) (a_indexed ag))))).
    { destruct a as [os mk nm og om gs]. unfold effect in He. rewrite Ek in He.
      destruct (known_frame (a_frames ag) n); [|discriminate]. cbn [andb] in He.
      destruct (Z.ltb_spec 0 (cnt og x)); [|discriminate]. injection He as <-. repeat split; auto. }
    destruct Hok as (N1 & N2 & ->). rewrite <- K4 in N1 |- *. rewrite known_find in N1.
    rewrite attached_find. destruct (find n (fr g)) as [l|] eqn:Ef; [|discriminate].
    eexists. split; [reflexivity|]. rewrite <- (store_with _ _ _ K6), K5.
    apply (sim_put s a k ag g s (mkGraph (store n (l ++ [x]) (fr g)) (d_ind g) true true) (drop x (own_g a)) (cnt (refs_g a)) HS K3 K2 HI0 (same_rest_refl s) eq_refl).
    + cbn. now apply store_nodup.
    + intros i. cbn. rewrite cnt_store, <- K4. unfold at_frame. rewrite Ef, cnt_app, cnt_single, RG, (cnt_drop x _ i N2). lia.
  - (* CopyFrameGeom *)
    destruct (a_graph a k) as [ag|] eqn:Ek.
    2:{ destruct a as [os mk nm og om gs]. unfold effect in He. rewrite Ek in He. discriminate. }
    destruct (sim_graph _ _ _ _ HS Ek) as (g & K1 & K2 & K3 & K4 & K5 & K6).
    unfold copy_frame_geom. rewrite K1. cbn [bind].
    assert (Hok : known_frame (a_frames ag) x = true /\ known_frame (a_frames ag) y = true /\ (x =? y)%nat = false /\
      a' = mkAst (a_opts a) (made a) (n_mesh a) (own_g a) (own_m a)
             (repl (a_graphs a) k (Some (mkA (with_frame (a_frames ag) y (attached (a_frames ag) y ++ attached (a_frames ag) x)) (a_indexed ag))))).
    { destruct a as [os mk nm og om gs]. unfold effect in He. rewrite Ek in He.
      destruct (known_frame (a_frames ag) x); [|discriminate]. destruct (known_frame (a_frames ag) y); [|discriminate].
      destruct (x =? y)%nat; [discriminate|]. cbn [andb negb] in He. injection He as <-. repeat split; auto. }
    destruct Hok as (N1 & N2 & N3 & ->). rewrite <- K4 in N1, N2, Sg |- *. rewrite known_find in N1, N2.
    rewrite !attached_find in *. destruct (find x (fr g)) as [lx|] eqn:Ex; [|discriminate].
    destruct (find y (fr g)) as [ly|] eqn:Ey; [|discriminate]. rewrite <- (store_with _ _ _ K6), K5 in *.
    pose proof (cnt_at_le (fr g) x) as CL. unfold at_frame in CL. rewrite Ex in CL.
    pose proof (fun i => cnt_gtotal_le (a_graphs a) k (Some ag) i K3) as LE. cbn in LE. rewrite <- K4 in LE. fold (held (fr g)) in LE.
    assert (GX : forall i, cnt (refs_g a) i + cnt lx i = cnt (own_g a) i + (cnt (gtotal (a_graphs a)) i - cnt (held (a_frames ag)) i + cnt (held (store y (ly ++ lx) (fr g))) i)).
    { intros i. rewrite cnt_store, <- K4. unfold at_frame. rewrite Ey, cnt_app, RG. lia. }
    destruct lx as [|x0 lx'].
    + eexists. split; [reflexivity|].
      assert (ES : store y (ly ++ []) (fr g) = fr g).
      { rewrite app_nil_r. revert Ey. clear. induction (fr g) as [|[k v] r IH]; cbn; [discriminate|].
        destruct (Nat.eqb_spec k y); [intros Q; injection Q as ->; reflexivity|]. intros Q. now rewrite IH. }
      rewrite ES in *.
      apply (sim_put s a k ag g s (mkGraph (fr g) (d_ind g) true true) (own_g a) (cnt (refs_g a)) HS K3 K2 HI0 (same_rest_refl s) eq_refl).
      * exact K6.
      * intros i. cbn. rewrite <- GX, cnt_nil. lia.
    + rewrite N3. destruct (copy_all_HI (x0 :: lx') s _ _ _ HI0) as (s1 & F1 & F2 & F3).
      { intros i P. rewrite RG. specialize (CL i). specialize (LE i). pose proof (cnt_nonneg (own_g a) i). lia. }
      { intros i. rewrite GX. specialize (Sg i). rewrite refs_g_eq in Sg. cbn [own_g a_graphs] in Sg.
        rewrite repl_upd, (cnt_gtotal_upd _ _ _ _ _ K3) in Sg. cbn [geoms_of a_frames] in Sg. exact Sg. }
      rewrite F1. cbn [bind]. eexists. split; [reflexivity|].
      apply (sim_put s a k ag g s1 (mkGraph (store y (ly ++ x0 :: lx') (fr g)) (d_ind g) true true) (own_g a) _ HS K3 K2 F2 F3 (len_copy_all _ _ _ F1)).
      * cbn. now apply store_nodup.
      * intros i. cbn [fr]. rewrite <- GX. unfold incs. lia.
  - (* SgInit *)
    destruct (a_graph a k) as [ag|] eqn:Ek.
    2:{ destruct a as [os mk nm og om gs]. unfold effect in He. rewrite Ek in He. discriminate. }
    destruct (sim_graph _ _ _ _ HS Ek) as (g & K1 & K2 & K3 & K4 & K5 & K6).
    unfold sg_init. rewrite K1. cbn [bind].
    assert (a' = mkAst (a_opts a) (made a) (n_mesh a) (own_g a) (own_m a)
             (repl (a_graphs a) k (Some (mkA (fr g) (a_indexed ag || ok))))) as ->.
    { rewrite K4. destruct a as [os mk nm og om gs]. unfold effect in He. rewrite Ek in He. now injection He as <-. }
    eexists. split; [reflexivity|]. rewrite K5.
    assert (S0 : forall d, Sim (put s k (mkGraph (fr g) d (d_cl g) (d_gl g))) (mkAst (a_opts a) (made a) (n_mesh a) (own_g a) (own_m a)
             (repl (a_graphs a) k (Some (mkA (fr g) (negb d)))))).
    { intros d. apply (sim_put s a k ag g s (mkGraph (fr g) d (d_cl g) (d_gl g)) (own_g a) (cnt (refs_g a)) HS K3 K2 HI0 (same_rest_refl s) eq_refl).
      - exact K6.
      - intros i. cbn. rewrite RG, <- K4. lia. }
    destruct (d_ind g) eqn:Ed, ok; cbn [negb andb orb].
    + apply (S0 false).
    + assert (PS : forall (l : list (option graph)) (gg : option graph) kk, nth_error l kk = Some gg -> upd l kk gg = l).
      { clear. induction l as [|y r IH]; intros gg [|kk] H; cbn in *; try discriminate; [now injection H as ->|now rewrite IH]. }
      specialize (S0 true). unfold put in S0. rewrite <- Ed in S0 at 1. destruct g as [f1 d1 c1 l1]. cbn in *.
      rewrite (PS _ _ _ K2) in S0. destruct s. exact S0.
    + apply (S0 false).
    + apply (S0 false).
  - (* SgCopy *)
    destruct (a_graph a k) as [ag|] eqn:Ek.
    2:{ destruct a as [os mk nm og om gs]. unfold effect in He. rewrite Ek in He. discriminate. }
    destruct (sim_graph _ _ _ _ HS Ek) as (g & K1 & K2 & K3 & K4 & K5 & K6).
    unfold sg_copy. rewrite K1. cbn [bind].
    assert (Hok : a_indexed ag = true /\ a' = mkAst (a_opts a) (made a) (n_mesh a) (own_g a) (own_m a) (a_graphs a ++ [Some ag])).
    { destruct a as [os mk nm og om gs]. unfold effect in He. rewrite Ek in He. destruct (a_indexed ag); [|discriminate]. now injection He as <-. }
    destruct Hok as [N1 ->]. rewrite K5 in N1. apply negb_true_iff in N1. rewrite N1.
    pose proof (fun i => cnt_gtotal_le (a_graphs a) k (Some ag) i K3) as LE. cbn in LE. rewrite <- K4 in LE. fold (held (fr g)) in LE.
    assert (GX : forall i, cnt (refs_g (mkAst (a_opts a) (made a) (n_mesh a) (own_g a) (own_m a) (a_graphs a ++ [Some ag]))) i
               = cnt (refs_g a) i + cnt (held (fr g)) i).
    { intros i. rewrite !refs_g_eq. cbn. rewrite cnt_gtotal_app. cbn. rewrite <- K4. unfold held. lia. }
    destruct (copy_all_HI (held (fr g)) s _ _ _ HI0) as (s1 & F1 & F2 & F3 & F4).
    { intros i P. rewrite RG. specialize (LE i). pose proof (cnt_nonneg (own_g a) i). lia. }
    { intros i. rewrite <- GX. apply Sg. }
    rewrite F1. cbn [bind]. eexists. split; [reflexivity|].
    split; [|split; [|split; [|split]]]; cbn.
    + apply HI_ext with (3 := F2); [|reflexivity]. intros i. rewrite GX. unfold incs. lia.
    + rewrite (len_copy_all _ _ _ F1). exact HL.
    + rewrite F3. exact HO.
    + rewrite F4, map_app, HA. cbn. rewrite K4. destruct ag as [af ai]. cbn in *. rewrite K5, N1. reflexivity.
    + rewrite F4. apply Forall_app. split; [exact HU|]. constructor; [exact K6|constructor].
  - (* SgDestroy *)
    destruct (a_graph a k) as [ag|] eqn:Ek.
    2:{ destruct a as [os mk nm og om gs]. unfold effect in He. rewrite Ek in He. discriminate. }
    destruct (sim_graph _ _ _ _ HS Ek) as (g & K1 & K2 & K3 & K4 & K5 & K6).
    unfold sg_destroy. rewrite K1. cbn [bind].
    assert (a' = mkAst (a_opts a) (made a) (n_mesh a) (own_g a) (own_m a) (repl (a_graphs a) k None)) as ->.
    { destruct a as [os mk nm og om gs]. unfold effect in He. rewrite Ek in He. now injection He as <-. }
    pose proof (fun i => cnt_gtotal_le (a_graphs a) k (Some ag) i K3) as LE. cbn in LE. rewrite <- K4 in LE. fold (held (fr g)) in LE.
    destruct (destroy_all_HI (held (fr g)) s _ _ _ HI0 ON) as (s1 & F1 & F2 & F3 & F4).
    { intros i. rewrite RG. specialize (LE i). pose proof (cnt_nonneg (own_g a) i). lia. }
    rewrite F1. cbn [bind]. eexists. split; [reflexivity|].
    split; [|split; [|split; [|split]]]; cbn.
    + apply HI_ext with (3 := F2); [|reflexivity]. intros i. rewrite refs_g_eq. cbn.
      rewrite repl_upd, (cnt_gtotal_upd _ _ _ _ _ K3). unfold incs. rewrite RG. cbn. rewrite <- K4, cnt_nil. unfold held. lia.
    + rewrite (len_destroy_all _ _ _ F1). exact HL.
    + rewrite F3. exact HO.
    + rewrite F4, map_upd, HA. reflexivity.
    + rewrite F4. apply Forall_upd; [exact HU|exact I].
  - (* ClInit *)
    destruct (a_graph a k) as [ag|] eqn:Ek.
    2:{ destruct a as [os mk nm og om gs]. unfold effect in He. rewrite Ek in He. discriminate. }
    destruct (sim_graph _ _ _ _ HS Ek) as (g & K1 & K2 & K3 & K4 & K5 & K6).
    unfold cl_init. rewrite K1. cbn [bind].
    assert (Hok : a_indexed ag = true /\ a' = a).
    { destruct a as [os mk nm og om gs]. unfold effect in He. rewrite Ek in He. destruct (a_indexed ag); [|discriminate]. now injection He as <-. }
    destruct Hok as [N1 ->]. rewrite K5 in N1. apply negb_true_iff in N1. rewrite N1.
    destruct (negb (d_cl g)); [exists s; split; [reflexivity|exact HS]|].
    pose proof (fun i => cnt_gtotal_le (a_graphs a) k (Some ag) i K3) as LE. cbn in LE. rewrite <- K4 in LE. fold (held (fr g)) in LE.
    destruct (each_HI cl_one cl_one_HI (held (fr g)) s _ _ _ HI0 ON) as (s1 & F1 & F2 & F3).
    { intros i P. rewrite RG. specialize (LE i). pose proof (cnt_nonneg (own_g a) i). lia. }
    rewrite F1. cbn [bind]. eexists. split; [reflexivity|].
    destruct F3 as [F3 F4]. split; [|split; [|split; [|split]]]; cbn.
    + exact F2.
    + rewrite (len_each cl_one len_cl _ _ _ F1). exact HL.
    + rewrite F3. exact HO.
    + rewrite F4, map_upd, HA. cbn. rewrite K4. destruct ag as [af ai]. cbn in *.
      assert (PS : forall (l : list (option agraph)) (gg : option agraph) kk, nth_error l kk = Some gg -> upd l kk gg = l).
      { clear. induction l as [|y r IH]; intros gg [|kk] H; cbn in *; try discriminate; [now injection H as ->|now rewrite IH]. }
      rewrite N1 in K5. cbn in K5. rewrite K5 in K3. now rewrite (PS _ _ _ K3).
    + rewrite F4. apply Forall_upd; [exact HU|exact K6].
  - (* GlInit *)
    destruct (a_graph a k) as [ag|] eqn:Ek.
    2:{ destruct a as [os mk nm og om gs]. unfold effect in He. rewrite Ek in He. discriminate. }
    destruct (sim_graph _ _ _ _ HS Ek) as (g & K1 & K2 & K3 & K4 & K5 & K6).
    unfold gl_init. rewrite K1. cbn [bind].
    assert (Hok : a_indexed ag = true /\ a' = a).
    { destruct a as [os mk nm og om gs]. unfold effect in He. rewrite Ek in He. destruct (a_indexed ag); [|discriminate]. now injection He as <-. }
    destruct Hok as [N1 ->]. rewrite K5 in N1. apply negb_true_iff in N1. rewrite N1.
    destruct (negb (d_gl g)); [exists s; split; [reflexivity|exact HS]|].
    pose proof (fun i => cnt_gtotal_le (a_graphs a) k (Some ag) i K3) as LE. cbn in LE. rewrite <- K4 in LE. fold (held (fr g)) in LE.
    destruct (each_HI gl_one gl_one_HI (held (fr g)) s _ _ _ HI0 ON) as (s1 & F1 & F2 & F3).
    { intros i P. rewrite RG. specialize (LE i). pose proof (cnt_nonneg (own_g a) i). lia. }
    rewrite F1. cbn [bind]. eexists. split; [reflexivity|].
    destruct F3 as [F3 F4]. split; [|split; [|split; [|split]]]; cbn.
    + exact F2.
    + rewrite (len_each gl_one len_gl _ _ _ F1). exact HL.
    + rewrite F3. exact HO.
    + rewrite F4, map_upd, HA. cbn. rewrite K4. destruct ag as [af ai]. cbn in *.
      assert (PS : forall (l : list (option agraph)) (gg : option agraph) kk, nth_error l kk = Some gg -> upd l kk gg = l).
      { clear. induction l as [|y r IH]; intros gg [|kk] H; cbn in *; try discriminate; [now injection H as ->|now rewrite IH]. }
      rewrite N1 in K5. cbn in K5. rewrite K5 in K3. now rewrite (PS _ _ _ K3).
    + rewrite F4. apply Forall_upd; [exact HU|exact K6].
Qed.
