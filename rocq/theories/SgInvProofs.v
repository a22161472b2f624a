(** Invariants of scene graphs over all histories of calls. *)
From Coq Require Import ZArith String List Bool Reals Lia Sorted.
From Verif Require Import TfModel SgModel SgSpec SgMapProofs SgIndexProofs SgNumberProofs.
Import ListNotations.
Open Scope Z_scope.

Definition decl_of (f : frame) : decl :=
  mkDecl (f_type f) (f_parent f) (f_cfg f) (f_off f) (f_axis f) (TfModel.eq (f_E f)) (ev (f_E f)).
Definition lim_of (lm : smap (option limits)) (k : lkind) (c : string) : option (R * R) :=
  match ojoin (mfind c lm) with Some l => lget k l | None => None end.

Record indexed (s : sg) (l : list string) : Prop := {
  id_sort : sort_all (s_map s) (s_map s) [] [] = Ok l;
  id_closed : closed (s_map s);
  id_list : sorted_list (s_map s) l;
  id_self : forall n f, In n l -> mfind n (s_map s) = Some f -> f_parent f <> n;
  id_frames : s_frames s = map Some l ++ repeat None (length (s_map s) - length l);
  id_done : forall j n f, nth_error l j = Some n -> mfind n (s_map s) = Some f ->
     f_fid f = Some (Z.of_nat j) /\ f_pid f = Some (pid_of l j f) /\
     (is_joint (f_type f) = true ->
        exists c, index_of (f_cfg f) (s_crmap s) = Some c /\ f_cidx f = Some c);
  id_crmap : s_crmap s = cfg_list (s_map s) l;
  id_crnd : NoDup (s_crmap s);
  id_cmap : forall c, mfind c (s_cmap s) = index_of c (s_crmap s);
  id_limlen : length (s_limits s) = length (s_crmap s);
  id_lim : forall i c, nth_error (s_crmap s) i = Some c ->
     exists o, nth_error (s_limits s) i = Some o /\
       (o = None \/ o = Some c /\ ojoin (mfind c (s_lmap s)) <> None);
  id_csize : s_csize s = Some (length (s_crmap s)) \/ (s_csize s = None /\ s_map s = []) }.

Record inv (g : graph) (lim : lkind -> string -> option (R * R)) (s : sg) : Prop := {
  in_sorted : sorted (s_map s);
  in_names : names_ok (s_map s);
  in_decl : forall n, g n = option_map decl_of (mfind n (s_map s));
  in_lsorted : sorted (s_lmap s);
  in_lim : forall k c, lim k c = lim_of (s_lmap s) k c;
  in_addr : forall n f, mfind n (s_map s) = Some f -> (f_addr f < s_next s)%nat;
  in_addr_inj : forall n1 n2 f1 f2, mfind n1 (s_map s) = Some f1 -> mfind n2 (s_map s) = Some f2 ->
     f_addr f1 = f_addr f2 -> n1 = n2;
  in_idx : s_dirty s = false -> exists l, indexed s l }.

(** ** One call *)

Lemma parents_exist_closed m : sorted m -> (parents_exist m = true <-> closed m).
Proof.
  intros S. unfold parents_exist. rewrite forallb_forall. split.
  - intros H n f F. specialize (H (n, f) (mfind_in _ _ _ F)). cbn in H.
    apply orb_true_iff in H as [H|H].
    + left. now apply String.eqb_eq.
    + right. apply mhas_iff in H as [a H]. congruence.
  - intros H [n f] I. cbn. apply in_mfind in I; auto. apply orb_true_iff.
    destruct (H _ _ I) as [E|E].
    + left. unfold in_global. rewrite E. apply String.eqb_refl.
    + right. unfold mhas. now destruct (mfind (f_parent f) m).
Qed.

Lemma mfind_invalidate n m : mfind n (invalidate m) =
  option_map (fun f => set_pid (set_fid f (Some FRAME_NONE)) (Some FRAME_NONE)) (mfind n m).
Proof. exact (mfind_map (fun f => set_pid (set_fid f (Some FRAME_NONE)) (Some FRAME_NONE)) n m). Qed.
Lemma sorted_invalidate m : sorted m -> sorted (invalidate m).
Proof. exact (sorted_map (fun f => set_pid (set_fid f (Some FRAME_NONE)) (Some FRAME_NONE)) m). Qed.
Lemma skel_invalidate m : skel (invalidate m) = skel m.
Proof. unfold skel, invalidate. rewrite map_map. reflexivity. Qed.
Lemma closed_core m1 m2 : (forall n, option_map core (mfind n m1) = option_map core (mfind n m2)) ->
  closed m1 -> closed m2.
Proof.
  intros E C n f F. pose proof (E n) as En. rewrite F in En.
  destruct (mfind n m1) as [f1|] eqn:F1; [|discriminate]. apply some_inj in En.
  apply core_eq in En as (_ & _ & Ep & _). rewrite <- Ep.
  destruct (C _ _ F1) as [|X]; auto. right. intros Y. apply X.
  specialize (E (f_parent f1)). rewrite Y in E. now destruct (mfind (f_parent f1) m1).
Qed.
Lemma names_core m1 m2 : (forall n, option_map core (mfind n m1) = option_map core (mfind n m2)) ->
  names_ok m1 -> names_ok m2.
Proof.
  intros E C n f F. pose proof (E n) as En. rewrite F in En.
  destruct (mfind n m1) as [f1|] eqn:F1; [|discriminate]. apply some_inj in En.
  apply core_eq in En as (_ & Ep & _). rewrite <- Ep. now apply C.
Qed.
Lemma sorted_skel m : sorted m -> sorted (skel m).
Proof. exact (sorted_map (fun f => (f_name f, f_parent f)) m). Qed.
Lemma mfind_skel k m : mfind k (skel m) = option_map (fun f => (f_name f, f_parent f)) (mfind k m).
Proof. exact (mfind_map (fun f => (f_name f, f_parent f)) k m). Qed.
Lemma skel_core m1 m2 : sorted m1 -> sorted m2 ->
  (forall n, option_map core (mfind n m1) = option_map core (mfind n m2)) -> skel m1 = skel m2.
Proof.
  intros S1 S2 E. apply sorted_ext; try now apply sorted_skel.
  intros k. rewrite !mfind_skel. specialize (E k).
  destruct (mfind k m1) as [f1|], (mfind k m2) as [f2|]; try discriminate; auto.
  apply some_inj in E. apply core_eq in E as (_ & En & Ep & _). cbn. now rewrite En, Ep.
Qed.
Lemma sorted_list_core m1 m2 l :
  (forall n, option_map core (mfind n m1) = option_map core (mfind n m2)) ->
  sorted_list m1 l -> sorted_list m2 l.
Proof.
  intros E [D H]. split; auto. intros n. rewrite H. specialize (E n).
  destruct (mfind n m1), (mfind n m2); try discriminate; intuition congruence.
Qed.
Lemma add_cfg_core m1 m2 acc n :
  (forall n, option_map core (mfind n m1) = option_map core (mfind n m2)) ->
  add_cfg m1 acc n = add_cfg m2 acc n.
Proof.
  intros E. unfold add_cfg. specialize (E n). destruct (mfind n m1), (mfind n m2); try discriminate; auto.
  apply some_inj in E. apply core_eq in E as (Et & _ & _ & Ec & _). now rewrite Et, Ec.
Qed.
Lemma cfg_list_core m1 m2 l :
  (forall n, option_map core (mfind n m1) = option_map core (mfind n m2)) ->
  cfg_list m1 l = cfg_list m2 l.
Proof.
  intros E. unfold cfg_list. generalize (@nil string). induction l as [|n r IH]; intros acc; cbn; auto.
  rewrite IH. f_equal. now apply add_cfg_core.
Qed.
Lemma core_len m1 m2 : sorted m1 -> sorted m2 ->
  (forall n, option_map core (mfind n m1) = option_map core (mfind n m2)) -> length m1 = length m2.
Proof.
  intros S1 S2 E. pose proof (skel_core m1 m2 S1 S2 E) as H.
  apply (f_equal (@length _)) in H. unfold skel in H. now rewrite !map_length in H.
Qed.

Lemma index_step_self m0 lm0 l1 x n f : ix_inv m0 lm0 l1 x ->
  mfind n m0 = Some f -> f_parent f = n -> n <> ""%string ->
  index_step (length l1) n x = Abort.
Proof.
  intros I F P Ne. pose proof (iv_find _ _ _ _ I n) as En. rewrite F in En.
  destruct (mfind n (ix_map x)) as [f0|] eqn:F0; [|discriminate].
  apply some_inj in En. apply core_eq in En as (_ & _ & Ep & _).
  unfold index_step. rewrite F0. cbn [from bind].
  assert (G : in_global (set_fid f0 (Some (Z.of_nat (length l1)))) = false).
  { unfold in_global. apply String.eqb_neq. change (f_parent f0 <> ""%string). congruence. }
  rewrite G. change (f_parent (set_fid f0 (Some (Z.of_nat (length l1))))) with (f_parent f0).
  rewrite Ep, P, mfind_mset_same. cbn [from bind]. change (f_fid (set_fid f0 (Some (Z.of_nat (length l1))))) with (Some (Z.of_nat (length l1))). cbn [from bind].
  rewrite Z.ltb_irrefl. reflexivity.
Qed.

Definition self_in (m : smap frame) (l : list string) : Prop :=
  exists n f, In n l /\ mfind n m = Some f /\ f_parent f = n.
Lemma self_dec m l : self_in m l \/ forall n f, In n l -> mfind n m = Some f -> f_parent f <> n.
Proof.
  induction l as [|x r IH]; [right; intros n f []|].
  destruct IH as [[n [f [I [F P]]]]|IH]; [left; exists n, f; split; [now right|auto]|].
  destruct (mfind x m) as [f|] eqn:F.
  - destruct (String.string_dec (f_parent f) x) as [E|N].
    + left. exists x, f. split; [now left|auto].
    + right. intros n g [<-|I] G; [congruence|eauto].
  - right. intros n g [<-|I] G; [congruence|eauto].
Qed.
Lemma index_loop_self m0 lm0 : closed m0 -> sorted m0 ->
  forall l2 l1 x, ix_inv m0 lm0 l1 x -> NoDup (l1 ++ l2) -> ~ In ""%string (l1 ++ l2) ->
  (forall n, In n l2 -> mfind n m0 <> None) -> self_in m0 l2 ->
  index_loop (length l1) l2 x = Abort.
Proof.
  intros Cl Sm l2. induction l2 as [|n r IH]; intros l1 x I D E F Sf.
  { destruct Sf as (n & f & [] & _). }
  cbn [index_loop].
  assert (Nn : n <> ""%string). { intros ->. apply E, in_or_app. right. now left. }
  destruct (mfind n m0) as [f|] eqn:Fn; [|exfalso; apply (F n); [now left|auto]].
  destruct (String.string_dec (f_parent f) n) as [P|P].
  { now rewrite (index_step_self m0 lm0 l1 x n f I Fn P Nn). }
  destruct (index_step_ok m0 lm0 l1 x n I) as (x1 & E1 & I1); auto; try congruence.
  - intros X. apply NoDup_remove_2 in D. apply D, in_or_app. auto.
  - rewrite E1. cbn [bind].
    replace (S (length l1)) with (length (l1 ++ [n])) by (rewrite app_length; cbn; lia).
    apply IH; auto; try (rewrite <- app_assoc; auto; fail).
    + intros k K. apply F. now right.
    + destruct Sf as (k & g & [<-|K] & G & Q); [congruence|]. exists k, g. auto.
Qed.

(** aa_rx_sg_init on a dirty graph *)
Lemma init_ok g lim s : inv g lim s -> s_dirty s = true ->
  (~ closed (s_map s) /\ sg_init s = Ok (INVALID_FRAME, s)) \/
  (closed (s_map s) /\
   exists l, sort_all (s_map s) (s_map s) [] [] = Ok l /\ sorted_list (s_map s) l /\
   ((self_in (s_map s) l /\ sg_init s = Abort) \/
    ((forall n f, In n l -> mfind n (s_map s) = Some f -> f_parent f <> n) /\
     exists s', sg_init s = Ok (0, s') /\ s_dirty s' = false /\ indexed s' l /\
      s_csize s' = Some (length (s_crmap s')) /\
      s_limits s' = map (fun c => lptr c (s_lmap s)) (s_crmap s') /\
      sorted (s_map s') /\ (forall n, option_map core (mfind n (s_map s')) = option_map core (mfind n (s_map s))) /\
      (forall c, ojoin (mfind c (s_lmap s')) = ojoin (mfind c (s_lmap s))) /\ sorted (s_lmap s') /\
      s_allowed s' = s_allowed s /\ s_next s' = s_next s))).
Proof.
  intros I D. pose proof (in_sorted _ _ _ I) as Sm.
  unfold sg_init. rewrite D. cbn [negb].
  destruct (parents_exist (s_map s)) eqn:PE.
  2:{ left. split; auto. rewrite <- (parents_exist_closed _ Sm). congruence. }
  right. cbn [negb]. apply parents_exist_closed in PE; auto. split; auto.
  set (m := invalidate (s_map s)).
  assert (Co : forall n, option_map core (mfind n m) = option_map core (mfind n (s_map s))).
  { intros n. unfold m. rewrite mfind_invalidate. now destruct (mfind n (s_map s)). }
  assert (Co' : forall n, option_map core (mfind n (s_map s)) = option_map core (mfind n m)) by auto.
  assert (Sm' : sorted m) by now apply sorted_invalidate.
  assert (Cl' : closed m) by (eapply closed_core; eauto).
  destruct (sort_ok (s_map s) Sm PE (in_names _ _ _ I)) as (l & El & Sl).
  exists l. split; auto. split; auto.
  rewrite (sort_all_skel m (s_map s)) by apply skel_invalidate. rewrite El. cbn [bind].
  destruct Sl as [Dl Hl].
  assert (I0 : ix_inv m (s_lmap s) [] (mkIX m (s_lmap s) [] [] [])).
  { constructor; cbn; auto.
    - intros [|j] n f; discriminate.
    - intros n f _ F. unfold m in F. rewrite mfind_invalidate in F.
      destruct (mfind n (s_map s)); [|discriminate]. apply some_inj in F. now subst f.
    - constructor.
    - apply (in_lsorted _ _ _ I). }
  assert (E0 : ~ In ""%string ([] ++ l)). { cbn. rewrite Hl. tauto. }
  assert (Fm : forall n, In n l -> mfind n m <> None).
  { intros n X. apply Hl in X as [_ X]. specialize (Co n).
    destruct (mfind n m); [discriminate|]. destruct (mfind n (s_map s)); [discriminate|congruence]. }
  destruct (self_dec (s_map s) l) as [Sf|Ns]; [left|right].
  - split; auto.
    change 0%nat with (length (@nil string)).
    rewrite (index_loop_self m (s_lmap s) Cl' Sm' l [] _ I0); auto.
    destruct Sf as (n & f & J & F & P). specialize (Co n). rewrite F in Co.
    destruct (mfind n m) as [fm|] eqn:Fmn; [|discriminate]. apply some_inj in Co.
    apply core_eq in Co as (_ & _ & Ep & _). exists n, fm. repeat split; auto. congruence.
  - split; auto.
    assert (Ns' : forall n f, In n l -> mfind n m = Some f -> f_parent f <> n).
    { intros n f J F. specialize (Co n). rewrite F in Co.
      destruct (mfind n (s_map s)) as [fm|] eqn:Fmn; [|discriminate]. apply some_inj in Co.
      apply core_eq in Co as (_ & _ & Ep & _). rewrite Ep. eauto. }
    destruct (index_loop_ok m (s_lmap s) Cl' Sm' l [] _ I0) as (x & Ex & Ix); auto.
    cbn [length app] in *. rewrite Ex. cbn [bind]. eexists. split; [reflexivity|].
    cbn [s_dirty s_limits s_crmap s_map s_lmap s_allowed s_next s_csize].
    assert (CoX : forall n, option_map core (mfind n (ix_map x)) = option_map core (mfind n (s_map s))).
    { intros n. rewrite (iv_find _ _ _ _ Ix). auto. }
    assert (CoX' : forall n, option_map core (mfind n (s_map s)) = option_map core (mfind n (ix_map x))) by auto.
    pose proof (iv_sorted _ _ _ _ Ix) as Sx.
    split; [reflexivity|]. split; [|repeat split].
    + constructor; cbn [s_dirty s_limits s_crmap s_map s_lmap s_allowed s_next s_csize s_frames s_cmap].
      * rewrite (sort_all_skel (ix_map x) (s_map s)); auto. apply skel_core; auto.
      * eapply closed_core; eauto.
      * eapply sorted_list_core; [|split; eauto]. auto.
      * intros n f J F. specialize (CoX n). rewrite F in CoX.
        destruct (mfind n (s_map s)) as [fm|] eqn:Fmn; [|discriminate]. apply some_inj in CoX.
        apply core_eq in CoX as (_ & _ & Ep & _). rewrite Ep. eauto.
      * f_equal. f_equal. f_equal. apply core_len; auto. intros n. now rewrite CoX, Co.
      * apply (iv_done _ _ _ _ Ix).
      * rewrite (iv_crmap _ _ _ _ Ix). apply cfg_list_core. intros n. now rewrite CoX, Co.
      * apply (iv_crnd _ _ _ _ Ix).
      * apply (iv_cmap _ _ _ _ Ix).
      * rewrite (iv_limits _ _ _ _ Ix). now rewrite map_length.
      * intros i c Hc. rewrite (iv_limits _ _ _ _ Ix), nth_error_map, Hc. cbn. eexists. split; [reflexivity|].
        rewrite lptr_join, (iv_lmap _ _ _ _ Ix). destruct (ojoin (mfind c (s_lmap s))); auto.
        right. split; auto. discriminate.
      * left. reflexivity.
    + apply (iv_limits _ _ _ _ Ix).
    + exact Sx.
    + auto.
    + apply (iv_lmap _ _ _ _ Ix).
    + apply (iv_lsorted _ _ _ _ Ix).
Qed.

(** Changes that keep names, kinds, parents, configuration names and ids keep the index. *)
Definition upd_ok (f f' : frame) : Prop :=
  f_type f' = f_type f /\ f_name f' = f_name f /\ f_parent f' = f_parent f /\ f_cfg f' = f_cfg f /\
  f_fid f' = f_fid f /\ f_pid f' = f_pid f /\ f_cidx f' = f_cidx f.

Lemma indexed_upd s l n f f' : sorted (s_map s) -> indexed s l -> mfind n (s_map s) = Some f -> upd_ok f f' ->
  indexed (with_map s (mset n f' (s_map s)) (s_dirty s)) l.
Proof.
  intros S I F (Ut & Un & Up & Uc & Ui & Upi & Uci).
  assert (FM : forall k, mfind k (mset n f' (s_map s)) = if String.eqb k n then Some f' else mfind k (s_map s))
    by (intros; apply mfind_mset).
  assert (SK : skel (mset n f' (s_map s)) = skel (s_map s)).
  { apply sorted_ext; try apply sorted_skel; auto; [now apply sorted_mset|].
    intros k. rewrite !mfind_skel, FM.
    destruct (String.eqb_spec k n) as [->|]; auto. rewrite F. cbn. now rewrite Un, Up. }
  assert (LN : length (mset n f' (s_map s)) = length (s_map s)) by (eapply mset_same_len; eauto).
  assert (GET : forall k g', mfind k (mset n f' (s_map s)) = Some g' ->
     exists g, mfind k (s_map s) = Some g /\ upd_ok g g').
  { intros k g' G. rewrite FM in G. destruct (String.eqb_spec k n) as [->|].
    - apply some_inj in G. subst g'. exists f. split; auto. repeat split; auto.
    - exists g'. split; auto. repeat split. }
  assert (CF : cfg_list (mset n f' (s_map s)) l = cfg_list (s_map s) l).
  { unfold cfg_list. generalize (@nil string). generalize l. induction l0 as [|k r IH]; intros acc; cbn; auto.
    rewrite IH. f_equal. unfold add_cfg. rewrite FM. destruct (String.eqb_spec k n) as [->|]; auto.
    rewrite F. now rewrite Ut, Uc. }
  constructor; cbn [with_map s_map s_lmap s_frames s_limits s_cmap s_crmap s_csize].
  - rewrite (sort_all_skel _ _ SK). apply (id_sort _ _ I).
  - intros k g' G. destruct (GET _ _ G) as (g & Fg & (_ & _ & Gp & _)). rewrite Gp.
    destruct (id_closed _ _ I _ _ Fg) as [|X]; auto. right. rewrite FM.
    destruct (String.eqb (f_parent g) n); [discriminate|auto].
  - destruct (id_list _ _ I) as [D H]. split; auto. intros k. rewrite H, FM.
    destruct (String.eqb_spec k n) as [->|]; [rewrite F|]; intuition congruence.
  - intros k g' Ik G. destruct (GET _ _ G) as (g & Fg & (_ & _ & Gp & _)). rewrite Gp.
    eapply (id_self _ _ I); eauto.
  - rewrite LN. apply (id_frames _ _ I).
  - intros j k g' J G. destruct (GET _ _ G) as (g & Fg & (Gt & _ & Gp & Gc & Gi & Gpi & Gci)).
    destruct (id_done _ _ I j k g J Fg) as (A & B & C).
    rewrite Gi, Gpi, Gt, Gc, Gci. unfold pid_of in *. rewrite Gp. auto.
  - rewrite CF. apply (id_crmap _ _ I).
  - apply (id_crnd _ _ I).
  - apply (id_cmap _ _ I).
  - apply (id_limlen _ _ I).
  - apply (id_lim _ _ I).
  - destruct (id_csize _ _ I) as [|[_ E]]; auto. rewrite E in F. discriminate.
Qed.

Lemma inv_create : inv (fun _ => None) (fun _ _ => None) sg_create.
Proof.
  constructor; cbn; auto; try (intros; discriminate); try (now constructor).
  intros _. exists []. constructor; cbn; auto; try (intros; discriminate); try (now constructor);
      try (intros [|?]; intros; discriminate).
    split; [constructor|]. cbn. intuition congruence.
Qed.

Lemma upd_same g n d k : upd g n d k = if String.eqb k n then d else g k.
Proof. reflexivity. Qed.

Lemma lget_lset k k' x l : lget k' (lset k x l) = if lkind_eqb k k' then x else lget k' l.
Proof. destruct k, k'; reflexivity. Qed.

Lemma step_inv g lim s o c s' : inv g lim s -> step s o = Ok (c, s') ->
  inv (declare g o) (limit_step lim o) s'.
Proof.
  intros I E. destruct o as [t p n q v cf off ax|n|p n E0| |k cn a b|n mass J|n ge|n0 n1 al]; cbn [step] in E.
  - (* add *)
    destruct q as [q|]; [|discriminate]. destruct v as [v|]; [|discriminate].
    cbn in E. injection E as _ <-. cbn [declare limit_step].
    constructor; cbn [with_map with_next s_map s_lmap s_dirty s_next].
    + apply sorted_mset, I.
    + intros k f F. rewrite mfind_mset in F. destruct (String.eqb_spec k n) as [->|]; [|now apply (in_names _ _ _ I)].
      apply some_inj in F. now subst f.
    + intros k. rewrite mfind_mset, upd_same. destruct (String.eqb_spec k n); [|apply I]. reflexivity.
    + apply I.
    + apply I.
    + intros k f F. rewrite mfind_mset in F. destruct (String.eqb_spec k n) as [->|].
      * apply some_inj in F. subst f. cbn. lia.
      * apply (in_addr _ _ _ I) in F. lia.
    + intros k1 k2 f1 f2 F1 F2 A. rewrite mfind_mset in F1, F2.
      destruct (String.eqb_spec k1 n) as [->|N1], (String.eqb_spec k2 n) as [->|N2]; auto.
      * apply some_inj in F1. subst f1. apply (in_addr _ _ _ I) in F2. cbn in A. lia.
      * apply some_inj in F2. subst f2. apply (in_addr _ _ _ I) in F1. cbn in A. lia.
      * eapply (in_addr_inj _ _ _ I); eauto.
    + discriminate.
  - (* rm *)
    cbn in E. injection E as _ <-. cbn [declare limit_step].
    assert (FM : forall k, mfind k (mdel n (s_map s)) = if String.eqb k n then None else mfind k (s_map s)).
    { intros k. destruct (String.eqb_spec k n) as [->|]; [apply mfind_mdel_same, I|now apply mfind_mdel_other]. }
    constructor; cbn [sg_rm with_map s_map s_lmap s_dirty s_next].
    + apply sorted_mdel, I.
    + intros k f F. rewrite FM in F. destruct (String.eqb k n); [discriminate|now apply (in_names _ _ _ I)].
    + intros k. rewrite FM, upd_same. destruct (String.eqb k n); [reflexivity|apply I].
    + apply I.
    + apply I.
    + intros k f F. rewrite FM in F. destruct (String.eqb k n); [discriminate|exact (in_addr _ _ _ I _ _ F)].
    + intros k1 k2 f1 f2 F1 F2 A. rewrite FM in F1, F2.
      destruct (String.eqb k1 n), (String.eqb k2 n); try discriminate. eapply (in_addr_inj _ _ _ I); eauto.
    + discriminate.
  - (* reparent *)
    unfold sg_reparent in E. destruct (mfind n (s_map s)) as [f|] eqn:F; [|discriminate].
    cbn in E. injection E as _ <-. cbn [declare limit_step].
    assert (Fg : g n = Some (decl_of f)) by (rewrite (in_decl _ _ _ I), F; reflexivity). rewrite Fg.
    constructor; cbn [with_map s_map s_lmap s_dirty s_next].
    + apply sorted_mset, I.
    + intros k f' F'. rewrite mfind_mset in F'. destruct (String.eqb_spec k n) as [->|]; [|now apply (in_names _ _ _ I)].
      apply some_inj in F'. subst f'. exact (in_names _ _ _ I _ _ F).
    + intros k. rewrite mfind_mset, upd_same. destruct (String.eqb_spec k n); [|apply I]. reflexivity.
    + apply I.
    + apply I.
    + intros k f' F'. rewrite mfind_mset in F'. destruct (String.eqb_spec k n) as [->|]; [|exact (in_addr _ _ _ I _ _ F')].
      apply some_inj in F'. subst f'. exact (in_addr _ _ _ I _ _ F).
    + intros k1 k2 f1 f2 F1 F2 A. rewrite mfind_mset in F1, F2.
      destruct (String.eqb_spec k1 n) as [->|N1], (String.eqb_spec k2 n) as [->|N2]; auto.
      * apply some_inj in F1. subst f1. eapply (in_addr_inj _ _ _ I); eauto.
      * apply some_inj in F2. subst f2. eapply (in_addr_inj _ _ _ I); eauto.
      * eapply (in_addr_inj _ _ _ I); eauto.
    + discriminate.
  - (* init *)
    cbn [declare limit_step].
    destruct (s_dirty s) eqn:D.
    2:{ unfold sg_init in E. rewrite D in E. cbn in E. injection E as _ <-. exact I. }
    destruct (init_ok g lim s I D) as [[_ E1]|[_ (l & _ & _ & [[_ E1]|[_ (s1 & E1 & D1 & X & _ & _ & Sm & Co & Lm & Ls & Al & Nx)]])]];
      rewrite E1 in E; try discriminate; injection E as _ <-; auto.
    assert (FM : forall k f1, mfind k (s_map s1) = Some f1 -> exists f0, mfind k (s_map s) = Some f0 /\ core f1 = core f0).
    { intros k f1 F1. specialize (Co k). rewrite F1 in Co. destruct (mfind k (s_map s)) as [f0|]; [|discriminate].
      apply some_inj in Co. eauto. }
    constructor; auto.
    + eapply names_core; [|apply I]. auto.
    + intros n. rewrite (in_decl _ _ _ I). specialize (Co n).
      destruct (mfind n (s_map s)), (mfind n (s_map s1)); try discriminate; auto.
      apply some_inj in Co. apply core_eq in Co as (Ct & _ & Cp & Cc & Coff & Cax & CE & _).
      cbn [option_map]. unfold decl_of. now rewrite Ct, Cp, Cc, Coff, Cax, CE.
    + intros k c0. rewrite (in_lim _ _ _ I). unfold lim_of. now rewrite Lm.
    + intros n f F. destruct (FM _ _ F) as (f0 & F0 & C0). rewrite Nx.
      apply core_eq in C0 as (_&_&_&_&_&_&_&_&_&_&_& Ca). rewrite Ca. eapply (in_addr _ _ _ I); eauto.
    + intros n1 n2 f1 f2 F1 F2 A. destruct (FM _ _ F1) as (g1 & G1 & C1), (FM _ _ F2) as (g2 & G2 & C2).
      apply core_eq in C1 as (_&_&_&_&_&_&_&_&_&_&_& Ca1). apply core_eq in C2 as (_&_&_&_&_&_&_&_&_&_&_& Ca2).
      eapply (in_addr_inj _ _ _ I); eauto. congruence.
    + eauto.
  - (* limit *)
    cbn in E. injection E as _ <-. cbn [declare limit_step].
    set (l0 := match mfind cn (s_lmap s) with Some (Some l) => l | _ => limits0 end).
    assert (LM : forall x, mfind x (mset cn (Some (lset k (Some (a, b)) l0)) (s_lmap s))
        = if String.eqb x cn then Some (Some (lset k (Some (a, b)) l0)) else mfind x (s_lmap s)).
    { intros x. apply mfind_mset. }
    constructor; cbn [sg_set_limit with_lmap s_map s_lmap s_dirty s_next]; try apply I.
    + apply sorted_mset, I.
    + intros k' c'. fold l0. unfold lim_of. rewrite LM, (String.eqb_sym cn c').
      destruct (String.eqb_spec c' cn) as [->|].
      * rewrite andb_true_r. cbn [ojoin]. rewrite lget_lset. destruct (lkind_eqb k k'); auto.
        rewrite (in_lim _ _ _ I). unfold lim_of, l0. destruct (mfind cn (s_lmap s)) as [[x|]|]; cbn; auto; destruct k'; auto.
      * rewrite andb_false_r. apply (in_lim _ _ _ I).
    + intros D. destruct (in_idx _ _ _ I D) as [l X]. exists l. destruct X. constructor; auto.
      cbn [sg_set_limit with_lmap s_map s_lmap s_limits s_crmap]. intros i c0 Hc.
      destruct (id_lim0 i c0 Hc) as (o & Ho & [->|[-> Hn]]); [eauto|].
      exists (Some c0). split; auto. right. split; auto. fold l0. rewrite LM.
      destruct (String.eqb c0 cn); [discriminate|auto].
  - (* inertial *)
    unfold sg_set_inertial in E. destruct (mfind n (s_map s)) as [f|] eqn:F; [|discriminate].
    cbn in E. injection E as _ <-. cbn [declare limit_step].
    constructor; cbn [with_map s_map s_lmap s_dirty s_next]; try apply I.
    + apply sorted_mset, I.
    + intros k f' F'. rewrite mfind_mset in F'. destruct (String.eqb_spec k n) as [->|]; [|now apply (in_names _ _ _ I)].
      apply some_inj in F'. subst f'. exact (in_names _ _ _ I _ _ F).
    + intros k. rewrite mfind_mset, (in_decl _ _ _ I). destruct (String.eqb_spec k n) as [->|]; auto. now rewrite F.
    + intros k f' F'. rewrite mfind_mset in F'. destruct (String.eqb_spec k n) as [->|]; [|exact (in_addr _ _ _ I _ _ F')].
      apply some_inj in F'. subst f'. exact (in_addr _ _ _ I _ _ F).
    + intros k1 k2 f1 f2 F1 F2 A. rewrite mfind_mset in F1, F2.
      destruct (String.eqb_spec k1 n) as [->|N1], (String.eqb_spec k2 n) as [->|N2]; auto.
      * apply some_inj in F1. subst f1. eapply (in_addr_inj _ _ _ I); eauto.
      * apply some_inj in F2. subst f2. eapply (in_addr_inj _ _ _ I); eauto.
      * eapply (in_addr_inj _ _ _ I); eauto.
    + intros D. destruct (in_idx _ _ _ I D) as [l X]. exists l.
      apply (indexed_upd s l n f); auto; [apply I|]. repeat split.
  - (* geom *)
    unfold sg_add_geom in E. destruct (mfind n (s_map s)) as [f|] eqn:F; [|discriminate].
    cbn in E. injection E as _ <-. cbn [declare limit_step].
    constructor; cbn [with_map s_map s_lmap s_dirty s_next]; try apply I.
    + apply sorted_mset, I.
    + intros k f' F'. rewrite mfind_mset in F'. destruct (String.eqb_spec k n) as [->|]; [|now apply (in_names _ _ _ I)].
      apply some_inj in F'. subst f'. exact (in_names _ _ _ I _ _ F).
    + intros k. rewrite mfind_mset, (in_decl _ _ _ I). destruct (String.eqb_spec k n) as [->|]; auto. now rewrite F.
    + intros k f' F'. rewrite mfind_mset in F'. destruct (String.eqb_spec k n) as [->|]; [|exact (in_addr _ _ _ I _ _ F')].
      apply some_inj in F'. subst f'. exact (in_addr _ _ _ I _ _ F).
    + intros k1 k2 f1 f2 F1 F2 A. rewrite mfind_mset in F1, F2.
      destruct (String.eqb_spec k1 n) as [->|N1], (String.eqb_spec k2 n) as [->|N2]; auto.
      * apply some_inj in F1. subst f1. eapply (in_addr_inj _ _ _ I); eauto.
      * apply some_inj in F2. subst f2. eapply (in_addr_inj _ _ _ I); eauto.
      * eapply (in_addr_inj _ _ _ I); eauto.
    + intros D. destruct (in_idx _ _ _ I D) as [l X]. exists l.
      apply (indexed_upd s l n f); auto; [apply I|]. repeat split.
  - (* allow *)
    unfold sg_allow in E. destruct (mfind n0 (s_map s)) as [f0|]; [|discriminate].
    destruct (mfind n1 (s_map s)) as [f1|]; [|discriminate]. cbn in E. injection E as _ <-.
    cbn [declare limit_step]. constructor; try apply I.
    intros D. destruct (in_idx _ _ _ I D) as [l X]. exists l. destruct X. constructor; auto.
Qed.

Lemma run_inv h : forall g lim s s', inv g lim s -> run s h = Ok s' ->
  inv (fold_left declare h g) (fold_left limit_step h lim) s'.
Proof.
  induction h as [|o r IH]; intros g lim s s' I E; cbn in E.
  - injection E as <-. exact I.
  - destruct (step s o) as [[c s1]| | |] eqn:E1; try discriminate. cbn in E.
    cbn [fold_left]. eapply IH; eauto. eapply step_inv; eauto.
Qed.
Theorem run_created h s : run sg_create h = Ok s -> inv (declared h) (limit_of h) s.
Proof. intros E. eapply run_inv; eauto. apply inv_create. Qed.
