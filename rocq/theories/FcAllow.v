(** Proofs about the collisions of a configuration and allowing them. *)
From Coq Require Import ZArith String List Bool Reals Arith Lia.
From Verif Require Import TfModel TfSpec SgModel SgSpec SgInvProofs SgQueryProofs SgClaims2 ClModel ClSpec ClProofs ClAllowProofs FcModel FcSpec FcGeom FcCheck.
Import ListNotations.
Open Scope Z_scope.

Lemma map_geom_valid g lim s l r : inv g lim s -> indexed s l -> named g -> map_geom s = Ok r ->
  forall z i, In (z, i) r -> valid (length l) z.
Proof.
  intros I X Nm E. unfold map_geom, clean in E. destruct (s_dirty s); [discriminate|].
  rewrite (frames_l _ _ _ I _ X Nm), map_length in E.
  assert (H : forall ids, (forall i, In i ids -> (i < length l)%nat) -> forall r, map_geom_loop s ids = Ok r -> forall z i, In (z, i) r -> valid (length l) z).
  { induction ids as [|i t IH]; intros Hi r0 E0 z k K; cbn in E0; [injection E0 as <-; destruct K|].
    destruct (nth_error l i) as [nm|] eqn:J; [|apply nth_error_None in J; specialize (Hi i (or_introl eq_refl)); lia].
    destruct (frame_at_ok _ _ _ I _ X _ _ J) as (f & F & Ef & _). rewrite Ef in E0. cbn [bind] in E0.
    destruct (id_done _ _ X _ _ _ J F) as (Ei & _). rewrite Ei in E0.
    destruct (map_geom_loop s t) as [b| | |] eqn:Eb; [|destruct (f_geoms f); discriminate..].
    assert (r0 = map (pair (Z.of_nat i)) (f_geoms f) ++ b) as ->.
    { destruct (f_geoms f); cbn in E0; injection E0 as <-; reflexivity. }
    apply in_app_or in K as [K|K]; [|eapply IH; eauto; intros; apply Hi; now right].
    apply in_map_iff in K as (? & [= <- _] & _). specialize (Hi i (or_introl eq_refl)). unfold valid. lia. }
  refine (H _ _ _ E). intros i Hi. apply in_seq in Hi. lia.
Qed.
Lemma create_ids gs l : forall os, create_objs gs l = Ok os -> forall o, In o os -> exists i, In (o_id o, i) l.
Proof.
  induction l as [|[z i] l IH]; intros os E o K; cbn [create_objs] in E; [injection E as <-; destruct K|].
  destruct (nth_error gs i) as [g|]; [|discriminate]. cbn [from bind] in E.
  destruct (create_objs gs l) as [t| | |] eqn:Et; try discriminate. cbn [bind] in E.
  destruct (g_cl g); injection E as <-.
  - destruct K as [<-|K]; [exists i; now left|]. destruct (IH t eq_refl o K) as [j Hj]. exists j. now right.
  - destruct (IH t eq_refl o K) as [j Hj]. exists j. now right.
Qed.

Lemma c94_get hit k gs TF al l os ps vs set :
  (forall x y, hit x y = hit y x) ->
  let n := length (s_frames (k_sg k)) in
  cl_allowed k = Ok al -> made n al -> map_geom (k_sg k) = Ok l -> (forall z i, In (z, i) l -> valid n z) ->
  create_objs gs l = Ok os -> place_all (tf_array TF 7) os = Ok ps -> visits hit ps vs -> made n set ->
  exists set', get_collision hit k gs TF vs set = Ok set' /\ made n set' /\
    forall a b, valid n a -> valid n b -> (cl_get set' a b = Ok true <-> cl_get set a b = Ok true \/ forbidden hit al ps a b).
Proof.
  intros Sy n Ea Ma El Vl Eo Ep V Ms.
  destruct (c94_check hit n al os (tf_array TF 7) ps vs Sy Ma) as [_ H]; auto.
  { intros o K. destruct (create_ids _ _ _ Eo o K) as [i Hi]. eauto. }
  destruct (H set Ms) as (b & c & Ec & Mc & _ & G).
  unfold get_collision. rewrite Ea, El. cbn [bind]. rewrite Eo. cbn [bind]. rewrite Ec. cbn [bind from]. fold n.
  destruct (c56_merge n c (cl_create n) Mc (made_create n)) as (c' & Em & Gm).
  exists c'. split; [exact Em|]. split; [exact (made_merge _ _ _ _ Mc (made_create n) Em)|].
  intros a b' Va Vb. rewrite <- (G a b' Va Vb), (Gm a b' Va Vb), create_get by auto.
  destruct (a =? b'); [reflexivity|]. rewrite (cl_get_valid n c) by (auto using made_wf). cbn [bind]. now rewrite orb_false_r.
Qed.

(** ** Allowing the pairs of a set *)
Definition sg_same (s t : sg) : Prop := s_frames s = s_frames t /\ s_map s = s_map t /\ s_dirty s = s_dirty t.
Definition allow_ops (set : clset) (lst : list string) (l : list (nat * nat)) : list op :=
  flat_map (fun '(i, j) => match cl_get set (Z.of_nat i) (Z.of_nat j) with
                           | Ok true => [OAllow (nth i lst ""%string) (nth j lst ""%string) true] | _ => [] end) l.
Lemma same_frame_name s t i : sg_same s t -> frame_name s i = frame_name t i.
Proof.
  intros (A & B & C). unfold frame_name, clean, frame_at, frame_count. now rewrite A, B, C.
Qed.
Lemma allow_pairs_run g lim set lst k0 : inv g lim (k_sg k0) -> indexed (k_sg k0) lst -> named g -> s_dirty (k_sg k0) = false ->
  made (length lst) set -> forall l k, (forall i j, In (i, j) l -> (i < length lst)%nat /\ (j < length lst)%nat) ->
  sg_same (k_sg k) (k_sg k0) ->
  exists k', allow_pairs set l k = Ok k' /\ crun k (map CSg (allow_ops set lst l)) = Ok k' /\ sg_same (k_sg k') (k_sg k0).
Proof.
  intros I X Nm D Ms. induction l as [|[i j] l IH]; intros k L Sm; [exists k; auto|].
  destruct (L i j (or_introl eq_refl)) as [Li Lj]. cbn [allow_pairs allow_ops flat_map].
  assert (Vi : valid (length lst) (Z.of_nat i)) by (unfold valid; lia). assert (Vj : valid (length lst) (Z.of_nat j)) by (unfold valid; lia).
  rewrite (cl_get_valid (length lst)) by (auto using made_wf). cbn [bind].
  destruct (nth (pos (length lst) (Z.of_nat i) (Z.of_nat j)) (c_v set) false).
  - pose proof (nth_error_nth' lst ""%string Li) as Ji. pose proof (nth_error_nth' lst ""%string Lj) as Jj.
    rewrite !(same_frame_name _ _ _ Sm), (frame_name_ok _ _ _ I _ X D _ _ Ji), (frame_name_ok _ _ _ I _ X D _ _ Jj). cbn [bind].
    destruct (frame_at_ok _ _ _ I _ X _ _ Ji) as (fi & Fi & _). destruct (frame_at_ok _ _ _ I _ X _ _ Jj) as (fj & Fj & _).
    cbn [app map crun]. cbn [cstep step]. unfold sg_allow. rewrite (proj1 (proj2 Sm)), Fi, Fj. cbn [from bind].
    match goal with |- context [allow_pairs set l ?k1] => destruct (IH k1) as (k' & A & B & C) end.
    + intros a b K. apply L. now right.
    + cbn. exact Sm.
    + exists k'. auto.
  - cbn [app bind]. apply IH; auto. intros a b K. apply L. now right.
Qed.
Lemma allowed_app h t : allowed_of (h ++ t) = fold_left allow_step t (allowed_of h).
Proof. apply fold_left_app. Qed.
Definition is_allow (o : op) : Prop := exists a b, o = OAllow a b true.
Lemma allowed_more t : Forall is_allow t -> forall A m n, fold_left allow_step t A m n = true <->
  A m n = true \/ exists a b, In (OAllow a b true) t /\ same_pair m n a b.
Proof.
  induction t as [|o t IH]; intros F A m n; [cbn; split; [auto|intros [H|(a & b & [] & _)]; auto]|].
  apply Forall_cons_iff in F as [(a & b & ->) F]. cbn [fold_left]. rewrite (IH F). cbn [allow_step].
  assert (P : pair_eq a b m n = true <-> same_pair m n a b).
  { unfold pair_eq, same_pair. rewrite orb_true_iff, !andb_true_iff, !String.eqb_eq. intuition congruence. }
  split.
  - intros [H|(c & d & H & K)]; [|right; exists c, d; split; [now right|auto]].
    destruct (pair_eq a b m n) eqn:E; [right; exists a, b; split; [now left|now apply P]|now left].
  - intros [H|(c & d & [[= -> ->]|H] & K)].
    + left. destruct (pair_eq a b m n); auto.
    + left. apply P in K. now rewrite K.
    + right. exists c, d. auto.
Qed.
Lemma kept_app t : Forall is_allow t -> forall h, kept h -> kept (h ++ t).
Proof.
  induction t as [|o t IH]; intros F h K; [now rewrite app_nil_r|].
  apply Forall_cons_iff in F as [(a & b & ->) F]. change (OAllow a b true :: t) with ([OAllow a b true] ++ t). rewrite app_assoc. apply (IH F).
  intros h1 o h2 E m n' Al. destruct (rev h2) as [|x r] eqn:R.
  - assert (h2 = []) as -> by (rewrite <- (rev_involutive h2), R; reflexivity). apply app_inj_tail in E as [_ <-]. auto.
  - assert (h2 = rev r ++ [x]) as -> by (rewrite <- (rev_involutive h2), R; reflexivity).
    change (h1 ++ o :: rev r ++ [x]) with (h1 ++ (o :: rev r) ++ [x]) in E. rewrite app_assoc in E. apply app_inj_tail in E as [E _]. eapply K; eauto.
Qed.
Lemma declared_app h t : Forall is_allow t -> declared (h ++ t) = declared h.
Proof.
  intros F. unfold declared. rewrite fold_left_app. generalize (fold_left declare h (fun _ => None)) as g.
  induction F as [|o t (a & b & ->) _ IH]; intros g; cbn; auto.
Qed.
Lemma ops_allow set lst l : Forall is_allow (allow_ops set lst l).
Proof.
  apply Forall_forall. intros o K. apply in_flat_map in K as ([i j] & _ & K).
  destruct (cl_get set _ _) as [[|]| | |]; cbn in K; try tauto. destruct K as [<-|[]]. red. eauto.
Qed.
Lemma sg_calls_map t : sg_calls (map CSg t) = t.
Proof. induction t as [|o t IH]; cbn; [reflexivity|]. now f_equal. Qed.
Lemma sg_calls_app a b : sg_calls (a ++ b) = sg_calls a ++ sg_calls b.
Proof. apply flat_map_app. Qed.
Lemma in_below n i j : In (i, j) (pairs_below n) <-> (j < i < n)%nat.
Proof.
  unfold pairs_below. rewrite in_flat_map. split.
  - intros (a & A & B). apply in_map_iff in B as (b & [= -> ->] & B). apply in_seq in A, B. lia.
  - intros H. exists i. split; [apply in_seq; lia|]. apply in_map_iff. exists j. split; [reflexivity|]. apply in_seq. lia.
Qed.

(** ** A scene as a history of calls leaves it *)
Definition is_geom_op (o : op) : Prop := match o with OAllow _ _ _ | OGeom _ _ => True | _ => False end.
Lemma c64_index h1 o h2 k : is_geom_op o -> ~ In CInit h2 ->
  let h := sg_calls (h1 ++ CSg o :: h2) in
  crun clsg_create (h1 ++ CSg o :: h2) = Ok k -> s_dirty (k_sg k) = false -> named (declared h) -> kept h ->
  exists k' c lst l, cl_init k = Ok k' /\ k_sg k' = k_sg k /\ cl_allowed k' = Ok c /\ map_geom (k_sg k) = Ok l /\
    inv (declared h) (limit_of h) (k_sg k) /\ indexed (k_sg k) lst /\ length lst = length (s_frames (k_sg k)) /\
    (forall i j ni nj, nth_error lst i = Some ni -> nth_error lst j = Some nj -> cl_get c (Z.of_nat i) (Z.of_nat j) = Ok (allowed_of h ni nj)).
Proof.
  intros Ho Nh h E D Nm K. destruct (c64 h1 o h2 k Ho Nh E D Nm K) as (k' & c & E1 & E2 & E3 & G).
  pose proof (crun_sg _ _ _ E) as Er. cbn in Er. fold h in Er.
  destruct (ready_inv h (k_sg k) (conj Er D)) as [I [lst X]].
  destruct (map_geom_total _ _ _ _ I X Nm D) as [l El].
  exists k', c, lst, l. repeat (split; [assumption|]). split.
  - now rewrite (frames_l _ _ _ I _ X Nm), map_length.
  - intros i j ni nj Ji Jj. apply G; apply (frame_id_ok _ _ _ I _ X); auto.
Qed.
Lemma copy_made n l : forall c c', made n c -> set_copy_loop l c = Ok c' -> made n c'.
Proof.
  induction l as [|[i j] r IH]; intros c c' M E; cbn in E; [now injection E as <-|].
  destruct (cl_set c i j true) as [c1| | |] eqn:E1; try discriminate. cbn in E. eapply IH; [|exact E]. eapply made_set; eauto.
Qed.
Lemma allowed_made k c : cl_allowed k = Ok c -> made (length (s_frames (k_sg k))) c.
Proof.
  unfold cl_allowed. intros E. destruct (k_dirty k) as [[|]|]; try discriminate. cbn in E. eapply copy_made; [|exact E]. constructor.
Qed.
Lemma array_total TF n z : (7 * n <= length TF)%nat -> valid n z -> exists E, tf_array TF 7 z = Ok E.
Proof.
  intros L V. unfold valid in V. unfold tf_array. destruct (Z.ltb_spec z 0); [lia|].
  assert (G : (length (firstn 7 (skipn (Z.to_nat z * 7) TF)) = 7)%nat).
  { rewrite firstn_length, skipn_length. assert (Z.to_nat z < n)%nat by lia. nia. }
  destruct (firstn 7 _) as [|x [|y [|a [|b [|c [|d [|e [|? ?]]]]]]]]; cbn in G; try discriminate. eauto.
Qed.
Lemma map_geom_same s t : sg_same s t -> map_geom s = map_geom t.
Proof.
  intros (A & B & C). unfold map_geom, clean. rewrite A, C. destruct (s_dirty t); auto.
  generalize (seq 0 (length (s_frames t))) as ids. induction ids as [|i r IH]; cbn; auto.
  unfold frame_at. now rewrite A, B, IH.
Qed.

Lemma c94_allow hit h1 o h2 k gs TF : (forall x y, hit x y = hit y x) ->
  is_geom_op o -> ~ In CInit h2 ->
  let h := h1 ++ CSg o :: h2 in
  crun clsg_create (h ++ [CInit]) = Ok k -> s_dirty (k_sg k) = false -> named (declared (sg_calls h)) -> kept (sg_calls h) ->
  (forall l z i, map_geom (k_sg k) = Ok l -> In (z, i) l -> (i < length gs)%nat) ->
  (7 * length (s_frames (k_sg k)) <= length TF)%nat ->
  exists al l os ps, cl_allowed k = Ok al /\ map_geom (k_sg k) = Ok l /\ create_objs gs l = Ok os /\ place_all (tf_array TF 7) os = Ok ps /\
  forall vs, visits hit ps vs -> exists k' k'' al', allow_config hit k gs TF vs = Ok k' /\ cl_init k' = Ok k'' /\
    cl_allowed k'' = Ok al' /\ map_geom (k_sg k'') = Ok l /\
    (forall a b, valid (length (s_frames (k_sg k))) a -> valid (length (s_frames (k_sg k))) b ->
       (cl_get al' a b = Ok true <-> cl_get al a b = Ok true \/ forbidden hit al ps a b)) /\
    forall vs', visits hit ps vs' -> cl_check hit al' os (tf_array TF 7) vs' None = Ok (false, None).
Proof.
  intros Sy Ho Nh h E D Nm K Gs LT. pose proof E as Eh. rewrite crun_app in E. destruct (crun clsg_create h) as [k0| | |] eqn:E0; try discriminate.
  cbn [bind crun cstep] in E. destruct (cl_init k0) as [k1| | |] eqn:E1; try discriminate. cbn in E. injection E as ->.
  assert (D0 : s_dirty (k_sg k0) = false).
  { unfold cl_init in E1. destruct (k_dirty k0) as [[|]|]; cbn in E1; try discriminate; [|now injection E1 as <-].
    destruct (map_geom (k_sg k0)); try discriminate. cbn in E1. destruct (allowed_ids _ _); try discriminate. cbn in E1. injection E1 as <-. exact D. }
  destruct (c64_index h1 o h2 k0 Ho Nh E0 D0 Nm K) as (k1' & al & lst & l & E1' & Es & Ea & El & I & X & Ll & Ga).
  rewrite E1 in E1'. injection E1' as <-. rewrite <- Es in *.
  set (n := length (s_frames (k_sg k))) in *.
  assert (Ma : made n al) by (apply allowed_made; exact Ea).
  assert (Vl : forall z i, In (z, i) l -> valid n z) by (rewrite <- Ll; eapply map_geom_valid; eauto).
  destruct (create_objs_ok gs l) as (os & Eo & _); [intros z i Hi; eapply Gs; eauto|].
  assert (Vo : forall ob, In ob os -> valid n (o_id ob)).
  { intros ob Hob. destruct (create_ids _ _ _ Eo ob Hob) as [i Hi]. eauto. }
  destruct (place_all_ok (tf_array TF 7) os) as (ps & Ep & _).
  { intros ob Hob. eapply array_total; eauto. }
  assert (Vp : forall p, In p ps -> valid n (p_id p)).
  { intros p Hp. apply (in_map p_id) in Hp. rewrite (place_ids _ _ _ Ep) in Hp. apply in_map_iff in Hp as (ob & <- & Hp). auto. }
  exists al, l, os, ps. repeat (split; [assumption|]). intros vs V.
  destruct (c94_get hit k gs TF al l os ps vs (cl_create n) Sy Ea Ma El Vl Eo Ep V (made_create n)) as (set & Eg & Mset & Gset).
  fold n in Mset, Gset.
  destruct (allow_pairs_run _ _ set lst k I X Nm D ltac:(rewrite Ll; exact Mset) (pairs_below n) k) as (k' & A1 & A2 & A3).
  { intros i j Hij. apply in_below in Hij. lia. } { now repeat split. }
  exists k'. unfold allow_config. fold n. rewrite Eg. cbn [bind]. rewrite A1.
  set (ops := allow_ops set lst (pairs_below n)) in *.
  assert (Gs' : forall a b, valid n a -> valid n b -> (cl_get set a b = Ok true <-> forbidden hit al ps a b)).
  { intros a b Va Vb. rewrite (Gset a b Va Vb), create_get by auto. split; [intros [Hc|Hc]; [discriminate|exact Hc]|auto]. }
  assert (In_ops : forall i j ni nj, nth_error lst i = Some ni -> nth_error lst j = Some nj ->
    (exists a b, In (OAllow a b true) ops /\ same_pair ni nj a b) <-> forbidden hit al ps (Z.of_nat i) (Z.of_nat j)).
  { intros i j ni nj Ji Jj. assert (Li : (i < n)%nat) by (rewrite <- Ll; apply nth_error_Some; congruence).
    assert (Lj : (j < n)%nat) by (rewrite <- Ll; apply nth_error_Some; congruence).
    assert (Vi : valid n (Z.of_nat i)) by (unfold valid; lia). assert (Vj : valid n (Z.of_nat j)) by (unfold valid; lia).
    assert (ND : NoDup lst) by apply (id_list _ _ X).
    assert (Un : forall a b x, nth_error lst a = Some x -> (b < n)%nat -> nth b lst ""%string = x -> a = b).
    { intros a b x Ja Lb Eb. apply (proj1 (NoDup_nth_error lst) ND); [apply nth_error_Some; congruence|].
      rewrite Ja, (nth_error_nth' lst ""%string) by lia. congruence. }
    rewrite <- (Gs' _ _ Vi Vj). split.
    - intros (a & b & Hin & Sp). apply in_flat_map in Hin as ([i' j'] & Hb & Hin).
      apply in_below in Hb. destruct (cl_get set (Z.of_nat i') (Z.of_nat j')) as [[|]| | |] eqn:Ec; cbn in Hin; try tauto.
      destruct Hin as [[= <- <-]|[]]. destruct Sp as [[A B]|[A B]].
      + rewrite (Un i i' ni), (Un j j' nj); auto; lia.
      + rewrite (Un i j' ni), (Un j i' nj); auto; try lia.
        destruct (c56_sym n set (Z.of_nat i') (Z.of_nat j') Mset) as (b & B1 & B2); [unfold valid; lia..|]. congruence.
    - intros Hc. assert (i <> j). { intros ->. apply (Gs' _ _ Vi Vj) in Hc. now destruct Hc. }
      destruct (Nat.lt_ge_cases j i).
      + exists ni, nj. split; [|now left]. apply in_flat_map. exists (i, j). split; [apply in_below; lia|]. rewrite Hc.
        left. now rewrite (nth_error_nth _ _ _ Ji), (nth_error_nth _ _ _ Jj).
      + exists nj, ni. split; [|now right]. apply in_flat_map. exists (j, i). split; [apply in_below; lia|].
        destruct (c56_sym n set _ _ Mset Vi Vj) as (b & B1 & B2). rewrite B2. replace b with true by congruence.
        left. now rewrite (nth_error_nth _ _ _ Ji), (nth_error_nth _ _ _ Jj). }
  assert (Fin : exists k'' al', cl_init k' = Ok k'' /\ cl_allowed k'' = Ok al' /\ k_sg k'' = k_sg k' /\
    forall a b, valid n a -> valid n b -> (cl_get al' a b = Ok true <-> cl_get al a b = Ok true \/ forbidden hit al ps a b)).
  { assert (Nth : forall a, valid n a -> exists i x, a = Z.of_nat i /\ nth_error lst i = Some x).
    { intros a Va. unfold valid in Va. exists (Z.to_nat a), (nth (Z.to_nat a) lst ""%string). split; [lia|]. apply nth_error_nth'. lia. }
    destruct ops as [|o1 ops1] eqn:Eops.
    - cbn in A2. injection A2 as <-. exists k, al. unfold cl_init.
      assert (Hd : k_dirty k = Some false).
      { unfold cl_allowed in Ea. destruct (k_dirty k) as [[|]|]; auto; discriminate. }
      rewrite Hd. cbn. do 3 (split; [solve [auto]|]). intros a b Va Vb. split; [auto|]. intros [Hc|Hc]; [exact Hc|].
      destruct (Nth a Va) as (i & ni & -> & Ji), (Nth b Vb) as (j & nj & -> & Jj).
      apply (In_ops i j ni nj Ji Jj) in Hc. destruct Hc as (? & ? & [] & _).
    - pose proof (ops_allow set lst (pairs_below n)) as Fo. fold ops in Fo. rewrite Eops in Fo.
      assert (Ho1 : is_geom_op o1). { apply Forall_cons_iff in Fo as [(a0 & b0 & ->) _]. exact Logic.I. }
      assert (Ec : crun clsg_create ((h ++ [CInit]) ++ CSg o1 :: map CSg ops1) = Ok k').
      { rewrite crun_app, Eh. exact A2. }
      assert (Ecalls : sg_calls ((h ++ [CInit]) ++ CSg o1 :: map CSg ops1) = sg_calls h ++ o1 :: ops1).
      { rewrite !sg_calls_app. cbn [sg_calls flat_map app]. fold (sg_calls (map CSg ops1)). now rewrite sg_calls_map, app_nil_r. }
      destruct (c64_index (h ++ [CInit]) o1 (map CSg ops1) k' Ho1) as (k'' & al' & lst' & l' & F1 & F2 & F3 & _ & I' & X' & _ & G').
      { intros Hin. apply in_map_iff in Hin as (? & ? & _). discriminate. }
      { exact Ec. } { destruct A3 as (_ & _ & ->). exact D. }
      { rewrite Ecalls, declared_app by exact Fo. exact Nm. }
      { rewrite Ecalls. apply kept_app; auto. }
      exists k'', al'. do 3 (split; [assumption|]). intros a b Va Vb.
      destruct (Nth a Va) as (i & ni & -> & Ji), (Nth b Vb) as (j & nj & -> & Jj).
      assert (El' : lst' = lst).
      { rewrite Ecalls, declared_app in I' by exact Fo.
        pose proof (frames_l _ _ _ I' _ X' Nm) as L1. pose proof (frames_l _ _ _ I _ X Nm) as L2.
        destruct A3 as (Af & _). rewrite L1, L2 in Af. clear -Af. revert lst Af. induction lst' as [|x r IH]; intros [|y s] Af; cbn in Af; try discriminate; auto.
        injection Af as -> Af. f_equal. auto. }
      subst lst'. rewrite (G' _ _ _ _ Ji Jj), (Ga _ _ _ _ Ji Jj), Ecalls, allowed_app, <- (In_ops i j ni nj Ji Jj).
      assert (Ob : forall x : bool, Ok x = Ok true <-> x = true) by (intros []; split; congruence).
      rewrite !Ob. now apply allowed_more. }
  destruct Fin as (k'' & al' & F1 & F2 & F3 & G'). exists k'', al'. split; [reflexivity|]. split; [exact F1|]. split; [exact F2|]. split.
  { rewrite F3, (map_geom_same _ _ A3). exact El. }
  split; [exact G'|]. intros vs' V'.
  assert (Ma' : made n al'). { pose proof (allowed_made _ _ F2) as Hm. rewrite F3 in Hm. destruct A3 as (Af & _). rewrite Af in Hm. exact Hm. }
  destruct (c94_check hit n al' os (tf_array TF 7) ps vs' Sy Ma' Vo Ep V') as [(b & Eb & Hb) _].
  destruct b; [exfalso|exact Eb]. destruct (proj1 Hb eq_refl) as (u & v & Ne & Gf & T).
  pose proof T as (x & y & Ix & Iy & Ex & Ey & _).
  assert (Vu : valid n u) by (rewrite <- Ex; auto). assert (Vv : valid n v) by (rewrite <- Ey; auto).
  assert (Ht : cl_get al' u v = Ok true); [|congruence]. apply G'; auto.
  destruct (c56_sym n al u v Ma Vu Vv) as ([|] & B1 & _); [now left|right]. split; auto.
Qed.
