(** Proofs for C87: what a parsed object says; any text. *)
From Coq Require Import String Ascii ZArith Reals Bool Arith List Lia.
From Verif Require Import WfModel WfSpec WfProofs WfNum WfObj WfObj2.
Import ListNotations.
Open Scope nat_scope.

Lemma text_eqb_spec a b : reflect (a = b) (text_eqb a b).
Proof. unfold text_eqb. destruct (list_eq_dec ascii_dec a b); now constructor. Qed.
Lemma find_some l s : forall i j, find_name l s i = Some j -> i <= j /\ nth_error l (j - i) = Some s.
Proof.
  induction l as [|x l IH]; intros i j H; cbn in H; [discriminate|].
  destruct (text_eqb_spec s x) as [->|_].
  - injection H as <-. split; [lia|]. now rewrite Nat.sub_diag.
  - apply IH in H as [H1 H2]. split; [lia|]. replace (j - i) with (S (j - S i)) by lia. exact H2.
Qed.
Lemma find_none l s : forall i, find_name l s i = None <-> ~ In s l.
Proof.
  induction l as [|x l IH]; intros i; cbn; [tauto|]. destruct (text_eqb_spec s x) as [->|N].
  - split; [discriminate|tauto].
  - rewrite IH. split; intros H; [intros [E|E]; [now apply N|tauto]|tauto].
Qed.
Lemma firsts_in l x : In x (firsts l) <-> In x l.
Proof.
  induction l as [|y l IH]; cbn; [tauto|]. rewrite filter_In, IH.
  destruct (text_eqb_spec y x) as [->|N]; cbn; [tauto|]. split; [tauto|]. intros [E|E]; auto.
Qed.
Lemma filter_same {A} (p : A -> bool) l x : filter p (l ++ [x]) = filter p l ++ (if p x then [x] else []).
Proof. rewrite filter_app. cbn. destruct (p x); reflexivity. Qed.
Lemma firsts_snoc l x : (In x l -> firsts (l ++ [x]) = firsts l) /\ (~ In x l -> firsts (l ++ [x]) = firsts l ++ [x]).
Proof.
  induction l as [|y l [IH1 IH2]]; cbn [app firsts]; [split; [intros []|reflexivity]|].
  destruct (in_dec (list_eq_dec ascii_dec) x l) as [I|I].
  - rewrite IH1 by exact I. split; [reflexivity|]. cbn; tauto.
  - rewrite IH2, filter_same by exact I. destruct (text_eqb_spec y x) as [->|N]; cbn [negb].
    + rewrite app_nil_r. split; [reflexivity|]. cbn; tauto.
    + split; [intros [E|E]; [contradiction|contradiction]|reflexivity].
Qed.
Lemma firsts_nodup l : NoDup (firsts l).
Proof.
  induction l as [|x l IH]; cbn; constructor.
  - rewrite filter_In. intros [_ H]. destruct (text_eqb_spec x x); [discriminate|congruence].
  - now apply NoDup_filter.
Qed.

Definition last_used (now : option text) (d : list stmt) : option text :=
  fold_left (fun n s => match s with UseMtl _ m => Some m | _ => n end) d now.
Lemma face_material_app d e : forall now, face_material now (d ++ e) = face_material now d ++ face_material (last_used now d) e.
Proof.
  induction d as [|s d IH]; intros now; [reflexivity|]. destruct s; cbn [app face_material last_used fold_left]; try apply IH.
  now rewrite IH.
Qed.
Lemma last_used_snoc now d s : last_used now (d ++ [s]) = match s with UseMtl _ m => Some m | _ => last_used now d end.
Proof. unfold last_used. now rewrite fold_left_app. Qed.

Section Says.
  Variable dir : text.
  Variable files : text -> option text.

  Definition cur_ok (d : list stmt) (o : obj) : Prop :=
    match last_used None d with
    | Some s => (0 <= o_current o)%Z /\ nth_error (o_materials o) (Z.to_nat (o_current o)) = Some s
    | None => o_current o = 0%Z
    end.
  Lemma f2_more (P Q : option text -> Z -> Prop) l m : (forall a b, P a b -> Q a b) -> Forall2 P l m -> Forall2 Q l m.
  Proof. intros H; induction 1; constructor; auto. Qed.
  Lemma nth_more (l : list text) x i s : nth_error l i = Some s -> nth_error (l ++ x) i = Some s.
  Proof. intros H. rewrite nth_error_app1; [exact H|]. apply nth_error_Some. congruence. Qed.

  Ltac snoc := rewrite ?flat_map_app, ?map_app; cbn [flat_map app map]; rewrite ?app_nil_r.
  Lemma says_snoc d o s o' : says dir files d o -> cur_ok d o -> does dir files o s o' ->
    says dir files (d ++ [s]) o' /\ cur_ok (d ++ [s]) o'.
  Proof.
    intros [Y1 Y2 Y3 Y4 Y5 Y6 Y7 Y8 Y9 Y10 Y11] C D. unfold cur_ok. rewrite last_used_snoc.
    assert (FM : face_material None (d ++ [s]) = face_material None d ++ face_material (last_used None d) [s]) by apply face_material_app.
    destruct s as [|g0 x g1 y g2 z|g0 x g1 y g2 z|g0 u g1 v|g0 nm|g0 nm|g0 nm|g0 r|g0 r|g0 a g1 b g2 c]; cbn [does face_material] in *.
    all: try (subst o'; split; [constructor; unfold vertices, normals, uvs, corners, object_names, libraries, used in *; snoc;
           cbn [o_vert o_norm o_tex o_vi o_ni o_ui o_objects o_files o_mtl o_materials o_mi push_vertex push_normal push_texture_vertex push_object];
           rewrite ?FM, ?app_nil_r, <- ?app_assoc; cbn [app];
           first [assumption | f_equal; assumption | idtac ] | exact C]; fail).
    - (* use material *)
      subst o'. unfold use_material. destruct (find_name (o_materials o) nm 0) as [i|] eqn:F.
      + apply find_some in F as [_ F]. rewrite Nat.sub_0_r in F.
        assert (I : In nm (used d)). { apply firsts_in. rewrite <- Y10. eapply nth_error_In, F. }
        split.
        * constructor; unfold vertices, normals, uvs, corners, object_names, libraries, used in *; snoc; cbn [o_vert o_norm o_tex o_vi o_ni o_ui o_objects o_files o_mtl o_materials o_mi]; rewrite ?FM, ?app_nil_r; try assumption.
          rewrite Y10. symmetry. now apply firsts_snoc.
        * cbn. split; [lia|]. now rewrite Nat2Z.id.
      + apply find_none in F.
        assert (I : ~ In nm (used d)). { intros I. apply F. rewrite Y10. now apply firsts_in. }
        split.
        * constructor; unfold vertices, normals, uvs, corners, object_names, libraries, used in *; snoc; cbn [o_vert o_norm o_tex o_vi o_ni o_ui o_objects o_files o_mtl o_materials o_mi]; rewrite ?FM, ?app_nil_r; try assumption.
          -- rewrite Y10. symmetry. now apply firsts_snoc.
          -- eapply f2_more; [|exact Y11]. intros [m|] i; [|tauto]. intros [H1 H2]. split; [exact H1|now apply nth_more].
        * cbn. split; [lia|]. rewrite Nat2Z.id, nth_error_app2, Nat.sub_diag; [reflexivity|lia].
    - (* libraries *)
      unfold push_mtl in D. destruct (files (dir ++ lit "/" ++ nm)) as [t|] eqn:F; [|discriminate].
      destruct (mtl_parse t) as [m| | |] eqn:M; try discriminate. injection D as <-.
      split; [|exact C]. constructor; unfold vertices, normals, uvs, corners, object_names, libraries, used in *; snoc; cbn [o_vert o_norm o_tex o_vi o_ni o_ui o_objects o_files o_mtl o_materials o_mi]; rewrite ?FM, ?app_nil_r; try assumption.
      + now rewrite Y8.
      + apply Forall2_app; [exact Y9|]. constructor; [|constructor]. exists t. now split.
    - (* faces *)
      subst o'. split; [|exact C]. constructor; unfold vertices, normals, uvs, corners, object_names, libraries, used in *; snoc;
        cbn [o_vert o_norm o_tex o_vi o_ni o_ui o_objects o_files o_mtl o_materials o_mi push_face]; rewrite ?FM, ?app_nil_r; try assumption.
      + now rewrite Y4.
      + now rewrite Y5.
      + now rewrite Y6.
      + apply Forall2_app; [exact Y11|]. constructor; [|constructor]. unfold cur_ok in C. destruct (last_used None d); exact C.
  Qed.
  Lemma says_nil : says dir files [] obj_create /\ cur_ok [] obj_create.
  Proof. split; [constructor; cbn; constructor|reflexivity]. Qed.
  Lemma says_doing e : forall d o o', says dir files d o -> cur_ok d o -> doing dir files o e o' ->
    says dir files (d ++ e) o' /\ cur_ok (d ++ e) o'.
  Proof.
    induction e as [|s e IH]; intros d o o' Y C D; cbn in D.
    - subst o'. rewrite app_nil_r. now split.
    - destruct D as (o1 & D1 & D2). destruct (says_snoc d o s o1 Y C D1) as [Y1 C1].
      destruct (IH _ _ _ Y1 C1 D2) as [Y2 C2]. now rewrite <- app_assoc in Y2, C2.
  Qed.
  Lemma can_do d : (forall n, In n (libraries d) -> exists m, library dir files n m) -> forall o, exists o', doing dir files o d o'.
  Proof.
    induction d as [|s d IH]; intros L o; cbn [doing]; [eauto|].
    assert (L' : forall n, In n (libraries d) -> exists m, library dir files n m).
    { intros n I. apply L. cbn. apply in_or_app. now right. }
    assert (D : exists o1, does dir files o s o1).
    { destruct s; cbn [does]; eauto. destruct (L name) as (m & t & F & M); [cbn; now left|].
      eexists. unfold push_mtl. rewrite F, M. reflexivity. }
    destruct D as (o1 & D). destruct (IH L' o1) as (o2 & D2). eauto.
  Qed.
  Lemma doing_app d e : forall o o', doing dir files o (d ++ e) o' <-> exists o1, doing dir files o d o1 /\ doing dir files o1 e o'.
  Proof.
    induction d as [|s d IH]; intros o o'; cbn.
    - split; [intros H; exists o; now split|intros (o1 & -> & H); exact H].
    - split.
      + intros (o1 & H1 & H2). apply IH in H2 as (o2 & H2 & H3). exists o2. eauto.
      + intros (o2 & (o1 & H1 & H2) & H3). exists o1. split; [exact H1|]. apply IH. eauto.
  Qed.

  Lemma goes_end t o o' f s' f' : goes dir files Init t o f s' [] o' f' -> obj_lex dir files (length t) Init t o f = Ok o'.
  Proof. intros G. destruct (G (length t) (le_n _)) as (n & _ & ->). destruct n; reflexivity. Qed.
  Lemma goes_whole ls rest o s' f' :
    Forall (line_ok reads) ls -> (forall n, In n (libraries (stmts ls)) -> exists m, library dir files n m) ->
    (forall o1 f1, doing dir files obj_create (stmts ls) o1 -> goes dir files Init rest o1 f1 s' [] (o o1) (f' f1)) ->
    exists o1, doing dir files obj_create (stmts ls) o1 /\ wf_parse dir files (file_text ls ++ rest) = Ok (o o1).
  Proof.
    intros OK L R. destruct (can_do _ L obj_create) as (o1 & D). exists o1. split; [exact D|].
    destruct (file_goes dir files ls rest obj_create o1 face0 OK D) as (f1 & G).
    unfold wf_parse. apply (goes_end _ _ _ _ s' (f' f1)). eapply goes_trans; [exact G|]. now apply R.
  Qed.
  Theorem c87_file ls : Forall (line_ok reads) ls -> (forall n, In n (libraries (stmts ls)) -> exists m, library dir files n m) ->
    exists o, wf_parse dir files (file_text ls) = Ok o /\ says dir files (stmts ls) o.
  Proof.
    intros OK L. destruct (goes_whole ls [] (fun o => o) Init (fun f => f) OK L) as (o1 & D & W).
    { intros o1 f1 _. apply goes_refl. }
    exists o1. rewrite app_nil_r in W. split; [exact W|].
    destruct says_nil as [Y C]. now destruct (says_doing _ _ _ _ Y C D) as [Y1 _].
  Qed.
End Says.

(** ** any text *)
Lemma longest_parts {A} (s : text) : forall (rs : list (re * A)) seen best a u v,
  (forall b x y, best = Some (b, x, y) -> x <> [] /\ rev seen ++ s = x ++ y) ->
  longest rs s seen best = Some (a, u, v) -> u <> [] /\ rev seen ++ s = u ++ v.
Proof.
  induction s as [|c s IH]; intros rs seen best a u v H L; cbn [longest] in L; [now apply (H a)|].
  assert (E : rev seen ++ c :: s = rev (c :: seen) ++ s) by (cbn [rev]; now rewrite <- app_assoc).
  rewrite E in *. eapply IH; [|exact L]. intros b x y K.
  destruct (hit (step c rs)); [|exact (H _ _ _ K)]. injection K as <- <- <-. split; [|reflexivity].
  cbn [rev]. intro X. apply app_eq_nil in X as [_ X]. discriminate.
Qed.
Lemma token_parts {A} (rs : list (re * A)) s a u v : next_token rs s = Some (a, u, v) -> u <> [] /\ s = u ++ v.
Proof. intros H. apply (longest_parts s rs [] None a u v) in H; [exact H|discriminate]. Qed.
Lemma token_len {A} (rs : list (re * A)) c s a u v n : next_token rs (c :: s) = Some (a, u, v) -> S (length s) <= S n -> length v <= n.
Proof.
  intros H L. apply token_parts in H as [N E]. assert (K : length (c :: s) = length (u ++ v)) by now rewrite E.
  rewrite app_length in K. cbn in K. destruct u; [congruence|]. cbn in K. lia.
Qed.
