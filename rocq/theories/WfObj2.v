(** Proofs for C87: the statements of object files. *)
From Coq Require Import String Ascii ZArith Reals Bool Arith List Lia.
From Verif Require Import WfModel WfSpec WfProofs WfNum WfObj.
Import ListNotations.
Open Scope nat_scope.

Section Obj.
  Variable dir : text.
  Variable files : text -> option text.
  Notation lex := (obj_lex dir files).

  Definition goes (s : ost) (t : text) (o : obj) (f : face) (s' : ost) (t' : text) (o' : obj) (f' : face) : Prop :=
    forall fuel, length t <= fuel -> exists fuel', length t' <= fuel' /\ lex fuel s t o f = lex fuel' s' t' o' f'.
  Lemma goes_refl s t o f : goes s t o f s t o f.
  Proof. intros fuel H. now exists fuel. Qed.
  Lemma goes_trans s1 t1 o1 f1 s2 t2 o2 f2 s3 t3 o3 f3 :
    goes s1 t1 o1 f1 s2 t2 o2 f2 -> goes s2 t2 o2 f2 s3 t3 o3 f3 -> goes s1 t1 o1 f1 s3 t3 o3 f3.
  Proof. intros H K n L. destruct (H n L) as (n2 & L2 & ->). exact (K n2 L2). Qed.
  Lemma goes_tok s u rest a o f s' o' f' : u <> [] -> next_token (obj_rules s) (u ++ rest) = Some (a, u, rest) ->
    obj_act dir files a s u o f = Ok (s', o', f') -> goes s (u ++ rest) o f s' rest o' f'.
  Proof.
    intros N T A fuel L. rewrite app_length in L. destruct u as [|c u]; [congruence|]. destruct fuel as [|fuel]; [cbn in L; lia|].
    exists fuel. split; [cbn in L; lia|]. cbn [app obj_lex]. cbn [app] in T. rewrite T, A. reflexivity.
  Qed.
  (** after a statement *)
  Lemma note_sep t n rest : sep t (note_text n ++ nl :: rest).
  Proof. destruct n; cbn; auto. Qed.
  Lemma nb_tok s a n g rest : obj_rules s = [(NUMBER_BLANKS, a); (DOT, AError)] -> num_ok n -> gap g -> ~ starts_blank rest ->
    num_text n ++ g <> [] /\ next_token (obj_rules s) ((num_text n ++ g) ++ rest) = Some (a, num_text n ++ g, rest).
  Proof.
    intros -> N G S. assert (E : num_text n ++ g <> []) by (destruct G; intro E; apply app_eq_nil in E; tauto). split; [exact E|].
    apply two_rules; [exact E| |]; rewrite number_blanks by assumption; [reflexivity|now apply stops_blank].
  Qed.
  Lemma ne_tok s a n g rest : obj_rules s = [(NUMBER_END, a); (DOT, AError)] -> num_ok n -> blanks g -> sep g rest ->
    num_text n ++ g <> [] /\ next_token (obj_rules s) ((num_text n ++ g) ++ rest) = Some (a, num_text n ++ g, rest).
  Proof.
    intros -> N G S. assert (E : num_text n ++ g <> []).
    { intro E. apply app_eq_nil in E as [E _]. destruct N as [[N _] _]. unfold num_text in E. apply app_eq_nil in E as [_ E]. apply app_eq_nil in E. tauto. }
    split; [exact E|]. destruct (number_end n g N G) as [H1 H2].
    apply two_rules; [exact E|exact H1|now apply H2].
  Qed.
  Lemma eol_tail t n rest o f : tail_ok t n -> goes Eol (tail_text t n ++ rest) o f Init rest o f.
  Proof.
    intros OK. eapply (goes_tok _ _ _ (ABegin Init)); [apply tail_ne| |reflexivity].
    apply two_rules; [apply tail_ne| |]; rewrite end_tail by exact OK; [reflexivity|apply stops_eps].
  Qed.
  Lemma eol_note n rest o f : match n with Some c => one_line c | None => True end ->
    goes Eol (note_text n ++ nl :: rest) o f Init rest o f.
  Proof.
    intros OK. replace (note_text n ++ nl :: rest) with (tail_text [] n ++ rest).
    - apply eol_tail. split; [constructor|exact OK].
    - unfold tail_text. cbn [app]. now rewrite <- app_assoc.
  Qed.
  Lemma num_no_blank n u : num_ok n -> ~ starts_blank (num_text n ++ u).
  Proof. intros N. exact (proj2 (head_sign n N u)). Qed.

  (** ** the statements *)
  Definition mk_face (a b c : corner) : face :=
    mkFace (fun i => nth i [index (c_v a); index (c_v b); index (c_v c)] 0%Z)
           (fun i => nth i [index (c_n a); index (c_n b); index (c_n c)] 0%Z)
           (fun i => nth i [uv_index a; uv_index b; uv_index c] 0%Z).
  Definition does (o : obj) (s : stmt) (o' : obj) : Prop :=
    match s with
    | Nothing | Smooth _ _ | Polyline _ _ => o' = o
    | Vertex _ x _ y _ z => o' = push_vertex (push_vertex (push_vertex o (mantissa x)) (mantissa y)) (mantissa z)
    | Normal _ x _ y _ z => o' = push_normal (push_normal (push_normal o (mantissa x)) (mantissa y)) (mantissa z)
    | Uv _ u _ v => o' = push_texture_vertex (push_texture_vertex o (mantissa u)) (mantissa v)
    | ObjectName _ n => o' = push_object o n
    | UseMtl _ n => o' = use_material o n
    | MtlLib _ n => push_mtl dir files o n = Ok o'
    | Face _ a _ b _ c => o' = push_face o (mk_face a b c)
    end.

  Lemma num_read n t : reads n -> blanks t -> parse_float (num_text n ++ t) = mantissa n.
  Proof. intros [H K]. now apply parse_num. Qed.
  Lemma gap_blanks g : gap g -> blanks g.
  Proof. now intros [_ H]. Qed.

  Lemma goes_v x g1 y g2 z t rest o f : reads x -> gap g1 -> reads y -> gap g2 -> reads z -> blanks t -> sep t rest ->
    goes (V 0) (num_text x ++ g1 ++ num_text y ++ g2 ++ num_text z ++ t ++ rest) o f
         Eol rest (push_vertex (push_vertex (push_vertex o (mantissa x)) (mantissa y)) (mantissa z)) f.
  Proof.
    intros Rx G1 Ry G2 Rz B Sp. rewrite (app_assoc (num_text x)).
    eapply goes_trans.
    { destruct (nb_tok (V 0) (AVertex (V 1)) x g1 (num_text y ++ g2 ++ num_text z ++ t ++ rest) eq_refl (proj1 Rx) G1 (num_no_blank y _ (proj1 Ry))) as [N T].
      eapply goes_tok; [exact N|exact T|reflexivity]. }
    rewrite (num_read x g1 Rx (gap_blanks _ G1)). rewrite (app_assoc (num_text y)). eapply goes_trans.
    { destruct (nb_tok (V 1) (AVertex (V 2)) y g2 (num_text z ++ t ++ rest) eq_refl (proj1 Ry) G2 (num_no_blank z _ (proj1 Rz))) as [N T].
      eapply goes_tok; [exact N|exact T|reflexivity]. }
    rewrite (num_read y g2 Ry (gap_blanks _ G2)). rewrite (app_assoc (num_text z)). eapply goes_trans.
    { destruct (ne_tok (V 2) (AVertex Eol) z t rest eq_refl (proj1 Rz) B Sp) as [N T].
      eapply goes_tok; [exact N|exact T|reflexivity]. }
    rewrite (num_read z t Rz B). apply goes_refl.
  Qed.
  Lemma goes_vn x g1 y g2 z t rest o f : reads x -> gap g1 -> reads y -> gap g2 -> reads z -> blanks t -> sep t rest ->
    goes (VN 0) (num_text x ++ g1 ++ num_text y ++ g2 ++ num_text z ++ t ++ rest) o f
         Eol rest (push_normal (push_normal (push_normal o (mantissa x)) (mantissa y)) (mantissa z)) f.
  Proof.
    intros Rx G1 Ry G2 Rz B Sp. rewrite (app_assoc (num_text x)).
    eapply goes_trans.
    { destruct (nb_tok (VN 0) (ANormal (VN 1)) x g1 (num_text y ++ g2 ++ num_text z ++ t ++ rest) eq_refl (proj1 Rx) G1 (num_no_blank y _ (proj1 Ry))) as [N T].
      eapply goes_tok; [exact N|exact T|reflexivity]. }
    rewrite (num_read x g1 Rx (gap_blanks _ G1)). rewrite (app_assoc (num_text y)). eapply goes_trans.
    { destruct (nb_tok (VN 1) (ANormal (VN 2)) y g2 (num_text z ++ t ++ rest) eq_refl (proj1 Ry) G2 (num_no_blank z _ (proj1 Rz))) as [N T].
      eapply goes_tok; [exact N|exact T|reflexivity]. }
    rewrite (num_read y g2 Ry (gap_blanks _ G2)). rewrite (app_assoc (num_text z)). eapply goes_trans.
    { destruct (ne_tok (VN 2) (ANormal Eol) z t rest eq_refl (proj1 Rz) B Sp) as [N T].
      eapply goes_tok; [exact N|exact T|reflexivity]. }
    rewrite (num_read z t Rz B). apply goes_refl.
  Qed.
  Lemma goes_vt x g1 z t rest o f : reads x -> gap g1 -> reads z -> blanks t -> sep t rest ->
    goes (VT 0) (num_text x ++ g1 ++ num_text z ++ t ++ rest) o f
         Eol rest (push_texture_vertex (push_texture_vertex o (mantissa x)) (mantissa z)) f.
  Proof.
    intros Rx G1 Rz B Sp. rewrite (app_assoc (num_text x)).
    eapply goes_trans.
    { destruct (nb_tok (VT 0) (ATex (VT 1)) x g1 (num_text z ++ t ++ rest) eq_refl (proj1 Rx) G1 (num_no_blank z _ (proj1 Rz))) as [N T].
      eapply goes_tok; [exact N|exact T|reflexivity]. }
    rewrite (num_read x g1 Rx (gap_blanks _ G1)). rewrite (app_assoc (num_text z)). eapply goes_trans.
    { destruct (ne_tok (VT 1) (ATex Eol) z t rest eq_refl (proj1 Rz) B Sp) as [N T].
      eapply goes_tok; [exact N|exact T|reflexivity]. }
    rewrite (num_read z t Rz B). apply goes_refl.
  Qed.

  (** names *)
  Definition name_sep (t rest : text) : Prop :=
    t <> [] \/ match rest with [] => True | c :: _ => c = nl \/ c = CR end.
  Lemma name_tok s a nm t rest : obj_rules s = [(GRAPHS, a); (DOT, AError)] -> name_ok nm -> blanks t -> name_sep t rest ->
    next_token (obj_rules s) (nm ++ t ++ rest) = Some (a, nm, t ++ rest).
  Proof.
    intros -> N B S. apply two_rules; [apply N| |]; rewrite graphs by exact N; [reflexivity|].
    destruct t as [|c t].
    - destruct S as [S|S]; [congruence|]. destruct rest as [|c rest]; [exact I|]. destruct S as [-> | ->]; cbn; apply dead_nul.
    - cbn [app stops]. inversion B as [|? ? B1 B2]; subst. destruct (blank_cases c B1) as [-> | ->]; cbn; apply dead_nul.
  Qed.

  (** faces *)
  Lemma slash_tok i d rest o f : index_ok d ->
    goes (FV i) (d ++ lit "/" ++ rest) o f (FT i) rest o (set_face f Mv i (index d)).
  Proof.
    intros D. rewrite app_assoc. assert (N : d ++ lit "/" <> []) by (intro E; apply app_eq_nil in E as [_ E]; discriminate).
    eapply goes_tok; [exact N| |].
    - cbn [obj_rules]. apply two_rules; [exact N| |]; rewrite int_slash by apply D; [reflexivity|apply stops_eps].
    - cbn [obj_act]. rewrite (index_ok_read d (lit "/") D); [reflexivity|discriminate].
  Qed.
  Lemma uv_tok i c rest o f : match c_t c with Some t => index_ok t | None => True end ->
    goes (FT i) (match c_t c with Some t => t | None => [] end ++ lit "/" ++ rest) o f (FN i) rest o (set_face f Mt i (uv_index c)).
  Proof.
    intros D. unfold uv_index. destruct (c_t c) as [d|].
    - rewrite app_assoc. assert (N : d ++ lit "/" <> []) by (intro E; apply app_eq_nil in E as [_ E]; discriminate).
      eapply goes_tok; [exact N| |].
      + cbn [obj_rules]. assert (Z : derivs (d ++ lit "/") (Cls (Chr "/")) = Nul).
        { destruct D as [[Nd Fd] _]. destruct d as [|e d]; [congruence|]. inversion Fd; subst. cbn [app derivs deriv].
          assert (K : in_cls (Chr "/") e = false).
          { match goal with H : is_digit e = true |- _ => apply digit_cases in H; cbn [In lit list_ascii_of_string] in H;
              repeat (destruct H as [<- | H]; [reflexivity|]); destruct H end. }
          rewrite K. apply derivs_nul. }
        apply next_tok; [exact N| |]; unfold steps; cbn [map fst snd]; rewrite int_slash by apply D; rewrite Z; [reflexivity|].
        repeat (apply Forall_cons || apply Forall_nil); cbn [fst]; try apply stops_nul. now apply dot_stops.
      + cbn [obj_act]. rewrite (index_ok_read d (lit "/") D); [reflexivity|discriminate].
    - cbn [app]. eapply (goes_tok _ (lit "/") _ (ASkip i (FN i))); [discriminate| |reflexivity]. cbn [obj_rules].
      apply next_tok; [discriminate|reflexivity|]. repeat (apply Forall_cons || apply Forall_nil); cbn [fst snd]; apply stops_nul.
  Qed.
  Definition set_corner (f : face) (i : nat) (c : corner) : face :=
    set_face (set_face (set_face f Mv i (index (c_v c))) Mt i (uv_index c)) Mn i (index (c_n c)).
  Lemma digit_no_blank d u : digits d -> ~ starts_blank (d ++ u).
  Proof.
    intros [N D]. destruct d as [|c d]; [congruence|]. inversion D; subst. cbn. rewrite digit_not_blank by assumption. discriminate.
  Qed.
  Lemma corner_goes i c g rest o f : i < 2 -> corner_ok c -> gap g -> ~ starts_blank rest ->
    goes (FV i) (corner_text c ++ g ++ rest) o f (FV (S i)) rest o (set_corner f i c).
  Proof.
    intros I [Dv [Dn Dt]] G S. unfold corner_text. rewrite <- !app_assoc.
    eapply goes_trans; [apply slash_tok, Dv|]. eapply goes_trans; [apply uv_tok, Dt|].
    rewrite app_assoc. assert (N : c_n c ++ g <> []) by (destruct G; intro E; apply app_eq_nil in E; tauto).
    eapply goes_tok; [exact N| |].
    - assert (E : obj_rules (FN i) = [(Cat INT BLANKS, ASet Mn i (FV (Datatypes.S i))); (DOT, AError)]) by (destruct i as [|[|i]]; [reflexivity|reflexivity|lia]).
      rewrite E. apply two_rules; [exact N| |]; rewrite int_blanks by (exact G||apply Dn); [reflexivity|now apply stops_blank].
    - cbn [obj_act]. rewrite (index_ok_read (c_n c) g Dn); [reflexivity|].
      destruct G as [Ng Bg]. destruct g as [|e g]; [congruence|]. inversion Bg; subst. cbn. rewrite blank_not_digit by assumption. discriminate.
  Qed.
  Lemma last_corner c t n rest o f : corner_ok c -> tail_ok t n ->
    goes (FV 2) (corner_text c ++ tail_text t n ++ rest) o f Init rest (push_face o (set_corner f 2 c)) (set_corner f 2 c).
  Proof.
    intros [Dv [Dn Dt]] T. unfold corner_text. rewrite <- !app_assoc.
    eapply goes_trans; [apply slash_tok, Dv|]. eapply goes_trans; [apply uv_tok, Dt|].
    rewrite app_assoc. assert (N : c_n c ++ tail_text t n <> []) by (intro E; apply app_eq_nil in E as [_ E]; now apply tail_ne in E).
    eapply goes_tok; [exact N| |].
    - cbn [obj_rules]. apply two_rules; [exact N| |]; rewrite int_end by (exact T||apply Dn); [reflexivity|apply stops_eps].
    - cbn [obj_act]. rewrite (index_ok_read (c_n c) (tail_text t n) Dn); [reflexivity|].
      destruct T as [B _]. destruct t as [|e t].
      + unfold tail_text. destruct n; cbn; discriminate.
      + inversion B; subst. cbn. rewrite blank_not_digit by assumption. discriminate.
  Qed.
  Lemma corner_no_blank c u : corner_ok c -> ~ starts_blank (corner_text c ++ u).
  Proof. intros [[D _] _]. unfold corner_text. rewrite <- app_assoc. now apply digit_no_blank. Qed.

  Lemma key_goes b w g a s rest o f : In (w, a) obj_keys -> blanks b -> gap g -> ~ starts_blank rest -> a = ABegin s ->
    goes Init (b ++ w ++ g ++ rest) o f s rest o f.
  Proof.
    intros K B G S ->. replace (b ++ w ++ g ++ rest) with ((b ++ w ++ g) ++ rest) by now rewrite <- !app_assoc.
    eapply goes_tok; [|apply (init_key b w g _ rest K B G S)|reflexivity].
    intro E. apply app_eq_nil in E as [_ E]. apply app_eq_nil in E as [_ E]. now destruct G.
  Qed.

  (** numbers: the blanks after the last one are taken with it *)
  Lemma numeric_goes b s t rest o o' f : is_numeric s = true -> stmt_ok reads s -> blanks b -> blanks t -> sep t rest -> does o s o' ->
    goes Init (b ++ stmt_text s ++ t ++ rest) o f Eol rest o' f.
  Proof.
    intros N OK B Bt S D.
    destruct s as [|g0 x g1 y g2 z|g0 x g1 y g2 z|g0 u g1 v|g0 nm|g0 nm|g0 nm|g0 r|g0 r|g0 a g1 bb g2 c]; try discriminate; cbn [stmt_text stmt_ok does] in *.
    - destruct OK as (G0 & Rx & G1 & Ry & G2 & Rz). subst o'. rewrite <- !app_assoc.
      eapply goes_trans; [apply (key_goes _ (lit "v") g0 (ABegin (V 0)) (V 0)); [cbn; tauto|exact B|exact G0|apply num_no_blank, Rx|reflexivity]|].
      now apply goes_v.
    - destruct OK as (G0 & Rx & G1 & Ry & G2 & Rz). subst o'. rewrite <- !app_assoc.
      eapply goes_trans; [apply (key_goes _ (lit "vn") g0 (ABegin (VN 0)) (VN 0)); [cbn; tauto|exact B|exact G0|apply num_no_blank, Rx|reflexivity]|].
      now apply goes_vn.
    - destruct OK as (G0 & Rx & G1 & Ry). subst o'. rewrite <- !app_assoc.
      eapply goes_trans; [apply (key_goes _ (lit "vt") g0 (ABegin (VT 0)) (VT 0)); [cbn; tauto|exact B|exact G0|apply num_no_blank, Rx|reflexivity]|].
      now apply goes_vt.
  Qed.
  Lemma name_goes b s t rest o o' f : is_name s = true -> stmt_ok reads s -> blanks b -> blanks t -> name_sep t rest -> does o s o' ->
    goes Init (b ++ stmt_text s ++ t ++ rest) o f Eol (t ++ rest) o' f.
  Proof.
    intros N OK B Bt S D.
    assert (NB : forall nm, name_ok nm -> ~ starts_blank (nm ++ t ++ rest)).
    { intros nm [Ne Fg]. destruct nm as [|e nm]; [congruence|]. inversion Fg; subst. cbn. rewrite graph_not_blank by assumption. discriminate. }
    destruct s as [|g0 x g1 y g2 z|g0 x g1 y g2 z|g0 u g1 v|g0 nm|g0 nm|g0 nm|g0 r|g0 r|g0 a g1 bb g2 c]; try discriminate; cbn [stmt_text stmt_ok does] in *;
      destruct OK as (G0 & Nm); rewrite <- !app_assoc.
    - subst o'. eapply goes_trans; [apply (key_goes _ (lit "o") g0 (ABegin Object) Object); [cbn; tauto|exact B|exact G0|now apply NB|reflexivity]|].
      eapply goes_tok; [apply Nm|apply (name_tok Object AObject); [reflexivity|exact Nm|exact Bt|exact S]|reflexivity].
    - subst o'. eapply goes_trans; [apply (key_goes _ (lit "usemtl") g0 (ABegin Usemtl) Usemtl); [cbn; tauto|exact B|exact G0|now apply NB|reflexivity]|].
      eapply goes_tok; [apply Nm|apply (name_tok Usemtl AUse); [reflexivity|exact Nm|exact Bt|exact S]|reflexivity].
    - eapply goes_trans; [apply (key_goes _ (lit "mtllib") g0 (ABegin Mtllib) Mtllib); [cbn; tauto|exact B|exact G0|now apply NB|reflexivity]|].
      eapply goes_tok; [apply Nm|apply (name_tok Mtllib ALib); [reflexivity|exact Nm|exact Bt|exact S]|cbn [obj_act]; rewrite D; reflexivity].
  Qed.
  Lemma smooth_goes b g r rest o f : blanks b -> gap g -> one_line r -> match rest with [] => True | c :: _ => c = nl end ->
    goes Init (b ++ lit "s" ++ g ++ r ++ rest) o f Eol rest o f.
  Proof.
    intros B G U R. replace (b ++ lit "s" ++ g ++ r ++ rest) with ((b ++ lit "s" ++ g ++ r) ++ rest) by (rewrite <- !app_assoc; reflexivity).
    eapply goes_tok; [|apply init_smooth; assumption|reflexivity]. destruct b; discriminate.
  Qed.
  Lemma l_goes g r rest o f : gap g -> one_line r -> match rest with [] => True | c :: _ => c = nl end ->
    goes Init (lit "l" ++ g ++ r ++ rest) o f Init rest o f.
  Proof.
    intros G U R. replace (lit "l" ++ g ++ r ++ rest) with ((lit "l" ++ g ++ r) ++ rest) by (rewrite <- !app_assoc; reflexivity).
    eapply goes_tok; [|apply init_l; assumption|reflexivity]. discriminate.
  Qed.
  Lemma end_goes t n rest o f : tail_ok t n -> goes Init (tail_text t n ++ rest) o f Init rest o f.
  Proof. intros T. eapply goes_tok; [apply tail_ne|now apply init_end|reflexivity]. Qed.

  Definition note_ok (n : option text) : Prop := match n with Some c => one_line c | None => True end.
  Lemma blanks_line b : blanks b -> one_line b.
  Proof. intros B. eapply Forall_impl; [|exact B]. intros d Hd ->. discriminate. Qed.
  Lemma note_line n : note_ok n -> one_line (note_text n).
  Proof. destruct n; [|constructor]. intros H. constructor; [discriminate|exact H]. Qed.

  Lemma line_goes l rest o o' f : line_ok reads l -> does o (body l) o' ->
    exists f', goes Init ((line_text l ++ [nl]) ++ rest) o f Init rest o' f'.
  Proof.
    intros (B & Bt & Bn & OK & NS & PL) D. unfold line_text.
    replace (((indent l ++ stmt_text (body l) ++ trail l ++ note_text (note l)) ++ [nl]) ++ rest)
      with (indent l ++ stmt_text (body l) ++ trail l ++ note_text (note l) ++ nl :: rest)
      by (rewrite <- !app_assoc; reflexivity).
    assert (T : tail_ok (trail l) (note l)) by now split.
    assert (TE : forall u, trail l ++ note_text (note l) ++ nl :: u = tail_text (trail l) (note l) ++ u).
    { intros u. unfold tail_text. rewrite <- !app_assoc. reflexivity. }
    destruct (is_numeric (body l)) eqn:En.
    { exists f. eapply goes_trans; [apply numeric_goes with (o' := o'); try eassumption; apply note_sep|]. now apply eol_note. }
    destruct (is_name (body l)) eqn:Em.
    { exists f. eapply goes_trans; [apply name_goes with (o' := o'); try eassumption|].
      - destruct (trail l) as [|c t] eqn:Et; [right|left; discriminate]. destruct (note l); [exfalso; now apply NS|]. now left.
      - rewrite TE. now apply eol_tail. }
    destruct (body l) as [|g0 x g1 y g2 z|g0 x g1 y g2 z|g0 u g1 v|g0 nm|g0 nm|g0 nm|g0 r|g0 r|g0 a g1 b g2 c]; try discriminate; cbn [stmt_text stmt_ok does is_polyline] in *.
    - subst o'. exists f. cbn [app]. replace (indent l ++ trail l ++ note_text (note l) ++ nl :: rest) with (tail_text (indent l ++ trail l) (note l) ++ rest)
        by (unfold tail_text; rewrite <- !app_assoc; reflexivity).
      apply end_goes. split; [apply Forall_app; now split|exact Bn].
    - destruct OK as (G0 & U). subst o'. exists f.
      replace (indent l ++ (lit "s" ++ g0 ++ r) ++ trail l ++ note_text (note l) ++ nl :: rest)
        with (indent l ++ lit "s" ++ g0 ++ (r ++ trail l ++ note_text (note l)) ++ nl :: rest)
        by (rewrite <- !app_assoc; reflexivity).
      eapply goes_trans; [apply smooth_goes; [exact B|exact G0| |reflexivity]|apply (eol_note None); exact I].
      apply Forall_app. split; [exact U|]. apply Forall_app. split; [now apply blanks_line|now apply note_line].
    - destruct OK as (G0 & U). subst o'. exists f. rewrite (PL eq_refl). cbn [app].
      replace ((lit "l" ++ g0 ++ r) ++ trail l ++ note_text (note l) ++ nl :: rest)
        with (lit "l" ++ g0 ++ (r ++ trail l ++ note_text (note l)) ++ nl :: rest)
        by (rewrite <- !app_assoc; reflexivity).
      eapply goes_trans; [apply l_goes; [exact G0| |reflexivity]|apply (end_goes [] None); split; [constructor|exact I]].
      apply Forall_app. split; [exact U|]. apply Forall_app. split; [now apply blanks_line|now apply note_line].
    - destruct OK as (G0 & Ca & G1 & Cb & G2 & Cc). subst o'. rewrite <- !app_assoc.
      set (f3 := set_corner (set_corner (set_corner f 0 a) 1 b) 2 c).
      exists f3. rewrite TE.
      eapply goes_trans; [apply (key_goes _ (lit "f") g0 (ABegin (FV 0)) (FV 0)); [cbn; tauto|exact B|exact G0|now apply corner_no_blank|reflexivity]|].
      eapply goes_trans; [apply corner_goes; [lia|exact Ca|exact G1|now apply corner_no_blank]|].
      eapply goes_trans; [apply corner_goes; [lia|exact Cb|exact G2|now apply corner_no_blank]|].
      replace (push_face o (mk_face a b c)) with (push_face o f3) by reflexivity.
      now apply last_corner.
  Qed.

  (** ** whole files *)
  Fixpoint doing (o : obj) (d : list stmt) (o' : obj) : Prop :=
    match d with [] => o' = o | s :: r => exists o1, does o s o1 /\ doing o1 r o' end.
  Lemma file_goes ls : forall rest o o' f, Forall (line_ok reads) ls -> doing o (stmts ls) o' ->
    exists f', goes Init (file_text ls ++ rest) o f Init rest o' f'.
  Proof.
    induction ls as [|l ls IH]; intros rest o o' f OK D; cbn [stmts map doing] in D.
    - subst o'. exists f. apply goes_refl.
    - inversion OK as [|? ? O1 O2]; subst. destruct D as (o1 & D1 & D2).
      destruct (line_goes l (file_text ls ++ rest) o o1 f O1 D1) as (f1 & H1).
      destruct (IH rest o1 o' f1 O2 D2) as (f2 & H2). exists f2.
      cbn [file_text flat_map]. rewrite <- app_assoc. eapply goes_trans; [exact H1|exact H2].
  Qed.
End Obj.
