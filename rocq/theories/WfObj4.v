(** Proofs for C87: last lines, lines that are rejected, and any text. *)
From Coq Require Import String Ascii ZArith Reals Bool Arith List Lia.
From Verif Require Import WfModel WfSpec WfProofs WfNum WfObj WfObj2 WfObj3.
Import ListNotations.
Open Scope nat_scope.

(** ** expressions that need a newline *)
Inductive needs_nl : re -> Prop :=
| nn_nul : needs_nl Nul
| nn_nl : needs_nl (Cls (Chr nl))
| nn_cat a b : needs_nl b -> needs_nl (Cat a b)
| nn_alt a b : needs_nl a -> needs_nl b -> needs_nl (Alt a b).
Lemma nn_false r : needs_nl r -> nullable r = false.
Proof. induction 1 as [| |a b _ IH|a b _ IHa _ IHb]; cbn; auto; [rewrite IH; apply andb_false_r|now rewrite IHa, IHb]. Qed.
Lemma nn_cat' a b : needs_nl b -> needs_nl (cat a b).
Proof. intros H. destruct a; cbn; try exact H; constructor; exact H. Qed.
Lemma nn_alt' a b : needs_nl a -> needs_nl b -> needs_nl (alt a b).
Proof. intros H K. unfold alt. destruct a; try exact K; destruct b; try exact H; now constructor. Qed.
Lemma nn_deriv r c : needs_nl r -> c <> nl -> needs_nl (deriv c r).
Proof.
  intros H N. induction H as [| |a b Hb IH|a b _ IHa _ IHb]; cbn [deriv].
  - constructor.
  - change (in_cls (Chr nl) c) with (Ascii.eqb c nl). destruct (Ascii.eqb_spec c nl); [contradiction|constructor].
  - destruct (nullable a); [apply nn_alt'|]; try exact IH; now apply nn_cat'.
  - now apply nn_alt'.
Qed.
Lemma nn_derivs u : one_line u -> forall r, needs_nl r -> needs_nl (derivs u r).
Proof. induction 1 as [|c u N _ IH]; intros r H; cbn; [exact H|]. apply IH. now apply nn_deriv. Qed.

(** no beginning of the text matches *)
Definition never (r : re) (t : text) : Prop := forall v w, t = v ++ w -> v <> [] -> nullable (derivs v r) = false.
Lemma prefix_cases (u : text) : forall tl v w, u ++ tl = v ++ w ->
  (exists x, u = v ++ x) \/ (exists x y, x <> [] /\ v = u ++ x /\ tl = x ++ y).
Proof.
  induction u as [|c u IH]; intros tl v w E.
  - cbn in E. destruct v as [|d v]; [left; now exists []|right]. exists (d :: v), w. repeat split; [discriminate|exact E].
  - destruct v as [|d v]; [left; eexists; reflexivity|]. cbn in E. injection E as -> E.
    destruct (IH _ _ _ E) as [(x & ->)|(x & y & N & -> & ->)]; [left|right].
    + now exists x.
    + exists x, y. now repeat split.
Qed.
Lemma never_nl r u tl : needs_nl r -> one_line u -> stops tl (derivs u r) -> never r (u ++ tl).
Proof.
  intros N U S v w E V. destruct (prefix_cases u tl v w E) as [(x & ->)|(x & y & X & -> & ->)].
  - apply nn_false, nn_derivs; [|exact N]. apply Forall_app in U. tauto.
  - rewrite derivs_app. destruct x as [|c x]; [congruence|]. exact (S x).
Qed.
Lemma longest_keep {A} (s : text) : forall (rs : list (re * A)) seen best,
  (forall v w, s = v ++ w -> v <> [] -> hit (steps v rs) = None) -> longest rs s seen best = best.
Proof.
  induction s as [|c s IH]; intros rs seen best H; cbn [longest]; [reflexivity|].
  rewrite IH.
  - assert (K := H [c] s eq_refl ltac:(discriminate)). rewrite steps_step, steps_nil in K. now rewrite K.
  - intros v w -> V. rewrite <- steps_step. apply (H (c :: v) w eq_refl). discriminate.
Qed.
Lemma hit_app {A} (a b : list (re * A)) : hit (a ++ b) = match hit a with Some x => Some x | None => hit b end.
Proof. induction a as [|[r x] a IH]; cbn; [reflexivity|]. destruct (nullable r); [reflexivity|apply IH]. Qed.
Lemma never_token {A} (rs : list (re * A)) e c t : c <> nl -> Forall (fun ra => never (fst ra) (c :: t)) rs ->
  next_token (rs ++ [(DOT, e)]) (c :: t) = Some (e, [c], t).
Proof.
  intros N F.
  assert (H : forall v w, c :: t = v ++ w -> v <> [] -> hit (steps v rs) = None).
  { intros v w E V. apply hit_dead. unfold steps. apply Forall_map. eapply Forall_impl; [|exact F].
    intros [r a] K. exact (K v w E V). }
  unfold next_token. cbn [longest]. rewrite <- (steps_nil (step c _)), <- steps_step.
  unfold steps at 2. rewrite map_app. fold (steps [c] rs). rewrite hit_app, (H [c] t eq_refl) by discriminate.
  assert (E : in_cls NotNl c = true).
  { change (in_cls NotNl c) with (negb (Ascii.eqb c nl)). destruct (Ascii.eqb_spec c nl); [contradiction|reflexivity]. }
  cbn [map fst snd derivs]. unfold DOT. cbn [deriv]. rewrite E. cbn [hit nullable rev app].
  apply longest_keep. intros v w -> V.
  unfold steps. rewrite !map_app, map_map. cbn [map fst snd derivs]. unfold DOT. cbn [deriv]. rewrite hit_app.
  assert (Z := H (c :: v) w eq_refl ltac:(discriminate)). unfold steps in Z. rewrite E. 
  assert (Z2 : derivs v Eps = Nul) by (destruct v; [congruence|apply derivs_nul]).
  cbn [derivs] in Z. rewrite Z2. cbn [hit nullable]. 
  now rewrite Z.
Qed.

Section Reject.
  Variable dir : text.
  Variable files : text -> option text.
  Notation lex := (obj_lex dir files).
  Notation goes := (goes dir files).

  Definition rejects (s : ost) (t : text) : Prop := forall fuel o f, length t <= fuel -> lex fuel s t o f = Rejected.
  Lemma goes_rejects s t o f s' t' o' f' : goes s t o f s' t' o' f' -> rejects s' t' -> forall n, length t <= n -> lex n s t o f = Rejected.
  Proof. intros G R n L. destruct (G n L) as (m & M & ->). now apply R. Qed.
  Lemma reject_never s rs c t : obj_rules s = rs ++ [(DOT, AError)] -> c <> nl -> Forall (fun ra => never (fst ra) (c :: t)) rs ->
    rejects s (c :: t).
  Proof.
    intros E N F [|n] o f L; [cbn in L; lia|]. cbn [obj_lex]. rewrite E, (never_token rs AError c t N F). reflexivity.
  Qed.
  Lemma end_needs : needs_nl END.
  Proof. repeat constructor. Qed.
  Lemma eol_reject u tl : one_line u -> (exists c t, u ++ tl = c :: t /\ c <> nl) -> stops tl (derivs u END) -> rejects Eol (u ++ tl).
  Proof.
    intros U (c & t & E & N) S. rewrite E. apply (reject_never Eol [(END, ABegin Init)]); [reflexivity|exact N|].
    constructor; [|constructor]. cbn [fst]. rewrite <- E. apply never_nl; [apply end_needs|exact U|exact S].
  Qed.
  Lemma fn2_reject d u tl : digits d -> one_line u -> stops tl (derivs (d ++ u) (Cat INT END)) -> rejects (FN 2) (d ++ u ++ tl).
  Proof.
    intros [N D] U S. destruct d as [|c d]; [congruence|]. inversion D as [|? ? D1 D2]; subst.
    cbn [app]. apply (reject_never (FN 2) [(Cat INT END, AFace)]); [reflexivity|now apply digit_not_nl|].
    constructor; [|constructor]. cbn [fst]. change (c :: d ++ u ++ tl) with ((c :: d) ++ u ++ tl). rewrite app_assoc.
    apply never_nl; [constructor; apply end_needs| |exact S].
    apply Forall_app. split; [|exact U]. eapply Forall_impl; [|exact D]. intros e He. now apply digit_not_nl.
  Qed.
  (** the blanks and the character after a word, at the end of a line *)
  Lemma end_stop t x : blanks t -> is_blank x = false -> x <> "#"%char -> x <> nl -> deriv x (derivs t END) = Nul.
  Proof.
    intros B H1 H2 H3. rewrite (derivs_run is_blank END); [|blk|exact B].
    all_chars x; solve [reflexivity|discriminate H1|exfalso; apply H2; reflexivity|exfalso; apply H3; reflexivity].
  Qed.
  Lemma int_stop d t x : digits d -> blanks t -> is_blank x = false -> x <> "#"%char -> x <> nl -> (t = [] -> x = CR) ->
    deriv x (derivs (d ++ t) (Cat INT END)) = Nul.
  Proof.
    intros [N D] B H1 H2 H3 H4. rewrite derivs_app. rewrite (run1 is_digit d _ (derivs (lit "1") (Cat INT END)) N D); [|dig|dig].
    destruct t as [|c t].
    - rewrite (H4 eq_refl). reflexivity.
    - inversion B as [|? ? B1 B2]; subst. cbn [derivs].
      assert (E : deriv c (derivs (lit "1") (Cat INT END)) = END) by (destruct (blank_cases c B1) as [-> | ->]; reflexivity).
      rewrite E. now apply end_stop.
  Qed.
  Lemma face_goes b g0 a g1 bb g2 c rest o f : blanks b -> gap g0 -> corner_ok a -> gap g1 -> corner_ok bb -> gap g2 -> corner_ok c ->
    exists f', goes Init (b ++ stmt_text (Face g0 a g1 bb g2 c) ++ rest) o f (FN 2) (c_n c ++ rest) o f'.
  Proof.
    intros B G0 Ca G1 Cb G2 Cc. eexists. cbn [stmt_text]. rewrite <- !app_assoc.
    eapply goes_trans; [apply (key_goes dir files _ (lit "f") g0 (ABegin (FV 0)) (FV 0)); [cbn; tauto|exact B|exact G0|now apply corner_no_blank|reflexivity]|].
    eapply goes_trans; [apply corner_goes; [lia|exact Ca|exact G1|now apply corner_no_blank]|].
    eapply goes_trans; [apply corner_goes; [lia|exact Cb|exact G2|now apply corner_no_blank]|].
    destruct Cc as [Dv [Dn Dt]]. unfold corner_text. rewrite <- !app_assoc.
    eapply goes_trans; [apply slash_tok, Dv|]. apply uv_tok, Dt.
  Qed.

  (** a line is rejected *)
  Definition bad (t : text) : Prop := forall o f n, length t <= n -> (exists o1, lex n Init t o f = Ok o1) -> False.
  Definition line_fails (o : obj) (t : text) : Prop := forall f n, length t <= n -> lex n Init t o f = Rejected.

  Lemma does_ex o s : (is_name s = true -> exists o', does dir files o s o') -> exists o', does dir files o s o'.
  Proof. destruct s; cbn; eauto. Qed.

  Lemma note_nonempty u n : n <> None -> exists c t, note_text n ++ u = c :: t /\ c <> nl.
  Proof. destruct n as [m|]; [|congruence]. intros _. cbn. do 2 eexists. split; [reflexivity|discriminate]. Qed.
  Lemma blank_ne t u : blanks t -> t <> [] -> exists c r, t ++ u = c :: r /\ c <> nl.
  Proof.
    intros B N. destruct t as [|c t]; [congruence|]. inversion B; subst. do 2 eexists. split; [reflexivity|].
    intros ->. discriminate.
  Qed.

  Lemma never_start r w n : (forall c, is_blank c = true -> deriv c r = r) -> nullable r = false -> deriv "#" r = Nul -> blanks w ->
    never r (w ++ note_text n).
  Proof.
    intros H1 H2 H3 W v x E V. destruct (prefix_cases w (note_text n) v x E) as [(y & ->)|(y & z & N & -> & Ey)].
    - apply Forall_app in W as [W _]. now rewrite (derivs_run is_blank r H1 v W).
    - rewrite derivs_app, (derivs_run is_blank r H1 w W). destruct y as [|c y]; [congruence|].
      destruct n as [m|]; [|discriminate]. cbn in Ey. injection Ey as <- _. cbn [derivs]. rewrite H3. now rewrite derivs_nul.
  Qed.
  Lemma never_l c t : c <> "l"%char -> never (Cat (word (lit "l")) (Cat BLANKS (Star DOT))) (c :: t).
  Proof.
    intros N v w E V. destruct v as [|d v]; [congruence|]. cbn in E. injection E as <- _.
    cbn [derivs deriv word lit list_ascii_of_string in_cls nullable cat].
    destruct (Ascii.eqb_spec c "l"); [contradiction|]. cbn [cat]. now rewrite derivs_nul.
  Qed.
  Lemma init_reject w n : blanks w -> note_ok n -> w ++ note_text n <> [] -> rejects Init (w ++ note_text n).
  Proof.
    intros W Nn NE. destruct (w ++ note_text n) as [|c t] eqn:E; [congruence|].
    assert (NL : c <> nl /\ c <> "l"%char).
    { destruct w as [|d w]; cbn in E; [destruct n; [|discriminate]; injection E as <- _; split; discriminate|].
      injection E as <- _. inversion W; subst. split; intros ->; discriminate. }
    apply (reject_never Init (removelast (obj_rules Init))); [reflexivity|apply NL|].
    cbn [obj_rules removelast]. repeat (apply Forall_cons || apply Forall_nil); cbn [fst]; try (rewrite <- E; apply never_start; [blk|reflexivity|reflexivity|exact W]).
    - rewrite <- E. rewrite <- (app_nil_r (w ++ note_text n)). apply never_nl; [apply end_needs| |exact I].
      apply Forall_app. split; [now apply blanks_line|now apply note_line].
    - apply never_l, NL.
  Qed.

  Ltac bods l := exfalso; let s := fresh "s" in set (s := body l) in *; clearbody s; destruct s; discriminate.
  Theorem unfinished_fails l o : line_ok reads l -> unfinished l -> (exists o', does dir files o (body l) o') -> line_fails o (line_text l).
  Proof.
    intros (B & Bt & Bn & OK & NS & PL) [NSk U] [o' D] f n. unfold line_text. intros L.
    assert (Nl : one_line (note_text (note l))) by now apply note_line.
    destruct (is_numeric (body l)) eqn:En.
    { assert (M : note l <> None).
      { destruct U as [U|[U|[[U _]|[U _]]]]; try exact U; bods l. }
      eapply goes_rejects; [apply (numeric_goes dir files) with (o' := o'); try eassumption| |exact L].
      - destruct (note l); [|congruence]. cbn. auto.
      - rewrite <- (app_nil_r (note_text (note l))). apply eol_reject; [exact Nl|now apply note_nonempty|exact I]. }
    destruct (is_name (body l)) eqn:Em.
    { assert (T : trail l <> []).
      { destruct U as [U|[U|[[_ U]|[U _]]]]; [bods l|now apply NS|exact U|bods l]. }
      eapply goes_rejects; [apply (name_goes dir files) with (o' := o'); try eassumption; now left| |exact L].
      rewrite <- (app_nil_r (trail l ++ note_text (note l))). apply eol_reject; [|rewrite <- app_assoc; now apply blank_ne|exact I].
      apply Forall_app. split; [now apply blanks_line|exact Nl]. }
    destruct (body l) as [|g0 x g1 y g2 z|g0 x g1 y g2 z|g0 u g1 v|g0 nm|g0 nm|g0 nm|g0 r|g0 r|g0 a g1 b g2 c] eqn:Eb; try discriminate.
    - assert (NE : line_text l <> []).
      { destruct U as [U|[U|[[U _]|[_ U]]]]; [discriminate| |discriminate|exact U].
        unfold line_text. destruct (note l); [|congruence]. intro E. do 3 (apply app_eq_nil in E as [_ E]). discriminate. }
      unfold line_text in NE. rewrite Eb in NE. cbn [stmt_text app] in *. rewrite app_assoc in *.
      apply init_reject; [apply Forall_app; now split|exact Bn|exact NE|exact L].
    - cbn [stmt_ok] in OK. destruct OK as (G0 & Ca & G1 & Cb & G2 & Cc).
      destruct (face_goes (indent l) g0 a g1 b g2 c (trail l ++ note_text (note l)) o f B G0 Ca G1 Cb G2 Cc) as (f' & G).
      eapply goes_rejects; [exact G| |exact L].
      rewrite <- (app_nil_r (trail l ++ note_text (note l))). apply fn2_reject; [apply Cc| |exact I].
      apply Forall_app. split; [now apply blanks_line|exact Nl].
  Qed.
  Theorem garbage_fails l x rest o : line_ok reads l -> note l = None -> is_skipped (body l) = false -> body l <> Nothing -> follows l x ->
    (exists o', does dir files o (body l) o') -> line_fails o (line_text l ++ x :: rest).
  Proof.
    intros (B & Bt & Bn & OK & NS & PL) NN NSk NB (X1 & X2 & X3 & X4) [o' D] f n. unfold line_text. rewrite NN. cbn [note_text]. rewrite app_nil_r. intros L.
    assert (EN : forall t, blanks t -> stops (x :: rest) (derivs t END)).
    { intros t Ht. cbn [stops]. rewrite end_stop by assumption. apply dead_nul. }
    rewrite <- !app_assoc in *.
    destruct (is_numeric (body l)) eqn:En.
    { eapply goes_rejects; [apply (numeric_goes dir files) with (o' := o'); try eassumption| |exact L].
      - cbn. split; [exact X1|]. intros T. right; right. exact (X4 T).
      - apply (eol_reject [] (x :: rest)); [constructor|now exists x, rest|apply (EN []); constructor]. }
    destruct (is_name (body l)) eqn:Em.
    { eapply goes_rejects; [apply (name_goes dir files) with (o' := o'); try eassumption| |exact L].
      - destruct (trail l) eqn:Et; [right|left; discriminate]. right. exact (X4 eq_refl).
      - apply eol_reject; [now apply blanks_line| |now apply EN].
        destruct (trail l) eqn:Et; [now exists x, rest|]. inversion Bt; subst. do 2 eexists. split; [reflexivity|]. intros ->. discriminate. }
    destruct (body l) as [|g0 xx g1 y g2 z|g0 xx g1 y g2 z|g0 u g1 v|g0 nm|g0 nm|g0 nm|g0 r|g0 r|g0 a g1 b g2 c] eqn:Eb; try discriminate; try congruence.
    cbn [stmt_ok] in OK. destruct OK as (G0 & Ca & G1 & Cb & G2 & Cc).
    destruct (face_goes (indent l) g0 a g1 b g2 c (trail l ++ x :: rest) o f B G0 Ca G1 Cb G2 Cc) as (f' & G).
    eapply goes_rejects; [exact G| |exact L].
    apply fn2_reject; [apply Cc|now apply blanks_line|]. cbn [stops]. rewrite int_stop; try assumption; [apply dead_nul|apply Cc].
  Qed.
  (** a library that cannot be read *)
  Theorem library_fails l n rest o g : line_ok reads l -> body l = MtlLib g n ->
    (files (dir ++ lit "/" ++ n) = None \/ (exists t, files (dir ++ lit "/" ++ n) = Some t /\ mtl_parse t = Rejected)) ->
    line_fails o (line_text l ++ nl :: rest).
  Proof.
    intros (B & Bt & Bn & OK & NS & PL) Eb F f k. unfold line_text. rewrite Eb in *. cbn [stmt_text stmt_ok is_name] in *.
    destruct OK as [G Nm].
    replace ((indent l ++ (lit "mtllib" ++ g ++ n) ++ trail l ++ note_text (note l)) ++ nl :: rest)
      with (indent l ++ lit "mtllib" ++ g ++ n ++ trail l ++ note_text (note l) ++ nl :: rest) by (rewrite <- !app_assoc; reflexivity).
    set (T := note_text (note l) ++ nl :: rest). intros L.
    assert (NB : ~ starts_blank (n ++ trail l ++ T)).
    { destruct Nm as [Ne Fg]. destruct n as [|e n]; [congruence|]. inversion Fg; subst. cbn. rewrite graph_not_blank by assumption. discriminate. }
    assert (NSp : name_sep (trail l) T).
    { destruct (trail l) as [|c t] eqn:Et; [right|left; discriminate]. unfold T. destruct (note l); [exfalso; now apply NS|]. now left. }
    eapply goes_rejects; [apply (key_goes dir files _ (lit "mtllib") g (ABegin Mtllib) Mtllib); [cbn; tauto|exact B|exact G|exact NB|reflexivity]| |exact L].
    intros m o2 f2 L2. assert (TK := name_tok Mtllib ALib n (trail l) T eq_refl Nm Bt NSp).
    destruct Nm as [Ne _]. destruct n as [|c n]; [congruence|]. destruct m as [|m]; [cbn in L2; lia|].
    cbn [app obj_lex] in *. rewrite TK. cbn [obj_act]. unfold push_mtl.
    destruct F as [F|(t & F & M)]; rewrite F; [reflexivity|]. now rewrite M.
  Qed.
  Theorem finished_goes l o o' f : line_ok reads l -> finished l -> does dir files o (body l) o' ->
    exists s' f', goes Init (line_text l) o f s' [] o' f'.
  Proof.
    intros (B & Bt & Bn & OK & NS & PL) F D. unfold line_text.
    destruct F as [F|[[F N]|[F [T N]]]].
    - destruct (body l) as [|g0 xx g1 y g2 z|g0 xx g1 y g2 z|g0 u g1 v|g0 nm|g0 nm|g0 nm|g0 r|g0 r|g0 a g1 b g2 c] eqn:Eb; try discriminate; cbn [does stmt_ok stmt_text is_polyline] in *; subst o'; destruct OK as [G U].
      + exists Eol, f. rewrite <- !app_assoc. rewrite <- (app_nil_r (r ++ trail l ++ note_text (note l))). apply smooth_goes; [exact B|exact G| |exact I].
        apply Forall_app. split; [exact U|]. apply Forall_app. split; [now apply blanks_line|now apply note_line].
      + exists Init, f. rewrite (PL eq_refl). cbn [app]. rewrite <- !app_assoc. rewrite <- (app_nil_r (r ++ trail l ++ note_text (note l))). apply l_goes; [exact G| |exact I].
        apply Forall_app. split; [exact U|]. apply Forall_app. split; [now apply blanks_line|now apply note_line].
    - exists Eol, f. rewrite N. cbn [note_text]. apply numeric_goes; try assumption. exact I.
    - exists Eol, f. rewrite N, T. cbn [note_text]. change [] with ([] ++ [] : text) at 3. apply name_goes; try assumption; [constructor|now right].
  Qed.
End Reject.
