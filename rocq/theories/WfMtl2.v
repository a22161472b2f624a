(** Proofs for C87: what a library says. *)
From Coq Require Import String Ascii ZArith Reals Bool Arith List Lia.
From Verif Require Import WfModel WfSpec WfProofs WfNum WfObj WfObj2 WfObj3 WfObj4 WfMtl.
Import ListNotations.
Open Scope nat_scope.

Definition mgoes (s : mst) (t : text) (l : mtl) (s' : mst) (t' : text) (l' : mtl) : Prop :=
  forall fuel, length t <= fuel -> exists fuel', length t' <= fuel' /\ mtl_lex fuel s t l = mtl_lex fuel' s' t' l'.
Lemma mgoes_refl s t l : mgoes s t l s t l.
Proof. intros fuel H. now exists fuel. Qed.
Lemma mgoes_trans s1 t1 l1 s2 t2 l2 s3 t3 l3 : mgoes s1 t1 l1 s2 t2 l2 -> mgoes s2 t2 l2 s3 t3 l3 -> mgoes s1 t1 l1 s3 t3 l3.
Proof. intros H K n L. destruct (H n L) as (n2 & L2 & ->). exact (K n2 L2). Qed.
Lemma mgoes_tok s u rest a l s' l' : u <> [] -> next_token (mtl_rules s) (u ++ rest) = Some (a, u, rest) ->
  mtl_act a s u l = Ok (s', l') -> mgoes s (u ++ rest) l s' rest l'.
Proof.
  intros N T A fuel L. rewrite app_length in L. destruct u as [|c u]; [congruence|]. destruct fuel as [|fuel]; [cbn in L; lia|].
  exists fuel. split; [cbn in L; lia|]. cbn [app mtl_lex]. cbn [app] in T. rewrite T, A. reflexivity.
Qed.
Lemma upd_snoc ms m v st g : upd_current (mkMtl (ms ++ [m]) v st) g = Some (mkMtl (ms ++ [g m]) v st).
Proof. unfold upd_current. cbn [ml_mats ml_v ml_stack]. rewrite rev_app_distr. cbn [rev app]. now rewrite rev_involutive. Qed.

Lemma mnb_tok s a n g rest : mtl_rules s = [(NUMBER_BLANKS, a); (DOT, MError)] -> num_ok n -> gap g -> ~ starts_blank rest ->
  num_text n ++ g <> [] /\ next_token (mtl_rules s) ((num_text n ++ g) ++ rest) = Some (a, num_text n ++ g, rest).
Proof.
  intros -> N G S. assert (E : num_text n ++ g <> []) by (destruct G; intro E; apply app_eq_nil in E; tauto). split; [exact E|].
  apply two_rules; [exact E| |]; rewrite number_blanks by assumption; [reflexivity|now apply stops_blank].
Qed.
Lemma mne_tok s a n g rest : mtl_rules s = [(NUMBER_END, a); (DOT, MError)] -> num_ok n -> blanks g -> sep g rest ->
  num_text n ++ g <> [] /\ next_token (mtl_rules s) ((num_text n ++ g) ++ rest) = Some (a, num_text n ++ g, rest).
Proof.
  intros -> N G S. assert (E : num_text n ++ g <> []).
  { intro E. apply app_eq_nil in E as [E _]. destruct N as [[N _] _]. unfold num_text in E. apply app_eq_nil in E as [_ E]. apply app_eq_nil in E. tauto. }
  split; [exact E|]. destruct (number_end n g N G) as [H1 H2]. apply two_rules; [exact E|exact H1|now apply H2].
Qed.
Lemma end_tok s a t n rest : mtl_rules s = [(END, a); (DOT, MError)] -> tail_ok t n ->
  next_token (mtl_rules s) (tail_text t n ++ rest) = Some (a, tail_text t n, rest).
Proof. intros -> T. apply two_rules; [apply tail_ne| |]; rewrite end_tail by exact T; [reflexivity|apply stops_eps]. Qed.
Lemma mkey_goes b w g a s rest l l' : In (w, a) mtl_keys -> blanks b -> gap g -> ~ starts_blank rest ->
  (forall u, mtl_act a MInit u l = Ok (s, l')) -> mgoes MInit (b ++ w ++ g ++ rest) l s rest l'.
Proof.
  intros K B G S A. replace (b ++ w ++ g ++ rest) with ((b ++ w ++ g) ++ rest) by now rewrite <- !app_assoc.
  eapply mgoes_tok; [|apply (minit_key b w g _ rest K B G S)|apply A].
  intro E. apply app_eq_nil in E as [_ E]. apply app_eq_nil in E as [_ E]. now destruct G.
Qed.

(** what a statement does to the materials *)
Definition set3 (m : material) (f : vfield) (x y z : R) : material := set_vec (set_vec (set_vec m f 0 x) f 1 y) f 2 z.
Inductive mdoes : list material -> mstmt -> list material -> Prop :=
| md_nothing ms : mdoes ms MNothing ms
| md_illum ms r : mdoes ms (Illum r) ms
| md_map ms r : mdoes ms (MapKd r) ms
| md_new ms g n : mdoes ms (NewMtl g n) (ms ++ [new_material n])
| md_scalar ms m f g x : mdoes (ms ++ [m]) (Scalar f g x) (ms ++ [set_num m f (mantissa x)])
| md_vector ms m f g0 x g1 y g2 z : mdoes (ms ++ [m]) (Vector f g0 x g1 y g2 z)
    (ms ++ [has_vec (set3 m f (mantissa x) (mantissa y) (mantissa z)) f]).

(** the three numbers, up to the end of the line *)
Lemma vec_goes f x g1 y g2 z t rest ms m st : reads x -> gap g1 -> reads y -> gap g2 -> reads z -> blanks t -> sep t rest ->
  mgoes MV0 (num_text x ++ g1 ++ num_text y ++ g2 ++ num_text z ++ t ++ rest) (mkMtl (ms ++ [m]) f (MVec f :: st))
        (MVec f) rest (mkMtl (ms ++ [set3 m f (mantissa x) (mantissa y) (mantissa z)]) f st).
Proof.
  intros Rx G1 Ry G2 Rz B Sp. rewrite (app_assoc (num_text x)). eapply mgoes_trans.
  { destruct (mnb_tok MV0 (MStoreVec 0 MV1) x g1 (num_text y ++ g2 ++ num_text z ++ t ++ rest) eq_refl (proj1 Rx) G1 (num_no_blank y _ (proj1 Ry))) as [N T].
    eapply mgoes_tok; [exact N|exact T|]. cbn [mtl_act]. rewrite upd_snoc. cbn [after ml_v]. reflexivity. }
  rewrite (num_read x g1 Rx (gap_blanks _ G1)). rewrite (app_assoc (num_text y)). eapply mgoes_trans.
  { destruct (mnb_tok MV1 (MStoreVec 1 MV2) y g2 (num_text z ++ t ++ rest) eq_refl (proj1 Ry) G2 (num_no_blank z _ (proj1 Rz))) as [N T].
    eapply mgoes_tok; [exact N|exact T|]. cbn [mtl_act]. rewrite upd_snoc. cbn [after ml_v]. reflexivity. }
  rewrite (num_read y g2 Ry (gap_blanks _ G2)). rewrite (app_assoc (num_text z)).
  destruct (mne_tok MV2 MPopVec z t rest eq_refl (proj1 Rz) B Sp) as [N T].
  eapply mgoes_tok; [exact N|exact T|]. cbn [mtl_act]. rewrite upd_snoc. cbn [after ml_v ml_stack ml_mats].
  rewrite (num_read z t Rz B). reflexivity.
Qed.
Definition skey_act (f : sfield) : In (skey f, MBegin (MNum f)) mtl_keys.
Proof. destruct f; cbn; tauto. Qed.
Definition vkey_act (f : vfield) : In (vkey f, MStartVec f) mtl_keys.
Proof. destruct f; cbn; tauto. Qed.
Lemma start_vec ms m f v st u : mtl_act (MStartVec f) MInit u (mkMtl (ms ++ [m]) v st) = Ok (MV0, mkMtl (ms ++ [m]) f (MVec f :: st)).
Proof. cbn [mtl_act]. now rewrite upd_snoc. Qed.

Lemma mline_goes l rest ms ms' v : mline_ok reads l -> mdoes ms (m_body l) ms' ->
  exists v', mgoes MInit ((mline_text l ++ [nl]) ++ rest) (mkMtl ms v []) MInit rest (mkMtl ms' v' []).
Proof.
  intros (B & Bt & Bn & OK & NS) D. unfold mline_text.
  replace (((m_indent l ++ mstmt_text (m_body l) ++ m_trail l ++ note_text (m_note l)) ++ [nl]) ++ rest)
    with (m_indent l ++ mstmt_text (m_body l) ++ m_trail l ++ note_text (m_note l) ++ nl :: rest)
    by (rewrite <- !app_assoc; reflexivity).
  assert (T : tail_ok (m_trail l) (m_note l)) by now split.
  assert (TE : forall u, m_trail l ++ note_text (m_note l) ++ nl :: u = tail_text (m_trail l) (m_note l) ++ u).
  { intros u. unfold tail_text. rewrite <- !app_assoc. reflexivity. }
  assert (TN : note_text (m_note l) ++ nl :: rest = tail_text [] (m_note l) ++ rest).
  { unfold tail_text. rewrite <- !app_assoc. reflexivity. }
  assert (T0 : tail_ok [] (m_note l)) by (split; [constructor|exact Bn]).
  destruct D as [ms|ms r|ms r|ms g n|ms m f g x|ms m f g0 x g1 y g2 z]; cbn [mstmt_text mstmt_ok] in *.
  - exists v. cbn [app]. replace (m_indent l ++ m_trail l ++ note_text (m_note l) ++ nl :: rest) with (tail_text (m_indent l ++ m_trail l) (m_note l) ++ rest)
      by (unfold tail_text; rewrite <- !app_assoc; reflexivity).
    eapply mgoes_tok; [apply tail_ne|apply minit_end; split; [apply Forall_app; now split|exact Bn]|reflexivity].
  - exists v. replace (m_indent l ++ (lit "illum" ++ r) ++ m_trail l ++ note_text (m_note l) ++ nl :: rest)
      with ((m_indent l ++ lit "illum" ++ (r ++ m_trail l ++ note_text (m_note l)) ++ [nl]) ++ rest) by (rewrite <- !app_assoc; reflexivity).
    eapply mgoes_tok; [|apply minit_skip; [cbn; tauto|exact B|]|reflexivity].
    + intro E. apply app_eq_nil in E as [_ E]. discriminate.
    + apply Forall_app. split; [exact OK|]. apply Forall_app. split; [now apply blanks_line|now apply note_line].
  - exists v. replace (m_indent l ++ (lit "map_Kd" ++ r) ++ m_trail l ++ note_text (m_note l) ++ nl :: rest)
      with ((m_indent l ++ lit "map_Kd" ++ (r ++ m_trail l ++ note_text (m_note l)) ++ [nl]) ++ rest) by (rewrite <- !app_assoc; reflexivity).
    eapply mgoes_tok; [|apply minit_skip; [cbn; tauto|exact B|]|reflexivity].
    + intro E. apply app_eq_nil in E as [_ E]. discriminate.
    + apply Forall_app. split; [exact OK|]. apply Forall_app. split; [now apply blanks_line|now apply note_line].
  - destruct OK as [G N]. exists v. rewrite <- !app_assoc, TE.
    assert (NB : ~ starts_blank (n ++ tail_text (m_trail l) (m_note l) ++ rest)).
    { destruct N as [Ne Fg]. destruct n as [|e n]; [congruence|]. inversion Fg; subst. cbn. rewrite graph_not_blank by assumption. discriminate. }
    eapply mgoes_trans; [apply (mkey_goes _ (lit "newmtl") g (MBegin MNewmtl)); [cbn; tauto|exact B|exact G|exact NB|reflexivity]|].
    eapply mgoes_trans; [eapply (mgoes_tok MNewmtl n _ MPush); [apply N| |reflexivity]|].
    + cbn [mtl_rules]. apply two_rules; [apply N| |]; rewrite graphs by exact N; [reflexivity|].
      destruct (m_trail l) as [|c t].
      * destruct (m_note l); [exfalso; now apply NS|]. cbn. apply dead_nul.
      * inversion Bt as [|? ? B1 B2]; subst. cbn [tail_text app stops]. destruct (blank_cases c B1) as [-> | ->]; cbn; apply dead_nul.
    + eapply mgoes_tok; [apply tail_ne|apply (end_tok MEol (MBegin MInit)); [reflexivity|exact T]|reflexivity].
  - destruct OK as [G Rx]. exists v. rewrite <- !app_assoc.
    eapply mgoes_trans; [apply (mkey_goes _ (skey f) g (MBegin (MNum f))); [apply skey_act|exact B|exact G|apply num_no_blank, Rx|reflexivity]|].
    rewrite (app_assoc (num_text x)).
    destruct (mne_tok (MNum f) (MStoreNum f) x (m_trail l) (note_text (m_note l) ++ nl :: rest) eq_refl (proj1 Rx) Bt (note_sep _ _ _)) as [N TK].
    eapply mgoes_trans; [eapply mgoes_tok; [exact N|exact TK|cbn [mtl_act]; rewrite upd_snoc; reflexivity]|].
    rewrite (num_read x _ Rx Bt), TN.
    eapply mgoes_tok; [apply tail_ne|apply (end_tok MEol (MBegin MInit)); [reflexivity|exact T0]|reflexivity].
  - destruct OK as (G0 & Rx & G1 & Ry & G2 & Rz). exists f. rewrite <- !app_assoc.
    eapply mgoes_trans; [apply (mkey_goes _ (vkey f) g0 (MStartVec f)); [apply vkey_act|exact B|exact G0|apply num_no_blank, Rx|intro u; apply start_vec]|].
    eapply mgoes_trans; [apply vec_goes; try eassumption; apply note_sep|]. rewrite TN.
    eapply (mgoes_tok _ _ _ (MDoneVec f)); [apply tail_ne|apply end_tok; [reflexivity|exact T0]|].
    cbn [mtl_act]. rewrite upd_snoc. reflexivity.
Qed.

(** ** whole libraries *)
Fixpoint mdoing (ms : list material) (d : list mstmt) (ms' : list material) : Prop :=
  match d with [] => ms' = ms | s :: r => exists m1, mdoes ms s m1 /\ mdoing m1 r ms' end.
Lemma mfile_goes ls : forall rest ms ms' v, Forall (mline_ok reads) ls -> mdoing ms (map m_body ls) ms' ->
  exists v', mgoes MInit (mfile_text ls ++ rest) (mkMtl ms v []) MInit rest (mkMtl ms' v' []).
Proof.
  induction ls as [|l ls IH]; intros rest ms ms' v OK D; cbn [map mdoing] in D.
  - subst ms'. exists v. apply mgoes_refl.
  - inversion OK as [|? ? O1 O2]; subst. destruct D as (m1 & D1 & D2).
    destruct (mline_goes l (mfile_text ls ++ rest) ms m1 v O1 D1) as (v1 & H1).
    destruct (IH rest m1 ms' v1 O2 D2) as (v2 & H2). exists v2.
    cbn [mfile_text flat_map]. rewrite <- app_assoc. eapply mgoes_trans; [exact H1|exact H2].
Qed.

Lemma last_scalar_snoc f d s : last_scalar f (d ++ [s]) =
  match s with Scalar g _ x => if sfield_eqb f g then Some (mantissa x) else last_scalar f d | _ => last_scalar f d end.
Proof.
  induction d as [|e d IH]; cbn [app last_scalar].
  - destruct s; try reflexivity. 
  - rewrite IH. destruct s; try reflexivity. destruct (sfield_eqb f f0); reflexivity.
Qed.
Lemma last_vector_snoc f d s : last_vector f (d ++ [s]) =
  match s with Vector g _ x _ y _ z => if vfield_eqb f g then Some [mantissa x; mantissa y; mantissa z] else last_vector f d | _ => last_vector f d end.
Proof.
  induction d as [|e d IH]; cbn [app last_vector].
  - destruct s; reflexivity.
  - rewrite IH. destruct s; try reflexivity. destruct (vfield_eqb f f0); reflexivity.
Qed.
Lemma sections_snoc d s : sections (d ++ [s]) =
  let (pre, secs) := sections d in
  match s with
  | NewMtl _ n => (pre, secs ++ [(n, [])])
  | _ => match rev secs with
         | [] => (pre ++ [s], [])
         | (n, b) :: r => (pre, rev r ++ [(n, b ++ [s])])
         end
  end.
Proof.
  induction d as [|e d IH]; cbn [app sections].
  - destruct s; reflexivity.
  - rewrite IH. destruct (sections d) as [pre secs].
    destruct (is_name Nothing) eqn:X; [discriminate X|]. clear X.
    assert (R : forall (e' : text * list mstmt), rev (e' :: secs) = rev secs ++ [e']) by reflexivity.
    destruct e; destruct s; cbn [app]; try reflexivity;
      try (rewrite R; destruct (rev secs) as [|[m b] r]; [reflexivity|]; cbn [app]; rewrite ?rev_app_distr; reflexivity);
      destruct (rev secs) as [|[m b] r]; reflexivity.
Qed.

Lemma desc_new n : describes (n, []) (new_material n).
Proof. constructor; [reflexivity| |]; intros f; cbn; split; reflexivity. Qed.
Lemma desc_other n b m s : (forall f, last_scalar f (b ++ [s]) = last_scalar f b) -> (forall f, last_vector f (b ++ [s]) = last_vector f b) ->
  describes (n, b) m -> describes (n, b ++ [s]) m.
Proof. intros H1 H2 [D1 D2 D3]. constructor; [exact D1| |]; intros f; cbn [snd] in *; [rewrite H1; exact (D2 f)|rewrite H2; exact (D3 f)]. Qed.
Lemma sfield_refl f : sfield_eqb f f = true. Proof. now destruct f. Qed.
Lemma vfield_refl f : vfield_eqb f f = true. Proof. now destruct f. Qed.
Lemma desc_scalar n b m f g x : describes (n, b) m -> describes (n, b ++ [Scalar f g x]) (set_num m f (mantissa x)).
Proof.
  intros [D1 D2 D3]. constructor; [exact D1| |]; intros h; cbn [snd] in *; rewrite ?last_scalar_snoc, ?last_vector_snoc; cbn.
  - destruct (sfield_eqb h f) eqn:E; [split; reflexivity|]. exact (D2 h).
  - exact (D3 h).
Qed.
Lemma desc_vector n b m f g0 x g1 y g2 z : describes (n, b) m ->
  describes (n, b ++ [Vector f g0 x g1 y g2 z]) (has_vec (set3 m f (mantissa x) (mantissa y) (mantissa z)) f).
Proof.
  intros [D1 D2 D3]. constructor; [exact D1| |]; intros h; cbn [snd] in *; rewrite ?last_scalar_snoc, ?last_vector_snoc; cbn.
  - exact (D2 h).
  - unfold vec_of, set3, set_vec. cbn. destruct (vfield_eqb h f) eqn:E; cbn; [split; reflexivity|]. exact (D3 h).
Qed.

(** the materials of the sections of the statements so far *)
Definition msays (d : list mstmt) (ms : list material) : Prop := Forall2 describes (snd (sections d)) ms.
Lemma f2_rev {A B} (P : A -> B -> Prop) l m : Forall2 P l m -> Forall2 P (rev l) (rev m).
Proof. induction 1; cbn; [constructor|]. apply Forall2_app; auto. Qed.
Lemma orderly_app d e : orderly (d ++ e) -> orderly d.
Proof.
  revert d. induction e as [|s e IH] using rev_ind; intros d; [now rewrite app_nil_r|].
  rewrite app_assoc. intros H. apply IH. unfold orderly in *. rewrite sections_snoc in H. destruct (sections (d ++ e)) as [pre secs].
  cbn [fst] in *. destruct s; try exact H; destruct (rev secs) as [|[n b] r]; cbn [fst] in H; try exact H; apply Forall_app in H; tauto.
Qed.
Lemma msays_snoc d ms s : msays d ms -> orderly (d ++ [s]) -> exists ms', mdoes ms s ms' /\ msays (d ++ [s]) ms'.
Proof.
  unfold msays, orderly. rewrite sections_snoc. destruct (sections d) as [pre secs]. cbn [snd fst]. intros Y O.
  assert (L : forall n b r, rev secs = (n, b) :: r -> exists m0 m, ms = m0 ++ [m] /\ Forall2 describes (rev r) m0 /\ describes (n, b) m).
  { intros n b r E. apply f2_rev in Y. rewrite E in Y. inversion Y as [|? m ? q Hm Hq E1 E2]; subst.
    exists (rev q), m. split; [rewrite <- (rev_involutive ms), <- E2; reflexivity|]. split; [now apply f2_rev|exact Hm]. }
  assert (Sk : forall s', s = s' -> sets s' = false -> (forall b f, last_scalar f (b ++ [s']) = last_scalar f b) -> (forall b f, last_vector f (b ++ [s']) = last_vector f b) ->
    Forall2 describes (snd (match rev secs with [] => (pre ++ [s'], []) | (n, b) :: r => (pre, rev r ++ [(n, b ++ [s'])]) end)) ms).
  { intros s' _ _ H1 H2. destruct (rev secs) as [|[n b] r] eqn:E.
    - assert (secs = []) as -> by (rewrite <- (rev_involutive secs), E; reflexivity). exact Y.
    - destruct (L n b r eq_refl) as (m0 & m & -> & F & Dm). cbn [snd]. apply Forall2_app; [exact F|]. constructor; [|constructor]. now apply desc_other. }
  destruct s as [|g n|f g x|f g0 x g1 y g2 z|r|r].
  - exists ms. split; [constructor|]. apply Sk; auto; intros; [apply last_scalar_snoc|apply last_vector_snoc].
  - exists (ms ++ [new_material n]). split; [constructor|]. cbn [snd]. apply Forall2_app; [exact Y|]. constructor; [apply desc_new|constructor].
  - destruct (rev secs) as [|[n b] r] eqn:E.
    + cbn [fst] in O. apply Forall_app in O as [_ O]. inversion O; discriminate.
    + destruct (L n b r eq_refl) as (m0 & m & -> & F & Dm). exists (m0 ++ [set_num m f (mantissa x)]). split; [constructor|].
      cbn [snd]. apply Forall2_app; [exact F|]. constructor; [now apply desc_scalar|constructor].
  - destruct (rev secs) as [|[n b] r] eqn:E.
    + cbn [fst] in O. apply Forall_app in O as [_ O]. inversion O; discriminate.
    + destruct (L n b r eq_refl) as (m0 & m & -> & F & Dm). eexists. split; [constructor|].
      cbn [snd]. apply Forall2_app; [exact F|]. constructor; [now apply desc_vector|constructor].
  - exists ms. split; [constructor|]. apply Sk; auto; intros; [apply last_scalar_snoc|apply last_vector_snoc].
  - exists ms. split; [constructor|]. apply Sk; auto; intros; [apply last_scalar_snoc|apply last_vector_snoc].
Qed.
Lemma mdoing_snoc d s : forall ms m1 m2, mdoing ms d m1 -> mdoes m1 s m2 -> mdoing ms (d ++ [s]) m2.
Proof.
  induction d as [|e d IH]; intros ms m1 m2 D H; cbn in *.
  - subst m1. exists m2. now split.
  - destruct D as (m & D1 & D2). exists m. split; [exact D1|]. now apply (IH m m1 m2).
Qed.
Lemma mcan d : orderly d -> exists ms, mdoing [] d ms /\ msays d ms.
Proof.
  induction d as [|s d IH] using rev_ind; intros O.
  - exists []. split; [reflexivity|constructor].
  - destruct (IH (orderly_app _ _ O)) as (m1 & D1 & Y1). destruct (msays_snoc d m1 s Y1 O) as (m2 & D2 & Y2).
    exists m2. split; [now apply (mdoing_snoc d s [] m1)|exact Y2].
Qed.
Lemma mgoes_end t l l' s' : mgoes MInit t l s' [] l' -> mtl_lex (length t) MInit t l = Ok l'.
Proof. intros G. destruct (G (length t) (le_n _)) as (n & _ & ->). destruct n; reflexivity. Qed.
Theorem c87_mtl ls : Forall (mline_ok reads) ls -> orderly (map m_body ls) ->
  exists ms, mtl_parse (mfile_text ls) = Ok ms /\ Forall2 describes (snd (sections (map m_body ls))) ms.
Proof.
  intros OK O. destruct (mcan _ O) as (ms & D & Y). exists ms. split; [|exact Y].
  destruct (mfile_goes ls [] [] ms Fambient OK D) as (v & G). rewrite app_nil_r in G.
  unfold mtl_parse. now rewrite (mgoes_end _ _ _ _ G).
Qed.
