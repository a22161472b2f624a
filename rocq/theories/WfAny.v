(** Proofs for C87: any text, and texts that fail. *)
From Coq Require Import String Ascii ZArith Reals Bool Arith Permutation List Lia Lra.
From Verif Require Import WfModel WfSpec WfProofs WfNum WfObj WfObj2 WfObj3 WfObj4 WfMtl WfMtl2.
Import ListNotations.
Open Scope nat_scope.

(** ** material libraries *)
Lemma mact_no_hang a s u l : mtl_act a s u l <> Hang.
Proof.
  unfold mtl_act, after. destruct a; try discriminate; try (destruct (upd_current _ _); discriminate).
  destruct (upd_current _ _) as [l'|]; [|discriminate]. destruct (ml_stack l'); discriminate.
Qed.
Lemma mlex_no_hang fuel : forall s t l, length t <= fuel -> mtl_lex fuel s t l <> Hang.
Proof.
  induction fuel as [|fuel IH]; intros s t l L; destruct t as [|c t]; try discriminate; cbn in L; [lia|].
  cbn [mtl_lex]. destruct (next_token (mtl_rules s) (c :: t)) as [[[a u] v]|] eqn:T; [|apply IH; lia].
  assert (N := mact_no_hang a s u l). destruct (mtl_act a s u l) as [[s' l']| | |]; try discriminate; [|congruence].
  apply IH. eapply token_len; [exact T|lia].
Qed.
Theorem mtl_no_hang t : mtl_parse t <> Hang.
Proof.
  unfold mtl_parse. assert (H := mlex_no_hang (length t) MInit t (mkMtl [] Fambient []) (le_n _)).
  destruct (mtl_lex _ _ _ _); congruence.
Qed.

Lemma hit_in {A} (rs : list (re * A)) a : hit rs = Some a -> In a (map snd rs).
Proof. induction rs as [|[r x] rs IH]; cbn; [discriminate|]. destruct (nullable r); [injection 1 as ->; now left|]. intros H. right. now apply IH. Qed.
Lemma longest_in {A} (s : text) : forall (rs : list (re * A)) seen best a u v,
  (forall b x y, best = Some (b, x, y) -> In b (map snd rs)) -> longest rs s seen best = Some (a, u, v) -> In a (map snd rs).
Proof.
  induction s as [|c s IH]; intros rs seen best a u v H L; cbn [longest] in L; [now apply (H a u v)|].
  assert (E : map snd (step c rs) = map snd rs) by (unfold step; rewrite map_map; reflexivity).
  rewrite <- E. eapply IH; [|exact L]. intros b x y K. rewrite E.
  destruct (hit (step c rs)) as [h|] eqn:Hh; [|now apply (H b x y)]. injection K as <- _ _. rewrite <- E. now apply hit_in.
Qed.
Lemma token_in {A} (rs : list (re * A)) s a u v : next_token rs s = Some (a, u, v) -> In a (map snd rs).
Proof. intros H. eapply (longest_in s rs [] None); [discriminate|exact H]. Qed.

Definition stack_ok (s : mst) (l : mtl) : Prop :=
  ml_mats l <> [] /\
  match s with MV0 | MV1 | MV2 => exists f, ml_stack l = [MVec f] | _ => ml_stack l = [] end.
Lemma upd_some l g : ml_mats l <> [] -> exists l', upd_current l g = Some l' /\ ml_mats l' <> [] /\ ml_stack l' = ml_stack l.
Proof.
  intros N. unfold upd_current. destruct (rev (ml_mats l)) as [|m r] eqn:E.
  - exfalso. apply N. rewrite <- (rev_involutive (ml_mats l)), E. reflexivity.
  - eexists. split; [reflexivity|]. cbn. split; [|reflexivity]. intro X. apply app_eq_nil in X as [_ X]. discriminate.
Qed.
Lemma mact_ok a s u l : In a (map snd (mtl_rules s)) -> stack_ok s l ->
  match mtl_act a s u l with Ok (s', l') => stack_ok s' l' | Rejected => True | Undef | Hang => False end.
Proof.
  intros I [N S].
  destruct s as [| | |f|f| | |]; cbn in I;
  repeat (destruct I as [<- | I]; [cbn [mtl_act after];
    try exact (conj N S); try exact Logic.I;
    try (split; [cbn; intro X; apply app_eq_nil in X as [_ X]; discriminate|exact S]);
    match goal with |- context [upd_current l ?g] => destruct (upd_some l g N) as (l' & -> & N' & S') end; cbn [after];
    try (rewrite S'; destruct S as [h S]; rewrite S; split; [exact N'|reflexivity]);
    (split; [exact N'|]); try (rewrite S'; exact S); cbn; rewrite S', S; eexists; reflexivity|]);
  destruct I.
Qed.
Lemma mlex_ok fuel : forall s t l, length t <= fuel -> stack_ok s l -> mtl_lex fuel s t l <> Undef.
Proof.
  induction fuel as [|fuel IH]; intros s t l L K; destruct t as [|c t]; try discriminate; cbn in L.
  cbn [mtl_lex]. destruct (next_token (mtl_rules s) (c :: t)) as [[[a u] v]|] eqn:T; [|apply IH; [lia|exact K]].
  assert (M := mact_ok a s u l (token_in _ _ _ _ _ T) K). destruct (mtl_act a s u l) as [[s' l']| | |]; try discriminate; try tauto.
  apply IH; [eapply token_len; [exact T|lia]|exact M].
Qed.
Theorem mtl_defined ls t : Forall (mline_ok reads) ls -> orderly (map m_body ls) -> snd (sections (map m_body ls)) <> [] ->
  mtl_parse (mfile_text ls ++ t) <> Undef.
Proof.
  intros OK O N. destruct (mcan _ O) as (ms & D & Y).
  destruct (mfile_goes ls t [] ms Fambient OK D) as (v & G). unfold mtl_parse.
  destruct (G _ (le_n _)) as (n & L & ->). assert (X : mtl_lex n MInit t (mkMtl ms v []) <> Undef).
  { apply mlex_ok; [exact L|]. split; [|reflexivity]. cbn. intros ->. inversion Y as [E|]. now rewrite <- E in N. }
  destruct (mtl_lex n MInit t _); congruence.
Qed.
(** no material yet *)
Theorem mtl_early ls l rest : Forall (mline_ok reads) ls -> orderly (map m_body ls) -> snd (sections (map m_body ls)) = [] ->
  mline_ok reads l -> sets (m_body l) = true -> mtl_parse (mfile_text ls ++ mline_text l ++ nl :: rest) = Undef.
Proof.
  intros OK O N (B & Bt & Bn & OKl & _) S. destruct (mcan _ O) as (ms & D & Y). unfold msays in Y. rewrite N in Y. inversion Y; subst ms.
  destruct (mfile_goes ls (mline_text l ++ nl :: rest) [] [] Fambient OK D) as (v & G). unfold mtl_parse.
  destruct (G _ (le_n _)) as (n & L & ->).
  assert (E : mline_text l ++ nl :: rest = m_indent l ++ mstmt_text (m_body l) ++ m_trail l ++ note_text (m_note l) ++ nl :: rest).
  { unfold mline_text. rewrite <- !app_assoc. reflexivity. }
  rewrite E in *. clear E G.
  destruct (m_body l) as [|g nm|f g x|f g0 x g1 y g2 z|r|r]; try discriminate; cbn [mstmt_text mstmt_ok] in *.
  - destruct OKl as [Gg Rx]. rewrite <- !app_assoc in *.
    assert (K : mgoes MInit (m_indent l ++ skey f ++ g ++ num_text x ++ m_trail l ++ note_text (m_note l) ++ nl :: rest) (mkMtl [] v [])
                  (MNum f) (num_text x ++ m_trail l ++ note_text (m_note l) ++ nl :: rest) (mkMtl [] v [])).
    { apply (mkey_goes _ (skey f) g (MBegin (MNum f))); [apply skey_act|exact B|exact Gg|apply num_no_blank, Rx|reflexivity]. }
    destruct (K _ L) as (m & L2 & ->). rewrite app_assoc in *.
    destruct (mne_tok (MNum f) (MStoreNum f) x (m_trail l) (note_text (m_note l) ++ nl :: rest) eq_refl (proj1 Rx) Bt (note_sep _ _ _)) as [NE T].
    destruct (num_text x ++ m_trail l) as [|c u]; [congruence|]. destruct m as [|m]; [cbn in L2; lia|].
    cbn [app mtl_lex] in *. rewrite T. reflexivity.
  - destruct OKl as (G0 & Rx & _). rewrite <- !app_assoc in *.
    set (R := num_text x ++ g1 ++ num_text y ++ g2 ++ num_text z ++ m_trail l ++ note_text (m_note l) ++ nl :: rest) in *.
    assert (T := minit_key (m_indent l) (vkey f) g0 _ R (vkey_act f) B G0 (num_no_blank x _ (proj1 Rx))).
    replace (m_indent l ++ vkey f ++ g0 ++ R) with ((m_indent l ++ vkey f ++ g0) ++ R) in * by now rewrite <- !app_assoc.
    assert (NE : m_indent l ++ vkey f ++ g0 <> []).
    { intro E. apply app_eq_nil in E as [_ E]. apply app_eq_nil in E as [_ E]. now destruct G0. }
    destruct (m_indent l ++ vkey f ++ g0) as [|c u]; [congruence|]. destruct n as [|m]; [cbn in L; lia|].
    cbn [app mtl_lex] in *. rewrite T. reflexivity.
Qed.
(** a vector on a last line without a newline *)
Theorem mtl_last ls b f g0 x g1 y g2 z t secs n body : Forall (mline_ok reads) ls -> orderly (map m_body ls) ->
  snd (sections (map m_body ls)) = secs ++ [(n, body)] -> last_vector f body = None ->
  mline_ok reads (mkMLine b (Vector f g0 x g1 y g2 z) t None) ->
  exists ms m, mtl_parse (mfile_text ls ++ mline_text (mkMLine b (Vector f g0 x g1 y g2 z) t None)) = Ok (ms ++ [m]) /\
    m_has_vec m f = false /\ vec_of m f = [mantissa x; mantissa y; mantissa z].
Proof.
  intros OK O E LV (B & Bt & _ & OKl & _). destruct (mcan _ O) as (ms & D & Y). unfold msays in Y. rewrite E in Y.
  cbn [m_indent m_trail m_body mstmt_ok] in *. destruct OKl as (G0 & Rx & G1 & Ry & G2 & Rz).
  apply Forall2_app_inv_l in Y as (m0 & m1 & Y0 & Y1 & ->). inversion Y1 as [|? m ? q Hm Hq]; subst. inversion Hq; subst.
  exists m0, (set3 m f (mantissa x) (mantissa y) (mantissa z)).
  destruct (mfile_goes ls (mline_text (mkMLine b (Vector f g0 x g1 y g2 z) t None)) [] (m0 ++ [m]) Fambient OK D) as (v & G).
  assert (K : mgoes MInit (mfile_text ls ++ mline_text (mkMLine b (Vector f g0 x g1 y g2 z) t None)) (mkMtl [] Fambient [])
                (MVec f) [] (mkMtl (m0 ++ [set3 m f (mantissa x) (mantissa y) (mantissa z)]) f [])).
  { eapply mgoes_trans; [exact G|]. unfold mline_text. cbn [m_indent m_body m_trail m_note note_text mstmt_text]. rewrite <- !app_assoc.
    eapply mgoes_trans; [apply (mkey_goes _ (vkey f) g0 (MStartVec f)); [apply vkey_act|exact B|exact G0|apply num_no_blank, Rx|intro u; apply start_vec]|].
    apply vec_goes; try assumption. exact I. }
  split; [unfold mtl_parse; now rewrite (mgoes_end _ _ _ _ K)|].
  destruct Hm as [_ _ H3]. specialize (H3 f). cbn [snd] in H3. rewrite LV in H3. split; [apply H3|].
  unfold vec_of, set3, set_vec. cbn. now rewrite vfield_refl.
Qed.

(** ** object files *)
Section Any.
  Variable dir : text.
  Variable files : text -> option text.
  Definition cur_in (o : obj) : Prop := o_current o = 0%Z \/ (0 < o_current o < Z.of_nat (length (o_materials o)))%Z.
  Definition keeps (r : res (ost * obj * face)) : Prop :=
    match r with Ok (_, o', _) => (exists n, fits n o') /\ cur_in o' | Rejected => True | Undef => exists n t, files n = Some t /\ mtl_parse t = Undef | Hang => False end.
  Lemma act_keeps a s u o f n : fits n o -> cur_in o -> keeps (obj_act dir files a s u o f).
  Proof.
    intros F C. assert (F' := F). destruct F' as (F1 & F2 & F3 & F4 & F5 & F6 & F7).
    destruct a; cbn [obj_act keeps]; try (split; [exists n; exact F|exact C]); try exact I.
    - (* library *) unfold push_mtl. destruct (files (dir ++ lit "/" ++ u)) as [t|] eqn:E; [|exact I].
      assert (H := mtl_no_hang t). destruct (mtl_parse t) as [m| | |] eqn:M; try exact I; try congruence.
      + cbn. split; [exists n|exact C]. unfold fits. cbn. rewrite !app_length. cbn. repeat split; try assumption. lia.
      + exists (dir ++ lit "/" ++ u), t. now split.
    - (* material *) unfold use_material. destruct (find_name (o_materials o) u 0) as [i|] eqn:E.
      + apply find_some in E as [_ E]. split; [exists n; unfold fits; cbn; now repeat split|].
        unfold cur_in. cbn. assert (i < length (o_materials o)) by (apply nth_error_Some; rewrite Nat.sub_0_r in E; congruence). lia.
      + apply find_none in E. split; [exists n; unfold fits; cbn|].
        * repeat split; try assumption.
          -- apply (Permutation_NoDup (Permutation_cons_append (o_materials o) u)). now constructor.
          -- eapply Forall_impl; [|exact F7]. intros i. rewrite app_length. cbn. lia.
        * unfold cur_in. cbn. rewrite app_length. cbn. lia.
    - (* face *) split; [exists (S n)|exact C]. unfold fits. cbn. rewrite !app_length. cbn. repeat split; try lia; try assumption.
      apply Forall_app. split; [exact F7|]. constructor; [exact C|constructor].
  Qed.
  Lemma lex_any fuel : forall s t o f n, length t <= fuel -> fits n o -> cur_in o ->
    match obj_lex dir files fuel s t o f with
    | Ok o' => exists n', fits n' o' | Rejected => True | Undef => exists n t, files n = Some t /\ mtl_parse t = Undef | Hang => False
    end.
  Proof.
    induction fuel as [|fuel IH]; intros s t o f n L F C; destruct t as [|c t]; cbn in L; try lia; try (cbn; eauto; fail).
    cbn [obj_lex]. destruct (next_token (obj_rules s) (c :: t)) as [[[a u] v]|] eqn:T; [|apply (IH s t o f n); [lia|exact F|exact C]].
    assert (K := act_keeps a s u o f n F C). destruct (obj_act dir files a s u o f) as [[[s' o'] f']| | |]; cbn [keeps] in K; try exact K.
    destruct K as [(n' & F') C']. apply (IH s' v o' f' n'); [eapply token_len; [exact T|lia]|exact F'|exact C'].
  Qed.
  Theorem obj_any t : match wf_parse dir files t with
    | Ok o => exists n, fits n o | Rejected => True | Undef => exists n t, files n = Some t /\ mtl_parse t = Undef | Hang => False
    end.
  Proof.
    unfold wf_parse. apply (lex_any _ _ _ _ _ 0); [lia| |now left].
    repeat split; cbn; constructor.
  Qed.

  (** ** whole files that end in some way *)
  Lemma whole_fails ls t o1 : Forall (line_ok reads) ls -> doing dir files obj_create (stmts ls) o1 -> line_fails dir files o1 t ->
    wf_parse dir files (file_text ls ++ t) = Rejected.
  Proof.
    intros OK D F. destruct (file_goes dir files ls t obj_create o1 face0 OK D) as (f1 & G). unfold wf_parse.
    destruct (G _ (le_n _)) as (n & L & ->). now apply F.
  Qed.
  Lemma readable_app d e : readable dir files (d ++ e) -> readable dir files d /\ readable dir files e.
  Proof.
    intros H. split; intros n I; apply H; unfold libraries; rewrite flat_map_app; apply in_or_app; auto.
  Qed.
  Lemma readable_does s o : readable dir files [s] -> exists o', does dir files o s o'.
  Proof. intros R. destruct (can_do dir files [s] R o) as (o' & o1 & D & _). eauto. Qed.
  Theorem c87_unfinished ls l : Forall (line_ok reads) ls -> line_ok reads l -> readable dir files (stmts (ls ++ [l])) -> unfinished l ->
    wf_parse dir files (file_text ls ++ line_text l) = Rejected.
  Proof.
    intros OK OKl R U. unfold stmts in R. rewrite map_app in R. apply readable_app in R as [R1 R2].
    destruct (can_do dir files _ R1 obj_create) as (o1 & D). apply (whole_fails ls _ o1 OK D).
    apply unfinished_fails; [exact OKl|exact U|now apply readable_does].
  Qed.
  Theorem c87_finished ls l : Forall (line_ok reads) ls -> line_ok reads l -> readable dir files (stmts (ls ++ [l])) -> finished l ->
    exists o, wf_parse dir files (file_text ls ++ line_text l) = Ok o /\ says dir files (stmts (ls ++ [l])) o.
  Proof.
    intros OK OKl R U. unfold stmts in *. rewrite map_app in *. cbn [map] in *. assert (R' := R). apply readable_app in R' as [R1 R2].
    destruct (can_do dir files _ R1 obj_create) as (o1 & D). destruct (readable_does _ o1 R2) as (o2 & D2).
    destruct (file_goes dir files ls (line_text l) obj_create o1 face0 OK D) as (f1 & G).
    destruct (finished_goes dir files l o1 o2 f1 OKl U D2) as (s' & f2 & G2).
    exists o2. split; [unfold wf_parse; apply (goes_end dir files _ _ _ _ s' f2); eapply goes_trans; [exact G|exact G2]|].
    destruct (says_nil dir files) as [Y C]. destruct (says_doing dir files _ _ _ _ Y C D) as [Y1 C1].
    destruct (says_doing dir files [body l] _ _ o2 Y1 C1) as [Y2 _]; [exists o2; now split|exact Y2].
  Qed.
  Theorem c87_garbage ls l x rest : Forall (line_ok reads) ls -> line_ok reads l -> readable dir files (stmts (ls ++ [l])) ->
    note l = None -> is_skipped (body l) = false -> body l <> Nothing -> follows l x ->
    wf_parse dir files (file_text ls ++ line_text l ++ x :: rest) = Rejected.
  Proof.
    intros OK OKl R N S B F. unfold stmts in R. rewrite map_app in R. apply readable_app in R as [R1 R2].
    destruct (can_do dir files _ R1 obj_create) as (o1 & D). apply (whole_fails ls _ o1 OK D).
    apply garbage_fails; try assumption. now apply readable_does.
  Qed.
  Theorem c87_library ls l g n rest : Forall (line_ok reads) ls -> line_ok reads l -> readable dir files (stmts ls) -> body l = MtlLib g n ->
    (files (dir ++ lit "/" ++ n) = None \/ (exists t, files (dir ++ lit "/" ++ n) = Some t /\ mtl_parse t = Rejected)) ->
    wf_parse dir files (file_text ls ++ line_text l ++ nl :: rest) = Rejected.
  Proof.
    intros OK OKl R E F. destruct (can_do dir files _ R obj_create) as (o1 & D). apply (whole_fails ls _ o1 OK D).
    eapply library_fails; eassumption.
  Qed.
  (** a vertex cut off after its first number and a blank *)
  Theorem c87_truncated ls g x g1 : Forall (line_ok reads) ls -> readable dir files (stmts ls) -> gap g -> reads x -> gap g1 ->
    exists o, wf_parse dir files (file_text ls ++ lit "v" ++ g ++ num_text x ++ g1) = Ok o /\ o_vert o = vertices (stmts ls) ++ [mantissa x].
  Proof.
    intros OK R G Rx G1. destruct (can_do dir files _ R obj_create) as (o1 & D).
    destruct (file_goes dir files ls (lit "v" ++ g ++ num_text x ++ g1) obj_create o1 face0 OK D) as (f1 & Go).
    exists (push_vertex o1 (mantissa x)). split.
    - unfold wf_parse. apply (goes_end dir files _ _ _ _ (V 1) f1). eapply goes_trans; [exact Go|].
      eapply goes_trans.
      { apply (key_goes dir files [] (lit "v") g (ABegin (V 0)) (V 0)); [cbn; tauto|constructor|exact G|now apply num_no_blank; apply Rx|reflexivity]. }
      destruct (nb_tok dir files (V 0) (AVertex (V 1)) x g1 [] eq_refl (proj1 Rx) G1 ltac:(cbn; tauto)) as [N T].
      rewrite app_nil_r in T. rewrite <- (app_nil_r (num_text x ++ g1)).
      eapply goes_tok; [exact N|rewrite app_nil_r; exact T|]. cbn [obj_act]. rewrite (num_read x g1 Rx (gap_blanks _ G1)). reflexivity.
    - destruct (says_nil dir files) as [Y C]. destruct (says_doing dir files _ _ _ _ Y C D) as [[Y1 _ _ _ _ _ _ _ _ _ _] _].
      cbn. now rewrite Y1.
  Qed.
End Any.
