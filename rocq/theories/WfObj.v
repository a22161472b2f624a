(** Proofs for C87: object files. *)
From Coq Require Import String Ascii ZArith Reals Bool Arith List Lia.
From Verif Require Import WfModel WfSpec WfProofs WfNum.
Import ListNotations.
Open Scope nat_scope.

Lemma two_rules {A} (r : re) (a e : A) u rest : u <> [] -> nullable (derivs u r) = true -> stops rest (derivs u r) ->
  next_token [(r, a); (DOT, e)] (u ++ rest) = Some (a, u, rest).
Proof.
  intros N H S. apply next_tok; [exact N|cbn; now rewrite H|]. cbn. repeat constructor; [exact S|now apply dot_stops].
Qed.

(** the rest of a line after "s " or "l ": any text, up to the newline *)
Inductive anyline : re -> Prop :=
| any_star : anyline (Star (Cls NotNl))
| any_cat : anyline (Cat (Star (Cls Blank)) (Star (Cls NotNl)))
| any_alt a b : anyline a -> anyline b -> anyline (Alt a b).
Lemma any_nullable r : anyline r -> nullable r = true.
Proof. induction 1 as [| |a b _ H _ K]; cbn; auto. now rewrite H. Qed.
Lemma alt_any a b : anyline a -> anyline b -> alt a b = Alt a b.
Proof. destruct 1; destruct 1; reflexivity. Qed.
Lemma any_deriv r c : anyline r -> c <> nl -> anyline (deriv c r).
Proof.
  intros H N. assert (E : in_cls NotNl c = true).
  { change (in_cls NotNl c) with (negb (Ascii.eqb c nl)). destruct (Ascii.eqb_spec c nl); [contradiction|reflexivity]. }
  induction H as [| |a b _ IHa _ IHb]; cbn [deriv nullable].
  - rewrite E. constructor.
  - rewrite E. destruct (in_cls Blank c); cbn; repeat constructor.
  - rewrite alt_any by assumption. now constructor.
Qed.
Lemma any_nl r : anyline r -> deriv nl r = Nul.
Proof. induction 1 as [| |a b _ IHa _ IHb]; [reflexivity|reflexivity|]. cbn [deriv]. now rewrite IHa, IHb. Qed.
Lemma any_derivs u : one_line u -> forall r, anyline r -> anyline (derivs u r).
Proof. induction 1 as [|c u N _ IH]; intros r H; cbn; [exact H|]. apply IH. now apply any_deriv. Qed.
Lemma any_gap g u : gap g -> one_line u -> anyline (derivs (g ++ u) (Cat BLANKS (Star DOT))).
Proof.
  intros [N B] L. destruct g as [|c g]; [congruence|]. inversion B as [|? ? B1 B2]; subst. cbn [app derivs].
  assert (E : deriv c (Cat BLANKS (Star DOT)) = Cat (Star (Cls Blank)) (Star (Cls NotNl))).
  { destruct (blank_cases c B1) as [-> | ->]; reflexivity. }
  rewrite E. apply any_derivs; [|constructor]. apply Forall_app. split; [|exact L].
  eapply Forall_impl; [|exact B2]. intros d Hd ->. discriminate.
Qed.
Lemma any_stops r rest : anyline r -> match rest with [] => True | c :: _ => c = nl end -> stops rest r.
Proof. destruct rest as [|c rest]; cbn; [trivial|]. intros H ->. rewrite any_nl by exact H. apply dead_nul. Qed.

(** ** the tokens of the initial condition *)
Definition obj_keys : list (text * oact) :=
  [(lit "mtllib", ABegin Mtllib); (lit "usemtl", ABegin Usemtl); (lit "o", ABegin Object); (lit "v", ABegin (V 0));
   (lit "vt", ABegin (VT 0)); (lit "vn", ABegin (VN 0)); (lit "f", ABegin (FV 0))].
Lemma skip_blanks r b u : blanks b -> (forall c, is_blank c = true -> deriv c r = r) -> derivs (b ++ u) r = derivs u r.
Proof. intros B H. rewrite derivs_app. now rewrite (derivs_run is_blank r H b B). Qed.
Lemma no_l b w u : blanks b -> (match w with [] => False | c :: _ => c <> "l"%char end) ->
  derivs (b ++ w ++ u) (Cat (word (lit "l")) (Cat BLANKS (Star DOT))) = Nul.
Proof.
  intros B H. assert (E : forall c v, c <> "l"%char -> derivs (c :: v) (Cat (word (lit "l")) (Cat BLANKS (Star DOT))) = Nul).
  { intros c v N. cbn [derivs deriv word lit list_ascii_of_string in_cls nullable cat].
    destruct (Ascii.eqb_spec c "l"); [contradiction|]. apply derivs_nul. }
  destruct b as [|c b].
  - destruct w as [|c w]; [contradiction|]. now apply E.
  - cbn [app]. apply E. inversion B; subst. intros ->. discriminate.
Qed.
Ltac key1 B g G Bg :=
  rewrite (skip_blanks _ _ _ B) by blk; rewrite derivs_app;
  match goal with |- derivs _ (derivs ?w ?r) = _ => let x := eval vm_compute in (derivs w r) in change (derivs w r) with x end;
  first [ apply derivs_nul | apply (run1 is_blank g _ _ G Bg); blk ].
Lemma init_key b w g a rest : In (w, a) obj_keys -> blanks b -> gap g -> ~ starts_blank rest ->
  next_token (obj_rules Init) ((b ++ w ++ g) ++ rest) = Some (a, b ++ w ++ g, rest).
Proof.
  intros K B [G Bg] S.
  assert (L : derivs (b ++ w ++ g) (Cat (word (lit "l")) (Cat BLANKS (Star DOT))) = Nul).
  { apply no_l; [exact B|]. cbn in K. repeat (destruct K as [K|K]; [injection K as <- <-; discriminate|]). destruct K. }
  assert (N : b ++ w ++ g <> []).
  { intro E. apply app_eq_nil in E as [_ E]. apply app_eq_nil in E as [_ E]. contradiction. }
  assert (St : stops rest (Star (Cls Blank))) by now apply stops_blank.
  assert (F : Forall (fun wk => derivs (b ++ w ++ g) (KEY (fst wk)) = if text_eqb w (fst wk) then Star (Cls Blank) else Nul) obj_keys).
  { cbn in K. unfold obj_keys. repeat (destruct K as [K|K]; [injection K as <- <-; repeat constructor; cbn [fst];
      match goal with |- _ = (if ?x then _ else _) => let y := eval vm_compute in x in change x with y end; cbv iota; key1 B g G Bg|]). destruct K. }
  assert (F0 : derivs (b ++ w ++ g) END = Nul).
  { cbn in K. repeat (destruct K as [K|K]; [injection K as <- <-; key1 B g G Bg|]). destruct K. }
  assert (F1 : derivs (b ++ w ++ g) (Cat MAYBE_BLANKS (Cat (word (lit "s")) (Cat BLANKS (Star DOT)))) = Nul).
  { cbn in K. repeat (destruct K as [K|K]; [injection K as <- <-; key1 B g G Bg|]). destruct K. }
  rewrite Forall_forall in F.
  assert (KL : forall k x, In (k, x) obj_keys -> derivs (b ++ w ++ g) (KEY k) = if text_eqb w k then Star (Cls Blank) else Nul) by (intros k x I; exact (F _ I)).
  apply next_tok; [exact N| |]; unfold steps; cbn [obj_rules map fst snd]; rewrite F0, F1, L;
    rewrite (KL (lit "mtllib") (ABegin Mtllib) ltac:(cbn; tauto)), (KL (lit "usemtl") (ABegin Usemtl) ltac:(cbn; tauto)),
            (KL (lit "o") (ABegin Object) ltac:(cbn; tauto)), (KL (lit "v") (ABegin (V 0)) ltac:(cbn; tauto)),
            (KL (lit "vt") (ABegin (VT 0)) ltac:(cbn; tauto)), (KL (lit "vn") (ABegin (VN 0)) ltac:(cbn; tauto)),
            (KL (lit "f") (ABegin (FV 0)) ltac:(cbn; tauto)).
  - clear - K. cbn in K. repeat (destruct K as [K|K]; [injection K as <- <-; reflexivity|]). destruct K.
  - repeat (apply Forall_cons || apply Forall_nil); cbn [fst]; try apply stops_nul; try (match goal with |- stops _ (if ?x then _ else _) => destruct x end; [exact St|apply stops_nul]).
    now apply dot_stops.
Qed.

Lemma init_end t n rest : tail_ok t n -> next_token (obj_rules Init) (tail_text t n ++ rest) = Some (ANop, tail_text t n, rest).
Proof.
  intros OK. assert (E := end_tail t n OK). destruct OK as [B L].
  assert (K : forall r, (forall c, is_blank c = true -> deriv c r = r) -> deriv "#" r = Nul -> deriv nl r = Nul ->
              derivs (tail_text t n) r = Nul).
  { intros r H1 H2 H3. unfold tail_text. rewrite (skip_blanks r t _ B H1). destruct n as [m|]; cbn [note_text lit list_ascii_of_string app derivs].
    - rewrite H2. apply derivs_nul.
    - exact H3. }
  assert (K2 : derivs (tail_text t n) (Cat (word (lit "l")) (Cat BLANKS (Star DOT))) = Nul).
  { unfold tail_text. rewrite <- (app_nil_r (note_text n ++ [nl])). apply no_l; [exact B|]. destruct n; discriminate. }
  apply next_tok; [apply tail_ne| |]; unfold steps; cbn [obj_rules map fst snd]; rewrite E; [reflexivity|].
  rewrite K2, !K by (try (solve [blk]); reflexivity).
  repeat (apply Forall_cons || apply Forall_nil); cbn [fst]; try apply stops_nul; apply dot_stops, tail_ne.
Qed.

Lemma init_smooth b g u rest : blanks b -> gap g -> one_line u -> match rest with [] => True | c :: _ => c = nl end ->
  next_token (obj_rules Init) ((b ++ lit "s" ++ g ++ u) ++ rest) = Some (ABegin Eol, b ++ lit "s" ++ g ++ u, rest).
Proof.
  intros B G U R. set (tok := b ++ lit "s" ++ g ++ u).
  assert (N : tok <> []) by (unfold tok; destruct b; discriminate).
  assert (A : anyline (derivs tok (Cat MAYBE_BLANKS (Cat (word (lit "s")) (Cat BLANKS (Star DOT)))))).
  { unfold tok. rewrite (skip_blanks _ b _ B) by blk. rewrite derivs_app.
    change (derivs (lit "s") (Cat MAYBE_BLANKS (Cat (word (lit "s")) (Cat BLANKS (Star DOT))))) with (Cat BLANKS (Star DOT)).
    now apply any_gap. }
  assert (K : forall r, (forall c, is_blank c = true -> deriv c r = r) -> derivs (lit "s") r = Nul -> derivs tok r = Nul).
  { intros r H1 H2. unfold tok. rewrite (skip_blanks r b _ B H1), derivs_app, H2. apply derivs_nul. }
  assert (K2 : derivs tok (Cat (word (lit "l")) (Cat BLANKS (Star DOT))) = Nul).
  { apply no_l; [exact B|discriminate]. }
  assert (Kk : forall k, In k (map fst obj_keys) -> derivs tok (KEY k) = Nul).
  { intros k I. cbn in I. repeat (destruct I as [<- | I]; [apply K; [blk|reflexivity]|]). destruct I. }
  apply next_tok; [exact N| |]; unfold steps; cbn [obj_rules map fst snd]; rewrite K2, (K END) by (solve [blk]||reflexivity);
    rewrite !Kk by (cbn; tauto).
  - cbn [hit nullable]. now rewrite (any_nullable _ A).
  - repeat (apply Forall_cons || apply Forall_nil); cbn [fst]; try apply stops_nul; [now apply any_stops|now apply dot_stops].
Qed.

Lemma init_l g u rest : gap g -> one_line u -> match rest with [] => True | c :: _ => c = nl end ->
  next_token (obj_rules Init) ((lit "l" ++ g ++ u) ++ rest) = Some (ANop, lit "l" ++ g ++ u, rest).
Proof.
  intros G U R. set (tok := lit "l" ++ g ++ u).
  assert (N : tok <> []) by discriminate.
  assert (A : anyline (derivs tok (Cat (word (lit "l")) (Cat BLANKS (Star DOT))))).
  { unfold tok. rewrite derivs_app.
    change (derivs (lit "l") (Cat (word (lit "l")) (Cat BLANKS (Star DOT)))) with (Cat BLANKS (Star DOT)). now apply any_gap. }
  assert (K : forall r, derivs (lit "l") r = Nul -> derivs tok r = Nul).
  { intros r H2. unfold tok. rewrite derivs_app, H2. apply derivs_nul. }
  apply next_tok; [exact N| |]; unfold steps; cbn [obj_rules map fst snd];
    rewrite (K END), (K (Cat MAYBE_BLANKS (Cat (word (lit "s")) (Cat BLANKS (Star DOT)))) eq_refl),
      (K (KEY (lit "mtllib"))), (K (KEY (lit "usemtl"))), (K (KEY (lit "o"))), (K (KEY (lit "v"))), (K (KEY (lit "vt"))), (K (KEY (lit "vn"))), (K (KEY (lit "f"))) by reflexivity.
  - cbn [hit nullable]. now rewrite (any_nullable _ A).
  - repeat (apply Forall_cons || apply Forall_nil); cbn [fst]; try apply stops_nul; [now apply any_stops|now apply dot_stops].
Qed.
