(** Proofs for C87: material libraries. *)
From Coq Require Import String Ascii ZArith Reals Bool Arith List Lia.
From Verif Require Import WfModel WfSpec WfProofs WfNum WfObj WfObj2 WfObj3 WfObj4.
Import ListNotations.
Open Scope nat_scope.

(** ** lines that are skipped: any text and an end *)
Inductive ltail : re -> Prop :=
| lt_end : ltail END
| lt_note : ltail (Cat (Star (Cls NotNl)) (Cls (Chr nl)))
| lt_alt a b : ltail a -> ltail b -> ltail (Alt a b).
Inductive lany : re -> Prop :=
| la_x : lany (Cat (Star DOT) END)
| la_alt a b : lany a -> ltail b -> lany (Alt a b).
Inductive lfin : re -> Prop := lf_eps : lfin Eps | lf_alt a b : lfin a -> lfin b -> lfin (Alt a b).
Lemma not_nl c : c <> nl -> in_cls NotNl c = true.
Proof. intros N. change (in_cls NotNl c) with (negb (Ascii.eqb c nl)). destruct (Ascii.eqb_spec c nl); [contradiction|reflexivity]. Qed.
Lemma end_deriv c : c <> nl -> deriv c END = Nul \/ ltail (deriv c END).
Proof.
  intros N. destruct (is_blank c) eqn:B; [right; destruct (blank_cases c B) as [-> | ->]; constructor|].
  destruct (Ascii.eqb_spec c "#") as [->|H]; [right; constructor|]. left.
  assert (E := end_stop [] c (Forall_nil _) B H N). exact E.
Qed.
Lemma ltail_deriv r c : ltail r -> c <> nl -> deriv c r = Nul \/ ltail (deriv c r).
Proof.
  intros H N. induction H as [| |a b Ha IHa Hb IHb]; [now apply end_deriv| |].
  - right. cbn [deriv nullable]. rewrite (not_nl c N). change (in_cls (Chr nl) c) with (Ascii.eqb c nl).
    destruct (Ascii.eqb_spec c nl); [contradiction|]. constructor.
  - cbn [deriv]. destruct IHa as [-> | IHa]; [cbn [alt]; exact IHb|]. right.
    destruct IHb as [-> | IHb]; [destruct (deriv c a); try exact IHa; inversion IHa|].
    destruct IHa; destruct IHb; cbn [alt]; repeat constructor; assumption.
Qed.
Lemma lany_deriv r c : lany r -> c <> nl -> lany (deriv c r).
Proof.
  intros H N. induction H as [|a b Ha IHa Hb].
  - change (deriv c (Cat (Star DOT) END)) with (alt (cat (cat (deriv c DOT) (Star DOT)) END) (deriv c END)).
    unfold DOT. cbn [deriv]. rewrite (not_nl c N). cbn [cat]. destruct (end_deriv c N) as [-> | T]; [constructor|].
    destruct T; cbn [alt]; repeat constructor; assumption.
  - cbn [deriv]. destruct (ltail_deriv b c Hb N) as [-> | T].
    + destruct IHa; cbn [alt]; repeat constructor; assumption.
    + destruct IHa; destruct T; cbn [alt]; repeat constructor; assumption.
Qed.
Lemma ltail_nl r : ltail r -> lfin (deriv nl r).
Proof.
  induction 1 as [| |a b _ IHa _ IHb]; [constructor|constructor|]. cbn [deriv].
  destruct IHa; destruct IHb; cbn [alt]; repeat constructor; assumption.
Qed.
Lemma lany_nl r : lany r -> lfin (deriv nl r).
Proof.
  induction 1 as [|a b _ IHa Hb]; [constructor|]. cbn [deriv]. assert (T := ltail_nl b Hb).
  destruct IHa; destruct T; cbn [alt]; repeat constructor; assumption.
Qed.
Lemma lfin_nullable r : lfin r -> nullable r = true.
Proof. induction 1 as [|a b _ H _ K]; cbn; [reflexivity|now rewrite H]. Qed.
Lemma lfin_stops r rest : lfin r -> stops rest r.
Proof.
  intros H. destruct rest as [|c rest]; [exact I|]. cbn [stops]. assert (E : deriv c r = Nul).
  { induction H as [|a b _ IHa _ IHb]; cbn [deriv]; [reflexivity|]. now rewrite IHa, IHb. }
  rewrite E. apply dead_nul.
Qed.
Lemma lany_line u : one_line u -> lfin (derivs (u ++ [nl]) (Cat (Star DOT) END)).
Proof.
  intros U. rewrite derivs_app. cbn [derivs]. apply lany_nl.
  assert (G : forall r, lany r -> lany (derivs u r)).
  { induction U as [|c u N _ IH]; intros r H; cbn; [exact H|]. apply IH. now apply lany_deriv. }
  apply G. constructor.
Qed.

(** ** the tokens of the initial condition *)
Definition mtl_keys : list (text * mact) :=
  [(lit "newmtl", MBegin MNewmtl); (lit "Ns", MBegin (MNum Fweight)); (lit "Ni", MBegin (MNum Fior));
   (lit "Ka", MStartVec Fambient); (lit "Kd", MStartVec Fdiffuse); (lit "Ks", MStartVec Fspecular); (lit "Ke", MStartVec Femission);
   (lit "d", MBegin (MNum Falpha))].
Definition skip_rule (w : text) : re := Cat MAYBE_BLANKS (Cat (word w) (Cat (Star DOT) END)).
Ltac key1 B g G Bg :=
  rewrite (skip_blanks _ _ _ B) by blk; rewrite derivs_app;
  match goal with |- derivs _ (derivs ?w ?r) = _ => let x := eval vm_compute in (derivs w r) in change (derivs w r) with x end;
  first [ apply derivs_nul | apply (run1 is_blank g _ _ G Bg); blk ].
Lemma minit_key b w g a rest : In (w, a) mtl_keys -> blanks b -> gap g -> ~ starts_blank rest ->
  next_token (mtl_rules MInit) ((b ++ w ++ g) ++ rest) = Some (a, b ++ w ++ g, rest).
Proof.
  intros K B [G Bg] S.
  assert (N : b ++ w ++ g <> []).
  { intro E. apply app_eq_nil in E as [_ E]. apply app_eq_nil in E as [_ E]. contradiction. }
  assert (St : stops rest (Star (Cls Blank))) by now apply stops_blank.
  assert (F : Forall (fun wk => derivs (b ++ w ++ g) (KEY (fst wk)) = if text_eqb w (fst wk) then Star (Cls Blank) else Nul) mtl_keys).
  { cbn in K. unfold mtl_keys. repeat (destruct K as [K|K]; [injection K as <- <-; repeat constructor; cbn [fst];
      match goal with |- _ = (if ?x then _ else _) => let y := eval vm_compute in x in change x with y end; cbv iota; key1 B g G Bg|]). destruct K. }
  assert (F0 : derivs (b ++ w ++ g) END = Nul).
  { cbn in K. repeat (destruct K as [K|K]; [injection K as <- <-; key1 B g G Bg|]). destruct K. }
  assert (F1 : derivs (b ++ w ++ g) (skip_rule (lit "illum")) = Nul).
  { unfold skip_rule. cbn in K. repeat (destruct K as [K|K]; [injection K as <- <-; key1 B g G Bg|]). destruct K. }
  assert (F2 : derivs (b ++ w ++ g) (skip_rule (lit "map_Kd")) = Nul).
  { unfold skip_rule. cbn in K. repeat (destruct K as [K|K]; [injection K as <- <-; key1 B g G Bg|]). destruct K. }
  unfold skip_rule in F1, F2. rewrite Forall_forall in F.
  assert (KL : forall k x, In (k, x) mtl_keys -> derivs (b ++ w ++ g) (KEY k) = if text_eqb w k then Star (Cls Blank) else Nul) by (intros k x I; exact (F _ I)).
  apply next_tok; [exact N| |]; unfold steps; cbn [mtl_rules map fst snd]; rewrite F0, F1, F2;
    rewrite (KL (lit "newmtl") (MBegin MNewmtl) ltac:(cbn; tauto)), (KL (lit "Ns") (MBegin (MNum Fweight)) ltac:(cbn; tauto)),
            (KL (lit "Ni") (MBegin (MNum Fior)) ltac:(cbn; tauto)), (KL (lit "Ka") (MStartVec Fambient) ltac:(cbn; tauto)),
            (KL (lit "Kd") (MStartVec Fdiffuse) ltac:(cbn; tauto)), (KL (lit "Ks") (MStartVec Fspecular) ltac:(cbn; tauto)),
            (KL (lit "Ke") (MStartVec Femission) ltac:(cbn; tauto)), (KL (lit "d") (MBegin (MNum Falpha)) ltac:(cbn; tauto)).
  - clear - K. cbn in K. repeat (destruct K as [K|K]; [injection K as <- <-; reflexivity|]). destruct K.
  - repeat (apply Forall_cons || apply Forall_nil); cbn [fst]; try apply stops_nul; try (match goal with |- stops _ (if ?x then _ else _) => destruct x end; [exact St|apply stops_nul]).
    now apply dot_stops.
Qed.
Lemma minit_end t n rest : tail_ok t n -> next_token (mtl_rules MInit) (tail_text t n ++ rest) = Some (MNop, tail_text t n, rest).
Proof.
  intros OK. assert (E := end_tail t n OK). destruct OK as [B L].
  assert (K : forall r, (forall c, is_blank c = true -> deriv c r = r) -> deriv "#" r = Nul -> deriv nl r = Nul ->
              derivs (tail_text t n) r = Nul).
  { intros r H1 H2 H3. unfold tail_text. rewrite (skip_blanks r t _ B H1). destruct n as [m|]; cbn [note_text lit list_ascii_of_string app derivs].
    - rewrite H2. apply derivs_nul.
    - exact H3. }
  apply next_tok; [apply tail_ne| |]; unfold steps; cbn [mtl_rules map fst snd]; rewrite E; [reflexivity|].
  rewrite !K by (try (solve [blk]); reflexivity).
  repeat (apply Forall_cons || apply Forall_nil); cbn [fst]; try apply stops_nul; apply dot_stops, tail_ne.
Qed.
Lemma minit_skip b w u rest : In w [lit "illum"; lit "map_Kd"] -> blanks b -> one_line u ->
  next_token (mtl_rules MInit) ((b ++ w ++ u ++ [nl]) ++ rest) = Some (MNop, b ++ w ++ u ++ [nl], rest).
Proof.
  intros W B U. set (tok := b ++ w ++ u ++ [nl]).
  assert (N : tok <> []) by (unfold tok; intro E; do 3 (apply app_eq_nil in E as [_ E]); discriminate).
  assert (A : lfin (derivs tok (skip_rule w))).
  { unfold tok, skip_rule. rewrite (skip_blanks _ b _ B).
    - rewrite derivs_app. assert (E : derivs w (Cat MAYBE_BLANKS (Cat (word w) (Cat (Star DOT) END))) = Cat (Star DOT) END).
      { cbn in W. destruct W as [<- | [<- | []]]; reflexivity. }
      rewrite E. now apply lany_line.
    - cbn in W. destruct W as [<- | [<- | []]]; blk. }
  assert (K : forall r, (forall c, is_blank c = true -> deriv c r = r) -> derivs w r = Nul -> derivs tok r = Nul).
  { intros r H1 H2. unfold tok. rewrite (skip_blanks r b _ B H1), derivs_app, H2. apply derivs_nul. }
  assert (Kk : forall k, In k (map fst mtl_keys) -> derivs tok (KEY k) = Nul).
  { intros k I. cbn in I, W. destruct W as [<- | [<- | []]]; repeat (destruct I as [<- | I]; [apply K; [blk|reflexivity]|]); destruct I. }
  assert (Ke : derivs tok END = Nul).
  { cbn in W. destruct W as [<- | [<- | []]]; apply K; solve [blk|reflexivity]. }
  cbn in W. destruct W as [<- | [<- | []]].
  - assert (K2 : derivs tok (skip_rule (lit "map_Kd")) = Nul) by (apply K; [unfold skip_rule; blk|reflexivity]).
    unfold skip_rule in *.
    apply next_tok; [exact N| |]; unfold steps; cbn [mtl_rules map fst snd]; rewrite Ke, K2, !Kk by (cbn; tauto).
    + cbn [hit nullable]. change (lit "illum") with ["i"; "l"; "l"; "u"; "m"]%char. now rewrite (lfin_nullable _ A).
    + repeat (apply Forall_cons || apply Forall_nil); cbn [fst]; try apply stops_nul; [now apply lfin_stops|now apply dot_stops].
  - assert (K2 : derivs tok (skip_rule (lit "illum")) = Nul) by (apply K; [unfold skip_rule; blk|reflexivity]).
    unfold skip_rule in *.
    apply next_tok; [exact N| |]; unfold steps; cbn [mtl_rules map fst snd]; rewrite Ke, K2, !Kk by (cbn; tauto).
    + cbn [hit nullable]. change (lit "map_Kd") with ["m"; "a"; "p"; "_"; "K"; "d"]%char. now rewrite (lfin_nullable _ A).
    + repeat (apply Forall_cons || apply Forall_nil); cbn [fst]; try apply stops_nul; [now apply lfin_stops|now apply dot_stops].
Qed.
