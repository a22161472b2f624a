(** Proofs for C87: the scanner, and the tokens of both languages. *)
From Coq Require Import String Ascii ZArith Reals Bool Arith List Lia.
From Verif Require Import WfModel WfSpec.
Import ListNotations.
Open Scope nat_scope.

Fixpoint derivs (u : text) (r : re) : re := match u with [] => r | c :: u' => derivs u' (deriv c r) end.
Definition dead (r : re) : Prop := forall u, nullable (derivs u r) = false.
Definition steps {A} (u : text) (rs : list (re * A)) : list (re * A) := map (fun ra => (derivs u (fst ra), snd ra)) rs.

Lemma derivs_app u v r : derivs (u ++ v) r = derivs v (derivs u r).
Proof. revert r; induction u as [|c u IH]; intros r; cbn; [reflexivity|apply IH]. Qed.
Lemma derivs_nul u : derivs u Nul = Nul.
Proof. induction u as [|c u IH]; cbn; auto. Qed.
Lemma dead_nul : dead Nul.
Proof. intro u. now rewrite derivs_nul. Qed.
Lemma dead_step c r : dead r -> dead (deriv c r).
Proof. intros D u. exact (D (c :: u)). Qed.
Lemma steps_step {A} c u (rs : list (re * A)) : steps (c :: u) rs = steps u (step c rs).
Proof. unfold steps, step. rewrite map_map. apply map_ext. intros [r a]; reflexivity. Qed.
Lemma steps_nil {A} (rs : list (re * A)) : steps [] rs = rs.
Proof. unfold steps. rewrite <- (map_id rs) at 2. apply map_ext. intros [r a]; reflexivity. Qed.

Lemma hit_dead {A} (rs : list (re * A)) : Forall (fun ra => nullable (fst ra) = false) rs -> hit rs = None.
Proof. induction 1 as [|[r a] rs H _ IH]; cbn in *; [reflexivity|now rewrite H]. Qed.
Lemma longest_dead {A} (s : text) : forall (rs : list (re * A)) seen best,
  Forall (fun ra => dead (fst ra)) rs -> longest rs s seen best = best.
Proof.
  induction s as [|c s IH]; intros rs seen best D; cbn [longest]; [reflexivity|].
  assert (D' : Forall (fun ra => dead (fst ra)) (step c rs)).
  { unfold step. apply Forall_map. eapply Forall_impl; [|exact D]. intros [r a] H; cbn in *. now apply dead_step. }
  rewrite hit_dead; [now apply IH|]. eapply Forall_impl; [|exact D']. intros [r a] H. exact (H []).
Qed.
(** a rule cannot go on after what was read *)
Definition stops (rest : text) (r : re) : Prop := match rest with [] => True | c :: _ => dead (deriv c r) end.
Lemma stops_nul rest : stops rest Nul.
Proof. destruct rest; cbn; [exact I|apply dead_nul]. Qed.
Lemma stops_eps rest : stops rest Eps.
Proof. destruct rest; cbn; [exact I|apply dead_nul]. Qed.

Lemma longest_tok {A} (u : text) : forall (rs : list (re * A)) rest seen best a,
  u <> [] -> hit (steps u rs) = Some a -> Forall (fun ra => stops rest (fst ra)) (steps u rs) ->
  longest rs (u ++ rest) seen best = Some (a, rev seen ++ u, rest).
Proof.
  induction u as [|c u IH]; intros rs rest seen best a NE H D; [congruence|].
  rewrite steps_step in H, D. cbn [app longest].
  destruct u as [|c' u].
  - cbn [app]. rewrite steps_nil in H, D. rewrite H. cbn [rev]. destruct rest as [|d rest]; [reflexivity|].
    cbn [longest]. assert (D' : Forall (fun ra => dead (fst ra)) (step d (step c rs))).
    { unfold step at 1. apply Forall_map. eapply Forall_impl; [|exact D]. now intros [r b] K. }
    rewrite hit_dead; [now rewrite longest_dead|]. eapply Forall_impl; [|exact D']. intros [r b] K. exact (K []).
  - rewrite (IH _ rest (c :: seen) _ a); [|discriminate|exact H|exact D]. cbn [rev]. now rewrite <- app_assoc.
Qed.
Lemma next_tok {A} (rs : list (re * A)) u rest a :
  u <> [] -> hit (steps u rs) = Some a -> Forall (fun ra => stops rest (fst ra)) (steps u rs) ->
  next_token rs (u ++ rest) = Some (a, u, rest).
Proof. intros N H D. unfold next_token. now rewrite (longest_tok u rs rest [] None a N H D). Qed.

(** ** characters *)
Ltac all_chars c := destruct c as [[] [] [] [] [] [] [] []].
Lemma blank_cases c : is_blank c = true -> c = " "%char \/ c = ascii_of_nat 9.
Proof. all_chars c; vm_compute; intro H; try discriminate H; auto. Qed.
Lemma digit_cases c : is_digit c = true -> In c (lit "0123456789").
Proof. all_chars c; vm_compute; intro H; try discriminate H; tauto. Qed.
Lemma digit_not_blank c : is_digit c = true -> is_blank c = false.
Proof. all_chars c; vm_compute; congruence. Qed.
Lemma blank_not_digit c : is_blank c = true -> is_digit c = false.
Proof. intros H. destruct (blank_cases c H) as [->| ->]; reflexivity. Qed.
Lemma graph_not_blank c : is_graph c = true -> is_blank c = false.
Proof. all_chars c; vm_compute; congruence. Qed.
Lemma digit_not_nl c : is_digit c = true -> c <> nl.
Proof. intros H ->; discriminate. Qed.

(** a run of a class keeps a state *)
Lemma derivs_run (p : ascii -> bool) r : (forall c, p c = true -> deriv c r = r) ->
  forall u, Forall (fun c => p c = true) u -> derivs u r = r.
Proof. intros H u; induction 1 as [|c u K _ IH]; cbn; [reflexivity|]. now rewrite H. Qed.
Lemma derivs_run1 (p : ascii -> bool) r r' : (forall c, p c = true -> deriv c r = r') -> (forall c, p c = true -> deriv c r' = r') ->
  forall u, u <> [] -> Forall (fun c => p c = true) u -> derivs u r = r'.
Proof.
  intros H H' [|c u] N K; [congruence|]. inversion K as [|? ? K1 K2]; subst. cbn. rewrite H by exact K1.
  now apply (derivs_run p).
Qed.
Lemma run1 (p : ascii -> bool) u r r' : u <> [] -> Forall (fun c => p c = true) u ->
  (forall c, p c = true -> deriv c r = r') -> (forall c, p c = true -> deriv c r' = r') -> derivs u r = r'.
Proof. intros N F H H'. now apply (derivs_run1 p). Qed.
Ltac blk := let c := fresh "c" in let H := fresh "H" in intros c H; destruct (blank_cases c H) as [->| ->]; reflexivity.
Ltac chr := let c := fresh "c" in let H := fresh "H" in
  intros c H; all_chars c; solve [discriminate H|reflexivity|vm_compute in H; exfalso; congruence].

Ltac dig := let c := fresh "c" in let H := fresh "H" in intros c H; apply digit_cases in H; cbn [In lit list_ascii_of_string] in H;
  repeat (destruct H as [<- | H]; [reflexivity|]); destruct H.

Lemma star_blank u : blanks u -> derivs u (Star (Cls Blank)) = Star (Cls Blank).
Proof. apply (derivs_run is_blank). blk. Qed.

(** ** numbers *)
Definition after_num (T r : re) : Prop :=
  r = derivs (lit "1") (Cat NUMBER T) \/ r = derivs (lit "1.") (Cat NUMBER T) \/ r = derivs (lit "1e1") (Cat NUMBER T).

Lemma num_states T n : T = BLANKS \/ T = MAYBE_BLANKS -> num_ok n -> after_num T (derivs (num_text n) (Cat NUMBER T)).
Proof.
  intros HT [[Hi Di] [Hf He]].
  set (s1 := derivs (lit "1") (Cat NUMBER T)).
  set (s2 := derivs (lit "1.") (Cat NUMBER T)).
  set (s3 := derivs (lit "1e1") (Cat NUMBER T)).
  assert (A1 : derivs (sign_text (n_neg n) ++ n_int n) (Cat NUMBER T) = s1).
  { rewrite derivs_app. assert (R1 : forall c, is_digit c = true -> deriv c s1 = s1) by (destruct HT as [-> | ->]; subst s1; dig).
    destruct (n_neg n); cbn [sign_text].
    - apply (derivs_run1 is_digit); [destruct HT as [-> | ->]; subst s1; dig|exact R1|exact Hi|exact Di].
    - apply (derivs_run1 is_digit); [destruct HT as [-> | ->]; subst s1; dig|exact R1|exact Hi|exact Di]. }
  assert (A2 : forall f, Forall (fun c => is_digit c = true) f -> derivs (lit "." ++ f) s1 = s2).
  { intros f F. rewrite derivs_app. assert (E : derivs (lit ".") s1 = s2) by (destruct HT as [-> | ->]; reflexivity). rewrite E.
    apply (derivs_run is_digit); [destruct HT as [-> | ->]; subst s2; dig|exact F]. }
  assert (A3 : forall r, r = s1 \/ r = s2 -> forall e b d, (e = "e" \/ e = "d" \/ e = "s")%char -> digits d ->
               derivs (e :: sign_text b ++ d) r = s3).
  { intros r Hr e b d Ee [Nd Fd].
    assert (R3 : forall c, is_digit c = true -> deriv c s3 = s3) by (destruct HT as [-> | ->]; subst s3; dig).
    change (e :: sign_text b ++ d) with ([e] ++ sign_text b ++ d). rewrite derivs_app.
    assert (E : derivs [e] r = derivs (lit "1e") (Cat NUMBER T)).
    { destruct HT as [-> | ->]; destruct Hr as [-> | ->]; destruct Ee as [-> | [-> | ->]]; reflexivity. }
    rewrite E, derivs_app.
    destruct b; cbn [sign_text]; apply (derivs_run1 is_digit); try exact R3; try exact Nd; try exact Fd; destruct HT as [-> | ->]; subst s3; dig. }
  unfold num_text, after_num. rewrite !app_assoc. rewrite (derivs_app _ (match n_exp n with Some _ => _ | None => _ end)).
  rewrite derivs_app, A1. fold s1 s2 s3.
  destruct (n_frac n) as [f|], (n_exp n) as [[[e b] d]|]; try rewrite (A2 f Hf).
  - right; right. apply A3; [now right|apply He|apply He].
  - right; left. reflexivity.
  - right; right. cbn [derivs] in *. apply A3; [now left|apply He|apply He].
  - left. reflexivity.
Qed.
Lemma number_blanks n g : num_ok n -> gap g -> derivs (num_text n ++ g) NUMBER_BLANKS = Star (Cls Blank).
Proof.
  intros N [G B]. rewrite derivs_app. assert (K := num_states BLANKS n (or_introl eq_refl) N).
  change (Cat NUMBER BLANKS) with NUMBER_BLANKS in K.
  apply (derivs_run1 is_blank); [|blk|exact G|exact B].
  destruct K as [-> | [-> | ->]]; blk.
Qed.
(** what may follow a word and the blanks [t] after it *)
Definition CR : ascii := ascii_of_nat 13.
Definition sep (t rest : text) : Prop :=
  match rest with [] => True | c :: _ => is_blank c = false /\ (t = [] -> c = "#"%char \/ c = nl \/ c = CR) end.
Lemma number_end n t : num_ok n -> blanks t ->
  let r := derivs (num_text n ++ t) NUMBER_END in
  nullable r = true /\ (forall rest, sep t rest -> stops rest r).
Proof.
  intros N B. rewrite derivs_app. assert (K := num_states MAYBE_BLANKS n (or_intror eq_refl) N).
  change (Cat NUMBER MAYBE_BLANKS) with NUMBER_END in K.
  destruct t as [|c t].
  - cbn [derivs]. destruct K as [-> | [-> | ->]]; (split; [reflexivity|]);
    (intros [|c rest] S; [exact I|]; destruct S as [_ S]; destruct (S eq_refl) as [-> | [-> | ->]]; apply dead_nul).
  - assert (E : derivs (c :: t) (derivs (num_text n) NUMBER_END) = Star (Cls Blank)).
    { apply (derivs_run1 is_blank); [|blk|discriminate|exact B]. destruct K as [-> | [-> | ->]]; blk. }
    rewrite E. split; [reflexivity|]. intros [|d rest] S; [exact I|]. destruct S as [S _]. cbn. rewrite S. apply dead_nul.
Qed.

(** ** the ends of lines *)
Definition tail_ok (t : text) (n : option text) : Prop :=
  blanks t /\ match n with Some c => one_line c | None => True end.
Definition tail_text (t : text) (n : option text) : text := t ++ note_text n ++ [nl].
Lemma derivs_line r : (forall c, c <> nl -> deriv c r = r) -> forall u, one_line u -> derivs u r = r.
Proof. intros H u; induction 1 as [|c u K _ IH]; cbn; [reflexivity|]. now rewrite H. Qed.
Ltac notnl := let c := fresh "c" in let H := fresh "H" in
  intros c H; all_chars c; solve [reflexivity|exfalso; apply H; reflexivity].
Lemma end_tail t n : tail_ok t n -> derivs (tail_text t n) END = Eps.
Proof.
  intros [B K]. unfold tail_text. rewrite derivs_app, (derivs_run is_blank END); [|blk|exact B].
  rewrite derivs_app. destruct n as [c|]; cbn [note_text]; [|reflexivity].
  rewrite derivs_app. rewrite (derivs_line (derivs (lit "#") END)); [reflexivity|notnl|exact K].
Qed.
Lemma int_end d t n : digits d -> tail_ok t n -> derivs (d ++ tail_text t n) (Cat INT END) = Eps.
Proof.
  intros [N D] [B K]. rewrite derivs_app. rewrite (run1 is_digit d _ (derivs (lit "1") (Cat INT END)) N D); [|dig|dig].
  destruct t as [|c t].
  - unfold tail_text. cbn [app]. destruct n as [m|]; cbn [note_text]; [|reflexivity].
    rewrite !derivs_app. rewrite (derivs_line (derivs (lit "#") END)); [reflexivity|notnl|exact K].
  - inversion B as [|? ? B1 B2]; subst. unfold tail_text. cbn [app derivs].
    assert (E : deriv c (derivs (lit "1") (Cat INT END)) = END) by (destruct (blank_cases c B1) as [-> | ->]; reflexivity).
    rewrite E. apply (end_tail t n). now split.
Qed.
Lemma tail_ne t n : tail_text t n <> [].
Proof. unfold tail_text. destruct t; [destruct n; discriminate|discriminate]. Qed.

(** ** other tokens *)
Lemma dot_long a b u : derivs (a :: b :: u) DOT = Nul.
Proof. cbn [derivs DOT deriv in_cls]. unfold DOT. cbn [deriv in_cls]. destruct (negb (Ascii.eqb a nl)); cbn [deriv]; apply derivs_nul. Qed.
Lemma dot_stops u rest : u <> [] -> stops rest (derivs u DOT).
Proof.
  intros N. destruct u as [|a [|b u]]; [congruence| |rewrite dot_long; apply stops_nul].
  cbn [derivs]. unfold DOT. cbn [deriv]. destruct (in_cls NotNl a); [apply stops_eps|apply stops_nul].
Qed.
Lemma int_blanks d g : digits d -> gap g -> derivs (d ++ g) (Cat INT BLANKS) = Star (Cls Blank).
Proof.
  intros [N D] [G B]. rewrite derivs_app. rewrite (run1 is_digit d _ (derivs (lit "1") (Cat INT BLANKS)) N D); [|dig|dig].
  apply (derivs_run1 is_blank); [blk|blk|exact G|exact B].
Qed.
Lemma int_slash d : digits d -> derivs (d ++ lit "/") (Cat INT (Cls (Chr "/"))) = Eps.
Proof.
  intros [N D]. rewrite derivs_app. now rewrite (run1 is_digit d _ (derivs (lit "1") (Cat INT (Cls (Chr "/")))) N D); [|dig|dig].
Qed.
Lemma graphs s : name_ok s -> derivs s GRAPHS = Star (Cls Graph).
Proof. intros [N G]. apply (derivs_run1 is_graph); [chr|chr|exact N|exact G]. Qed.

Definition starts_blank (t : text) : Prop := match t with c :: _ => is_blank c = true | [] => False end.
Lemma stops_blank rest : ~ starts_blank rest -> stops rest (Star (Cls Blank)).
Proof.
  destruct rest as [|c rest]; cbn; [tauto|]. intros H. destruct (is_blank c); [tauto|apply dead_nul].
Qed.
