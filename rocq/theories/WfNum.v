(** Proofs for C87: how numbers are read. *)
From Coq Require Import String Ascii ZArith Reals Bool Arith List Lia Lra.
From Verif Require Import WfModel WfSpec WfProofs.
Import ListNotations.
Open Scope nat_scope.

Definition starts (p : ascii -> bool) (t : text) : Prop := match t with c :: _ => p c = true | [] => False end.
Lemma span_app p u v : Forall (fun c => p c = true) u -> ~ starts p v -> span p (u ++ v) = (u, v).
Proof.
  induction 1 as [|c u H _ IH]; intros S; cbn [app span].
  - destruct v as [|d v]; [reflexivity|]. cbn in *. destruct (p d); [tauto|reflexivity].
  - now rewrite H, IH.
Qed.
Lemma span_none p v : ~ starts p v -> span p v = ([], v).
Proof. apply (span_app p []). constructor. Qed.
Lemma dec_from ds : forall n, fold_left (fun n c => (n * 10 + digit_val c)%Z) ds n = (n * 10 ^ Z.of_nat (length ds) + decimal ds)%Z.
Proof.
  induction ds as [|d ds IH]; intros n; [cbn; lia|]. cbn [fold_left decimal length]. rewrite IH.
  rewrite Nat2Z.inj_succ, Z.pow_succ_r by lia. unfold digit_val. ring.
Qed.
Lemma dec_decimal ds : dec ds = decimal ds.
Proof. unfold dec. rewrite dec_from. lia. Qed.
Lemma decimal_nonneg ds : Forall (fun c => is_digit c = true) ds -> (0 <= decimal ds)%Z.
Proof.
  induction 1 as [|d ds H _ IH]; cbn; [lia|].
  unfold is_digit in H. apply andb_prop in H as [H _]. apply Nat.leb_le in H.
  assert (0 <= 10 ^ Z.of_nat (length ds))%Z by (apply Z.pow_nonneg; lia). nia.
Qed.
Lemma digit_not_space c : is_digit c = true -> is_space c = false.
Proof. all_chars c; vm_compute; congruence. Qed.
Definition clamp_long (z : Z) : Z := Z.max LONG_MIN (Z.min LONG_MAX z).

Lemma strtol_digits (b : bool) d rest : digits d -> ~ starts is_digit rest ->
  strtol (sign_text b ++ d ++ rest) = (clamp_long (if b then - decimal d else decimal d), rest).
Proof.
  intros [N D] S. unfold strtol. rewrite span_none.
  2:{ destruct b; cbn; [discriminate|]. destruct d as [|c d]; [congruence|]. inversion D; subst. cbn. now rewrite digit_not_space. }
  destruct d as [|c d]; [congruence|].
  assert (Hc : is_digit c = true) by now inversion D.
  assert (E : Ascii.eqb c "-" = false /\ Ascii.eqb c "+" = false).
  { apply digit_cases in Hc; cbn [In lit list_ascii_of_string] in Hc.
    repeat (destruct Hc as [<- | Hc]; [split; reflexivity|]). destruct Hc. }
  assert (P := span_app is_digit (c :: d) rest D S). unfold clamp_long.
  destruct b; cbn [sign_text app lit list_ascii_of_string] in *.
  - change (Ascii.eqb "-" "-") with true. cbv beta iota. rewrite P. now rewrite dec_decimal.
  - destruct E as [-> ->]. cbv beta iota. rewrite P. now rewrite dec_decimal.
Qed.
Lemma strtol_none s : ~ starts is_digit (snd (span is_space s)) -> ~ starts (fun c => Ascii.eqb c "-" || Ascii.eqb c "+") (snd (span is_space s)) ->
  fst (strtol s) = 0%Z.
Proof.
  unfold strtol. destruct (span is_space s) as [u s1]. cbn [snd]. intros H1 H2.
  destruct s1 as [|c r]; [reflexivity|]. cbn in H1, H2. apply not_true_is_false in H1, H2. apply orb_false_elim in H2 as [H2 H3].
  rewrite H2, H3. cbn [span]. now rewrite H1.
Qed.
Lemma div10_pow k : forall x, div10 k x = (x / 10 ^ k)%R.
Proof.
  induction k as [|k IH]; intros x; cbn [div10 pow]; [field|]. rewrite IH. field. apply pow_nonzero; lra.
Qed.

Definition exp_text (e : option (ascii * bool * text)) : text :=
  match e with Some (e, b, d) => e :: sign_text b ++ d | None => [] end.
Lemma exp_start n t : num_ok n -> blanks t ->
  ~ starts is_digit (exp_text (n_exp n) ++ t) /\ ~ starts (fun c => Ascii.eqb c ".") (exp_text (n_exp n) ++ t).
Proof.
  intros [_ [_ He]] B. destruct (n_exp n) as [[[e b] d]|]; cbn [exp_text app].
  - destruct He as [He _]. cbn. destruct He as [-> | [-> | ->]]; split; discriminate.
  - destruct B as [|c t Hc _]; cbn; [tauto|]. destruct (blank_cases c Hc) as [-> | ->]; split; discriminate.
Qed.
Lemma exp_zero n t : num_ok n -> blanks t -> fst (strtol (exp_text (n_exp n) ++ t)) = 0%Z.
Proof.
  intros [_ [_ He]] B. destruct (n_exp n) as [[[e b] d]|]; cbn [exp_text app].
  - destruct He as [He _]. apply strtol_none; destruct He as [-> | [-> | ->]]; cbn; discriminate.
  - assert (E : snd (span is_space t) = []).
    { induction B as [|c t Hc _ IH]; [reflexivity|]. cbn [span].
      assert (is_space c = true) by (destruct (blank_cases c Hc) as [-> | ->]; reflexivity). rewrite H.
      destruct (span is_space t); exact IH. }
    apply strtol_none; rewrite E; cbn; tauto.
Qed.

Lemma head_sign n : num_ok n -> forall u, 
  (match num_text n ++ u with c :: _ => Ascii.eqb c "-" | [] => false end) = n_neg n /\ ~ starts is_blank (num_text n ++ u).
Proof.
  intros [[N D] _] u. unfold num_text. destruct (n_neg n); cbn [sign_text]; [split; [reflexivity|discriminate]|].
  destruct (n_int n) as [|c d]; [congruence|]. assert (Hc : is_digit c = true) by now inversion D.
  cbn. rewrite digit_not_blank by exact Hc. split; [|discriminate].
  apply digit_cases in Hc; cbn [In lit list_ascii_of_string] in Hc. repeat (destruct Hc as [<- | Hc]; [reflexivity|]). destruct Hc.
Qed.
Lemma clamp_id (b : bool) z : (0 <= z <= LONG_MAX)%Z -> clamp_long (if b then - z else z) = (if b then - z else z)%Z.
Proof. unfold clamp_long, LONG_MAX, LONG_MIN. destruct b; lia. Qed.

(** any fraction: one that does not fit a long is taken as the largest long *)
Lemma parse_frac n t : num_ok n -> (decimal (n_int n) <= LONG_MAX)%Z -> blanks t -> parse_float (num_text n ++ t) =
  ((if n_neg n then -1 else 1) * (IZR (decimal (n_int n)) + IZR (Z.min LONG_MAX (decimal (frac_of n))) / 10 ^ length (frac_of n)))%R.
Proof.
  intros OK F1 B. destruct (exp_start n t OK B) as [X1 X2]. assert (X3 := exp_zero n t OK B).
  destruct (head_sign n OK t) as [HS HB]. unfold parse_float. rewrite span_none by exact HB. cbn [snd].
  rewrite HS. destruct OK as [[Ni Di] [Hf He]].
  assert (Pi := decimal_nonneg _ Di).
  set (E := exp_text (n_exp n)) in *.
  assert (T : num_text n ++ t = sign_text (n_neg n) ++ n_int n ++ (match n_frac n with Some f => lit "." ++ f | None => [] end) ++ E ++ t).
  { unfold num_text. rewrite <- !app_assoc. reflexivity. }
  rewrite T. rewrite strtol_digits; [|split; assumption|].
  2:{ destruct (n_frac n); [discriminate|exact X1]. }
  rewrite clamp_id by lia.
  unfold frac_of in *. destruct (n_frac n) as [f|]; cbn [app lit list_ascii_of_string].
  2:{ assert (Z : forall (A : Type) (x y : A), match E ++ t with c :: _ => if Ascii.eqb c "." then x else y | [] => y end = y).
      { intros. destruct (E ++ t) as [|c r]; [reflexivity|]. cbn in X2. apply not_true_is_false in X2. now rewrite X2. }
      change (Z.min LONG_MAX (decimal [])) with 0%Z. cbn [length pow]. replace (IZR 0 / 1)%R with 0%R by lra.
      destruct (E ++ t) as [|c r]; [|cbn in X2; apply not_true_is_false in X2; rewrite X2];
      (destruct (n_neg n); [rewrite opp_IZR|]; lra). }
  change (Ascii.eqb "." ".") with true. cbn [app]. cbv iota.
  destruct f as [|c f].
  - cbn [app]. destruct (strtol (E ++ t)) as [z g]. cbn [fst] in X3. subst z. change (Z.min LONG_MAX (decimal [])) with 0%Z. cbn [Z.eqb length pow].
    replace (IZR 0 / 1)%R with 0%R by lra. destruct (n_neg n); [rewrite opp_IZR|]; lra.
  - assert (Pf := decimal_nonneg _ Hf).
    change ((c :: f) ++ E ++ t) with (sign_text false ++ (c :: f) ++ E ++ t).
    rewrite strtol_digits; [|split; [discriminate|exact Hf]|exact X1]. 
    replace (clamp_long (decimal (c :: f))) with (Z.min LONG_MAX (decimal (c :: f))) by (unfold clamp_long, LONG_MAX, LONG_MIN in *; lia).
    cbn [sign_text app]. set (ff := c :: f) in *. change (c :: f ++ E ++ t) with (ff ++ E ++ t).
    rewrite (app_length ff). replace (length ff + length (E ++ t) - length (E ++ t)) with (length ff) by lia.
    destruct (Z.eqb_spec (Z.min LONG_MAX (decimal ff)) 0) as [Z0|Z0].
    + rewrite Z0. unfold Rdiv. rewrite Rmult_0_l. destruct (n_neg n); [rewrite opp_IZR|]; lra.
    + replace (length ff =? 0) with false by reflexivity. rewrite div10_pow.
      destruct (n_neg n); cbn [orb].
      * rewrite opp_IZR. lra.
      * destruct (Z.ltb_spec (decimal (n_int n)) 0); [lia|]. lra.
Qed.

Lemma parse_num n t : num_ok n -> num_fits n -> blanks t -> parse_float (num_text n ++ t) = mantissa n.
Proof. intros OK [F1 F2] B. rewrite parse_frac by assumption. now rewrite Z.min_r by exact F2. Qed.

Lemma index_ok_read d rest : index_ok d -> ~ starts is_digit rest -> face_index (d ++ rest) = index d.
Proof.
  intros [D L] S. unfold face_index, index. change (d ++ rest) with (sign_text false ++ d ++ rest).
  rewrite strtol_digits by assumption. assert (P := decimal_nonneg _ (proj2 D)). rewrite (clamp_id false) by (unfold LONG_MAX; lia).
  cbn [fst]. unfold int32. rewrite Z.mod_small by lia. lia.
Qed.
