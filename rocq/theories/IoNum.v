(** Words and numbers of a line. *)
From Coq Require Import ZArith Reals List Bool Arith Lia.
From Verif Require Import RegionModel RegionSpec RegionProofs IoModel IoSpec IoProofs.
Import ListNotations.
Open Scope nat_scope.

Lemma isblank_iff c : isblank c = true <-> blank c.
Proof. unfold isblank, blank. rewrite orb_true_iff, !Z.eqb_eq. tauto. Qed.
Lemma isblank_false c : isblank c = false <-> ~ blank c.
Proof. rewrite <- isblank_iff. destruct (isblank c); intuition congruence. Qed.
Lemma comment_iff str : iscomment str = true <-> comment str.
Proof.
  destruct str as [|c r]; cbn; split; try discriminate.
  - intros (r & H). discriminate.
  - intros H. apply Z.eqb_eq in H. subst. now exists r.
  - intros (r' & H). injection H as -> _. reflexivity.
Qed.
Definition starts (r : list Z) : Prop := forall c r', r = c :: r' -> ~ blank c.
Lemma skip_starts r : starts r -> skipblank r = r.
Proof.
  intros H. destruct r as [|c r]; [reflexivity|]. cbn. destruct (isblank c) eqn:E; [|reflexivity].
  apply isblank_iff in E. exfalso. exact (H c r eq_refl E).
Qed.
Lemma skip_blanks g r : blanks g -> skipblank (g ++ r) = skipblank r.
Proof.
  induction 1 as [|c g Hc Hg IH]; [reflexivity|]. cbn. apply isblank_iff in Hc. now rewrite Hc.
Qed.
Lemma comment_starts r : comment r -> starts r.
Proof. intros (q & ->) c r' E. injection E as <- _. intros [H|H]; discriminate. Qed.

Section Numbers.
  Variable strtod : list Z -> R * nat.
  Lemma stops_starts r : stops strtod r -> starts r.
  Proof. intros [H|[H _]]; [now apply comment_starts|exact H]. Qed.
  Lemma token_starts t x r : token strtod t x -> starts (t ++ r).
  Proof. intros [(c & t' & -> & Hb & _) _] c' r' E. injection E as <- _. exact Hb. Qed.
  Lemma numbers_starts tail str xs : numbers strtod tail str xs -> starts str.
  Proof. destruct 1 as [Hs|t x g r xs Ht]; [now apply stops_starts|]. now apply (token_starts t x). Qed.

  (** one word of a line *)
  Lemma word_step b t x g r tail xs :
    blanks b -> token strtod t x -> blanks g -> word_end (g ++ r) -> numbers strtod tail r xs ->
    let str := b ++ t ++ g ++ r in
    iscomment str = false /\ exists k, strtod str = (x, k) /\ k <> 0 /\ skipblank (skipn k str) = r.
  Proof.
    intros Hb Ht Hg He Hn str. destruct Ht as [(c & t' & Et & Hc & Hh) Hs].
    split.
    - unfold str. rewrite Et. destruct Hb as [|d b Hd Hb]; cbn.
      + now apply Z.eqb_neq.
      + destruct Hd as [->| ->]; reflexivity.
    - exists (length b + length t). split; [apply Hs; assumption|]. split; [rewrite Et; cbn; lia|].
      unfold str. rewrite app_assoc, <- app_length, skipn_app, skipn_all, Nat.sub_diag. cbn [app skipn].
      rewrite skip_blanks by exact Hg. apply skip_starts. eapply numbers_starts. eassumption.
  Qed.
  (** the end of the numbers *)
  Lemma stop_step r : stops strtod r -> iscomment r = true \/ (iscomment r = false /\ strtod r = (0%R, 0)).
  Proof.
    intros [H|[_ H]]; [left; now apply comment_iff|]. destruct (iscomment r); auto.
  Qed.

  (** ** aa_io_d_parse as cells of eight bytes *)
  Variable enc : R -> list Z.
  Definition parsed (ms : nat -> mallocF) (i : nat) (tail : list Z) (XS : option Z * rstate) : res (nat * option Z * bytes * rstate) :=
    andthen (region (region_alloc (ms i) (snd XS) (8 * Z.of_nat i)%Z)) (fun ps =>
      if (i =? 0) || match fst XS with Some x => (x =? fst ps)%Z | None => false end
      then Got (i, fst XS, tail, snd ps) else Assert).
  Lemma d_parse_cells ms tail str xs : numbers strtod tail str xs ->
    forall fuel b i X s, length str < fuel -> blanks b -> b = [] \/ xs <> [] ->
    d_parse_from strtod enc fuel ms (b ++ str) i X s =
    andthen (region (cells ms 8 (map enc xs) i X s)) (parsed ms (i + length xs) tail).
  Proof.
    induction 1 as [Hs|t x g r xs Ht Hg He Hn IH]; intros fuel b i X s Hf Hb Hx.
    - destruct Hx as [->|Hx]; [|now destruct Hx]. cbn [app map cells length]. rewrite Nat.add_0_r.
      destruct fuel as [|fuel]; [lia|]. cbn [d_parse_from region andthen]. unfold parsed. cbn [fst snd].
      destruct (stop_step tail Hs) as [C|[C E]]; rewrite C; [reflexivity|]. rewrite E. reflexivity.
    - destruct fuel as [|fuel]; [lia|]. cbn [d_parse_from map cells].
      destruct (word_step b t x g r tail xs Hb Ht Hg He Hn) as (C & k & E & K & Sk).
      rewrite C, E. destruct (Nat.eqb_spec k 0); [contradiction|].
      replace (8 * (1 + Z.of_nat i))%Z with (8 * (Z.of_nat i + 1))%Z by lia.
      destruct (region_tmprealloc (ms i) s (8 * (Z.of_nat i + 1))%Z) as [[p s1]|f]; [|reflexivity].
      cbn [region bind andthen fst snd]. rewrite Sk.
      rewrite (IH fuel [] (S i)).
      + cbn [length]. now replace (S i + length xs) with (i + S (length xs)) by lia.
      + destruct Ht as [(c & t' & -> & _) _]. rewrite !app_length in Hf. cbn [length] in Hf. lia.
      + constructor.
      + now left.
  Qed.
End Numbers.
