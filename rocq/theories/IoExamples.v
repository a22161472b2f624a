(** A strtod for decimal digits, a %f that prints whole numbers, and small files. *)
From Coq Require Import ZArith Reals List Bool Arith Lia Decimal DecimalN DecimalFacts DecimalPos.
From Verif Require Import RegionModel RegionSpec RegionProofs IoModel IoSpec IoProofs IoNum IoLines IoParse IoVec IoMat IoHeap IoPrint.
Import ListNotations.
Open Scope nat_scope.

Lemma tail_after rest r eof : after_line rest r eof -> rest = tail_of eof r /\ (eof = true -> r = []).
Proof. intros [(-> & -> & ->)|(-> & ->)]; split; try reflexivity; discriminate. Qed.

Fixpoint digits (s : list Z) : Decimal.uint * nat :=
  match s with
  | [] => (Nil, 0)
  | c :: r =>
      let go f := let '(u, k) := digits r in (f u, S k) in
      match c with
      | 48%Z => go D0 | 49%Z => go D1 | 50%Z => go D2 | 51%Z => go D3 | 52%Z => go D4
      | 53%Z => go D5 | 54%Z => go D6 | 55%Z => go D7 | 56%Z => go D8 | 57%Z => go D9
      | _ => (Nil, 0)
      end
  end.
Fixpoint blank_count (s : list Z) : nat := match s with c :: r => if isblank c then S (blank_count r) else 0 | [] => 0 end.
Definition sd (s : list Z) : R * nat :=
  let '(u, k) := digits (skipblank s) in
  if k =? 0 then (0%R, 0) else (IZR (Z.of_N (N.of_uint u)), blank_count s + k).
Fixpoint word (u : Decimal.uint) : list Z :=
  match u with
  | Nil => []
  | D0 u => 48%Z :: word u | D1 u => 49%Z :: word u | D2 u => 50%Z :: word u | D3 u => 51%Z :: word u | D4 u => 52%Z :: word u
  | D5 u => 53%Z :: word u | D6 u => 54%Z :: word u | D7 u => 55%Z :: word u | D8 u => 56%Z :: word u | D9 u => 57%Z :: word u
  end.
Lemma digits_end r : word_end r -> digits r = (Nil, 0).
Proof. intros [->|[(q & ->)|(c & q & -> & [->| ->])]]; reflexivity. Qed.
Lemma digits_word u r : word_end r -> digits (word u ++ r) = (u, length (word u)).
Proof. intros H. induction u; cbn; [now apply digits_end|..]; now rewrite IHu. Qed.
Lemma blank_count_app b r : blanks b -> starts r -> blank_count (b ++ r) = length b.
Proof.
  intros Hb Hr. induction Hb as [|c b Hc Hb IH]; cbn.
  - destruct r as [|c r]; [reflexivity|]. cbn. destruct (isblank c) eqn:E; [|reflexivity].
    apply isblank_iff in E. exfalso. exact (Hr c r eq_refl E).
  - apply isblank_iff in Hc. rewrite Hc. now rewrite IH.
Qed.
Lemma word_starts u r : u <> Nil -> starts (word u ++ r).
Proof. intros H. destruct u; [congruence|..]; intros c q E; injection E as <- _; intros [K|K]; discriminate. Qed.
Lemma word_token u : u <> Nil -> token sd (word u) (IZR (Z.of_N (N.of_uint u))).
Proof.
  intros H. split.
  - destruct u; [congruence|..]; eexists _, _; (split; [reflexivity|split; [intros [K|K]; discriminate|discriminate]]).
  - intros b r Hb Hr. unfold sd. rewrite skip_blanks by exact Hb. rewrite skip_starts by now apply word_starts.
    rewrite digits_word by exact Hr. rewrite blank_count_app by (try exact Hb; now apply word_starts).
    destruct u; [congruence|..]; reflexivity.
Qed.
Lemma word_plain u : plain (word u).
Proof. split; induction u; cbn; intros H; try contradiction; destruct H as [H|H]; try discriminate; auto. Qed.
Definition whole (x : R) : Z := Z.abs (Int_part x).
Definition fmt0 (x : R) : list Z := word (N.to_uint (Z.abs_N (Int_part x))).
Lemma to_uint_nonempty n : N.to_uint n <> Nil.
Proof.
  destruct n as [|p]; [discriminate|]. cbn. apply DecimalPos.Unsigned.to_uint_nonnil.
Qed.
Lemma fmt0_ok : printable sd fmt0 (fun x => IZR (whole x)).
Proof.
  intros x. split; [|apply word_plain]. unfold fmt0.
  replace (IZR (whole x)) with (IZR (Z.of_N (N.of_uint (N.to_uint (Z.abs_N (Int_part x)))))).
  - apply word_token, to_uint_nonempty.
  - rewrite DecimalN.Unsigned.of_to. unfold whole. f_equal. apply N2Z.inj_abs_N.
Qed.
Lemma sd_nil : sd [] = (0%R, 0).
Proof. reflexivity. Qed.

(** a region of 80 bytes *)
Definition junk0 : Z -> Z := fun _ => 88%Z.
Definition s80 : rstate := mkR 4096 [mkChunk 4096 4176] (fill junk0 4096 80 junk0).
Lemma s80_reach : reach s80 [].
Proof. apply (reach_init (malloc_at 4096 junk0) 64 junk0); [apply malloc_at_contract|lia|reflexivity]. Qed.
Lemma s80_free : region_freesize s80 = 80%Z /\ region_topsize s80 = 80%Z /\ region_ptr s80 = 4096%Z.
Proof. repeat split. Qed.
(** the same with 16 bytes in use *)
Definition s64 : rstate := mkR 4112 [mkChunk 4096 4176] (rmem s80).
Lemma s64_reach : reach s64 [mkB 4096 (repeat None 16)].
Proof.
  apply (reach_step refuse s80 [] (OAlloc 16) 4096); [exact s80_reach|exact refuse_ok|cbn; unfold MAXREQ; lia|reflexivity].
Qed.
(** 12 3 and a comment *)
Definition l12 : list Z := [32; 49; 50; 32; 51; 9; 35; 120]%Z.
Lemma l12_line : number_line sd l12 [12%R; 3%R] [35; 120]%Z.
Proof.
  exists [32%Z], [49; 50; 32; 51; 9; 35; 120]%Z. split; [reflexivity|]. split; [constructor; [now left|constructor]|].
  split; [|now right].
  change [49; 50; 32; 51; 9; 35; 120]%Z with (word (D1 (D2 Nil)) ++ [32%Z] ++ [51; 9; 35; 120]%Z).
  constructor.
  - exact (word_token (D1 (D2 Nil)) ltac:(discriminate)).
  - constructor; [now left|constructor].
  - right. right. eexists _, _. split; [reflexivity|now left].
  - change [51; 9; 35; 120]%Z with (word (D3 Nil) ++ [9%Z] ++ [35; 120]%Z). constructor.
    + exact (word_token (D3 Nil) ltac:(discriminate)).
    + constructor; [now right|constructor].
    + right. right. eexists _, _. split; [reflexivity|now right].
    + constructor. left. now eexists.
Qed.
Lemma l12_plain : plain l12.
Proof. split; intros H; cbn in H; repeat destruct H as [H|H]; try discriminate; contradiction. Qed.
(** a line of text that is not a number *)
Definition lx : list Z := [49; 32; 120]%Z.
Lemma lx_bad : bad_line sd 2 lx /\ plain lx.
Proof.
  split.
  - exists [], lx, [1%R], [120%Z]. split; [reflexivity|]. split; [constructor|]. split; [|split; [cbn; lia|split; [discriminate|intros (r & H); discriminate]]].
    change lx with (word (D1 Nil) ++ [32%Z] ++ [120%Z]). constructor.
    + exact (word_token (D1 Nil) ltac:(discriminate)).
    + constructor; [now left|constructor].
    + right. right. eexists _, _. split; [reflexivity|now left].
    + constructor. right. split; [|reflexivity]. intros c r E. injection E as <- _. intros [K|K]; discriminate.
  - split; intros H; cbn in H; repeat destruct H as [H|H]; try discriminate; contradiction.
Qed.
(** a comment, a row, and the end *)
Definition file3 : list (list Z) := [[35; 99]%Z; l12; []].
Lemma file3_data : data sd 2 file3 [[12%R; 3%R]] 80 32.
Proof.
  change 32%Z with (rounded (size [35; 99]%Z + 1) + (rounded (size [] + 1) + 0))%Z.
  constructor.
  - split; intros H; cbn in H; repeat destruct H as [H|H]; try discriminate; contradiction.
  - exists [], [35; 99]%Z. repeat split; [constructor|right; now eexists].
  - cbn. lia.
  - apply d_row; [exact l12_plain| |cbn; lia|].
    + split; [reflexivity|]. exists [], [35; 120]%Z. exact l12_line.
    + constructor; [split; intros []| |cbn; lia|constructor]. exists [], []. repeat split; [constructor|now left].
Qed.
(** a run gives a result, which passes a check *)
Definition gives {A} (o : res A) (P : A -> bool) : bool := match o with Got a => P a | _ => false end.
