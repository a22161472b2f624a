(** What the text reading and printing functions are expected to do, without reference to their loops. *)
From Coq Require Import ZArith Reals List Bool.
From Verif Require Import RegionModel RegionSpec.
Import ListNotations.
Open Scope nat_scope.

(** ** Files: the lines of a text, without the newlines (byte 10) between them.  A text that ends with
    a newline has an empty last line. *)
Fixpoint text_of (ls : list (list Z)) : list Z :=
  match ls with
  | [] => []
  | [l] => l
  | l :: r => l ++ 10%Z :: text_of r
  end.
(** a line of text has neither newlines nor zero bytes *)
Definition plain (l : list Z) : Prop := ~ In 10%Z l /\ ~ In 0%Z l.
Definition size (l : list Z) : Z := Z.of_nat (length l).

(** the string [l] is at address [p]: its bytes and a zero *)
Definition string_at (p : Z) (l : list Z) : sblock := mkB p (map Some (l ++ [0%Z])).
(** the region ends up as it was: nothing more is allocated, and the blocks the client holds are intact *)
Definition as_before (s s' : rstate) (k : stack) : Prop :=
  rhead s' = rhead s /\ rchunks s' = rchunks s /\ forall b, In b k -> readable (rmem s) b -> readable (rmem s') b.

(** ** Lines of numbers *)
Definition blank (c : Z) : Prop := c = 32%Z \/ c = 9%Z.
Definition blanks (b : list Z) : Prop := Forall blank b.
Definition comment (str : list Z) : Prop := exists r, str = 35%Z :: r.
(** where a word ends: the end of the line, a blank, or a comment *)
Definition word_end (r : list Z) : Prop := r = [] \/ comment r \/ exists c r', r = c :: r' /\ blank c.
Section Numbers.
  (** strtod: the value and the number of bytes used *)
  Variable strtod : list Z -> R * nat.
  (** the word [t] is read as [x]: after any blanks and before any end of a word *)
  Definition token (t : list Z) (x : R) : Prop :=
    (exists c t', t = c :: t' /\ ~ blank c /\ c <> 35%Z) /\
    forall b r, blanks b -> word_end r -> strtod (b ++ t ++ r) = (x, length b + length t).
  (** nothing to read here: the end of the line, a comment, or something that is not a number; strtod then gives zero *)
  Definition stops (r : list Z) : Prop :=
    comment r \/ ((forall c r', r = c :: r' -> ~ blank c) /\ strtod r = (0%R, 0)).
  (** the line [str] has the numbers [xs], separated by blanks, and then [tail] *)
  Inductive numbers (tail : list Z) : list Z -> list R -> Prop :=
  | n_end : stops tail -> numbers tail tail []
  | n_word t x g r xs :
      token t x -> blanks g -> word_end (g ++ r) -> numbers tail r xs -> numbers tail (t ++ g ++ r) (x :: xs).
  (** a line with blanks in front *)
  Definition number_line (l : list Z) (xs : list R) (tail : list Z) : Prop :=
    exists b str, l = b ++ str /\ blanks b /\ numbers tail str xs /\ (b = [] \/ xs <> []).

  (** a line of a matrix file: without data, or with at least [n] numbers, of which the first [n] count *)
  Definition no_data (l : list Z) : Prop := exists b r, l = b ++ r /\ blanks b /\ (r = [] \/ comment r).
  Definition row (n : nat) (l : list Z) (xs : list R) : Prop :=
    length xs = n /\ exists more tail, number_line l (xs ++ more) tail.
  (** a line that has something on it, but fewer than [n] numbers *)
  Definition bad_line (n : nat) (l : list Z) : Prop :=
    exists b str xs tail, l = b ++ str /\ blanks b /\ numbers tail str xs /\ length xs < n /\ str <> [] /\ ~ comment str.
  (** the lines [ls] have the rows [rows]; with [z] bytes free in the region every line can be read.
      Lines without data are not given back: they take up [w] bytes. *)
  Inductive data (n : nat) : list (list Z) -> list (list R) -> Z -> Z -> Prop :=
  | d_nil z : data n [] [] z 0
  | d_skip l ls rows z w :
      plain l -> no_data l -> (size l + 1 <= z)%Z -> data n ls rows (z - rounded (size l + 1)) w ->
      data n (l :: ls) rows z (rounded (size l + 1) + w)
  | d_row l ls xs rows z w :
      plain l -> row n l xs -> (size l + 1 <= z)%Z -> data n ls rows z w -> data n (l :: ls) (xs :: rows) z w.
End Numbers.

(** ** Arrays: the numbers [xs] are at [base], [base + inc], ...; nothing else than [n] such elements differs *)
Definition at_index (A : nat -> R) (base inc : nat) (xs : list R) : Prop :=
  forall i x, nth_error xs i = Some x -> A (base + i * inc) = x.
Definition elsewhere (A A' : nat -> R) (base inc n : nat) : Prop :=
  forall j, (forall i, i < n -> j <> base + i * inc) -> A' j = A j.

(** ** Printed numbers: [fmt x] is a word, which is read back as [rnd x] *)
Definition printable (strtod : list Z -> R * nat) (fmt : R -> list Z) (rnd : R -> R) : Prop :=
  forall x, token strtod (fmt x) (rnd x) /\ plain (fmt x).
(** the line of the numbers [xs]: words separated by tabs *)
Fixpoint tabbed (ws : list (list Z)) : list Z :=
  match ws with [] => [] | [w] => w | w :: r => w ++ 9%Z :: tabbed r end.
(** after a line: the end of the file, or a newline and the rest *)
Definition after_line (rest r : list Z) (eof : bool) : Prop :=
  (rest = [] /\ r = [] /\ eof = true) \/ (rest = 10%Z :: r /\ eof = false).
