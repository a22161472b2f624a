(** Model of reading and printing text: src/io.c, on the region allocator of RegionModel.

    A file is the bytes not read yet and the end-of-file flag; read errors are not modelled.
    A string is the list of its bytes before the terminating zero.  strtod is an oracle that is
    shown the string and gives the value and how many bytes it used, zero if there is no number;
    printf's %f is an oracle from numbers to bytes.  Doubles are reals. *)
From Coq Require Import ZArith Reals List Bool Arith.
From Verif Require Import RegionModel.
Import ListNotations.
Open Scope nat_scope.

Definition bytes := list Z.
Definition NL : Z := 10.
(** isblank in the C locale; Simplification: isblank is called with a char, which is undefined for
    bytes past 127 where char is signed; here they are not blank *)
Definition isblank (c : Z) : bool := (c =? 32)%Z || (c =? 9)%Z.
(** AA_IO_ISCOMMENT: include/amino/io.h 50, of the first byte of a string *)
Definition iscomment (str : bytes) : bool := match str with c :: _ => (c =? 35)%Z | [] => false end.

(** what a call ends with: a result, a fault of the region (C01-C07), a store past the end of a heap
    array, a division by zero, a failed assertion, or no end within the fuel *)
Inductive res (A : Type) := Got (a : A) | Region (f : fault) | Overflow | DivZero | Assert | Hang.
Arguments Got {A} a. Arguments Region {A} f. Arguments Overflow {A}. Arguments DivZero {A}. Arguments Assert {A}. Arguments Hang {A}.
Definition andthen {A B} (o : res A) (f : A -> res B) : res B :=
  match o with
  | Got a => f a | Region e => Region e | Overflow => Overflow | DivZero => DivZero | Assert => Assert | Hang => Hang
  end.
Definition region {A} (o : outcome A) : res A := match o with Ok a => Got a | Fault e => Region e end.

(** p[i] = v in region memory *)
Definition poke (s : rstate) (a v : Z) : rstate :=
  mkR (rhead s) (rchunks s) (fun x => if (x =? a)%Z then v else rmem s x).

(** ** Lines *)

(** aa_io_getline: io.c 60-74, after [n] bytes of the line; [r] is the rest of the file.  The result
    is the address of the string, the rest of the file, and whether the end of the file was met.
    [ms n] is what malloc does when byte [n] is stored. *)
Fixpoint getline_from (ms : nat -> mallocF) (r : bytes) (n : nat) (s : rstate) : res (Z * bytes * bool * rstate) :=
  let finish r' eof :=
    andthen (region (region_alloc (ms n) s (Z.of_nat n + 1)%Z)) (fun ps =>
    Got (fst ps, r', eof, poke (snd ps) (fst ps + Z.of_nat n)%Z 0)) in
  match r with
  | [] => finish [] true
  | c :: r' =>
      if (c =? NL)%Z then finish r' false
      else andthen (region (region_tmprealloc (ms n) s (Z.of_nat n + 1)%Z)) (fun ps =>
           getline_from ms r' (S n) (poke (snd ps) (fst ps + Z.of_nat n)%Z c))
  end.
Definition getline (ms : nat -> mallocF) (r : bytes) (s : rstate) : res (Z * bytes * bool * rstate) := getline_from ms r 0 s.

(** the string at an address, of at most [k] bytes *)
Fixpoint cstring (mem : Z -> Z) (p : Z) (k : nat) : bytes :=
  match k with
  | O => []
  | S k' => if (mem p =? 0)%Z then [] else mem p :: cstring mem (p + 1)%Z k'
  end.
(** aa_io_skipblank: io.c 106-111 *)
Fixpoint skipblank (str : bytes) : bytes :=
  match str with c :: r => if isblank c then skipblank r else str | [] => [] end.

(** aa_read_realloc: io.c 48-57, up to the call of read: the new size of the buffer, where the bytes
    go, and how many are asked for; all in size_t *)
Definition read_realloc (off max : Z) : Z * Z * Z :=
  let n := wrap64 (max - off) in
  let max' := if (n <? 16)%Z then Z.max (wrap64 (2 * max)) 16 else max in
  (max', off, if (n <? 16)%Z then wrap64 (max' - off) else n).

Section Text.
  Variable strtod : bytes -> R * nat.
  (** the bytes a double is stored as *)
  Variable enc : R -> list Z.

  (** aa_io_d_parse: io.c 76-103, after [i] numbers; [X] is the value of *X.  Simplification: the
      string is not in the scratch space of the region. *)
  Fixpoint d_parse_from (fuel : nat) (ms : nat -> mallocF) (str : bytes) (i : nat) (X : option Z) (s : rstate)
      : res (nat * option Z * bytes * rstate) :=
    let finish :=
      andthen (region (region_alloc (ms i) s (8 * Z.of_nat i)%Z)) (fun ps =>
      if (i =? 0) || match X with Some x => (x =? fst ps)%Z | None => false end
      then Got (i, X, str, snd ps) else Assert) in
    match fuel with
    | O => Hang
    | S fuel' =>
        if iscomment str then finish else
        let (x, k) := strtod str in
        if k =? 0 then finish else
        andthen (region (region_tmprealloc (ms i) s (8 * (1 + Z.of_nat i))%Z)) (fun ps =>
        d_parse_from fuel' ms (skipblank (skipn k str)) (S i) (Some (fst ps))
          (mkR (rhead (snd ps)) (rchunks (snd ps)) (write_bytes (rmem (snd ps)) (fst ps + 8 * Z.of_nat i)%Z (enc x))))
    end.
  Definition d_parse ms str X s := d_parse_from (S (length str)) ms str 0 X s.

  (** ** Vectors: arrays are functions from indices *)
  Definition upd (X : nat -> R) (i : nat) (x : R) : nat -> R := fun j => if j =? i then x else X j.
  (** aa_io_parsevector: io.c 114-136, after [i] numbers with [n] to go; X starts at index [base].
      The pointer is never null. *)
  Fixpoint parse_from (n i : nat) (str : bytes) (base incx : nat) (X : nat -> R) : nat * bytes * (nat -> R) :=
    match n with
    | O => (i, str, X)
    | S n' =>
        if iscomment str then (i, str, X) else
        let (x, k) := strtod str in
        let X' := upd X (base + i * incx) x in
        if k =? 0 then (i, str, X') else parse_from n' (S i) (skipblank (skipn k str)) base incx X'
    end.
  Definition parsevector (str : bytes) (n base incx : nat) (X : nat -> R) : nat * bytes * (nat -> R) :=
    parse_from n 0 str base incx X.

  (** aa_io_getvector: io.c 138-150, with a region; aa_io_getline never gives null *)
  Definition getvector (ms : nat -> mallocF) (r : bytes) (s : rstate) (n base incx : nat) (X : nat -> R)
      : res (nat * (nat -> R) * bytes * bool * rstate) :=
    andthen (getline ms r s) (fun l =>
    let '(line, r', eof, s1) := l in
    let '(i, _, X') := parsevector (cstring (rmem s1) line (length r)) n base incx X in
    andthen (region (region_pop (ms 0) s1 line)) (fun s2 => Got (i, X', r', eof, s2))).

  (** aa_io_fread_matrix_fix: io.c 153-168; row [i] of [m], with malloc's answers for every row *)
  Fixpoint rows_from (ms : nat -> nat -> mallocF) (m i : nat) (r : bytes) (s : rstate) (n lda : nat) (A : nat -> R) (cnt : nat)
      : res (nat * (nat -> R) * bytes * rstate) :=
    match m with
    | O => Got (cnt, A, r, s)
    | S m' =>
        andthen (getvector (ms i) r s n i lda A) (fun v =>
        let '(k, A', r', _, s') := v in rows_from ms m' (S i) r' s' n lda A' (cnt + k))
    end.
  Definition fread_matrix_fix (ms : nat -> nat -> mallocF) (m0 m1 : mallocF) (r : bytes) (s : rstate) (m n lda : nat) (A : nat -> R)
      : res (nat * (nat -> R) * bytes * rstate) :=
    andthen (region (region_tmpalloc m0 s 1)) (fun ps =>
    andthen (rows_from ms m 0 r (snd ps) n lda A 0) (fun v =>
    let '(cnt, A', r', s1) := v in
    andthen (region (region_pop m1 s1 (fst ps))) (fun s2 => Got (cnt, A', r', s2)))).

  (** aa_io_fread_matrix_heap: io.c 170-207.  A heap array: how many elements it has, and its contents.
      Simplification: malloc and realloc succeed. *)
  Record heap := mkH { h_elts : nat; h_data : nat -> R }.
  (** the loop of lines 184-205, after [lineno] lines and [got] numbers; [eof] is feof.  It ends with
      the value to return. *)
  Fixpoint lines_from (fuel : nat) (ms : nat -> nat -> mallocF) (r : bytes) (eof : bool) (s : rstate) (n lineno got : nat) (A : heap)
      : res (Z * heap * bytes * rstate) :=
    if eof then (if n =? 0 then DivZero else Got (Z.of_nat (got / n), A, r, s)) else
    match fuel with
    | O => Hang
    | S fuel' =>
        andthen (getline (ms lineno) r s) (fun l =>
        let '(line, r', eof', s1) := l in
        let line2 := skipblank (cstring (rmem s1) line (length r)) in
        if match line2 with [] => true | _ => iscomment line2 end
        then lines_from fuel' ms r' eof' s1 n (S lineno) got A
        else
          let A1 := if h_elts A <? got + n then mkH (h_elts A * 2) (h_data A) else A in
          let '(i, _, X') := parsevector line2 n got 1 (h_data A1) in
          (* parsevector has stored numbers [got] to [got + i], the last of them if i < n *)
          if h_elts A1 <? got + (if i <? n then i + (if iscomment (snd (fst (parsevector line2 n got 1 (h_data A1)))) then 0 else 1) else n)
          then Overflow
          else if negb (i =? n) then Got ((- Z.of_nat (S lineno))%Z, mkH (h_elts A1) X', r', s1)
          else andthen (region (region_pop (ms lineno 0) s1 line)) (fun s2 =>
               lines_from fuel' ms r' eof' s2 n (S lineno) (got + i) (mkH (h_elts A1) X')))
    end.
  (** [A]: the array at *A, None for a null pointer, [junk] the contents of a new one *)
  Definition fread_matrix_heap (ms : nat -> nat -> mallocF) (r : bytes) (s : rstate) (n : nat) (A : option heap) (junk : nat -> R)
      : res (Z * heap * bytes * rstate) :=
    let A0 := match A with
              | Some h => if h_elts h =? 0 then mkH n junk else h
              | None => mkH n junk
              end in
    lines_from (S (length r)) ms r false s n 0 0 A0.

  (** ** Printing *)
  Variable fmt : R -> bytes.
  (** aa_io_d_print: io.c 210-220, on the vector that starts at index [base]; (i < n - 1) in size_t *)
  Definition d_print (n : nat) (base incx : nat) (x : nat -> R) : bytes :=
    flat_map (fun i => fmt (x (base + i * incx)) ++ (if i <? n - 1 then [9%Z] else [])) (seq 0 n) ++ [NL].
  (** aa_io_d_gemp: io.c 223-238 *)
  Definition d_gemp (by_column : bool) (m n : nat) (A : nat -> R) (lda : nat) : bytes :=
    if by_column then flat_map (fun col => d_print m (col * lda) 1 A) (seq 0 n)
    else flat_map (fun row => d_print n row lda A) (seq 0 m).
End Text.
