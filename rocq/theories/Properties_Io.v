(** C88 and C89: reading and printing text. *)
From Coq Require Import ZArith Reals List Bool Arith Lia Decimal.
From Verif Require Import RegionModel RegionSpec RegionProofs IoModel IoSpec IoProofs IoNum IoLines IoParse IoVec IoMat IoHeap IoPrint IoExamples.
Import ListNotations.
Open Scope Z_scope.

(** ** C88: lines and numbers read into a region *)

(** A line that fits into the free space with its zero: exactly the line, at the place the region would
    have given for a copy of it, and everything the client holds stays. *)
Theorem C88_line : forall ms l rest r eof s k,
  reach s k -> ~ In 10 l -> after_line rest r eof -> size l + 1 <= region_freesize s -> size l + 1 <= MAXREQ ->
  exists s', getline ms (l ++ rest) s = Got (region_ptr s, r, eof, s') /\
             rchunks s' = rchunks s /\ reach s' (string_at (region_ptr s) l :: k).
Proof.
  intros ms l rest r eof s k Hr Hn Ha. destruct (tail_after _ _ _ Ha) as [-> He]. now apply line_ok.
Qed.
Print Assumptions C88_line.
(** A longer line, when the top chunk is partly used and twice its size is enough. *)
Theorem C88_line_grown : forall ms l rest r eof s k,
  (forall n, malloc_contract (ms n)) -> reach s k -> ~ In 10 l -> after_line rest r eof ->
  0 < region_freesize s < region_topsize s -> region_freesize s < size l ->
  size l + 1 <= 2 * region_topsize s -> size l + 1 <= MAXREQ ->
  getline ms (l ++ rest) s = Region NoMem \/
  exists p s', getline ms (l ++ rest) s = Got (p, r, eof, s') /\
    readable (rmem s') (string_at p l) /\
    (forall b, In b k -> readable (rmem s') b /\ disjoint_blocks (string_at p l) b) /\
    (forall i, 0 <= i <= size l -> owns s' (p + i)).
Proof.
  intros ms l rest r eof s k Hm Hr Hn Ha. destruct (tail_after _ _ _ Ha) as [-> He]. now apply line_grown.
Qed.
Print Assumptions C88_line_grown.
(** A line that is exactly as long as the free space is lost: the string that is returned is what malloc
    left in a new chunk. *)
Theorem C88_exact_line_refuted : forall ms l rest r eof s k,
  (forall n, malloc_contract (ms n)) -> reach s k -> ~ In 10 l -> after_line rest r eof ->
  l <> [] -> size l = region_freesize s -> size l + 1 <= MAXREQ ->
  getline ms (l ++ rest) s = Region NoMem \/
  exists live z a junk s', ms (length l) live z = Some (a, junk) /\
    getline ms (l ++ rest) s = Got (a, r, eof, s') /\
    forall i, 0 <= i < size l -> rmem s' (a + i) = junk (a + i).
Proof.
  intros ms l rest r eof s k Hm Hr Hn Ha. destruct (tail_after _ _ _ Ha) as [-> He]. now apply line_lost with (k := k).
Qed.
Print Assumptions C88_exact_line_refuted.
(** A line that is longer than a chunk in which nothing is allocated: the bytes read so far are copied
    from freed memory, unless malloc gives the freed place again. *)
Theorem C88_long_line_refuted : forall ms l rest r eof s k,
  (forall n, malloc_contract (ms n)) -> reach s k -> ~ In 10 l -> after_line rest r eof ->
  region_freesize s = region_topsize s -> region_topsize s < size l -> size l + 1 <= MAXREQ ->
  (forall n live z a junk, ms n live z = Some (a, junk) -> a <> region_ptr s) ->
  getline ms (l ++ rest) s = Region NoMem \/ getline ms (l ++ rest) s = Region UseAfterFree.
Proof.
  intros ms l rest r eof s k Hm Hr Hn Ha. destruct (tail_after _ _ _ Ha) as [-> He]. now apply line_freed with (k := k).
Qed.
Print Assumptions C88_long_line_refuted.
(** When the rounded-up allocations have gone past the end of the chunk, the first byte of any line makes
    a copy of almost the whole address space. *)
Theorem C88_full_region_refuted : forall ms x l s c k,
  (forall n, malloc_contract (ms n)) -> reach s k -> hd_error (rchunks s) = Some c -> cend c < region_ptr s -> x <> 10 ->
  getline ms (x :: l) s = Region NoMem \/ getline ms (x :: l) s = Region HugeCopy.
Proof. intros ms x l s c k Hm Hr. now apply line_huge with (k := k). Qed.
Print Assumptions C88_full_region_refuted.

(** The numbers of a line, stored one after the other. *)
Theorem C88_numbers : forall strtod enc ms l xs tail X s k,
  (forall x, length (enc x) = 8%nat) -> reach s k -> number_line strtod l xs tail -> xs <> [] ->
  8 * Z.of_nat (length xs) <= region_freesize s -> 8 * Z.of_nat (length xs) <= MAXREQ ->
  exists s', d_parse strtod enc ms l X s = Got (length xs, Some (region_ptr s), tail, s') /\
    rchunks s' = rchunks s /\ reach s' (mkB (region_ptr s) (map Some (concat (map enc xs))) :: k).
Proof. intros strtod enc ms l xs tail X s k He. now apply parse_fits. Qed.
Print Assumptions C88_numbers.
Theorem C88_numbers_grown : forall strtod enc ms l xs tail X s k,
  (forall x, length (enc x) = 8%nat) -> (forall n, malloc_contract (ms n)) -> reach s k -> number_line strtod l xs tail ->
  0 < region_freesize s < region_topsize s -> region_freesize s < 8 * Z.of_nat (length xs) ->
  8 * Z.of_nat (length xs) <= 2 * region_topsize s -> 8 * Z.of_nat (length xs) <= MAXREQ ->
  d_parse strtod enc ms l X s = Region NoMem \/
  exists p s', d_parse strtod enc ms l X s = Got (length xs, Some p, tail, s') /\
    readable (rmem s') (mkB p (map Some (concat (map enc xs)))) /\
    (forall b, In b k -> readable (rmem s') b /\ disjoint_blocks (mkB p (map Some (concat (map enc xs)))) b) /\
    (forall i, 0 <= i < 8 * Z.of_nat (length xs) -> owns s' (p + i)).
Proof. intros strtod enc ms l xs tail X s k He Hm. now apply parse_grown. Qed.
Print Assumptions C88_numbers_grown.
Theorem C88_numbers_refuted : forall strtod enc ms l xs tail X s k,
  (forall x, length (enc x) = 8%nat) -> (forall n, malloc_contract (ms n)) -> reach s k -> number_line strtod l xs tail ->
  region_freesize s = region_topsize s -> region_topsize s < 8 * Z.of_nat (length xs) -> 8 * Z.of_nat (length xs) <= MAXREQ ->
  (forall n live z a junk, ms n live z = Some (a, junk) -> a <> region_ptr s) ->
  d_parse strtod enc ms l X s = Region NoMem \/ d_parse strtod enc ms l X s = Region UseAfterFree.
Proof. intros strtod enc ms l xs tail X s k He Hm Hr Hn. now apply parse_freed with (k := k) (xs := xs) (tail := tail). Qed.
Print Assumptions C88_numbers_refuted.

(** aa_read_realloc never asks for bytes past the buffer, asks for at least eight, and at most doubles it. *)
Theorem C88_read_buffer : forall off max, 0 <= off <= max -> max < 2 ^ 63 ->
  exists max' n, read_realloc off max = (max', off, n) /\ off + n = max' /\ max <= max' <= Z.max 16 (2 * max) /\ 8 <= n.
Proof.
  intros off max H M. pose proof (read_room off max H M) as K. destruct (read_realloc off max) as [[max' o] n].
  destruct K as (-> & K). now exists max', n.
Qed.
Print Assumptions C88_read_buffer.

(** a line that fits, one that grows, one that is exactly as long, and one that is too long *)
Example C88_nonvacuous :
  (reach s80 [] /\ ~ In 10 l12 /\ after_line (10 :: l12) l12 false /\ size l12 + 1 <= region_freesize s80) /\
  (reach s64 [mkB 4096 (repeat None 16)] /\ 0 < region_freesize s64 < region_topsize s64 /\
   region_freesize s64 < size (repeat 97 100) /\ size (repeat 97 100) + 1 <= 2 * region_topsize s64 /\
   gives (getline (fun _ => malloc_at 8192 junk0) (repeat 97 100 ++ [10]) s64)
     (fun v => let '(p, r, eof, s') := v in (p =? 8192) && negb eof && (rmem s' 8192 =? 97) && (rmem s' 8292 =? 0)) = true) /\
  gives (getline (fun _ => malloc_at 8192 junk0) (repeat 97 64) s64)
    (fun v => let '(p, r, eof, s') := v in (p =? 8192) && eof && (rmem s' 8192 =? 88)) = true /\
  getline (fun _ => malloc_at 8192 junk0) (repeat 97 81) s80 = Region UseAfterFree /\
  (exists c s k, reach s k /\ hd_error (rchunks s) = Some c /\ cend c < region_ptr s) /\
  number_line sd l12 [12%R; 3%R] [35; 120] /\ 8 * 2 <= region_freesize s80.
Proof.
  split; [split; [exact s80_reach|split; [apply l12_plain|split; [right; split; reflexivity|cbn; lia]]]|].
  split; [split; [exact s64_reach|split; [cbn; lia|split; [cbn; lia|split; [cbn; lia|]]]]|].
  { vm_compute. reflexivity. }
  split; [vm_compute; reflexivity|].
  split; [vm_compute; reflexivity|]. split; [|split; [exact l12_line|cbn; lia]].
  exists (mkChunk 4096 4113). eexists. exists [mkB 4096 (repeat None 17)]. split; [|split].
  - eapply (reach_step refuse _ [] (OAlloc 17) 4096); [|exact refuse_ok|cbn; unfold MAXREQ; lia|].
    + apply (reach_init (malloc_at 4096 junk0) 1 junk0); [apply malloc_at_contract|lia|reflexivity].
    + reflexivity.
  - reflexivity.
  - cbn. lia.
Qed.
Print Assumptions C88_nonvacuous.

(** ** C89: vectors and matrices *)
Open Scope nat_scope.

(** The first [n] numbers of a line, and nothing else, are stored; the end pointer is at the next word. *)
Theorem C89_vector : forall strtod l xs tail n base incx X,
  number_line strtod l xs tail -> 1 <= incx -> n <= length xs \/ comment tail ->
  exists rest X', parsevector strtod l n base incx X = (min n (length xs), rest, X') /\
    number_line strtod rest (skipn n xs) tail /\ at_index X' base incx (firstn n xs) /\
    elsewhere X X' base incx (min n (length xs)).
Proof. exact vector_ok. Qed.
Print Assumptions C89_vector.
(** When the line ends early, the element after the last number is overwritten with zero. *)
Theorem C89_short_line_refuted : forall strtod l xs tail n base incx X,
  number_line strtod l xs tail -> 1 <= incx -> length xs < n -> ~ comment tail ->
  exists rest X', parsevector strtod l n base incx X = (length xs, rest, X') /\
    at_index X' base incx (xs ++ [0%R]) /\ elsewhere X X' base incx (S (length xs)).
Proof. exact vector_short. Qed.
Print Assumptions C89_short_line_refuted.
(** aa_io_getvector reads the next line of the file, whatever is on it, and gives its memory back. *)
Theorem C89_getvector : forall strtod ms l ls s k n base incx X,
  reach s k -> plain l -> (size l + 1 <= region_freesize s)%Z ->
  exists cnt rest X' s', parsevector strtod l n base incx X = (cnt, rest, X') /\
    getvector strtod ms (text_of (l :: ls)) s n base incx X = Got (cnt, X', text_of ls, match ls with [] => true | _ => false end, s') /\
    as_before s s' k.
Proof.
  intros strtod ms l ls s k n base incx X Hr Hp Hs.
  destruct (getvector_read strtod ms l ls s (region_freesize s) n base incx X) as (s' & G & B); try assumption.
  { apply (reach_free s k); [exact Hr| |lia]. unfold size in Hs. lia. }
  destruct (parsevector strtod l n base incx X) as [[cnt rest] X']. exists cnt, rest, X', s'.
  split; [reflexivity|]. split; [exact G|now apply back_before].
Qed.
Print Assumptions C89_getvector.
(** A file with a row on every line: the matrix, and the rest of the file is left. *)
Theorem C89_matrix_fix : forall strtod ms m0 m1 lines rows extra n lda A s k,
  reach s k -> 1 <= length rows <= lda ->
  Forall2 (fun l xs => plain l /\ (size l + 1 <= region_freesize s)%Z /\ row strtod n l xs) lines rows ->
  exists A' s', fread_matrix_fix strtod ms m0 m1 (text_of (lines ++ extra)) s (length rows) n lda A =
      Got (length rows * n, A', text_of extra, s') /\
    (forall i xs j x, nth_error rows i = Some xs -> nth_error xs j = Some x -> A' (i + j * lda) = x) /\
    (forall q, (forall i j, i < length rows -> j < n -> q <> i + j * lda) -> A' q = A q) /\ as_before s s' k.
Proof.
  intros strtod ms m0 m1 lines rows extra n lda A s k Hr Hl HF.
  assert (Hz : (0 < region_freesize s)%Z).
  { destruct HF as [|l xs lines rows (_ & H & _) HF]; [cbn in Hl; lia|]. unfold size in H. lia. }
  assert (Hf : free_at s (region_freesize s)) by (apply (reach_free s k); [exact Hr|lia|lia]).
  destruct (rows_read strtod ms _ n lda ltac:(lia) lines rows HF 0 s A 0 extra Hf) as (A' & s' & E & B & V & O); [lia|].
  destruct (fix_wrap strtod ms m0 m1 _ s _ n lda A _ _ s' _ A' Hf ltac:(lia) E B) as (s2 & E2 & B2).
  exists A', s2. cbn [Nat.add] in *. split; [exact E2|]. split; [exact V|]. split; [exact O|now apply back_before].
Qed.
Print Assumptions C89_matrix_fix.
(** When the file ends early, the first element of every row that is not there is overwritten with zero,
    although the count tells that it was not read. *)
Theorem C89_matrix_fix_eof_refuted : forall strtod ms m0 m1 lines rows more n lda A s k,
  reach s k -> 1 <= n -> length rows + more <= lda -> 1 <= lda -> strtod [] = (0%R, 0) ->
  (1 <= region_freesize s)%Z ->
  Forall2 (fun l xs => plain l /\ (size l + 1 <= region_freesize s)%Z /\ row strtod n l xs) lines rows ->
  exists A' s', fread_matrix_fix strtod ms m0 m1 (text_of (lines ++ [[]])) s (length rows + more) n lda A =
      Got (length rows * n, A', [], s') /\
    (forall i xs j x, nth_error rows i = Some xs -> nth_error xs j = Some x -> A' (i + j * lda) = x) /\
    (forall i, length rows <= i < length rows + more -> A' i = 0%R).
Proof.
  intros strtod ms m0 m1 lines rows more n lda A s k Hr Hn Hl Hlda H0 Hz HF.
  assert (Hf : free_at s (region_freesize s)) by (apply (reach_free s k); [exact Hr|lia|lia]).
  destruct (rows_read strtod ms _ n lda Hlda lines rows HF 0 s A 0 [[]] Hf) as (A1 & s1 & E & B & V & O); [lia|].
  destruct (rows_eof strtod ms _ n lda H0 Hlda Hn Hz more (length rows) s1 A1 (length rows * n) (back_free _ _ _ B Hf))
    as (A2 & s2 & E2 & B2 & V2 & O2).
  pose proof (rows_app strtod ms (length rows) more 0 (text_of (lines ++ [[]])) s n lda A 0) as Eapp.
  rewrite E in Eapp. cbn [andthen text_of Nat.add] in Eapp. rewrite E2 in Eapp.
  destruct (fix_wrap strtod ms m0 m1 _ s _ n lda A _ _ s2 _ A2 Hf Hz Eapp (back_trans _ _ _ B B2)) as (s3 & E3 & B3).
  exists A2, s3. split; [exact E3|]. split.
  - intros i xs j x Hi Hj. assert (Li : i < length rows) by (apply nth_error_Some; congruence).
    rewrite O2; [exact (V i xs j x Hi Hj)|]. intros q Hq Eq. destruct j; nia.
  - intros i Hi. replace i with (length rows + (i - length rows)) by lia. apply V2. lia.
Qed.
Print Assumptions C89_matrix_fix_eof_refuted.
(** Any number of rows, with empty lines and comments between them: the rows are counted and stored one
    after the other, and the array has room for them.  The lines without data stay allocated. *)
Theorem C89_matrix_heap : forall strtod ms n ls rows w A junk s k,
  reach s k -> 1 <= n -> ls <> [] -> data strtod n ls rows (region_freesize s) w ->
  (forall h, A = Some h -> h_elts h = 0 \/ n <= 2 * h_elts h) ->
  exists A' s', fread_matrix_heap strtod ms (text_of ls) s n A junk = Got (Z.of_nat (length rows), A', [], s') /\
    length rows * n <= h_elts A' /\
    (forall i xs j x, nth_error rows i = Some xs -> nth_error xs j = Some x -> h_data A' (i * n + j) = x) /\
    region_ptr s' = (region_ptr s + w)%Z /\ rchunks s' = rchunks s /\
    (forall b, In b k -> readable (rmem s') b).
Proof. exact heap_ok. Qed.
Print Assumptions C89_matrix_heap.
(** The first line that has something on it but too few numbers: its number, negated. *)
Theorem C89_matrix_heap_bad_line : forall strtod ms n good rows w bad more A junk s k,
  reach s k -> 1 <= n -> data strtod n good rows (region_freesize s) w ->
  plain bad -> bad_line strtod n bad -> (size bad + 1 <= region_freesize s - w)%Z ->
  (forall h, A = Some h -> h_elts h = 0 \/ n <= 2 * h_elts h) ->
  exists A' s', fread_matrix_heap strtod ms (text_of (good ++ bad :: more)) s n A junk =
      Got ((- Z.of_nat (S (length good)))%Z, A', text_of more, s') /\
    (forall i xs j x, nth_error rows i = Some xs -> nth_error xs j = Some x -> h_data A' (i * n + j) = x) /\
    region_ptr s' = (region_ptr s + w + rounded (size bad + 1))%Z /\ rchunks s' = rchunks s /\
    (forall b, In b k -> readable (rmem s') b).
Proof. exact heap_bad. Qed.
Print Assumptions C89_matrix_heap_bad_line.
(** An array the caller brings is doubled only once for a row, so a short one is written past its end. *)
Theorem C89_heap_overflow_refuted : forall strtod ms n l ls xs h junk s k,
  reach s k -> plain l -> row strtod n l xs -> (size l + 1 <= region_freesize s)%Z ->
  0 < h_elts h -> 2 * h_elts h < n ->
  fread_matrix_heap strtod ms (text_of (l :: ls)) s n (Some h) junk = Overflow.
Proof. intros strtod ms n l ls xs h junk s k Hr Hp. now apply heap_small with (k := k) (xs := xs). Qed.
Print Assumptions C89_heap_overflow_refuted.
(** Reading a file that ends with a newline leaves memory allocated in the thread's region, every time:
    the empty line after the last newline is not given back. *)
Theorem C89_heap_kept_refuted : forall strtod ms n lines rows A junk s k,
  reach s k -> 1 <= n -> (1 <= region_freesize s)%Z ->
  Forall2 (fun l xs => plain l /\ (size l + 1 <= region_freesize s)%Z /\ row strtod n l xs) lines rows ->
  (forall h, A = Some h -> h_elts h = 0 \/ n <= 2 * h_elts h) ->
  exists A' s', fread_matrix_heap strtod ms (text_of (lines ++ [[]])) s n A junk = Got (Z.of_nat (length rows), A', [], s') /\
    region_ptr s' = (region_ptr s + 16)%Z.
Proof.
  intros strtod ms n lines rows A junk s k Hr Hn Hz HF HA.
  assert (HD : data strtod n (lines ++ [[]]) rows (region_freesize s) 16).
  { induction HF as [|l xs lines rows (H1 & H2 & H3) HF IH]; cbn [app].
    - change 16%Z with (rounded (size [] + 1) + 0)%Z. constructor; [split; intros []| |unfold size; cbn; lia|constructor].
      exists [], []. repeat split; [constructor|now left].
    - now constructor. }
  destruct (heap_ok strtod ms n _ rows 16 A junk s k Hr Hn (ends_nonempty _ _) HD HA) as (A' & s' & E & _ & _ & H & _).
  now exists A', s'.
Qed.
Print Assumptions C89_heap_kept_refuted.
(** No columns: the row count is a division by zero. *)
Theorem C89_no_columns_refuted : forall strtod ms ls A junk s k,
  reach s k -> ls <> [] -> Forall plain ls ->
  (fold_right (fun l acc => rounded (size l + 1) + acc) 0 ls <= region_freesize s)%Z ->
  fread_matrix_heap strtod ms (text_of ls) s 0 A junk = DivZero.
Proof. exact heap_zero. Qed.
Print Assumptions C89_no_columns_refuted.

(** What is printed: words separated by tabs, one line for a vector, and one for every row or column. *)
Theorem C89_print : forall (fmt : R -> list Z) n base incx x,
  d_print fmt n base incx x = tabbed (map (fun i => fmt (x (base + i * incx))) (seq 0 n)) ++ [10%Z].
Proof. intros fmt n base incx x. rewrite print_is. unfold elems. now rewrite map_map. Qed.
Print Assumptions C89_print.
(** A printed vector is read back, up to the rounding of the format. *)
Theorem C89_vector_back : forall strtod fmt rnd ms n base incx x base' incx' X s k,
  printable strtod fmt rnd -> strtod [] = (0%R, 0) -> reach s k -> 1 <= incx' ->
  (size (d_print fmt n base incx x) <= region_freesize s)%Z ->
  exists X' s', getvector strtod ms (d_print fmt n base incx x) s n base' incx' X = Got (n, X', [], false, s') /\
    (forall i, i < n -> X' (base' + i * incx') = rnd (x (base + i * incx))) /\
    elsewhere X X' base' incx' n /\ as_before s s' k.
Proof. intros strtod fmt rnd ms n base incx x base' incx' X s k Hp H0. now apply vector_back. Qed.
Print Assumptions C89_vector_back.
(** A matrix printed by rows is read back by aa_io_fread_matrix_fix ... *)
Theorem C89_matrix_back : forall strtod fmt rnd ms m0 m1 m n A lda lda' A0 s k,
  printable strtod fmt rnd -> strtod [] = (0%R, 0) -> reach s k -> 1 <= m -> m <= lda' ->
  (forall i, i < m -> (size (d_print fmt n i lda A) <= region_freesize s)%Z) ->
  exists A' s', fread_matrix_fix strtod ms m0 m1 (d_gemp fmt false m n A lda) s m n lda' A0 = Got (m * n, A', [], s') /\
    (forall i j, i < m -> j < n -> A' (i + j * lda') = rnd (A (i + j * lda))) /\
    (forall q, (forall i j, i < m -> j < n -> q <> i + j * lda') -> A' q = A0 q) /\ as_before s s' k.
Proof.
  intros strtod fmt rnd ms m0 m1 m n A lda lda' A0 s k Hp H0 Hr Hm Hl Hs.
  apply (matrix_fix_back strtod fmt rnd Hp H0); try assumption.
  apply Forall_forall. intros l Hin. unfold print_lines, matrix_rows in Hin. rewrite map_map in Hin. apply in_map_iff in Hin.
  destruct Hin as (i & <- & Hi). apply in_seq in Hi. specialize (Hs i ltac:(lia)). rewrite print_is in Hs.
  unfold size in *. rewrite app_length in Hs. cbn [length] in Hs. lia.
Qed.
Print Assumptions C89_matrix_back.
(** ... and one printed by columns by aa_io_fread_matrix_heap, which gives the number of columns. *)
Theorem C89_columns_back : forall strtod fmt rnd ms m n A lda junk s k,
  printable strtod fmt rnd -> strtod [] = (0%R, 0) -> reach s k -> 1 <= m -> (1 <= region_freesize s)%Z ->
  (forall j, j < n -> (size (d_print fmt m (j * lda) 1 A) <= region_freesize s)%Z) ->
  exists A' s', fread_matrix_heap strtod ms (d_gemp fmt true m n A lda) s m None junk = Got (Z.of_nat n, A', [], s') /\
    n * m <= h_elts A' /\ (forall i j, i < m -> j < n -> h_data A' (j * m + i) = rnd (A (j * lda + i))) /\
    region_ptr s' = (region_ptr s + 16)%Z /\ rchunks s' = rchunks s /\ (forall b, In b k -> readable (rmem s') b).
Proof.
  intros strtod fmt rnd ms m n A lda junk s k Hp H0 Hr Hm Hz Hs.
  apply (matrix_heap_back strtod fmt rnd Hp H0); try assumption.
  apply Forall_forall. intros l Hin. unfold print_lines, matrix_rows in Hin. rewrite map_map in Hin. apply in_map_iff in Hin.
  destruct Hin as (i & <- & Hi). apply in_seq in Hi. specialize (Hs i ltac:(lia)). rewrite print_is in Hs.
  unfold size in *. rewrite app_length in Hs. cbn [length] in Hs. lia.
Qed.
Print Assumptions C89_columns_back.

(** a strtod and a format that meet the hypotheses, a file with a comment, a row and an end, and a bad line *)
Example C89_nonvacuous :
  (printable sd fmt0 (fun x => IZR (whole x)) /\ sd [] = (0%R, 0)) /\
  (reach s80 [] /\ number_line sd l12 [12%R; 3%R] [35; 120]%Z /\ row sd 2 l12 [12%R; 3%R] /\ plain l12) /\
  (file3 <> [] /\ data sd 2 file3 [[12%R; 3%R]] (region_freesize s80) 32) /\
  (bad_line sd 2 lx /\ plain lx /\ (size lx + 1 <= region_freesize s80 - 32)%Z) /\
  (exists A' s', fread_matrix_heap sd (fun _ _ => refuse) (text_of file3) s80 2 None (fun _ => 7%R) = Got (1%Z, A', [], s') /\
     h_data A' 0 = 12%R /\ h_data A' 1 = 3%R) /\
  (exists A' s', fread_matrix_heap sd (fun _ _ => refuse) (text_of (file3 ++ [lx; l12])) s80 2 None (fun _ => 7%R) =
     Got ((-4)%Z, A', text_of [l12], s')).
Proof.
  split; [split; [exact fmt0_ok|exact sd_nil]|].
  split; [split; [exact s80_reach|split; [exact l12_line|split; [|exact l12_plain]]]|].
  { split; [reflexivity|]. exists [], [35; 120]%Z. exact l12_line. }
  split; [split; [discriminate|exact file3_data]|].
  split; [split; [apply lx_bad|split; [apply lx_bad|cbn; lia]]|]. split.
  - destruct (heap_ok sd (fun _ _ => refuse) 2 file3 [[12%R; 3%R]] 32 None (fun _ => 7%R) s80 [] s80_reach ltac:(lia) ltac:(discriminate) file3_data)
      as (A' & s' & E & _ & V & _); [discriminate|]. exists A', s'. split; [exact E|].
    split; [exact (V 0 _ 0 _ eq_refl eq_refl)|exact (V 0 _ 1 _ eq_refl eq_refl)].
  - destruct (heap_bad sd (fun _ _ => refuse) 2 file3 [[12%R; 3%R]] 32 lx [l12] None (fun _ => 7%R) s80 [] s80_reach ltac:(lia) file3_data (proj2 lx_bad) (proj1 lx_bad))
      as (A' & s' & E & _); [cbn; lia|discriminate|]. exists A', s'. exact E.
Qed.
Print Assumptions C89_nonvacuous.
