(** Bit vectors, memory swap, growable vectors (include/amino/mem.h) and byte
    order conversion (include/amino/endconv.h). *)
From Coq Require Import ZArith List Bool.
From Verif Require Import RegionModel PoolModel.
Import ListNotations.
Open Scope Z_scope.

(** Two's complement int of [w] bits (int is 32 bits). *)
Definition signed (w x : Z) : Z := (x + 2 ^ (w - 1)) mod 2 ^ w - 2 ^ (w - 1).
Definition s32 (x : Z) : Z := signed 32 x.

Fixpoint set_nth {A} (l : list A) (i : nat) (v : A) : list A :=
  match l, i with
  | [], _ => []
  | _ :: r, O => v :: r
  | x :: r, S j => x :: set_nth r j v
  end.

(** mem.h 635-641: aa_bits_words; AA_BITS_BITS = 32 (sizeof int = 4) *)
Definition bits_words (n : Z) : Z :=
  let words := n / 32 in if words * 4 * 8 <? n then words + 1 else words.

(** mem.h 644-648: aa_bits_size, in octets *)
Definition bits_size (n : Z) : Z := bits_words n * 4.

(** mem.h 650-652: AA_BITS_JK *)
Definition bit_j (i : Z) : Z := i / 32.
Definition bit_k (i : Z) : Z := i - bit_j i * 32.

(** mem.h 657-664: aa_bits_get; [None] is an access outside the array *)
Definition bits_get (b : list Z) (i : Z) : option Z :=
  match nth_error b (Z.to_nat (bit_j i)) with
  | Some w => Some (Z.land (Z.shiftr w (bit_k i)) 1)
  | None => None
  end.

(** mem.h 672-677: aa_bits_getn; n is the size of the bit vector in octets *)
Definition bits_getn (b : list Z) (n i : Z) : option Z :=
  if n <? bits_size (i + 1) then Some 0 else bits_get b i.

(** mem.h 682-692: aa_bits_set.  [0x1 << 31] is taken as INT_MIN (what the
    targets produce); C leaves it undefined. *)
Definition bits_set (b : list Z) (i : Z) (val : bool) : option (list Z) :=
  match nth_error b (Z.to_nat (bit_j i)) with
  | Some w =>
      let bit := s32 (Z.shiftl 1 (bit_k i)) in
      Some (set_nth b (Z.to_nat (bit_j i))
              (if val then Z.lor w bit else Z.land w (Z.lnot bit)))
  | None => None
  end.

(** mem.h 697-728: aa_bits_and/or/xor; [op] is the word operation.  The loop
    [while( n_words ) a[n_words] op= b[n_words];] with a step budget. *)
Inductive loop_result := Done (a : list Z) | OutOfBounds | Running.
Fixpoint bits_loop (op : Z -> Z -> Z) (fuel : nat) (a b : list Z) (n_words : Z) : loop_result :=
  match fuel with
  | O => Running
  | S f =>
      if n_words =? 0 then Done a
      else match nth_error a (Z.to_nat n_words), nth_error b (Z.to_nat n_words) with
           | Some x, Some y => bits_loop op f (set_nth a (Z.to_nat n_words) (op x y)) b n_words
           | _, _ => OutOfBounds
           end
  end.
Definition bits_op (op : Z -> Z -> Z) (fuel : nat) (a b : list Z) (n_bits : Z) : loop_result :=
  bits_loop op fuel a b (bits_words n_bits).

(** mem.h 741-759: aa_memswap on byte memory; words are 8 bytes. *)
Definition swap_word (mem : Z -> Z) (pa pb : Z) : Z -> Z :=
  let tmp := read_bytes mem pa 8 in
  let mem := write_bytes mem pa (read_bytes mem pb 8) in
  write_bytes mem pb tmp.
Definition swap_byte (mem : Z -> Z) (pa pb : Z) : Z -> Z :=
  let tmp := mem pa in
  let mem := fun x => if x =? pa then mem pb else mem x in
  fun x => if x =? pb then tmp else mem x.
Fixpoint words_loop (k : nat) (i : Z) (mem : Z -> Z) (a b : Z) : Z -> Z :=
  match k with O => mem | S k' => words_loop k' (i + 1) (swap_word mem (a + 8 * i) (b + 8 * i)) a b end.
Fixpoint bytes_loop (k : nat) (i : Z) (mem : Z -> Z) (a b : Z) : Z -> Z :=
  match k with O => mem | S k' => bytes_loop k' (i + 1) (swap_byte mem (a + i) (b + i)) a b end.
Definition memswap (mem : Z -> Z) (a b size : Z) : Z -> Z :=
  let mem := words_loop (Z.to_nat (size / 8)) 0 mem a b in
  let i0 := size - size mod 8 in
  bytes_loop (Z.to_nat (size - i0)) i0 mem a b.

(** mem.h 780-785: AA_VECTOR_PUSH.  [vdata] is the allocated array ([None]:
    cell never written); realloc keeps the old cells.  [None] result: a write
    outside the allocation. *)
Record vec (A : Type) := mkV { vmax : nat; vsize : nat; vdata : list (option A) }.
Arguments mkV {A}. Arguments vmax {A}. Arguments vsize {A}. Arguments vdata {A}.

(** mem.h 793-798: the init function of AA_VECTOR_DEF *)
Definition vec_init {A} (max : nat) : vec A := mkV max 0 (repeat None max).

Definition realloc_cells {A} (l : list (option A)) (n : nat) : list (option A) :=
  firstn n l ++ repeat None (n - length l).

Definition vec_push {A} (v : vec A) (x : A) : option (vec A) :=
  let '(max, data) :=
    if (vmax v <=? vsize v)%nat
    then let m := (2 * (vsize v + 1))%nat in (m, realloc_cells (vdata v) m)
    else (vmax v, vdata v) in
  match nth_error data (vsize v) with
  | Some _ => Some (mkV max (S (vsize v)) (set_nth data (vsize v) (Some x)))
  | None => None
  end.

Fixpoint vec_pushes {A} (v : vec A) (l : list A) : option (vec A) :=
  match l with
  | [] => Some v
  | x :: r => match vec_push v x with Some v' => vec_pushes v' r | None => None end
  end.

(** * endconv.h.  The host is little endian ([__BYTE_ORDER == __LITTLE_ENDIAN]).
    A value of an [n]-byte unsigned type is an integer in [0, 2^(8n)). *)

(** endconv.h 212-220: aa_endconv_reverse: dst[i] = src[len-i-1] *)
Definition endconv_reverse (src : list Z) : list Z :=
  map (fun i => nth (length src - i - 1) src 0) (seq 0 (length src)).
(** endconv.h 224-232, 235-243 *)
Definition st_le (src : list Z) : list Z := src.
Definition st_be (src : list Z) : list Z := endconv_reverse src.

(** endconv.h 311-323: typed stores and loads; the native value of [n] bytes is
    [le_val] of its bytes. *)
Definition st_le_t (n : nat) (v : Z) : list Z := st_le (le_bytes n v).
Definition st_be_t (n : nat) (v : Z) : list Z := st_be (le_bytes n v).
Definition ld_le_t (buf : list Z) : Z := le_val (st_le buf).
Definition ld_be_t (buf : list Z) : Z := le_val (st_be buf).

(** endconv.h 254-266: aa_endconv_reverse_<suffix> for an [n]-byte type, value
    as the unsigned bit pattern. *)
Fixpoint reverse_loop (n : nat) (k i : nat) (x y : Z) : Z :=
  match k with
  | O => y
  | S k' =>
      let sh := 8 * Z.of_nat i in
      let j := 8 * Z.of_nat n - sh - 8 in
      let v := (Z.shiftl (Z.land (Z.shiftr x sh) 255) j) mod 2 ^ (8 * Z.of_nat n) in
      reverse_loop n k' (S i) x (Z.lor y v)
  end.
Definition reverse_u (n : nat) (x : Z) : Z := reverse_loop n n 0 x 0.
(** Signed types: the same bit pattern, arithmetic right shift. *)
Definition reverse_s (n : nat) (x : Z) : Z := signed (8 * Z.of_nat n) (reverse_u n x).

(** endconv.h 273-288 *)
Definition h_to_be_u := reverse_u.
Definition be_to_h_u := reverse_u.
Definition h_to_le_u (n : nat) (x : Z) := x.
Definition le_to_h_u (n : nat) (x : Z) := x.
