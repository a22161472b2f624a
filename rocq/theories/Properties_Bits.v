(** Bit vectors, memory swap, byte order and growable vectors: C10-C14. *)
From Coq Require Import ZArith List.
From Verif Require Import RegionModel PoolModel BitsModel BitsProofs.
Import ListNotations.
Open Scope Z_scope.

(** C10.  In a vector with room for [n] bits, setting bit [i < n] stays inside the
    array, is seen by get, and changes no other bit. *)
Theorem C10_bits_set_get_local : forall b n i v,
  0 <= i < n -> bits_words n <= Z.of_nat (length b) ->
  exists b', bits_set b i v = Some b' /\ length b' = length b /\
    bits_get b' i = Some (Z.b2z v) /\
    (forall j, 0 <= j -> j <> i -> bits_get b' j = bits_get b j).
Proof. exact bits_set_ok. Qed.
Print Assumptions C10_bits_set_get_local.

(** C10: the advertised size holds [n] bits and wastes less than one word. *)
Theorem C10_bits_size_suffices : forall n, 0 <= n -> n <= 8 * bits_size n < n + 32.
Proof. exact bits_size_octets. Qed.
Print Assumptions C10_bits_size_suffices.

(** C10: the bounds-checked get returns 0 beyond the array and the bit otherwise. *)
Theorem C10_bits_getn_bounded : forall b n i, 0 <= i -> n = 4 * Z.of_nat (length b) ->
  bits_getn b n i = Some 0 /\ 32 * Z.of_nat (length b) <= i \/
  bits_getn b n i = bits_get b i /\ i < 32 * Z.of_nat (length b) /\ bits_get b i <> None.
Proof. exact bits_getn_ok. Qed.
Print Assumptions C10_bits_getn_bounded.

Example C10_nonvacuous :
  bits_words 40 <= Z.of_nat (length [0; -1]) /\
  bits_set [0; -1] 31 true = Some [-2147483648; -1] /\
  bits_set [0; -1] 33 false = Some [0; -3].
Proof. vm_compute. repeat split; discriminate. Qed.

(** C11, violated: for every [n > 0] the loop of and/or/xor (any word operation)
    never completes, whatever the arrays and however long it runs ... *)
Theorem C11_bits_combine_never_returns_refuted : forall op a b n, 0 < n ->
  forall fuel r, bits_op op fuel a b n <> Done r.
Proof. exact (fun op a b n H fuel => bits_op_stuck op fuel a b n H). Qed.
Print Assumptions C11_bits_combine_never_returns_refuted.

(** ... and its first access is outside an array of exactly the advertised size. *)
Theorem C11_bits_combine_out_of_bounds_refuted : forall op fuel a b n, 0 < n ->
  (0 < fuel)%nat -> Z.of_nat (length a) = bits_words n -> bits_op op fuel a b n = OutOfBounds.
Proof. exact bits_op_oob. Qed.
Print Assumptions C11_bits_combine_out_of_bounds_refuted.

Example C11_nonvacuous : bits_op Z.land 100 [7; 7] [3; 3] 40 = OutOfBounds /\
  bits_op Z.land 100 [7; 7; 7] [3; 3; 3] 40 = Running.
Proof. vm_compute. split; reflexivity. Qed.

(** C12.  aa_memswap exchanges two non-overlapping buffers and nothing else. *)
Theorem C12_memswap_exchanges : forall mem a b n, 0 <= n -> a + n <= b \/ b + n <= a ->
  (forall i, 0 <= i < n -> memswap mem a b n (a + i) = mem (b + i)) /\
  (forall i, 0 <= i < n -> memswap mem a b n (b + i) = mem (a + i)) /\
  (forall x, ~ (a <= x < a + n) -> ~ (b <= x < b + n) -> memswap mem a b n x = mem x).
Proof. exact memswap_ok. Qed.
Print Assumptions C12_memswap_exchanges.

Example C12_nonvacuous :
  map (memswap (fun x => x) 100 120 19) [99; 100; 118; 119; 120; 138; 139]
  = [99; 120; 138; 119; 100; 118; 139].
Proof. reflexivity. Qed.

(** C13.  Loading what was stored, in either byte order, for any width. *)
Theorem C13_load_store_round_trip : forall n v, 0 <= v < 256 ^ Z.of_nat n ->
  ld_le_t (st_le_t n v) = v /\ ld_be_t (st_be_t n v) = v.
Proof. exact (fun n v H => conj (ld_st_le n v H) (ld_st_be n v H)). Qed.
Print Assumptions C13_load_store_round_trip.

(** C13: storing what was loaded restores the buffer. *)
Theorem C13_store_load_round_trip : forall buf, Forall (fun b => 0 <= b < 256) buf ->
  st_le_t (length buf) (ld_le_t buf) = buf /\ st_be_t (length buf) (ld_be_t buf) = buf.
Proof. exact (fun l H => conj (st_ld_le l H) (st_ld_be l H)). Qed.
Print Assumptions C13_store_load_round_trip.

(** C13: the value-level reversal is an involution on unsigned and signed types. *)
Theorem C13_reverse_involutive : forall n, (0 < n)%nat ->
  (forall x, 0 <= x < 2 ^ (8 * Z.of_nat n) -> reverse_u n (reverse_u n x) = x) /\
  (forall x, - 2 ^ (8 * Z.of_nat n - 1) <= x < 2 ^ (8 * Z.of_nat n - 1) ->
     reverse_s n (reverse_s n x) = x).
Proof. exact (fun n H => conj (reverse_u_involutive n) (fun x => reverse_s_involutive n x H)). Qed.
Print Assumptions C13_reverse_involutive.

(** C13: the reversed value has the bytes of the argument in the opposite order. *)
Theorem C13_reverse_bytes : forall n, (0 < n)%nat ->
  (forall x, 0 <= x -> le_bytes n (reverse_u n x) = rev (le_bytes n x)) /\
  (forall x, le_bytes n (reverse_s n x mod 2 ^ (8 * Z.of_nat n))
             = rev (le_bytes n (x mod 2 ^ (8 * Z.of_nat n)))).
Proof. exact (fun n H => conj (reverse_u_bytes n) (fun x => reverse_s_bytes n x H)). Qed.
Print Assumptions C13_reverse_bytes.

(** C13: stored big endian and loaded little endian is the reversed value. *)
Theorem C13_cross_order_is_reverse : forall n v, 0 <= v < 256 ^ Z.of_nat n ->
  ld_le_t (st_be_t n v) = reverse_u n v.
Proof. exact st_be_ld_le. Qed.
Print Assumptions C13_cross_order_is_reverse.

Example C13_nonvacuous : st_be_t 4 0x01020384 = [1; 2; 3; 0x84] /\
  reverse_u 4 0x01020384 = 0x84030201 /\ reverse_s 2 0x0180 = -32767.
Proof. vm_compute. repeat split. Qed.

(** C14.  Any number of pushes: no write outside the allocation (the result is not
    [None]), and the vector holds exactly the pushed elements in order. *)
Theorem C14_vector_push_keeps_elements : forall (A : Type) max (l : list A),
  exists v, vec_pushes (vec_init max) l = Some v /\
    vsize v = length l /\ (vsize v <= vmax v)%nat /\ length (vdata v) = vmax v /\
    forall i x, nth_error l i = Some x -> nth_error (vdata v) i = Some (Some x).
Proof. exact @vec_all. Qed.
Print Assumptions C14_vector_push_keeps_elements.

Example C14_nonvacuous : vec_pushes (vec_init 0) [5; 6; 7] =
  Some (mkV 6%nat 3%nat [Some 5; Some 6; Some 7; None; None; None]).
Proof. reflexivity. Qed.
