(** include/amino/time.h and the integer modulo of include/amino/math.h. *)
From Coq Require Import ZArith Bool.
Open Scope Z_scope.

(** math.h 128: AA_MODULO(a,b) = ((a % b) + b) % b with C's truncating [%].
    Used by aa_imodulo (131), aa_lmodulo (137), aa_imodulo64 (142). *)
Definition modulo (a b : Z) : Z := Z.rem (Z.rem a b + b) b.

(** The same on a [w]-bit signed type: [None] is signed overflow or a division
    by zero (undefined behaviour). *)
Definition fits (w x : Z) : bool := (- 2 ^ (w - 1) <=? x) && (x <? 2 ^ (w - 1)).
Definition modulo_w (w a b : Z) : option Z :=
  if b =? 0 then None
  else if negb (fits w (Z.quot a b)) then None  (* INT_MIN % -1 *)
  else if fits w (Z.rem a b + b) then Some (Z.rem (Z.rem a b + b) b) else None.

(** math.h 147: aa_iremainder *)
Definition remainder (a b : Z) : Z := Z.rem a b.

Record timespec := mkT { tv_sec : Z; tv_nsec : Z }.

Definition billion : Z := 1000000000.

(** time.h 69-74 *)
Definition tm_make (sec nsec : Z) : timespec := mkT sec nsec.
(** time.h 79-82.  Mathematical integers: 64 bit overflow of the fields is not
    modelled. *)
Definition tm_make_norm (sec nsec : Z) : timespec :=
  let nsp := modulo nsec billion in
  tm_make (sec + Z.quot (nsec - nsp) billion) nsp.
(** time.h 86-89 *)
Definition tm_add (t1 t0 : timespec) : timespec :=
  tm_make_norm (tv_sec t1 + tv_sec t0) (tv_nsec t1 + tv_nsec t0).
(** time.h 93-96 *)
Definition tm_sub (a b : timespec) : timespec :=
  tm_make_norm (tv_sec a - tv_sec b) (tv_nsec a - tv_nsec b).
(** time.h 104-106: aa_tm_future, the clock reading is a parameter *)
Definition tm_future (now reltime : timespec) : timespec := tm_add reltime now.
(** time.h 110-114 *)
Definition tm_cmp (t1 t2 : timespec) : Z :=
  if negb (tv_sec t1 =? tv_sec t2) then tv_sec t1 - tv_sec t2 else tv_nsec t1 - tv_nsec t2.
(** time.h 118-126 *)
Definition tm_min (t1 t2 : timespec) : timespec := if tm_cmp t1 t2 <? 0 then t1 else t2.
Definition tm_max (t1 t2 : timespec) : timespec := if 0 <? tm_cmp t1 t2 then t1 else t2.
(** time.h 130-132 *)
Definition tm_isafter (now abstime : timespec) : bool := 0 <? tm_cmp now abstime.
(** time.h 136-144 *)
Definition tm_usec (t : timespec) : Z := tv_sec t * 1000000 + Z.quot (tv_nsec t) 1000.
Definition tm_msec (t : timespec) : Z := tv_sec t * 1000 + Z.quot (tv_nsec t) 1000000.
