(** Formatted strings in a region (src/mem.c 258-279) and the regions of threads
    (src/mem.c 281-355), on top of [RegionModel].

    Simplified: vsnprintf is given by the text it formats, [None] when the
    conversion fails or the text is longer than INT_MAX; nothing is written then.
    Calls of threads are atomic: each reads and writes only the region of its
    own thread, and malloc, which is shared, is thread safe.  pthread_once has
    made the key.  The struct aa_mem_region itself is kept in the slot. *)
From Coq Require Import ZArith List Bool.
From Verif Require Import RegionModel.
Import ListNotations.
Open Scope Z_scope.

(** ** aa_mem_region_vprintf *)
Definition INT_MAX : Z := 2 ^ 31 - 1.
(** conversion of size_t to int *)
Definition int32 (x : Z) : Z := (x + 2 ^ 31) mod 2 ^ 32 - 2 ^ 31.
(** vsnprintf(p, f, ...): the octets stored at p and the result *)
Definition vsn (txt : option (list Z)) (f : Z) : list Z * Z :=
  match txt with
  | None => ([], -1)
  | Some l =>
      let n := Z.of_nat (length l) in
      if INT_MAX <? n then ([], -1)
      else (if f <=? 0 then [] else firstn (Z.to_nat (f - 1)) l ++ [0], n)
  end.
(** 258-271; [None]: still looping after [fuel] rounds *)
Fixpoint vprintf (fuel : nat) (m : mallocF) (s : rstate) (txt : option (list Z)) : option (outcome (Z * rstate)) :=
  match fuel with
  | O => None
  | S k =>
      let '(w, r) := vsn txt (region_freesize s) in
      let s1 := mkR (rhead s) (rchunks s) (write_bytes (rmem s) (region_ptr s) w) in
      if int32 (region_freesize s1) <=? r then
        match region_tmpalloc m s1 (r + 1) with
        | Fault e => Some (Fault e)
        | Ok (p, s2) => if p =? 0 then Some (region_alloc m s2 (r + 1)) else vprintf k m s2 txt
        end
      else Some (region_alloc m s1 (r + 1))
  end.

(** ** Regions of threads *)
(** head and chunks of one region; the slot of a thread *)
Definition slot := option (Z * list chunk).
Record sys := mkS { smem : Z -> Z; slots : list slot }.
Definition chunks_of (x : slot) : list chunk := match x with Some (_, cs) => cs | None => [] end.
Definition slot_of (y : sys) (t : nat) : slot := nth t (slots y) None.
Fixpoint put (l : list slot) (t : nat) (x : slot) : list slot :=
  match l, t with
  | [], _ => []
  | _ :: r, O => x :: r
  | a :: r, S u => a :: put r u x
  end.
Definition others (y : sys) (t : nat) : list chunk := flat_map chunks_of (put (slots y) t None).
(** malloc called by a thread sees the chunks of all *)
Definition shared (M : mallocF) (oth : list chunk) : mallocF := fun live n => M (live ++ oth) n.

Inductive tcall :=
| TInit (size : Z)     (* aa_mem_region_local_init *)
| TDestroy             (* aa_mem_region_local_destroy *)
| TOp (o : rop)        (* a call on aa_mem_region_local_get() *)
| TExit.               (* end of the thread: local_region_destroy *)

(** 324-333: the old region is destroyed, a new one is stored *)
Definition local_init (M : mallocF) (y : sys) (t : nat) (size : Z) : outcome rstate :=
  region_init (shared M (others y t)) size (smem y).
(** 313-321 *)
Definition local_get (M : mallocF) (y : sys) (t : nat) : outcome rstate :=
  match slot_of y t with
  | Some (h, cs) => Ok (mkR h cs (smem y))
  | None => local_init M y t (4096 * 64)
  end.
Definition keep (y : sys) (t : nat) (s : rstate) : sys :=
  mkS (rmem s) (put (slots y) t (Some (rhead s, rchunks s))).
Definition tstep (M : mallocF) (y : sys) (t : nat) (c : tcall) : outcome (Z * sys) :=
  match c with
  | TInit size => bind (local_init M y t size) (fun s => Ok (0, keep y t s))
  | TDestroy | TExit => Ok (0, mkS (smem y) (put (slots y) t None))
  | TOp o =>
      bind (local_get M y t) (fun s =>
      bind (region_op (shared M (others y t)) s o) (fun '(r, s') => Ok (r, keep y t s')))
  end.
