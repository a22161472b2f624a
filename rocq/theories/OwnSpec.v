(** Who owns which array: the caller's side of the contract, and what the
    parameters are meant to hold. *)
From Coq Require Import Reals List Arith.
From Verif Require Import OwnModel.
Import ListNotations.
Open Scope R_scope.

(** What a slot should read: nothing, values of its own, or the caller's block. *)
Inductive expect := Nothing | Own (v : list R) | Lent (p : ptr) (n : nat).

(** The caller's side: its blocks with their contents, and what each slot was given. *)
Record caller := mkC { mine : ptr -> option (list R); given : slot -> expect }.
Definition set_given (g : slot -> expect) (s : slot) (e : expect) : slot -> expect :=
  fun a => if slot_eqb a s then e else g a.
Definition lent (c : caller) (p : ptr) : Prop := exists s n, given c s = Lent p n.

(** One step of a program that keeps the rules: it only uses blocks it owns, does not free or
    give away a block it has lent to another slot, and passes arrays of at least the stated
    length. *)
Inductive step : st * caller -> st * caller -> Prop :=
| st_alloc x c v : step (x, c) (fst (malloc x v), mkC (put (mine c) (nxt x) (Some v)) (given c))
| st_free x c p y : mine c p <> None -> ~ lent c p -> free x p = Some y ->
    step (x, c) (y, mkC (put (mine c) p None) (given c))
| st_write x c p v w : mine c p = Some v -> length w = length v ->
    step (x, c) (mkS (put (heap x) p (Some w)) (nxt x) (fl x), mkC (put (mine c) p (Some w)) (given c))
| st_copy x c s n p v y : mine c p = Some v -> (n <= length v)%nat -> take x s n p COPY = Some y ->
    step (x, c) (y, mkC (mine c) (set_given (given c) s (Own (firstn n v))))
| st_steal x c s n p v y : mine c p = Some v -> (n <= length v)%nat ->
    (forall s' m, given c s' = Lent p m -> s' = s) -> take x s n p STEAL = Some y ->
    step (x, c) (y, mkC (put (mine c) p None) (set_given (given c) s (Own v)))
| st_borrow x c s n p v y : mine c p = Some v -> (n <= length v)%nat -> take x s n p BORROW = Some y ->
    step (x, c) (y, mkC (mine c) (set_given (given c) s (Lent p n)))
| st_center x c lims gain y : center_configs x lims gain = Some y ->
    step (x, c) (y, mkC (mine c) (set_given (set_given (given c) Ref (Own (map center lims))) Gain (Own (map (center_gain gain) lims)))).

(** Runs from fresh parameters; the caller's blocks are those of the heap, all below the next address. *)
Inductive reach : st * caller -> Prop :=
| r_new h n : (forall p, (n <= p)%nat -> h p = None) ->
    reach (parm_create h n, mkC h (fun _ => Nothing))
| r_step a b : reach a -> step a b -> reach b.

(** The array a slot holds, as the caller sees it. *)
Definition holds (c : caller) (s : slot) : option (list R) :=
  match given c s with Nothing => None | Own v => Some v | Lent p _ => mine c p end.
(** The array the parameters read through the slot's pointer. *)
Definition seen (x : st) (s : slot) : option (list R) :=
  match f_const (fl x s) with None => None | Some p => heap x p end.
