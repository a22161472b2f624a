(** What threads with their own regions may rely on. *)
From Coq Require Import ZArith List Bool.
From Verif Require Import RegionModel RegionSpec LocModel.
Import ListNotations.
Open Scope Z_scope.

(** The blocks held by each thread *)
Definition stack_of (ks : list stack) (t : nat) : stack := nth t ks [].
Fixpoint set_stack (ks : list stack) (t : nat) (k : stack) : list stack :=
  match ks, t with
  | [], _ => []
  | _ :: r, O => k :: r
  | a :: r, S u => a :: set_stack r u k
  end.
Definition thread_effect (k : stack) (c : tcall) (ret : Z) : stack :=
  match c with
  | TInit _ | TDestroy | TExit => []
  | TOp o => spec_step k o ret
  end.
(** What a thread may call: as for a single region; nothing to pop or store to
    before it has a region. *)
Definition thread_legal (y : sys) (k : stack) (t : nat) (c : tcall) : Prop :=
  match c with
  | TInit size => 0 <= size
  | TDestroy | TExit => True
  | TOp o => match slot_of y t with
             | Some (h, cs) => legal (mkR h cs (smem y)) k o
             | None => forall s, legal s [] o
             end
  end.
(** Any interleaving of [n] threads *)
Inductive treach (n : nat) : sys -> list stack -> Prop :=
| treach_start mem : treach n (mkS mem (repeat None n)) (repeat [] n)
| treach_step y ks M t c ret y' :
    treach n y ks -> malloc_contract M -> (t < n)%nat -> thread_legal y (stack_of ks t) t c ->
    tstep M y t c = Ok (ret, y') ->
    treach n y' (set_stack ks t (thread_effect (stack_of ks t) c ret)).
(** All chunks not yet freed *)
Definition all_chunks (y : sys) : list chunk := flat_map chunks_of (slots y).
