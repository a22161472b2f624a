(** Specification of collision sets, allowed collisions and motion-plan sequences. *)
From Coq Require Import ZArith String List Bool Reals.
From Verif Require Import TfModel SgModel SgSpec ClModel.
Import ListNotations.
Open Scope Z_scope.

(** Unordered pairs. *)
Definition same_pair {A} (a b c d : A) : Prop := a = c /\ b = d \/ a = d /\ b = c.
Definition valid (n : nat) (i : Z) : Prop := 0 <= i < Z.of_nat n.

(** Sets over n frames that a sequence of calls can produce. *)
Inductive made (n : nat) : clset -> Prop :=
| made_create : made n (cl_create n)
| made_set c i j x c' : made n c -> cl_set c i j x = Ok c' -> made n c'
| made_fill c d : made n c -> made n d -> made n (cl_fill c d)
| made_merge c d c' : made n c -> made n d -> cl_merge c d = Ok c' -> made n c'
| made_clear c c' : made n c -> cl_clear c = Ok c' -> made n c'.

(** The pairs of names that are allowed: the last call on a pair decides. *)
Definition pair_eq (a b c d : string) : bool :=
  String.eqb a c && String.eqb b d || String.eqb a d && String.eqb b c.
Definition allow_step (A : string -> string -> bool) (o : op) : string -> string -> bool :=
  match o with
  | OAllow a b x => fun m n => if pair_eq a b m n then x else A m n
  | _ => A
  end.
Definition allowed_of (h : list op) : string -> string -> bool := fold_left allow_step h (fun _ _ => false).
(** The call destroys the frame object of that name. *)
Definition destroys (o : op) (n : string) : Prop :=
  match o with OAdd _ _ m _ _ _ _ _ => m = n | ORm m => m = n | _ => False end.
(** No frame is removed or replaced while it is in an allowed pair. *)
Definition kept (h : list op) : Prop :=
  forall h1 o h2, h = h1 ++ o :: h2 -> forall n m, allowed_of h1 n m = true -> ~ destroys o n.

(** The calls on the scene graph among all calls. *)
Definition sg_calls (h : list cop) : list op := flat_map (fun o => match o with CSg o => [o] | CInit => [] end) h.

(** Appending plans: graph, number of variables, number of points, array. *)
Fixpoint append_all (p : mpseq) (l : list (nat * nat * nat * list R)) : res mpseq :=
  match l with
  | [] => Ok p
  | (g, m, n, src) :: r => bind (mp_append p g m n src) (fun p' => append_all p' r)
  end.
