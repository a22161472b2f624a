(** What a window is to show, in terms of the plans and configurations it was given. *)
From Coq Require Import ZArith List Bool Reals.
From Verif Require Import ShowModel.
Import ListNotations.
Open Scope R_scope.

(** A sequence of motion plans: for each plan the graph and the points. *)
Definition plans := list (nat * list (list R)).

(** The segments of one plan: from each point to the next one, the last point to itself. *)
Fixpoint segments (l : list (list R)) : list (list R * list R) :=
  match l with
  | [] => []
  | x :: r => (x, match r with y :: _ => y | [] => x end) :: segments r
  end.
(** Every segment takes 0.8 s; the plans follow each other. *)
Definition timeline (p : plans) : list (nat * (list R * list R)) :=
  flat_map (fun e => map (fun s => (fst e, s)) (segments (snd e))) p.
Definition between (u : R) (x y : list R) : list R := map (fun ab => fst ab + u * (snd ab - fst ab)) (combine x y).

(** [t] seconds after the start the [i]-th segment is shown, at its part [u]. *)
Definition at_time (p : plans) (t : R) (g : nat) (q : list R) : Prop :=
  exists i u x y, t = (INR i + u) * (8/10) /\ 0 <= u < 1 /\ nth_error (timeline p) i = Some (g, (x, y)) /\ q = between u x y.
Definition over (p : plans) (t : R) : Prop := INR (length (timeline p)) * (8/10) <= t.

Section GRAPHS.
Variable cc : nat -> nat.

Inductive adisp := ADefault (cx : option (nat * bool)) | APlay (since : R) (p : nat) (own : bool)
  | AUser (k : nat) (d : bool) | AGone.
(** [a_seqs]: existing sequences, with true for the caller's own *)
Record ast := mkA { a_disp : adisp; a_q : option (list R); a_dx : bool;
  a_seqs : list (option (bool * plans)); a_lost : nat; a_elts : nat; a_log : list nat }.
Definition a_start : ast := mkA (ADefault None) None false [] 0 0 [].

Definition a_seq (a : ast) (p : nat) : option (bool * plans) :=
  match nth_error (a_seqs a) p with Some (Some x) => Some x | _ => None end.
Fixpoint repl {A} (l : list A) (i : nat) (x : A) : list A :=
  match l, i with [], _ => [] | _ :: r, O => x :: r | a :: r, S j => a :: repl r j x end.

(** [src] begins with the [n] points [ps] of graph [g] *)
Definition points (g n : nat) (src : list R) (ps : list (list R)) : Prop :=
  length ps = n /\ (forall x, In x ps -> length x = cc g) /\ exists r, src = concat ps ++ r.

(** giving up what is displayed *)
Definition leave (a : ast) (d : adisp) : ast :=
  mkA d (a_q a) (a_dx a)
    (match a_disp a with APlay _ p true => repl (a_seqs a) p None | _ => a_seqs a end)
    (a_lost a) (a_elts a)
    (match a_disp a with AUser k true => a_log a ++ [k] | _ => a_log a end).

Definition with_q (a : ast) (q : option (list R)) (l : nat) : ast := mkA (a_disp a) q (a_dx a) (a_seqs a) l (a_elts a) (a_log a).
Definition with_seqs (a : ast) (l : list (option (bool * plans))) (e : nat) : ast :=
  mkA (a_disp a) (a_q a) (a_dx a) l (a_lost a) e (a_log a).
Definition with_disp (a : ast) (d : adisp) : ast := mkA d (a_q a) (a_dx a) (a_seqs a) (a_lost a) (a_elts a) (a_log a).

(** The effect of a call a caller may make, and what it shows. *)
Inductive effect (a : ast) : call -> ast -> shown -> Prop :=
| e_seq_new : effect a SeqNew (with_seqs a (a_seqs a ++ [Some (true, [])]) (a_elts a)) Nothing
| e_seq_append p g n src ps l : a_seq a p = Some (true, l) -> points g n src ps ->
    effect a (SeqAppend p g n src) (with_seqs a (repl (a_seqs a) p (Some (true, l ++ [(g, ps)]))) (S (a_elts a))) Nothing
| e_seq_free p l : a_seq a p = Some (true, l) -> (forall s o, a_disp a <> APlay s p o) ->
    effect a (SeqFree p) (with_seqs a (repl (a_seqs a) p None) (a_elts a)) Nothing
| e_set_sg g sub : a_disp a <> AGone ->
    effect a (SetSg g sub)
      (with_q (leave a (ADefault (Some (g, sub)))) (Some (repeat 0 (cc g)))
         (a_lost a + match a_q a with Some _ => 1 | None => 0 end)) Nothing
| e_set_seq p l : a_disp a <> AGone -> a_seq a p = Some (true, l) ->
    effect a (SetSeq p) (leave a (APlay 0 p false)) Nothing
| e_set_plan g n src ps : a_disp a <> AGone -> points g n src ps ->
    effect a (SetPlan g n src)
      (leave (with_seqs a (a_seqs a ++ [Some (false, [(g, ps)])]) (S (a_elts a))) (APlay 0 (length (a_seqs a)) true)) Nothing
| e_set_user k d : a_disp a <> AGone -> effect a (SetUser k d) (leave a (AUser k d)) Nothing
| e_set_config v : effect a (SetConfig v) (with_q a (Some v) (a_lost a)) Nothing
| e_get_config n : effect a (GetConfig n) a (Read (match a_q a with Some v => firstn n v | None => [] end))
| e_dx b : effect a (Dx b) (mkA (a_disp a) (a_q a) b (a_seqs a) (a_lost a) (a_elts a) (a_log a)) Nothing
| e_frame_none f i t b : a_disp a = ADefault None -> effect a (Frame f i t b) a Nothing
| e_frame_user k d f i t b : a_disp a = AUser k d -> effect a (Frame f i t b) a (Custom k)
| e_frame_sg g sub v f i t b : a_disp a = ADefault (Some (g, sub)) -> a_q a = Some v -> (cc g <= length v)%nat ->
    sub = false \/ a_dx a = false ->
    effect a (Frame f i t b) a (Graph g (firstn (cc g) v))
| e_frame_first s p o i t b : a_disp a = APlay s p o ->
    effect a (Frame true i t b) (with_disp a (APlay i p o)) Nothing
| e_frame_play s p o own l g q i t b : a_disp a = APlay s p o -> a_seq a p = Some (own, l) ->
    at_time l (t - s) g q ->
    effect a (Frame false i t b) a (Graph g q)
| e_frame_again s p o own g0 x0 r0 l i t b : a_disp a = APlay s p o -> a_seq a p = Some (own, (g0, x0 :: r0) :: l) ->
    over ((g0, x0 :: r0) :: l) (t - s) ->
    effect a (Frame false i t b) (with_disp a (APlay t p o)) (Graph g0 x0)
| e_destroy : a_disp a <> AGone -> effect a Destroy (leave a AGone) Nothing.

Inductive meaning : list call -> ast -> list shown -> Prop :=
| meaning_nil : meaning [] a_start []
| meaning_snoc h a xs c a' x : meaning h a xs -> effect a c a' x -> meaning (h ++ [c]) a' (xs ++ [x]).
End GRAPHS.
