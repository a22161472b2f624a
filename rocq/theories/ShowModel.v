(** What a window shows: src/rx/sdl_win.c 210-290, 335-572, 574-835, 1029-1034.

    Calls of one thread.  Times are seconds in R (aa_tm_sub and aa_tm_timespec2sec are exact
    there).  Scene graphs are numbers; [cc g] is the number of configuration variables of
    graph [g], which must not change while it is displayed.  What is drawn for a graph and a
    configuration is C47 and C100-C103.  Numbers of points are unbounded. *)
From Coq Require Import ZArith List Bool Reals.
From Verif Require Import SgModel ClModel.
Import ListNotations.
Open Scope R_scope.

(** Undefined behaviour, a failed assertion, or a value. *)
Inductive out (A : Type) := Undef | Stop | Val (a : A).
Arguments Undef {A}. Arguments Stop {A}. Arguments Val {A} _.
Definition obind {A B} (m : out A) (k : A -> out B) : out B :=
  match m with Undef => Undef | Stop => Stop | Val a => k a end.
Definition lift {A} (r : res A) : out A := match r with Ok a => Val a | UB => Undef | _ => Stop end.

(** struct aa_rx_win 92-114 with the contexts 338-343, 574-577.  [Default None]: line 217.
    [Seq t0 p own]: mp_seq_display over sequence [p], [own]: destroyed with the context. *)
Inductive disp := Default (cx : option (nat * bool)) | Seq (t0 : R) (p : nat) (own : bool)
  | User (k : nat) (destructor : bool) | Gone.
Record win := mkW {
  w_disp : disp; w_q : option (list R); w_updated : bool;
  w_dx : bool;                          (* s_dx_enable *)
  w_seqs : list (option mpseq);         (* all sequences, the caller's and the windows' *)
  w_cxs : nat;                          (* contexts allocated and not freed *)
  w_qs : nat;                           (* configuration arrays allocated and not freed *)
  w_elts : nat;                         (* struct aa_rx_mp_seq_elt allocated and not freed *)
  w_log : list nat }.                   (* destructors called, by context *)
Definition start : win := mkW (Default None) None false false [] 0 0 0 [].

Definition set_disp w d := mkW d (w_q w) (w_updated w) (w_dx w) (w_seqs w) (w_cxs w) (w_qs w) (w_elts w) (w_log w).
Definition set_seqs w l := mkW (w_disp w) (w_q w) (w_updated w) (w_dx w) l (w_cxs w) (w_qs w) (w_elts w) (w_log w).
Definition set_q w q n := mkW (w_disp w) q (w_updated w) (w_dx w) (w_seqs w) (w_cxs w) n (w_elts w) (w_log w).
Definition set_dx w b := mkW (w_disp w) (w_q w) (w_updated w) b (w_seqs w) (w_cxs w) (w_qs w) (w_elts w) (w_log w).
Definition set_updated w := mkW (w_disp w) (w_q w) true (w_dx w) (w_seqs w) (w_cxs w) (w_qs w) (w_elts w) (w_log w).
Definition add_cx w (n : nat) := mkW (w_disp w) (w_q w) (w_updated w) (w_dx w) (w_seqs w) n (w_qs w) (w_elts w) (w_log w).
Definition add_elt w := mkW (w_disp w) (w_q w) (w_updated w) (w_dx w) (w_seqs w) (w_cxs w) (w_qs w) (S (w_elts w)) (w_log w).
Definition add_log w k := mkW (w_disp w) (w_q w) (w_updated w) (w_dx w) (w_seqs w) (w_cxs w) (w_qs w) (w_elts w) (w_log w ++ [k]).

Section GRAPHS.
Variable cc : nat -> nat.

Definition seq_at (w : win) (p : nat) : out mpseq :=
  match nth_error (w_seqs w) p with Some (Some s) => Val s | _ => Undef end.
Fixpoint put {A} (l : list A) (i : nat) (x : A) : list A :=
  match l, i with [], _ => [] | _ :: r, O => x :: r | a :: r, S j => a :: put r j x end.

(** mp_seq.cpp 77-90: one struct is allocated; the path is a copy *)
Definition seq_append (w : win) (p g n : nat) (src : list R) : out win :=
  obind (seq_at w p) (fun s =>
  obind (lift (mp_append s g (cc g) n src)) (fun s' =>
  Val (add_elt (set_seqs w (put (w_seqs w) p (Some s')))))).
(** mp_seq.cpp 68-75: the paths and the sequence are freed, the structs are not *)
Definition seq_destroy (w : win) (p : nat) : out win :=
  obind (seq_at w p) (fun _ => Val (set_seqs w (put (w_seqs w) p None))).

(** 561-572: aa_rx_win_set_display; the old context's destructor: destroy_default 345-348,
    free 785, destroy_plan_cx 788-793, or the caller's *)
Definition destroy_cx (w : win) : out win :=
  match w_disp w with
  | Default None | Gone => Val w
  | Default (Some _) => Val (add_cx w (w_cxs w - 1))
  | Seq _ p own =>
      obind (if own then seq_destroy w p else Val w) (fun w' => Val (add_cx w' (w_cxs w' - 1)))
  | User k d => Val (if d then add_log w k else w)
  end.
Definition set_display (w : win) (d : disp) : out win := obind (destroy_cx w) (fun w' => Val (set_disp w' d)).

(** 461-486: set_sg; the previous array [q] is not freed *)
Definition set_sg (w : win) (g : nat) (sub : bool) : out win :=
  let w := add_cx w (S (w_cxs w)) in
  let w := set_q w (Some (repeat 0 (cc g))) (S (w_qs w)) in
  obind (set_display w (Default (Some (g, sub)))) (fun w => Val (set_updated w)).

(** 781-786 *)
Definition set_seq (w : win) (p : nat) : out win :=
  set_display (add_cx w (S (w_cxs w))) (Seq 0 p false).
(** 795-816 *)
Definition set_plan (w : win) (g n : nat) (src : list R) : out win :=
  let p := length (w_seqs w) in
  let w := add_cx w (S (w_cxs w)) in
  let w := set_seqs w (w_seqs w ++ [Some mp_create]) in
  obind (seq_append w p g n src) (fun w => set_display w (Seq 0 p true)).

(** 503-528 *)
Definition set_config (w : win) (v : list R) : win :=
  set_q w (Some v) (match w_q w with Some _ => w_qs w | None => S (w_qs w) end).
(** 530-539 *)
Definition get_config (w : win) (n : nat) : list R := match w_q w with Some v => firstn n v | None => [] end.

(** 350-437: workspace_control.  The configuration is read for the whole graph; with
    s_dx_enable, line 396 stores the eight numbers of a dual quaternion into [Sr], which has
    seven (395). *)
Definition store (room n : nat) : out unit := if (n <=? room)%nat then Val tt else Undef.
Definition read_q (w : win) (n : nat) : out (list R) :=
  match w_q w with Some v => if (n <=? length v)%nat then Val (firstn n v) else Undef | None => if (n =? 0)%nat then Val [] else Undef end.
Definition workspace_control (w : win) (g : nat) : out unit :=
  obind (read_q w (cc g)) (fun _ => if w_dx w then store 7 8 else Val tt).

(** (size_t) x: truncation; undefined at -1 and below *)
Definition to_size (x : R) : out nat :=
  if Rlt_dec (-1) x then Val (if Rlt_dec x 0 then O else Z.to_nat (Int_part x)) else Undef.

Definition dt : R := 8 / 10.

(** la.c 413-421, aa_la_d_lerp *)
Definition lerp (u : R) (x0 x1 : list R) : list R := map (fun ab => fst ab + u * (snd ab - fst ab)) (combine x0 x1).
(** AA_MATCOL(path, m, i) for reading m numbers *)
Definition col (path : list R) (m i : nat) : out (list R) :=
  if (m * i + m <=? length path)%nat then Val (firstn m (skipn (m * i) path)) else Undef.

(** 580-634: plan_display_1; the pointers q0, q1 are equal when the indices are, or m is 0 *)
Definition plan_display_1 (t0 now : R) (g : option nat) (n : nat) (path : option (list R)) (offset : nat) : out (nat * list R) :=
  let t := now - t0 in
  obind (to_size (t / dt)) (fun i0 =>
  if (i0 <? offset)%nat then Stop else
  let i0 := (i0 - offset)%nat in
  match g with
  | None => Undef                                      (* aa_rx_sg_config_count(NULL) *)
  | Some g =>
      let m := cc g in
      let i1 := if (n =? S i0)%nat then i0 else S i0 in
      if ((i0 <? n) && (i1 <? n))%nat then
        match path with
        | None => Undef
        | Some path =>
            obind (col path m i0) (fun q0 => obind (col path m i1) (fun q1 =>
            Val (g, if ((i0 =? i1) || (m =? 0))%nat then q0
                    else lerp ((t - dt * INR offset - INR i0 * dt) / (INR i1 * dt - INR i0 * dt)) q0 q1)))
        end
      else Stop
  end).

(** 691-701: the search for the element; [left] is what the out-arguments hold *)
Fixpoint find_elt (l : list mpelt) (i0 offset : nat) (left : option nat * nat * option (list R))
  : (option nat * nat * option (list R)) * nat :=
  match l with
  | [] => (left, offset)
  | e :: r => let here := (Some (me_sg e), me_n e, Some (me_path e)) in
              if (i0 <? offset + me_n e)%nat then (here, offset) else find_elt r i0 (offset + me_n e) here
  end.

(** 662-716: mp_seq_display; returns the new plan_t0 *)
Definition mp_seq_display (s : mpseq) (t0 now : R) : out (R * (nat * list R)) :=
  let t := now - t0 in
  obind (to_size (t / dt)) (fun i0 =>
  let '((g, n, path), offset) := find_elt (ms_data s) i0 0 (None, O, None) in
  if (mp_points s <? S i0)%nat then
    obind (lift (mp_elt s 0)) (fun '(g, n, path) =>
    obind (plan_display_1 now now g n path 0) (fun r => Val (now, r)))
  else obind (plan_display_1 t0 now g n path offset) (fun r => Val (t0, r))).

Inductive shown := Nothing | Graph (g : nat) (q : list R) | Custom (k : nat) | Read (q : list R).

(** 541-557: win_display, one cycle of the display loop.  [first]: the first cycle since the
    loop began at time [init]. *)
Definition frame (w : win) (first : bool) (init now : R) (update : bool) : out (win * shown) :=
  match w_disp w with
  | Gone => Undef
  | User k _ => Val (w, Custom k)
  | Default None => Val (w, Nothing)
  | Default (Some (g, sub)) =>                          (* 439-459 *)
      obind (if sub then workspace_control w g else Val tt) (fun _ =>
      if update || w_updated w then obind (read_q w (cc g)) (fun v => Val (w, Graph g v)) else Val (w, Nothing))
  | Seq t0 p own =>
      if first then Val (set_disp w (Seq init p own), Nothing)
      else obind (seq_at w p) (fun s => obind (mp_seq_display s t0 now) (fun '(t0', (g, v)) =>
        Val (set_disp w (Seq t0' p own), Graph g v)))
  end.

Inductive call :=
| SeqNew | SeqAppend (p g n : nat) (src : list R) | SeqFree (p : nat)
| SetSg (g : nat) (sub : bool) | SetSeq (p : nat) | SetPlan (g n : nat) (src : list R) | SetUser (k : nat) (d : bool)
| SetConfig (v : list R) | GetConfig (n : nat) | Dx (b : bool)
| Frame (first : bool) (init now : R) (update : bool)
| Destroy.

Definition quiet (r : out win) : out (win * shown) := obind r (fun w => Val (w, Nothing)).
Definition step (w : win) (c : call) : out (win * shown) :=
  match c with
  | SeqNew => Val (set_seqs w (w_seqs w ++ [Some mp_create]), Nothing)
  | SeqAppend p g n src => quiet (seq_append w p g n src)
  | SeqFree p => quiet (seq_destroy w p)
  | SetSg g sub => quiet (set_sg w g sub)
  | SetSeq p => quiet (set_seq w p)
  | SetPlan g n src => quiet (set_plan w g n src)
  | SetUser k d => quiet (set_display w (User k d))
  | SetConfig v => Val (set_config w v, Nothing)
  | GetConfig n => Val (w, Read (get_config w n))
  | Dx b => Val (set_dx w b, Nothing)
  | Frame first init now update => frame w first init now update
  | Destroy => quiet (set_display w Gone)               (* 258-277; q is not freed *)
  end.
Fixpoint run (w : win) (h : list call) : out (win * list shown) :=
  match h with
  | [] => Val (w, [])
  | c :: r => obind (step w c) (fun '(w', x) => obind (run w' r) (fun '(w'', xs) => Val (w'', x :: xs)))
  end.
End GRAPHS.
