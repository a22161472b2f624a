(** The assignment problem solver of src/la_impl.c (opt_hungarian, assign_hungarian, assign_hungarian_max2min)
    with its helpers of include/amino/la_impl.h.  The number type is a parameter: the theorems use the reals,
    and the same definitions run on the integers to exhibit concrete executions.
    Simplifications: costs are exact numbers, not doubles; the work matrix, the mask and the covers are values
    rebuilt by each step instead of being overwritten in place; the assignment vectors are not NULL; and
    the cast of an index to int never wraps. *)
From Coq Require Import List Arith ZArith Bool.
Import ListNotations.

(** an n by n work matrix with entries f i j (row i, column j), as a list of rows; element access *)
Definition tab {X} (n : nat) (f : nat -> nat -> X) : list (list X) :=
  map (fun i => map (f i) (seq 0 n)) (seq 0 n).
Definition get {X} (d : X) (M : list (list X)) (i j : nat) : X := nth j (nth i M []) d.
Definition vtab {X} (n : nat) (f : nat -> X) : list X := map f (seq 0 n).
(** the cells of an m by n matrix, column by column: for j, for i *)
Definition cells (m n : nat) : list (nat * nat) := flat_map (fun j => map (fun i => (i, j)) (seq 0 m)) (seq 0 n).
(** the same row by row: for i, for j *)
Definition rcells (m n : nat) : list (nat * nat) := flat_map (fun i => map (fun j => (i, j)) (seq 0 n)) (seq 0 m).

Inductive outcome (X : Type) : Type :=
| Done (x : X)   (* the function returned *)
| NoFuel         (* still running after the given number of passes through the do-while loop *)
| AssertFail     (* an assert() failed *)
| Overflow.      (* a write past the end of path[] *)
Arguments Done {X}. Arguments NoFuel {X}. Arguments AssertFail {X}. Arguments Overflow {X}.

(** the value of the variable [step] of opt_hungarian, with zerorc for step 5 (la_impl.c 83, 127) *)
Inductive phase := S3 | S4 | S5 (zi zj : nat) | S6.

Section Hungarian.
Context {T : Type} (zero : T) (add sub : T -> T -> T) (leb : T -> T -> bool).
Definition ltb (a b : T) : bool := negb (leb b a).

(** AA_NAME(la,minloc), include/amino/la_impl.h 307-319 *)
Definition minloc (n : nat) (x : nat -> T) : nat :=
  fst (fold_left (fun s i => if ltb (x i) (snd s) then (i, x i) else s) (seq 1 (n - 1)) (0, x 0)).

(** AA_NAME(la,mat_max), include/amino/la_impl.h 321-340 (only the maximum is used by the callers) *)
Definition mat_max (m n : nat) (x : nat -> nat -> T) : T :=
  fold_left (fun xm p => if ltb xm (x (fst p) (snd p)) then x (fst p) (snd p) else xm) (rcells m n) (x 0 0).

(** the working data of opt_hungarian, la_impl.c 75-86: reduced costs, mask (1 star, 2 prime), covers *)
Record hst := mkh { hA : list (list T); hmask : list (list nat); hrc : list bool; hcc : list bool; hph : phase }.
Definition cA (s : hst) : nat -> nat -> T := get zero (hA s).
Definition mk (s : hst) : nat -> nat -> nat := get 0 (hmask s).
Definition rcov (s : hst) (i : nat) : bool := nth i (hrc s) false.
Definition ccov (s : hst) (j : nat) : bool := nth j (hcc s) false.

(** step 1, columns, la_impl.c 87-97 *)
Definition red_cols (n : nat) (A : list (list T)) : list (list T) :=
  tab n (fun i j => sub (get zero A i j) (get zero A (minloc n (fun i' => get zero A i' j)) j)).
(** step 1, rows, la_impl.c 98-106 *)
Definition red_rows (n : nat) (A : list (list T)) : list (list T) :=
  tab n (fun i j => sub (get zero A i j) (get zero A i (minloc n (fun j' => get zero A i j')))).

Definition vset {X} (n : nat) (d : X) (v : list X) (k : nat) (x : X) : list X :=
  vtab n (fun i => if Nat.eqb i k then x else nth i v d).
Definition mset (n : nat) (M : list (list nat)) (i j x : nat) : list (list nat) :=
  tab n (fun i' j' => if Nat.eqb i' i && Nat.eqb j' j then x else get 0 M i' j').

(** a zero that no cover hides: the test of la_impl.c 112-114 and 162-164 *)
Definition open_zero (s : hst) (p : nat * nat) : bool :=
  leb (cA s (fst p) (snd p)) zero && negb (rcov s (fst p)) && negb (ccov s (snd p)).

(** step 2 for column j, la_impl.c 110-122: star the first open zero of the column *)
Definition star_col (n : nat) (s : hst) (j : nat) : hst :=
  match find (open_zero s) (map (fun i => (i, j)) (seq 0 n)) with
  | Some (i, _) => mkh (hA s) (mset n (hmask s) i j 1) (vset n false (hrc s) i true) (vset n false (hcc s) j true) (hph s)
  | None => s
  end.
(** opt_hungarian up to the do-while loop, la_impl.c 75-127 *)
Definition init (n : nat) (A : list (list T)) : hst :=
  let z := vtab n (fun _ => false) in
  let s := fold_left (star_col n) (seq 0 n) (mkh (red_rows n (red_cols n A)) (tab n (fun _ _ => 0)) z z S3) in
  mkh (hA s) (hmask s) z z S3.

(** case 3, la_impl.c 130-151: cover the starred columns, stop when all are covered *)
Definition step3 (n : nat) (s : hst) : outcome (bool * hst) :=
  if forallb (fun p => if Nat.eqb (mk s (fst p) (snd p)) 1 then leb (cA s (fst p) (snd p)) zero else true) (cells n n) then
    let cc := vtab n (fun j => ccov s j || existsb (fun i => Nat.eqb (mk s i j) 1) (seq 0 n)) in
    if n <=? length (filter (fun j => nth j cc false) (seq 0 n))
    then Done (true, mkh (hA s) (hmask s) (hrc s) cc S3)
    else Done (false, mkh (hA s) (hmask s) (hrc s) cc S4)
  else AssertFail.

(** case 4, one pass of the inner while loop, la_impl.c 152-189 *)
Definition step4 (n : nat) (s : hst) : hst :=
  match find (open_zero s) (cells n n) with
  | Some (i, j) =>
      let m := mset n (hmask s) i j 2 in
      match find (fun k => Nat.eqb (get 0 m i k) 1) (seq 0 n) with
      | Some k => mkh (hA s) m (vset n false (hrc s) i true) (vset n false (hcc s) k false) S4
      | None => mkh (hA s) m (hrc s) (hcc s) (S5 i j)
      end
  | None => mkh (hA s) (hmask s) (hrc s) (hcc s) S6
  end.

(** case 5, the search for stars in the column of the last path entry at row i, la_impl.c 202-231.
    The path is kept with its last entry first.  The loop variable of this search is the one of the loop
    around it (la_impl.c 198, 202), so the search runs over the rows once. *)
Definition path_row (n : nat) (M : list (list nat)) (path : list (nat * nat)) (i : nat) : list (nat * nat) :=
  let c := snd (hd (0, 0) path) in
  if Nat.eqb (get 0 M i c) 1 then
    let path1 := (i, c) :: path in
    match find (fun j => Nat.eqb (get 0 M i j) 2) (seq 0 n) with
    | Some j => (i, j) :: path1
    | None => path1
    end
  else path.
(** la_impl.c 236-241: a star on the path is erased, anything else on it becomes a star *)
Definition flip (n : nat) (M : list (list nat)) (p : nat * nat) : list (list nat) :=
  mset n M (fst p) (snd p) (if Nat.eqb (get 0 M (fst p) (snd p)) 1 then 0 else 1).
(** case 5, la_impl.c 190-255; path[] holds n*n entries *)
Definition step5 (n zi zj : nat) (s : hst) : outcome hst :=
  let path := fold_left (path_row n (hmask s)) (seq 0 n) [(zi, zj)] in
  if n * n <? length path then Overflow
  else
    let m := fold_left (flip n) (rev path) (hmask s) in
    let m' := tab n (fun i j => if Nat.eqb (get 0 m i j) 2 then 0 else get 0 m i j) in
    Done (mkh (hA s) m' (vtab n (fun _ => false)) (vtab n (fun _ => false)) S3).

(** case 6, la_impl.c 256-280 *)
Definition minval (n : nat) (maxc : T) (s : hst) : T :=
  fold_left (fun mv p => if negb (rcov s (fst p)) && negb (ccov s (snd p)) && ltb (cA s (fst p) (snd p)) mv
                         then cA s (fst p) (snd p) else mv) (cells n n) maxc.
Definition step6 (n : nat) (maxc : T) (s : hst) : hst :=
  let mv := minval n maxc s in
  mkh (tab n (fun i j => let a := if rcov s i then add (cA s i j) mv else cA s i j in
                         if ccov s j then a else sub a mv))
      (hmask s) (hrc s) (hcc s) S4.

(** the do-while loop, la_impl.c 127-282; a pass of the inner while of case 4 counts as one pass here *)
Fixpoint loop (fuel n : nat) (maxc : T) (s : hst) : outcome hst :=
  match fuel with
  | 0 => NoFuel
  | S f =>
      match hph s with
      | S3 => match step3 n s with
              | Done (true, s') => Done s'
              | Done (false, s') => loop f n maxc s'
              | NoFuel => NoFuel | AssertFail => AssertFail | Overflow => Overflow
              end
      | S4 => loop f n maxc (step4 n s)
      | S5 zi zj => match step5 n zi zj s with
                    | Done s' => loop f n maxc s'
                    | NoFuel => NoFuel | AssertFail => AssertFail | Overflow => Overflow
                    end
      | S6 => loop f n maxc (step6 n maxc s)
      end
  end.

Definition upd (v : nat -> Z) (k : nat) (x : Z) : nat -> Z := fun i => if Nat.eqb i k then x else v i.
(** the assignments read off the mask, la_impl.c 284-294 *)
Definition read_mask (n : nat) (M : list (list nat)) (rc : (nat -> Z) * (nat -> Z)) : (nat -> Z) * (nat -> Z) :=
  fold_left (fun v p => if Nat.eqb (get 0 M (fst p) (snd p)) 1
                        then (upd (fst v) (fst p) (Z.of_nat (snd p)), upd (snd v) (snd p) (Z.of_nat (fst p)))
                        else v) (cells n n) rc.

(** AA_NAME(la,opt_hungarian), la_impl.c 70-297, on the n by n matrix A; row and col are the caller's vectors *)
Definition opt_hungarian (fuel n : nat) (A : list (list T)) (row col : nat -> Z) : outcome ((nat -> Z) * (nat -> Z)) :=
  match loop fuel n (mat_max n n (get zero A)) (init n A) with
  | Done s => Done (read_mask n (hmask s) (row, col))
  | NoFuel => NoFuel | AssertFail => AssertFail | Overflow => Overflow
  end.

(** AA_MATREF(A,lda,i,j) *)
Definition mref (A : nat -> T) (lda i j : nat) : T := A (j * lda + i).
(** the zero padded copy, la_impl.c 322-335 *)
Definition pad (m n : nat) (A : nat -> T) (lda : nat) : list (list T) :=
  tab (Nat.max m n) (fun i j => if (i <? m) && (j <? n) then mref A lda i j else zero).
(** entries at or above k become -1, la_impl.c 343-347 and 350-354 *)
Definition fixup (len k : nat) (v : nat -> Z) : nat -> Z :=
  fun i => if (i <? len) && (Z.of_nat k <=? v i)%Z then (-1)%Z else v i.
(** AA_MEM_CPY(dst, src, len) *)
Definition memcpy (len : nat) (dst src : nat -> Z) : nat -> Z := fun i => if i <? len then src i else dst i.

(** AA_NAME(la,assign_hungarian), la_impl.c 311-359; alt is the uninitialised temporary vector *)
Definition assign_hungarian (fuel m n : nat) (A : nat -> T) (lda : nat) (row col alt : nat -> Z)
  : outcome ((nat -> Z) * (nat -> Z)) :=
  let p := Nat.max m n in
  match opt_hungarian fuel p (pad m n A lda) (if m <? n then alt else row) (if n <? m then alt else col) with
  | Done (r, c) =>
      if n <? m then Done (fixup m n r, memcpy n col c)
      else if m <? n then Done (memcpy m row r, fixup n m c)
      else Done (r, c)
  | NoFuel => NoFuel | AssertFail => AssertFail | Overflow => Overflow
  end.

(** AA_NAME(la,assign_hungarian_max2min), la_impl.c 299-309 *)
Definition max2min (m n : nat) (A : nat -> T) (lda : nat) : nat -> T :=
  let mx := mat_max m n (mref A lda) in
  fold_left (fun B p => fun a => if Nat.eqb a (snd p * lda + fst p) then sub mx (mref B lda (fst p) (snd p)) else B a)
            (cells m n) A.
End Hungarian.

Arguments hst : clear implicits.
