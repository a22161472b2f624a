(** Linear and quadratic programs: src/opt/opt_internal.h, opt.c, opt_glpk.c, opt_clp.cpp, opt_lpsolve.c and
    opt_cgal.cpp.  A double is an ideal real, an infinity or a NaN.  The solver libraries (GLPK, CLP, lp_solve,
    CGAL) are not part of the repository: a problem object of each is the record that its documentation
    describes, and the functions of the library that the code calls change that record.  Sizes are naturals:
    the casts from size_t to int are taken to be exact. *)
From Coq Require Import ZArith Arith List Bool Reals.
From Verif Require Import MatModel.
Import ListNotations.
Open Scope R_scope.

Inductive xr := Fin (r : R) | PInf | NInf | NaN.
(** the largest double *)
Definition DBL_MAX : R := IZR ((2 ^ 53 - 1) * 2 ^ 971)%Z.
Definition ltb (x y : R) : bool := if Rlt_dec x y then true else false.
Definition leb (x y : R) : bool := if Rle_dec x y then true else false.

(** aa_feq(l,u,0), include/amino/math.h 114-116, as called by aa_opt_is_eq: opt_internal.h 43-47.  The
    difference with an infinity is an infinity or a NaN, which is not at most 0. *)
Definition is_eq (l u : xr) : bool := match l, u with Fin a, Fin b => leb (Rabs (a - b)) 0 | _, _ => false end.
(** aa_opt_is_lbound, aa_opt_is_ubound: opt_internal.h 75-85 *)
Definition is_lbound (l : xr) : bool := match l with Fin a => ltb (- DBL_MAX) a | _ => false end.
Definition is_ubound (u : xr) : bool := match u with Fin a => ltb a DBL_MAX | _ => false end.
(** aa_opt_is_leq, _geq, _bound, _free: opt_internal.h 87-105 *)
Definition is_leq (lb ub : bool) := negb lb && ub.
Definition is_geq (lb ub : bool) := lb && negb ub.
Definition is_bound (lb ub : bool) := lb && ub.
Definition is_free (lb ub : bool) := negb lb && negb ub.

(** What a call gives: a value, or the end of the process (a failed assert, or GLPK's xerror) *)
Inductive out (A : Type) := Ret (a : A) | Abort.
Arguments Ret {A}. Arguments Abort {A}.
Definition bind {A B} (o : out A) (f : A -> out B) : out B := match o with Ret a => f a | Abort => Abort end.
(** for( j = 0; j < n; j ++ ) *)
Definition loop {A} (n : nat) (f : nat -> A -> out A) (a : A) : out A := fold_left (fun o j => bind o (f j)) (seq 0 n) (Ret a).
Definition upd {A} (f : nat -> A) (i : nat) (x : A) : nat -> A := fun j => if Nat.eqb j i then x else f j.
Definition upd2 {A} (f : nat -> nat -> A) (i j : nat) (x : A) : nat -> nat -> A := fun a b => if Nat.eqb a i && Nat.eqb b j then x else f a b.
(** the element at index [r] of a sparse vector of [len] elements, given as parallel arrays read from [k0] on *)
Definition sparse (k0 len : nat) (ind : nat -> nat) (val : nat -> R) (r : nat) : R :=
  match find (fun k => Nat.eqb (ind k) r) (seq k0 len) with Some k => val k | None => 0 end.
Fixpoint nodupb (l : list nat) : bool := match l with [] => true | x :: r => negb (existsb (Nat.eqb x) r) && nodupb r end.
Definition indices_ok (k0 len : nat) (ind : nat -> nat) (lo hi : nat) : bool :=
  let l := map ind (seq k0 len) in
  forallb (fun i => Nat.leb lo i && Nat.leb i hi) l && nodupb l.

(** aa_opt_direction, aa_opt_type: include/amino/opt/opt.h 73-86 *)
Inductive kind := CONTINUOUS | BINARY | INTEGER.

(** * GLPK: opt_glpk.c *)
Inductive gtype := GLP_FR | GLP_LO | GLP_UP | GLP_DB | GLP_FX.
(** a problem object; rows and columns are counted from 1 *)
Record glp := mkGlp { g_max : bool; g_nr : nat; g_nc : nat; g_row : nat -> gtype * xr * xr; g_col : nat -> gtype * xr * xr;
  g_obj : nat -> R; g_mat : nat -> nat -> R; g_int : nat -> bool }.
Definition range1 (n i : nat) : bool := Nat.leb 1 i && Nat.leb i n.
Definition glp_create_prob : glp := mkGlp false 0 0 (fun _ => (GLP_FR, Fin 0, Fin 0)) (fun _ => (GLP_FX, Fin 0, Fin 0)) (fun _ => 0) (fun _ _ => 0) (fun _ => false).
Definition glp_set_obj_dir (p : glp) (mx : bool) : glp := mkGlp mx (g_nr p) (g_nc p) (g_row p) (g_col p) (g_obj p) (g_mat p) (g_int p).
Definition glp_add_rows (p : glp) (m : nat) : glp := mkGlp (g_max p) (g_nr p + m) (g_nc p) (g_row p) (g_col p) (g_obj p) (g_mat p) (g_int p).
Definition glp_add_cols (p : glp) (n : nat) : glp := mkGlp (g_max p) (g_nr p) (g_nc p + n) (g_row p) (g_col p) (g_obj p) (g_mat p) (g_int p).
Definition glp_set_row_bnds (p : glp) (i : nat) (t : gtype) (l u : xr) : out glp :=
  if range1 (g_nr p) i then Ret (mkGlp (g_max p) (g_nr p) (g_nc p) (upd (g_row p) i (t, l, u)) (g_col p) (g_obj p) (g_mat p) (g_int p)) else Abort.
Definition glp_set_col_bnds (p : glp) (j : nat) (t : gtype) (l u : xr) : out glp :=
  if range1 (g_nc p) j then Ret (mkGlp (g_max p) (g_nr p) (g_nc p) (g_row p) (upd (g_col p) j (t, l, u)) (g_obj p) (g_mat p) (g_int p)) else Abort.
Definition glp_set_obj_coef (p : glp) (j : nat) (c : R) : out glp :=
  if range1 (g_nc p) j then Ret (mkGlp (g_max p) (g_nr p) (g_nc p) (g_row p) (g_col p) (upd (g_obj p) j c) (g_mat p) (g_int p)) else Abort.
(** the arrays are read at 1 .. len *)
Definition glp_set_mat_col (p : glp) (j len : nat) (ind : nat -> nat) (val : nat -> R) : out glp :=
  if range1 (g_nc p) j && indices_ok 1 len ind 1 (g_nr p) then
    Ret (mkGlp (g_max p) (g_nr p) (g_nc p) (g_row p) (g_col p) (g_obj p) (fun a b => if Nat.eqb b j then sparse 1 len ind val a else g_mat p a b) (g_int p))
  else Abort.
Definition glp_set_mat_row (p : glp) (i len : nat) (ind : nat -> nat) (val : nat -> R) : out glp :=
  if range1 (g_nr p) i && indices_ok 1 len ind 1 (g_nc p) then
    Ret (mkGlp (g_max p) (g_nr p) (g_nc p) (g_row p) (g_col p) (g_obj p) (fun a b => if Nat.eqb a i then sparse 1 len ind val b else g_mat p a b) (g_int p))
  else Abort.
(** a binary column is an integer column between 0 and 1 *)
Definition glp_set_col_kind (p : glp) (j : nat) (k : kind) : out glp :=
  if range1 (g_nc p) j then
    Ret (mkGlp (g_max p) (g_nr p) (g_nc p) (g_row p)
           (match k with BINARY => upd (g_col p) j (GLP_DB, Fin 0, Fin 1) | _ => g_col p end)
           (g_obj p) (g_mat p) (upd (g_int p) j (match k with CONTINUOUS => false | _ => true end)))
  else Abort.

(** bounds_type: opt_glpk.c 155-177.  Its asserts hold on each branch. *)
Definition bounds_type (l u : xr) : gtype :=
  if is_eq l u then GLP_FX else
  let lb := is_lbound l in let ub := is_ubound u in
  if is_leq lb ub then GLP_UP else if is_geq lb ub then GLP_LO else if is_bound lb ub then GLP_DB else GLP_FR.
(** s_set_direction: opt_glpk.c 104-117 *)
Definition glpk_set_direction (p : glp) (mx : bool) : out glp := Ret (glp_set_obj_dir p mx).
(** s_set_obj: opt_glpk.c 182-191 *)
Definition glpk_set_obj (p : glp) (n : nat) (c : nat -> R) : out glp := loop n (fun j p => glp_set_obj_coef p (j + 1) (c j)) p.
(** s_set_bnd: opt_glpk.c 193-205 *)
Definition glpk_set_bnd (p : glp) (n : nat) (xl xu : nat -> xr) : out glp :=
  loop n (fun j p => glp_set_col_bnds p (j + 1) (bounds_type (xl j) (xu j)) (xl j) (xu j)) p.
(** s_set_cstr_bnd: opt_glpk.c 207-219 *)
Definition glpk_set_cstr_bnd (p : glp) (m : nat) (bl bu : nat -> xr) : out glp :=
  loop m (fun i p => glp_set_row_bnds p (i + 1) (bounds_type (bl i) (bu i)) (bl i) (bu i)) p.
(** s_set_cstr_mat_gm: opt_glpk.c 221-236.  The arrays passed start one element early. *)
Definition glpk_set_cstr_mat_gm (p : glp) (m n : nat) (A : nat -> R) (lda : nat) : out glp :=
  let rows i := (i + 1)%nat in
  loop n (fun j p => glp_set_mat_col p (j + 1) m (fun k => rows (k - 1)%nat) (fun k => A (j * lda + (k - 1))%nat)) p.
(** s_set_cstr_gm: opt_glpk.c 240-249 *)
Definition glpk_set_cstr_gm (p : glp) (m n : nat) (A : nat -> R) (lda : nat) (bl bu : nat -> xr) : out glp :=
  bind (glpk_set_cstr_mat_gm p m n A lda) (fun p => glpk_set_cstr_bnd p m bl bu).
(** s_set_type: opt_glpk.c 131-152 *)
Definition glpk_set_type (p : glp) (i : nat) (k : kind) : out glp := glp_set_col_kind p (i + 1) k.
(** s_init: opt_glpk.c 263-297 *)
Definition glpk_init (m n : nat) (bl bu : nat -> xr) (c : nat -> R) (xl xu : nat -> xr) : out glp :=
  let p := glp_add_cols (glp_add_rows (glp_set_obj_dir glp_create_prob true) m) n in
  bind (glpk_set_cstr_bnd p m bl bu) (fun p => bind (glpk_set_bnd p n xl xu) (fun p => glpk_set_obj p n c)).
(** aa_opt_glpk_gmcreate: opt_glpk.c 299-316 *)
Definition glpk_gmcreate (m n : nat) (A : nat -> R) (lda : nat) (bl bu : nat -> xr) (c : nat -> R) (xl xu : nat -> xr) : out glp :=
  bind (glpk_init m n bl bu c xl xu) (fun p => glpk_set_cstr_mat_gm p m n A lda).
(** aa_opt_glpk_crscreate: opt_glpk.c 319-351.  It leaks the first of two contexts, which is not modelled. *)
Definition glpk_crscreate (m n : nat) (vals : nat -> R) (cols ptr : nat -> nat) (bl bu : nat -> xr) (c : nat -> R) (xl xu : nat -> xr) : out glp :=
  bind (glpk_init m n bl bu c xl xu) (fun p =>
  loop m (fun i p =>
    let start := ptr i in let count := (ptr (i + 1)%nat - start)%nat in
    let inds j := (cols (start + j)%nat + 1)%nat in
    glp_set_mat_row p (i + 1) count (fun k => inds (k - 1)%nat) (fun k => vals (start + (k - 1))%nat)) p).

(** * CLP: opt_clp.cpp *)
(** a problem object; rows and columns are counted from 0 *)
Record clp := mkClp { c_dir : R; c_nr : nat; c_nc : nat; c_row : nat -> xr * xr; c_col : nat -> xr * xr; c_obj : nat -> R; c_mat : nat -> nat -> R }.
Definition clp_new : clp := mkClp 1 0 0 (fun _ => (NInf, PInf)) (fun _ => (Fin 0, PInf)) (fun _ => 0) (fun _ _ => 0).
Definition clp_resize (p : clp) (m n : nat) : clp := mkClp (c_dir p) m n (c_row p) (c_col p) (c_obj p) (c_mat p).
Definition clp_dir (p : clp) (d : R) : clp := mkClp d (c_nr p) (c_nc p) (c_row p) (c_col p) (c_obj p) (c_mat p).
Definition clp_setObjectiveCoefficient (p : clp) (j : nat) (c : R) : clp := mkClp (c_dir p) (c_nr p) (c_nc p) (c_row p) (c_col p) (upd (c_obj p) j c) (c_mat p).
Definition clp_setColumnBounds (p : clp) (j : nat) (l u : xr) : clp := mkClp (c_dir p) (c_nr p) (c_nc p) (c_row p) (upd (c_col p) j (l, u)) (c_obj p) (c_mat p).
Definition clp_setRowBounds (p : clp) (i : nat) (l u : xr) : clp := mkClp (c_dir p) (c_nr p) (c_nc p) (upd (c_row p) i (l, u)) (c_col p) (c_obj p) (c_mat p).
Definition clp_modifyCoefficient (p : clp) (i j : nat) (a : R) : clp := mkClp (c_dir p) (c_nr p) (c_nc p) (c_row p) (c_col p) (c_obj p) (upd2 (c_mat p) i j a).
Definition clp_addColumn (p : clp) (len : nat) (rows : nat -> nat) (els : nat -> R) (l u : xr) (c : R) : clp :=
  let j := c_nc p in
  mkClp (c_dir p) (c_nr p) (S j) (c_row p) (upd (c_col p) j (l, u)) (upd (c_obj p) j c) (fun a b => if Nat.eqb b j then sparse 0 len rows els a else c_mat p a b).
Definition clp_addRow (p : clp) (len : nat) (cols : nat -> nat) (els : nat -> R) (l u : xr) : clp :=
  let i := c_nr p in
  mkClp (c_dir p) (S i) (c_nc p) (upd (c_row p) i (l, u)) (c_col p) (c_obj p) (fun a b => if Nat.eqb a i then sparse 0 len cols els b else c_mat p a b).
(** chgColumnLower, chgColumnUpper and chgObjCoefficients: the whole array *)
Definition clp_chg (p : clp) (xl xu : nat -> xr) (c : nat -> R) : clp := mkClp (c_dir p) (c_nr p) (c_nc p) (c_row p) (fun j => (xl j, xu j)) c (c_mat p).
Definition finite (x : xr) : bool := match x with Fin _ => true | _ => false end.
Definition or_else (x : xr) (d : R) : xr := if finite x then x else Fin d.

Definition cloop {A} (n : nat) (f : nat -> A -> A) (a : A) : A := fold_left (fun a j => f j a) (seq 0 n) a.
(** s_set_direction: opt_clp.cpp 84-97 *)
Definition clp_set_direction (p : clp) (mx : bool) : clp := clp_dir p (if mx then - (1) else 1).
(** s_set_obj: opt_clp.cpp 143-152 *)
Definition clp_set_obj (p : clp) (n : nat) (c : nat -> R) : clp := cloop n (fun i p => clp_setObjectiveCoefficient p i (c i)) p.
(** s_set_bnd: opt_clp.cpp 154-168 *)
Definition clp_set_bnd (p : clp) (n : nat) (xl xu : nat -> xr) : clp :=
  cloop n (fun i p => clp_setColumnBounds p i (or_else (xl i) (- DBL_MAX)) (or_else (xu i) DBL_MAX)) p.
(** s_set_cstr_mat_gm: opt_clp.cpp 170-184 *)
Definition clp_set_cstr_mat_gm (p : clp) (m n : nat) (A : nat -> R) (lda : nat) : clp :=
  cloop n (fun j p => cloop m (fun i p => clp_modifyCoefficient p i j (A (j * lda + i)%nat)) p) p.
(** s_set_cstr_bnd: opt_clp.cpp 186-200 *)
Definition clp_set_cstr_bnd (p : clp) (m : nat) (bl bu : nat -> xr) : clp :=
  cloop m (fun i p => clp_setRowBounds p i (or_else (bl i) (- DBL_MAX)) (or_else (bu i) DBL_MAX)) p.
(** s_set_cstr_gm: opt_clp.cpp 202-211 *)
Definition clp_set_cstr_gm (p : clp) (m n : nat) (A : nat -> R) (lda : nat) (bl bu : nat -> xr) : clp :=
  clp_set_cstr_bnd (clp_set_cstr_mat_gm p m n A lda) m bl bu.
(** aa_opt_clp_gmcreate: opt_clp.cpp 265-307 *)
Definition clp_gmcreate (m n : nat) (A : nat -> R) (lda : nat) (bl bu : nat -> xr) (c : nat -> R) (xl xu : nat -> xr) : clp :=
  let p := clp_resize clp_new m 0 in
  let p := cloop n (fun j p => clp_addColumn p m (fun i => i) (fun i => A (j * lda + i)%nat) (xl j) (xu j) (c j)) p in
  clp_dir (clp_set_cstr_bnd (clp_set_obj (clp_set_bnd p n xl xu) n c) m bl bu) (- (1)).
(** aa_opt_clp_crscreate: opt_clp.cpp 310-345 *)
Definition clp_crscreate (m n : nat) (vals : nat -> R) (cols ptr : nat -> nat) (bl bu : nat -> xr) (c : nat -> R) (xl xu : nat -> xr) : clp :=
  let p := clp_resize clp_new 0 n in
  let p := cloop m (fun i p =>
    let start := ptr i in let stop := ptr (i + 1)%nat in
    clp_addRow p (stop - start) (fun k => cols (start + k)%nat) (fun k => vals (start + k)%nat) (bl i) (bu i)) p in
  clp_dir (clp_chg p xl xu c) (- (1)).

(** * lp_solve: opt_lpsolve.c *)
Inductive ltype := FR | LE | GE | EQ.
(** a problem object; rows and columns are counted from 1 *)
Record lps := mkLps { l_max : bool; l_nr : nat; l_nc : nat; l_type : nat -> ltype; l_rh : nat -> xr; l_mat : nat -> nat -> R;
  l_col : nat -> xr * xr; l_obj : nat -> R; l_int : nat -> bool }.
(** make_lp: no coefficients, and columns between 0 and infinity *)
Definition make_lp (m n : nat) : lps := mkLps false m n (fun _ => LE) (fun _ => Fin 0) (fun _ _ => 0) (fun _ => (Fin 0, PInf)) (fun _ => 0) (fun _ => false).
(** Each of these gives FALSE and changes nothing if the row or the column is out of range. *)
Definition l_set_dir (p : lps) (mx : bool) : lps := mkLps mx (l_nr p) (l_nc p) (l_type p) (l_rh p) (l_mat p) (l_col p) (l_obj p) (l_int p).
Definition set_mat (p : lps) (i j : nat) (a : R) : lps :=
  if range1 (l_nr p) i && range1 (l_nc p) j then mkLps (l_max p) (l_nr p) (l_nc p) (l_type p) (l_rh p) (upd2 (l_mat p) i j a) (l_col p) (l_obj p) (l_int p) else p.
Definition set_rh (p : lps) (i : nat) (v : xr) : lps :=
  if range1 (l_nr p) i then mkLps (l_max p) (l_nr p) (l_nc p) (l_type p) (upd (l_rh p) i v) (l_mat p) (l_col p) (l_obj p) (l_int p) else p.
Definition set_constr_type (p : lps) (i : nat) (t : ltype) : lps * bool :=
  if range1 (l_nr p) i then (mkLps (l_max p) (l_nr p) (l_nc p) (upd (l_type p) i t) (l_rh p) (l_mat p) (l_col p) (l_obj p) (l_int p), true) else (p, false).
Definition l_set_obj1 (p : lps) (j : nat) (c : R) : lps :=
  if range1 (l_nc p) j then mkLps (l_max p) (l_nr p) (l_nc p) (l_type p) (l_rh p) (l_mat p) (l_col p) (upd (l_obj p) j c) (l_int p) else p.
(** a lower bound above the upper bound is refused *)
Definition crossed (l u : xr) : bool := match l, u with Fin a, Fin b => ltb b a | PInf, PInf | NInf, NInf => false | PInf, _ | _, NInf => true | _, _ => false end.
Definition set_bounds (p : lps) (j : nat) (l u : xr) : lps :=
  if range1 (l_nc p) j && negb (crossed l u) then mkLps (l_max p) (l_nr p) (l_nc p) (l_type p) (l_rh p) (l_mat p) (upd (l_col p) j (l, u)) (l_obj p) (l_int p) else p.
Definition set_int (p : lps) (j : nat) (b : bool) : lps :=
  if range1 (l_nc p) j then mkLps (l_max p) (l_nr p) (l_nc p) (l_type p) (l_rh p) (l_mat p) (l_col p) (l_obj p) (upd (l_int p) j b) else p.
Definition set_binary (p : lps) (j : nat) (b : bool) : lps := let p := set_int p j b in if b then set_bounds p j (Fin 0) (Fin 1) else p.
Definition add_constraintex (p : lps) (len : nat) (vals : nat -> R) (inds : nat -> nat) (t : ltype) (v : xr) : lps :=
  let i := S (l_nr p) in
  mkLps (l_max p) i (l_nc p) (upd (l_type p) i t) (upd (l_rh p) i v) (fun a b => if Nat.eqb a i then sparse 0 len inds vals b else l_mat p a b) (l_col p) (l_obj p) (l_int p).

(** s_set_type: opt_lpsolve.c 138-158 *)
Definition lps_set_type (p : lps) (i : nat) (k : kind) : lps :=
  let ii := (i + 1)%nat in
  match k with CONTINUOUS => set_binary (set_int p ii false) ii false | BINARY => set_binary p ii true | INTEGER => set_int p ii true end.
(** s_set_obj, s_set_bnd: opt_lpsolve.c 162-181 *)
Definition lps_set_obj (p : lps) (n : nat) (c : nat -> R) : lps := cloop n (fun j p => l_set_obj1 p (1 + j) (c j)) p.
Definition lps_set_bnd (p : lps) (n : nat) (xl xu : nat -> xr) : lps := cloop n (fun j p => set_bounds p (1 + j) (xl j) (xu j)) p.
(** s_count_rows: opt_lpsolve.c 183-200 *)
Definition count_rows (m : nat) (bl bu : nat -> xr) : nat :=
  cloop m (fun i c =>
    let lb := is_lbound (bl i) in let ub := is_ubound (bu i) in
    if negb (is_free lb ub) then if is_bound lb ub then (c + 2)%nat else (c + 1)%nat else c) 0%nat.
(** s_set_row: opt_lpsolve.c 202-215 *)
Definition set_row (p : lps) (t : ltype) (n : nat) (A : nat -> R) (incA ilp : nat) (v : xr) : lps * bool :=
  let p := cloop n (fun j p => set_mat p ilp (1 + j) (A (j * incA)%nat)) p in
  set_constr_type (set_rh p ilp v) ilp t.
(** the loop of s_set_cstr_gm: opt_lpsolve.c 228-272: the problem, the next row and whether it was left by goto ERROR *)
Fixpoint rows_gm (todo : nat) (i : nat) (p : lps) (n : nat) (A : nat -> R) (lda : nat) (bl bu : nat -> xr) (ilp : nat) : lps * nat * bool :=
  match todo with
  | O => (p, ilp, false)
  | S todo' =>
      let Ai k := A (i + k)%nat in
      let l := bl i in let u := bu i in
      let lb := is_lbound l in let ub := is_ubound u in
      let one p t v ilp :=
        let '(p, ok) := set_row p t n Ai lda ilp v in
        if ok then rows_gm todo' (S i) p n A lda bl bu (S ilp) else (p, ilp, true) in
      if is_free lb ub then one p FR (Fin 0) ilp
      else if is_eq l u then one p EQ u ilp
      else if is_leq lb ub then one p LE u ilp
      else if is_geq lb ub then one p GE l ilp
      else let '(p, ok) := set_row p LE n Ai lda ilp u in
           if ok then one p GE l (S ilp) else (p, ilp, true)
  end.
(** s_set_cstr_gm: opt_lpsolve.c 218-279.  [asserts]: compiled without NDEBUG *)
Definition lps_set_cstr_gm (asserts : bool) (p : lps) (m n : nat) (A : nat -> R) (lda : nat) (bl bu : nat -> xr) : out (Z * lps) :=
  let row_count := count_rows m bl bu in
  let '(p, ilp, err) := rows_gm m 0 p n A lda bl bu 1 in
  if err then Ret ((-1)%Z, p)
  else if asserts && negb (Nat.eqb ilp (row_count + 1)) then Abort else Ret (0%Z, p).
(** s_finish: opt_lpsolve.c 293-312 *)
Definition lps_finish (p : lps) (n : nat) (c : nat -> R) (xl xu : nat -> xr) : lps := lps_set_bnd (lps_set_obj p n c) n xl xu.
(** aa_opt_lpsolve_gmcreate: opt_lpsolve.c 315-352.  The value of s_set_cstr_gm is not looked at. *)
Definition lps_gmcreate (asserts : bool) (m n : nat) (A : nat -> R) (lda : nat) (bl bu : nat -> xr) (c : nat -> R) (xl xu : nat -> xr) : out lps :=
  let p := l_set_dir (make_lp (count_rows m bl bu) n) true in
  let p := lps_set_obj (lps_set_bnd p n xl xu) n c in
  bind (lps_set_cstr_gm asserts p m n A lda bl bu) (fun rp => Ret (lps_finish (snd rp) n c xl xu)).
(** aa_opt_lpsolve_crscreate: opt_lpsolve.c 354-413 *)
Definition lps_crscreate (m n : nat) (vals : nat -> R) (cols ptr : nat -> nat) (bl bu : nat -> xr) (c : nat -> R) (xl xu : nat -> xr) : lps :=
  let p := l_set_dir (make_lp 0 n) true in
  let p := cloop m (fun i p =>
    let l := bl i in let u := bu i in
    let start := ptr i in let count := (ptr (i + 1)%nat - start)%nat in
    let vs k := vals (start + k)%nat in
    let inds k := (cols (start + k)%nat + 1)%nat in
    let add p t v := add_constraintex p count vs inds t v in
    if is_eq l u then add p EQ u
    else let lb := is_lbound l in let ub := is_ubound u in
         if is_leq lb ub then add p LE u else if is_geq lb ub then add p GE l else add (add p LE u) GE l) p in
  lps_finish p n c xl xu.

(** * CGAL: opt_cgal.cpp *)
(** aa_opt_rel_type: include/amino/opt/opt.h 57-61 *)
Inductive rel := REL_EQ | REL_LEQ | REL_GEQ.
(** a quadratic program: minimise x' D x + c' x + c0 with A x <= b or A x = b and l <= x <= u; twice D is stored *)
Record qp := mkQp { q_eq : bool; q_a : nat -> nat -> R; q_b : nat -> R; q_c : nat -> R; q_c0 : R; q_2d : nat -> nat -> R; q_l : nat -> option R; q_u : nat -> option R }.
Definition qp_set_a (p : qp) (j i : nat) (v : R) := mkQp (q_eq p) (upd2 (q_a p) i j v) (q_b p) (q_c p) (q_c0 p) (q_2d p) (q_l p) (q_u p).
Definition qp_set_b (p : qp) (i : nat) (v : R) := mkQp (q_eq p) (q_a p) (upd (q_b p) i v) (q_c p) (q_c0 p) (q_2d p) (q_l p) (q_u p).
Definition qp_set_c (p : qp) (j : nat) (v : R) := mkQp (q_eq p) (q_a p) (q_b p) (upd (q_c p) j v) (q_c0 p) (q_2d p) (q_l p) (q_u p).
Definition qp_set_c0 (p : qp) (v : R) := mkQp (q_eq p) (q_a p) (q_b p) (q_c p) v (q_2d p) (q_l p) (q_u p).
(** set_d(i,j,v) sets the entries i,j and j,i of 2D *)
Definition qp_set_d (p : qp) (i j : nat) (v : R) := mkQp (q_eq p) (q_a p) (q_b p) (q_c p) (q_c0 p) (upd2 (upd2 (q_2d p) i j v) j i v) (q_l p) (q_u p).
Definition qp_set_l (p : qp) (j : nat) (v : R) := mkQp (q_eq p) (q_a p) (q_b p) (q_c p) (q_c0 p) (q_2d p) (upd (q_l p) j (Some v)) (q_u p).
Definition qp_set_u (p : qp) (j : nat) (v : R) := mkQp (q_eq p) (q_a p) (q_b p) (q_c p) (q_c0 p) (q_2d p) (q_l p) (upd (q_u p) j (Some v)).
(** the program built by aa_opt_qp_solve_cgal: opt_cgal.cpp 85-129; [None] is the return of -1 for other relations *)
Definition cgal_program (type : rel) (m n : nat) (A : nat -> R) (lda : nat) (b c : nat -> R) (c0 : R) (D : nat -> R) (ldd : nat)
    (l u : option (nat -> R)) : option qp :=
  match type with
  | REL_GEQ => None
  | _ =>
      let p := mkQp (match type with REL_EQ => true | _ => false end) (fun _ _ => 0) (fun _ => 0) (fun _ => 0) 0 (fun _ _ => 0)
                 (fun _ => match l with Some _ => Some 0 | None => None end) (fun _ => match u with Some _ => Some 1 | None => None end) in
      let p := cloop m (fun i p => cloop n (fun j p => qp_set_a p j i (A (j * lda + i)%nat)) p) p in
      let p := cloop m (fun i p => qp_set_b p i (b i)) p in
      let p := cloop n (fun j p => qp_set_c p j (c j)) p in
      let p := qp_set_c0 p c0 in
      let p := cloop n (fun j1 p => cloop n (fun j2 p => qp_set_d p j1 j1 (2 * D (j2 * ldd + j1)%nat)) p) p in
      Some (cloop n (fun j p =>
        let p := match l with Some l => qp_set_l p j (l j) | None => p end in
        match u with Some u => qp_set_u p j (u j) | None => p end) p)
  end.

(** * Solving *)
(** aa_opt_set_*: opt.c 57-100 *)
Inductive op :=
  | OpDir (mx : bool)
  | OpObj (c : nat -> R)
  | OpBnd (xl xu : nat -> xr)
  | OpCstr (A : nat -> R) (lda : nat) (bl bu : nat -> xr)
  | OpType (i : nat) (k : kind).
(** the calls on a context of m rows and n columns, through the tables of functions: opt_glpk.c 252-261,
    opt_clp.cpp 213-222, opt_lpsolve.c 282-291.  s_set_type of CLP is a return of -1: opt_clp.cpp 138-140.
    The codes that the calls return are dropped, except for the constraints of lp_solve. *)
Definition glpk_op (m n : nat) (p : glp) (o : op) : out glp :=
  match o with
  | OpDir mx => glpk_set_direction p mx
  | OpObj c => glpk_set_obj p n c
  | OpBnd xl xu => glpk_set_bnd p n xl xu
  | OpCstr A lda bl bu => glpk_set_cstr_gm p m n A lda bl bu
  | OpType i k => glpk_set_type p i k
  end.
Definition clp_op (m n : nat) (p : clp) (o : op) : clp :=
  match o with
  | OpDir mx => clp_set_direction p mx
  | OpObj c => clp_set_obj p n c
  | OpBnd xl xu => clp_set_bnd p n xl xu
  | OpCstr A lda bl bu => clp_set_cstr_gm p m n A lda bl bu
  | OpType i k => p
  end.
Definition lps_op (asserts : bool) (m n : nat) (p : lps) (o : op) : out lps :=
  match o with
  | OpDir mx => Ret (l_set_dir p mx)
  | OpObj c => Ret (lps_set_obj p n c)
  | OpBnd xl xu => Ret (lps_set_bnd p n xl xu)
  | OpCstr A lda bl bu => bind (lps_set_cstr_gm asserts p m n A lda bl bu) (fun rp => Ret (snd rp))
  | OpType i k => Ret (lps_set_type p i k)
  end.
Definition run {P} (f : P -> op -> out P) (p : P) (ops : list op) : out P := fold_left (fun o x => bind o (fun p => f p x)) ops (Ret p).

Section Solve.
  (** what the libraries' solvers return, and the values of the columns that can be read after that *)
  Context (glp_simplex glp_intopt : glp -> Z * (nat -> R)) (clp_initialSolve : clp -> Z * (nat -> R)) (lps_solve : lps -> Z * (nat -> R)).
  (** glp_get_num_int and glp_get_num_bin: some column is an integer *)
  Definition has_int (p : glp) : bool := existsb (g_int p) (seq 1 (g_nc p)).
  (** s_solve: opt_glpk.c 54-88 *)
  Definition glpk_solve (p : glp) : Z * (nat -> R) :=
    if has_int p then let '(r, x) := glp_intopt p in (r, fun j => x (j + 1)%nat) else let '(r, x) := glp_simplex p in (r, fun j => x (j + 1)%nat).
  (** s_solve: opt_clp.cpp 49-70, without exceptions *)
  Definition clp_solve (p : clp) : Z * (nat -> R) := clp_initialSolve p.
  (** s_solve: opt_lpsolve.c 87-98; get_variables counts from 0 *)
  Definition lps_solve_cx (p : lps) : Z * (nat -> R) := lps_solve p.

  (** aa_opt_lp_glpk: opt_glpk.c 376-395; aa_opt_lp_crs_glpk: 355-373 *)
  Definition lp_glpk m n A lda bl bu c xl xu : out (Z * (nat -> R)) := bind (glpk_gmcreate m n A lda bl bu c xl xu) (fun p => Ret (glpk_solve p)).
  Definition lp_crs_glpk m n vals cols ptr bl bu c xl xu : out (Z * (nat -> R)) := bind (glpk_crscreate m n vals cols ptr bl bu c xl xu) (fun p => Ret (glpk_solve p)).
  (** aa_opt_lp_clp: opt_clp.cpp 350-368; aa_opt_lp_crs_clp: 370-387 *)
  Definition lp_clp m n A lda bl bu c xl xu : out (Z * (nat -> R)) := Ret (clp_solve (clp_gmcreate m n A lda bl bu c xl xu)).
  Definition lp_crs_clp m n vals cols ptr bl bu c xl xu : out (Z * (nat -> R)) := Ret (clp_solve (clp_crscreate m n vals cols ptr bl bu c xl xu)).
  (** aa_opt_lp_lpsolve: opt_lpsolve.c 46-65; aa_opt_lp_crs_lpsolve: 67-84 *)
  Definition lp_lpsolve asserts m n A lda bl bu c xl xu : out (Z * (nat -> R)) := bind (lps_gmcreate asserts m n A lda bl bu c xl xu) (fun p => Ret (lps_solve_cx p)).
  Definition lp_crs_lpsolve m n vals cols ptr bl bu c xl xu : out (Z * (nat -> R)) := Ret (lps_solve_cx (lps_crscreate m n vals cols ptr bl bu c xl xu)).
End Solve.

(** aa_opt_lp_solver and the choice made by aa_opt_gmcreate: opt.c 102-134.  The flags are HAVE_GLPK, HAVE_CLP and
    HAVE_LPSOLVE; the first case label falls through to the first one that is compiled. *)
Inductive solver := DEFAULT | LPSOLVE | GLPK | CLP.
Definition gmcreate_fun (glpk clp lpsolve : bool) (s : solver) : option solver :=
  match s with
  | DEFAULT => if glpk then Some GLPK else if clp then Some CLP else if lpsolve then Some LPSOLVE else None
  | GLPK => if glpk then Some GLPK else None
  | CLP => if clp then Some CLP else None
  | LPSOLVE => if lpsolve then Some LPSOLVE else None
  end.

Section Cgal.
  (** CGAL::solve_quadratic_program: a solution, if the program has one *)
  Context (cgal_solve : qp -> nat -> option (nat -> R)).
  (** aa_opt_qp_solve_cgal: opt_cgal.cpp 67-158: the code, and x if it is written *)
  Definition qp_solve_cgal (type : rel) (m n : nat) A lda b c c0 D ldd l u : Z * option (nat -> R) :=
    match cgal_program type m n A lda b c c0 D ldd l u with
    | None => ((-1)%Z, None)
    | Some p => match cgal_solve p n with Some x => (0%Z, Some x) | None => ((-1)%Z, None) end
    end.
End Cgal.
