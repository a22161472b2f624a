(** Specification of linear and quadratic programs, and what the solver libraries document. *)
From Coq Require Import ZArith Arith List Bool Reals.
From Verif Require Import MatModel OptModel.
Import ListNotations.
Open Scope R_scope.

(** [y] is above the lower bound [l], or below the upper bound [u], where bounds of [H] and more count as infinite *)
Definition above (H : R) (l : xr) (y : R) : Prop := match l with Fin a => a <= - H \/ a <= y | NInf => True | _ => False end.
Definition below (H : R) (u : xr) (y : R) : Prop := match u with Fin a => H <= a \/ y <= a | PInf => True | _ => False end.
(** [x] is a linear combination's value *)
Definition lin (n : nat) (a x : nat -> R) : R := bsum n (fun j => a j * x j).
Definition whole (y : R) : Prop := exists z, y = IZR z.

(** * The caller's program *)
Record stmt := mkStmt { s_max : bool; s_m : nat; s_n : nat; s_A : nat -> nat -> R; s_bl : nat -> xr; s_bu : nat -> xr;
  s_c : nat -> R; s_xl : nat -> xr; s_xu : nat -> xr; s_int : nat -> bool }.
Definition s_feasible (s : stmt) (x : nat -> R) : Prop :=
  (forall i, (i < s_m s)%nat -> above DBL_MAX (s_bl s i) (lin (s_n s) (s_A s i) x) /\ below DBL_MAX (s_bu s i) (lin (s_n s) (s_A s i) x)) /\
  forall j, (j < s_n s)%nat -> above DBL_MAX (s_xl s j) (x j) /\ below DBL_MAX (s_xu s j) (x j) /\ (s_int s j = true -> whole (x j)).
Definition s_objective (s : stmt) (x : nat -> R) : R := lin (s_n s) (s_c s) x.
(** a matrix stored by columns *)
Definition gm (A : nat -> R) (lda : nat) (i j : nat) : R := A (i + j * lda)%nat.
(** a matrix stored by compressed rows: row i is made of the entries from ptr i to ptr (i+1) *)
Definition crs (vals : nat -> R) (cols ptr : nat -> nat) (i j : nat) : R :=
  bsum (ptr (S i) - ptr i) (fun k => if Nat.eqb (cols (ptr i + k)%nat) j then vals (ptr i + k)%nat else 0).
Definition crs_ok (m n : nat) (cols ptr : nat -> nat) : Prop :=
  (forall i k, (i < m)%nat -> (ptr i <= k < ptr (S i))%nat -> (cols k < n)%nat) /\
  forall i k k', (i < m)%nat -> (ptr i <= k < ptr (S i))%nat -> (ptr i <= k' < ptr (S i))%nat -> cols k = cols k' -> k = k'.
(** the new program: maximise c x with bl <= A x <= bu and xl <= x <= xu *)
Definition program m n A bl bu c xl xu : stmt := mkStmt true m n A bl bu c xl xu (fun _ => false).
(** what a later call states anew *)
Definition restate (s : stmt) (o : op) : stmt :=
  match o with
  | OpDir mx => mkStmt mx (s_m s) (s_n s) (s_A s) (s_bl s) (s_bu s) (s_c s) (s_xl s) (s_xu s) (s_int s)
  | OpObj c => mkStmt (s_max s) (s_m s) (s_n s) (s_A s) (s_bl s) (s_bu s) c (s_xl s) (s_xu s) (s_int s)
  | OpBnd xl xu => mkStmt (s_max s) (s_m s) (s_n s) (s_A s) (s_bl s) (s_bu s) (s_c s) xl xu (s_int s)
  | OpCstr A lda bl bu => mkStmt (s_max s) (s_m s) (s_n s) (gm A lda) bl bu (s_c s) (s_xl s) (s_xu s) (s_int s)
  | OpType i CONTINUOUS => mkStmt (s_max s) (s_m s) (s_n s) (s_A s) (s_bl s) (s_bu s) (s_c s) (s_xl s) (s_xu s) (upd (s_int s) i false)
  | OpType i INTEGER => mkStmt (s_max s) (s_m s) (s_n s) (s_A s) (s_bl s) (s_bu s) (s_c s) (s_xl s) (s_xu s) (upd (s_int s) i true)
  | OpType i BINARY => mkStmt (s_max s) (s_m s) (s_n s) (s_A s) (s_bl s) (s_bu s) (s_c s) (upd (s_xl s) i (Fin 0)) (upd (s_xu s) i (Fin 1)) (upd (s_int s) i true)
  end.

(** A lower bound is minus infinity or a number below DBL_MAX, an upper bound infinity or a number above -DBL_MAX. *)
Definition low (l : xr) : Prop := match l with Fin a => a < DBL_MAX | NInf => True | _ => False end.
Definition high (u : xr) : Prop := match u with Fin a => - DBL_MAX < a | PInf => True | _ => False end.
Definition bounds (n : nat) (l u : nat -> xr) : Prop := forall i, (i < n)%nat -> low (l i) /\ high (u i).
(** a library that counts bounds of size [H] as infinite: the others are smaller than that *)
Definition low_within (H : R) (l : xr) : Prop := match l with Fin a => a <= - DBL_MAX \/ - H < a | _ => True end.
Definition high_within (H : R) (u : xr) : Prop := match u with Fin a => DBL_MAX <= a \/ a < H | _ => True end.
Definition bounds_within (H : R) (n : nat) (l u : nat -> xr) : Prop := forall i, (i < n)%nat -> low_within H (l i) /\ high_within H (u i).
Definition ordered (n : nat) (l u : nat -> xr) : Prop := forall i a b, (i < n)%nat -> l i = Fin a -> u i = Fin b -> a <= b.
Definition op_ok (m n : nat) (o : op) : Prop :=
  match o with OpBnd xl xu => bounds n xl xu | OpCstr A lda bl bu => bounds m bl bu | OpType i k => (i < n)%nat | _ => True end.
Definition op_within (H : R) (m n : nat) (o : op) : Prop :=
  match o with OpBnd xl xu => bounds_within H n xl xu | OpCstr A lda bl bu => bounds_within H m bl bu | _ => True end.
(** rows with no bound, rows whose bounds are the same number, and all finite bounds counted *)
Definition counted (n : nat) (f : nat -> bool) : nat := length (filter f (seq 0 n)).
Definition frees (m : nat) (bl bu : nat -> xr) : nat := counted m (fun i => negb (is_lbound (bl i)) && negb (is_ubound (bu i))).
Definition fixed (m : nat) (bl bu : nat -> xr) : nat := counted m (fun i => is_eq (bl i) (bu i)).
Definition sides (m : nat) (bl bu : nat -> xr) : nat := (counted m (fun i => is_lbound (bl i)) + counted m (fun i => is_ubound (bu i)))%nat.
(** calls that keep the number of finite bounds, with no free rows and no equalities *)
Definition op_sides (k m n : nat) (o : op) : Prop :=
  match o with
  | OpBnd xl xu => ordered n xl xu
  | OpCstr A lda bl bu => frees m bl bu = 0%nat /\ fixed m bl bu = 0%nat /\ sides m bl bu = k
  | _ => True
  end.
Definition not_type (o : op) : Prop := match o with OpType _ _ => False | _ => True end.

(** * What the libraries' problem objects mean, after their documentation *)
Definition at_or_above (l : xr) (y : R) : Prop := match l with Fin a => a <= y | NInf => True | _ => False end.
Definition at_or_below (u : xr) (y : R) : Prop := match u with Fin a => y <= a | PInf => True | _ => False end.
Definition g_holds (b : gtype * xr * xr) (y : R) : Prop :=
  let '(t, l, u) := b in
  match t with GLP_FR => True | GLP_LO => at_or_above l y | GLP_UP => at_or_below u y | GLP_DB => at_or_above l y /\ at_or_below u y | GLP_FX => l = Fin y end.
(** column j+1 is called j *)
Definition g_feasible (p : glp) (x : nat -> R) : Prop :=
  (forall i, (1 <= i <= g_nr p)%nat -> g_holds (g_row p i) (lin (g_nc p) (fun j => g_mat p i (S j)) x)) /\
  forall j, (1 <= j <= g_nc p)%nat -> g_holds (g_col p j) (x (j - 1)%nat) /\ (g_int p j = true -> whole (x (j - 1)%nat)).
Definition g_objective (p : glp) (x : nat -> R) : R := lin (g_nc p) (fun j => g_obj p (S j)) x.
Definition c_feasible (H : R) (p : clp) (x : nat -> R) : Prop :=
  (forall i, (i < c_nr p)%nat -> let y := lin (c_nc p) (c_mat p i) x in above H (fst (c_row p i)) y /\ below H (snd (c_row p i)) y) /\
  forall j, (j < c_nc p)%nat -> above H (fst (c_col p j)) (x j) /\ below H (snd (c_col p j)) (x j).
Definition c_objective (p : clp) (x : nat -> R) : R := lin (c_nc p) (c_obj p) x.
Definition l_holds (H : R) (t : ltype) (v : xr) (y : R) : Prop := match t with FR => True | LE => below H v y | GE => above H v y | EQ => v = Fin y end.
Definition l_feasible (H : R) (p : lps) (x : nat -> R) : Prop :=
  (forall i, (1 <= i <= l_nr p)%nat -> l_holds H (l_type p i) (l_rh p i) (lin (l_nc p) (fun j => l_mat p i (S j)) x)) /\
  forall j, (1 <= j <= l_nc p)%nat -> above H (fst (l_col p j)) (x (j - 1)%nat) /\ below H (snd (l_col p j)) (x (j - 1)%nat) /\ (l_int p j = true -> whole (x (j - 1)%nat)).
Definition l_objective (p : lps) (x : nat -> R) : R := lin (l_nc p) (fun j => l_obj p (S j)) x.

(** a problem object is the caller's program *)
Definition glpk_means (p : glp) (s : stmt) : Prop :=
  g_max p = s_max s /\ g_nc p = s_n s /\ (forall x, g_feasible p x <-> s_feasible s x) /\ forall x, g_objective p x = s_objective s x.
Definition clp_means (H : R) (p : clp) (s : stmt) : Prop :=
  c_dir p = (if s_max s then - (1) else 1) /\ c_nc p = s_n s /\ (forall x, c_feasible H p x <-> s_feasible s x) /\ forall x, c_objective p x = s_objective s x.
Definition lps_means (H : R) (p : lps) (s : stmt) : Prop :=
  l_max p = s_max s /\ l_nc p = s_n s /\ (forall x, l_feasible H p x <-> s_feasible s x) /\ forall x, l_objective p x = s_objective s x.

(** * Optimal points *)
Definition best (mx : bool) (feas : (nat -> R) -> Prop) (obj : (nat -> R) -> R) (x : nat -> R) : Prop :=
  feas x /\ forall y, feas y -> if mx then obj y <= obj x else obj x <= obj y.
Definition optimum (s : stmt) (x : nat -> R) : Prop := best (s_max s) (s_feasible s) (s_objective s) x.

(** what the solvers promise.  GLPK: the return of 0 by glp_simplex and glp_intopt says that the process was
    completed; the point is an optimum if there is one.  It is returned whenever no row or column has an upper
    bound that is not above its lower bound (GLP_EBOUND). *)
Definition g_best (p : glp) (x : nat -> R) : Prop := best (g_max p) (g_feasible p) (g_objective p) x.
Definition glpk_promise (solve : glp -> Z * (nat -> R)) : Prop :=
  forall p x, solve p = (0%Z, x) -> (exists y, g_best p y) -> g_best p (fun j => x (S j)).
Definition g_proper (b : gtype * xr * xr) : Prop := let '(t, l, u) := b in t = GLP_DB -> forall a c, l = Fin a -> u = Fin c -> a < c.
Definition glpk_returns (solve : glp -> Z * (nat -> R)) : Prop :=
  forall p, (forall i, (1 <= i <= g_nr p)%nat -> g_proper (g_row p i)) -> (forall j, (1 <= j <= g_nc p)%nat -> g_proper (g_col p j)) -> fst (solve p) = 0%Z.
(** CLP: status 0 says that the point is an optimum *)
Definition clp_promise (H : R) (solve : clp -> Z * (nat -> R)) : Prop :=
  forall p x, solve p = (0%Z, x) ->
    (c_dir p = - (1) -> best true (c_feasible H p) (c_objective p) x) /\ (c_dir p = 1 -> best false (c_feasible H p) (c_objective p) x).
(** lp_solve: 0 is OPTIMAL *)
Definition lps_promise (H : R) (solve : lps -> Z * (nat -> R)) : Prop :=
  forall p x, solve p = (0%Z, x) -> best (l_max p) (l_feasible H p) (l_objective p) x.

(** * Quadratic programs *)
Definition quad (n : nat) (D : nat -> nat -> R) (x : nat -> R) : R := bsum n (fun i => bsum n (fun j => x i * D i j * x j)).
(** minimise x' D x + c' x + c0 with A x <= b or A x = b, and l <= x <= u where given *)
Definition q_goal (n : nat) (D : nat -> nat -> R) (c : nat -> R) (c0 : R) (x : nat -> R) : R := quad n D x + lin n c x + c0.
Definition rel_holds (type : rel) (y b : R) : Prop := match type with REL_EQ => y = b | REL_LEQ => y <= b | REL_GEQ => b <= y end.
Definition q_allowed (type : rel) (m n : nat) (A : nat -> nat -> R) (b : nat -> R) (l u : option (nat -> R)) (x : nat -> R) : Prop :=
  (forall i, (i < m)%nat -> rel_holds type (lin n (A i) x) (b i)) /\
  forall j, (j < n)%nat -> (forall l', l = Some l' -> l' j <= x j) /\ (forall u', u = Some u' -> x j <= u' j).
(** the same for CGAL's program, which stores 2D *)
Definition qp_feasible (p : qp) (m n : nat) (x : nat -> R) : Prop :=
  (forall i, (i < m)%nat -> if q_eq p then lin n (q_a p i) x = q_b p i else lin n (q_a p i) x <= q_b p i) /\
  forall j, (j < n)%nat -> (forall v, q_l p j = Some v -> v <= x j) /\ (forall v, q_u p j = Some v -> x j <= v).
Definition qp_goal (p : qp) (n : nat) (x : nat -> R) : R := / 2 * quad n (q_2d p) x + lin n (q_c p) x + q_c0 p.
(** CGAL solves a convex program exactly, and finds out if it has no solution *)
Definition convex (n : nat) (D : nat -> nat -> R) : Prop := forall x, 0 <= quad n D x.
Definition cgal_promise (solve : qp -> nat -> option (nat -> R)) : Prop :=
  forall p m n, (forall i, (m <= i)%nat -> q_b p i = 0 /\ forall j, q_a p i j = 0) -> convex n (q_2d p) ->
    match solve p n with
    | Some x => best false (qp_feasible p m n) (qp_goal p n) x
    | None => forall x, ~ best false (qp_feasible p m n) (qp_goal p n) x
    end.
(** minimise x0^2 + x1^2 - 2 x0 over the square of side 3: the minimum is at (1, 0) *)
Definition bad_D (k : nat) : R := match k with 0%nat | 3%nat => 1 | _ => 0 end.
Definition bad_c (k : nat) : R := match k with 0%nat => - (2) | _ => 0 end.
