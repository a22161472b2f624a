(** Explicit Runge-Kutta methods, independently of how a step is computed. *)
From Coq Require Import Reals List ZArith.
From Verif Require Import MatModel RkModel.
Import ListNotations.
Open Scope R_scope.

(** a right-hand side of dimension n reads only the first n components of the state *)
Definition of_dim (n : nat) (f : sysfun) : Prop :=
  forall t x y, (forall i, (i < n)%nat -> x i = y i) -> forall i, (i < n)%nat -> f t x i = f t y i.
Definition agree (n : nat) (x y : vec) : Prop := forall i, (i < n)%nat -> x i = y i.

(** a Butcher tableau: row i of [rows] is (c_i, a_i0, a_i1, ...), the weights are a separate row *)
Definition tableau := list (R * list R).
(** x1 is what the method with these rows and weights makes of x0: there are stage derivatives
      k_i = f (t0 + c_i dt) (x0 + dt sum_j<i a_ij k_j)   and   x1 = x0 + dt sum_i b_i k_i *)
Definition rk_step (T : tableau) (b : list R) (n : nat) (f : sysfun) (t0 dt : R) (x0 x1 : vec) : Prop :=
  exists k : nat -> vec,
    (forall i, (i < length T)%nat ->
       agree n (k i) (f (t0 + fst (nth i T (0, [])) * dt)
                        (fun r => x0 r + dt * bsum i (fun j => nth j (snd (nth i T (0, []))) 0 * k j r)))) /\
    agree n x1 (fun r => x0 r + dt * bsum (length T) (fun i => nth i b 0 * k i r)).

(** the published methods *)
Definition euler_T : tableau := [(0, [])].
Definition euler_b : list R := [1].
Definition heun_T : tableau := [(0, []); (1, [1])].
Definition heun_b : list R := [1/2; 1/2].
Definition rk4_T : tableau := [(0, []); (1/2, [1/2]); (1/2, [0; 1/2]); (1, [0; 0; 1])].
Definition rk4_b : list R := [1/6; 1/3; 1/3; 1/6].
(** Fehlberg *)
Definition rkf_T : tableau :=
  [(0, []);
   (1/4,   [1/4]);
   (3/8,   [3/32; 9/32]);
   (12/13, [1932/2197; -7200/2197; 7296/2197]);
   (1,     [439/216; -8; 3680/513; -845/4104]);
   (1/2,   [-8/27; 2; -3544/2565; 1859/4104; -11/40])].
Definition rkf_b4 : list R := [25/216; 0; 1408/2565; 2197/4104; -1/5; 0].
Definition rkf_b5 : list R := [16/135; 0; 6656/12825; 28561/56430; -9/50; 2/55].
(** Cash-Karp *)
Definition ck_T : tableau :=
  [(0, []);
   (1/5,  [1/5]);
   (3/10, [3/40; 9/40]);
   (3/5,  [3/10; -9/10; 6/5]);
   (1,    [-11/54; 5/2; -70/27; 35/27]);
   (7/8,  [1631/55296; 175/512; 575/13824; 44275/110592; 253/4096])].
Definition ck_b5 : list R := [37/378; 0; 250/621; 125/594; 0; 512/1771].
Definition ck_b4 : list R := [2825/27648; 0; 18575/48384; 13525/55296; 277/14336; 1/4].
(** Dormand-Prince *)
Definition dp_T : tableau :=
  [(0, []);
   (1/5,  [1/5]);
   (3/10, [3/40; 9/40]);
   (4/5,  [44/45; -56/15; 32/9]);
   (8/9,  [19372/6561; -25360/2187; 64448/6561; -212/729]);
   (1,    [9017/3168; -355/33; 46732/5247; 49/176; -5103/18656]);
   (1,    [35/384; 0; 500/1113; 125/192; -2187/6784; 11/84])].
Definition dp_b5 : list R := [35/384; 0; 500/1113; 125/192; -2187/6784; 11/84; 0].
Definition dp_b4 : list R := [5179/57600; 0; 7571/16695; 393/640; -92097/339200; 187/2100; 1/40].
(** Bogacki-Shampine *)
Definition bs_T : tableau :=
  [(0, []); (1/2, [1/2]); (3/4, [0; 3/4]); (1, [2/9; 1/3; 4/9])].
Definition bs_b3 : list R := [2/9; 1/3; 4/9; 0].
Definition bs_b2 : list R := [7/24; 1/4; 1/3; 1/8].

(** the polynomial with coefficients cs and a motion with that derivative *)
Fixpoint poly (cs : list R) (t : R) : R := match cs with [] => 0 | c :: cs' => c + t * poly cs' t end.
Definition moves_along (n : nat) (v : nat -> list R) (x : R -> vec) : Prop :=
  forall r t, (r < n)%nat -> derivable_pt_lim (fun s => x s r) t (poly (v r) t).

(** powers of a matrix applied to a vector, and the Taylor polynomial of degree p of the motion
    x' = A x + g from x0, as a function of the elapsed time h *)
Definition mat_vec (n : nat) (A : nat -> nat -> R) (x : vec) : vec := fun i => bsum n (fun j => A i j * x j).
Fixpoint mat_pow (n : nat) (A : nat -> nat -> R) (p : nat) (x : vec) : vec :=
  match p with O => x | S q => mat_vec n A (mat_pow n A q x) end.
Definition affine_rhs (n : nat) (A : nat -> nat -> R) (g x : vec) : vec := fun i => mat_vec n A x i + g i.
Definition affine_taylor (n p : nat) (A : nat -> nat -> R) (g x0 : vec) (h : R) : vec :=
  fun i => x0 i + bsum p (fun q => h ^ (q + 1) / INR (fact (q + 1)) * mat_pow n A q (affine_rhs n A g x0) i).

(** the calls of check in order: time, state, derivative *)
Definition call := (R * vec * vec)%type.
(** check is called with these arguments, answers 0 to all but the last, and r to the last *)
Inductive checked {C} (chk : C -> R -> vec -> vec -> C * Z) : C -> list call -> Z -> C -> Prop :=
| ck_last : forall c t x y c' r, chk c t x y = (c', r) -> r <> 0%Z -> checked chk c [(t, x, y)] r c'
| ck_more : forall c t x y c1 l r c', chk c t x y = (c1, 0%Z) -> checked chk c1 l r c' -> checked chk c ((t, x, y) :: l) r c'.

(** x with h added to component i *)
Definition shift (x : vec) (i : nat) (h : R) : vec := fun j => if Nat.eqb j i then x j + h else x j.

(** Butcher's order conditions.  A rooted tree with t vertices stands for one of the terms of the t-th derivative of
    the solution of x' = f(x); the method treats the term correctly when its weight is the reciprocal of the density
    of the tree, and has order p when this holds for all trees with at most p vertices and each node of the tableau is
    the sum of its row *)
Inductive tree := Node (ts : list tree).
Fixpoint vertices (t : tree) : nat := match t with Node ts => S (list_sum (map vertices ts)) end.
Fixpoint density (t : tree) : R :=
  match t with Node ts => INR (vertices t) * fold_right (fun u d => density u * d) 1 ts end.
(** product over the subtrees u of sum_j a_ij (weight of u at stage j) *)
Fixpoint stage_weight (T : tableau) (t : tree) (i : nat) : R :=
  match t with Node ts =>
    fold_right (fun u d => bsum i (fun j => nth j (snd (nth i T (0, []))) 0 * stage_weight T u j) * d) 1 ts end.
Definition weight (T : tableau) (b : list R) (t : tree) : R := bsum (length T) (fun i => nth i b 0 * stage_weight T t i).
Definition row_sums (T : tableau) : Prop :=
  forall i, (i < length T)%nat -> fst (nth i T (0, [])) = bsum i (fun j => nth j (snd (nth i T (0, []))) 0).
Definition has_order (p : nat) (T : tableau) (b : list R) : Prop :=
  row_sums T /\ forall t, (vertices t <= p)%nat -> weight T b t = / density t.
