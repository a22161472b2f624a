(** The integration steps and the solver of src/sigsys.c, and the finite differences of src/diffeq.c, over the reals.
    A vector is a function from index to value, of which the first n values matter; the derivative matrix k is a
    function from column to vector.  Simplifications: doubles are real numbers; cblas_daxpy, cblas_dgemv and memcpy
    are the operations they are named after; the outputs do not overlap the inputs (they are declared restrict);
    a function sys with its context is a mathematical function of time and state;
    check does not write to the vectors it is given. *)
From Coq Require Import Reals List ZArith.
From Verif Require Import MatModel TrModel.
Import ListNotations.
Open Scope R_scope.

Definition vec := nat -> R.
(** aa_sys_fun, include/amino/math.h 800-806 *)
Definition sysfun := R -> vec -> vec.
Definition setcol (k : nat -> vec) (c : nat) (v : vec) : nat -> vec := fun c' => if Nat.eqb c' c then v else k c'.
(** cblas_dgemv on the first p columns of k after a copy of x: x + dt * K a *)
Definition gemv (p : nat) (dt : R) (k : nat -> vec) (a : list R) (x : vec) : vec :=
  fun r => x r + dt * bsum p (fun j => k j r * nth j a 0).
(** a C array initialiser with fewer elements than the array is completed with zeros *)
Definition row (a : list (list R)) (i : nat) : list R := nth i a [].

(** aa_lsim_dstep, sigsys.c 77-96 *)
Definition lsim_dstep (m n : nat) (A B : nat -> R) (x0 u : vec) : vec :=
  fun i => bsum m (fun j => A (i + m * j)%nat * x0 j) + bsum n (fun j => B (i + m * j)%nat * u j).
(** aa_lsim_estep, sigsys.c 98-132 *)
Definition lsim_estep (m n : nat) (dt : R) (A B : nat -> R) (x0 u : vec) : vec :=
  fun i => dt * lsim_dstep m n A B x0 u i + 1 * x0 i.
(** lsim_sys, sigsys.c 142-149 *)
Definition lsim_sys (m n : nat) (A B : nat -> R) (u : vec) : sysfun := fun _ x => lsim_dstep m n A B x u.
(** aa_sys_affine, sigsys.c 576-588 *)
Definition sys_affine (n : nat) (A : nat -> R) (D : vec) : sysfun :=
  fun _ x i => D i + bsum n (fun j => A (i + n * j)%nat * x j).

(** aa_odestep_euler, sigsys.c 164-177 *)
Definition odestep_euler (dt : R) (dx x0 : vec) : vec := fun i => x0 i + dt * dx i.
(** aa_odestep_rk1, sigsys.c 180-187 *)
Definition odestep_rk1 (f : sysfun) (t0 dt : R) (x0 : vec) : vec := odestep_euler dt (f t0 x0) x0.
(** aa_odestep_rk2, sigsys.c 196-222 *)
Definition odestep_rk2 (f : sysfun) (t0 dt : R) (x0 : vec) : vec :=
  let k := setcol (fun _ _ => 0) 0 (f t0 x0) in
  let x1 := odestep_euler dt (k 0%nat) x0 in
  let k := setcol k 1 (f (t0 + dt) x1) in
  gemv 2 dt k [1/2; 1/2] x0.
(** aa_odestep_rk4, sigsys.c 233-259 *)
Definition odestep_rk4 (f : sysfun) (t0 dt : R) (x0 : vec) : vec :=
  let k := setcol (fun _ _ => 0) 0 (f t0 x0) in
  let x1 := odestep_euler (dt/2) (k 0%nat) x0 in
  let k := setcol k 1 (f (t0 + dt/2) x1) in
  let x1 := odestep_euler (dt/2) (k 1%nat) x0 in
  let k := setcol k 2 (f (t0 + dt/2) x1) in
  let x1 := odestep_euler dt (k 2%nat) x0 in
  let k := setcol k 3 (f (t0 + dt) x1) in
  gemv 4 dt k [1/6; 1/3; 1/3; 1/6] x0.
(** aa_lsim_rk4step, sigsys.c 151-161 *)
Definition lsim_rk4step (m n : nat) (dt : R) (A B : nat -> R) (x0 u : vec) : vec :=
  odestep_rk4 (lsim_sys m n A B u) 0 dt x0.

(** butcher, sigsys.c 298-314: column col of k receives the derivative, the second result is x1 *)
Definition butcher (f : sysfun) (t0 dt : R) (x0 : vec) (c : R) (p : nat) (a : list R) (k : nat -> vec) (col : nat)
  : (nat -> vec) * vec :=
  let x1 := gemv p dt k a x0 in (setcol k col (f (t0 + dt * c) x1), x1).

(** the result of an embedded step: the matrix k, the first and the second output vector *)
Definition kxx := ((nat -> vec) * vec * vec)%type.
Definition k_of (r : kxx) := fst (fst r).
Definition x_lo (r : kxx) := snd (fst r).
Definition x_hi (r : kxx) := snd r.

(** the common first part of the four-five methods: k1, then k2 to k4 (for i = 1, 2, 3),
    sigsys.c 349-360, 416-427, 488-499 *)
Definition steps14 (f : sysfun) (t0 dt : R) (x0 : vec) (a : list (list R)) (c : list R) (k : nat -> vec) : nat -> vec :=
  let x4 := fun r => x0 r + nth 0 (row a 0) 0 * dt * k 0%nat r in
  let k := setcol k 1 (f (t0 + dt * nth 0 c 0) x4) in
  fold_left (fun k i => fst (butcher f t0 dt x0 (nth i c 0) (i + 1) (row a i) k (i + 1))) [1; 2; 3]%nat k.

(** aa_odestep_rkf45, sigsys.c 330-384 *)
Definition rkf_a : list (list R) :=
  [[1/4];
   [3/32; 9/32];
   [1932/2197; -7200/2197; 7296/2197];
   [439/216; -8; 3680/513; -845/4104];
   [-8/27; 2; -3544/2565; 1859/4104; -11/40]].
Definition rkf_c : list R := [1/4; 3/8; 12/13; 1; 1/2].
Definition odestep_rkf45 (f : sysfun) (t0 dt : R) (x0 : vec) (k : nat -> vec) : kxx :=
  let k := steps14 f t0 dt x0 rkf_a rkf_c k in
  let k := fst (butcher f t0 dt x0 (nth 4 rkf_c 0) 5 (row rkf_a 4) k 1) in
  (k, gemv 5 dt k [25/216; 0; 1408/2565; 2197/4104; -1/5] x0,
      gemv 5 dt k [16/135; 2/55; 6656/12825; 28561/56430; -9/50] x0).

(** aa_odestep_rkck45, sigsys.c 399-451 *)
Definition ck_a : list (list R) :=
  [[1/5];
   [3/40; 9/40];
   [3/10; -9/10; 6/5];
   [-11/54; 5/2; -70/27; 35/27];
   [1631/55296; 175/512; 575/13824; 44275/110592; 253/4096]].
Definition ck_c : list R := [1/5; 3/10; 3/5; 1; 7/8].
Definition odestep_rkck45 (f : sysfun) (t0 dt : R) (x0 : vec) (k : nat -> vec) : kxx :=
  let k := steps14 f t0 dt x0 ck_a ck_c k in
  let k := fst (butcher f t0 dt x0 (nth 4 ck_c 0) 5 (row ck_a 4) k 1) in
  (k, gemv 4 dt k [37/378; 512/1771; 250/621; 125/594] x0,
      gemv 5 dt k [2825/27648; 277/14336; 18575/48384; 13525/55296; 1/4] x0).

(** aa_odestep_dorpri45, sigsys.c 467-525; the fourth node is the integer quotient 8/9, that is 0 (line 484) *)
Definition dp_a : list (list R) :=
  [[1/5];
   [3/40; 9/40];
   [44/45; -56/15; 32/9];
   [19372/6561; -25360/2187; 64448/6561; -212/729];
   [9017/3168; -355/33; 46732/5247; 49/176; -5103/18656];
   [35/384; 11/84; 500/1113; 125/192; -2187/6784]].
Definition dp_c : list R := [1/5; 3/10; 4/5; IZR (Z.quot 8 9); 1; 1].
Definition odestep_dorpri45 (f : sysfun) (t0 dt : R) (x0 : vec) (k : nat -> vec) : kxx :=
  let k := steps14 f t0 dt x0 dp_a dp_c k in
  let k := fst (butcher f t0 dt x0 (nth 4 dp_c 0) 5 (row dp_a 4) k 1) in
  let b := butcher f t0 dt x0 (nth 5 dp_c 0) 5 (row dp_a 5) k 5 in
  (fst b, snd b, gemv 6 dt (fst b) [5179/57600; 187/2100; 7571/16695; 393/640; -92097/339200; 1/40] x0).

(** aa_odestep_rkbs23, sigsys.c 539-572 *)
Definition odestep_rkbs23 (f : sysfun) (t0 dt : R) (x0 : vec) (k : nat -> vec) : kxx :=
  let x2 := fun r => x0 r + dt/2 * k 0%nat r in
  let k := setcol k 1 (f (t0 + dt/2) x2) in
  let x2 := fun r => x0 r + 3*dt/4 * k 1%nat r in
  let k := setcol k 2 (f (t0 + 3*dt/4) x2) in
  let b := butcher f t0 dt x0 1 3 [2/9; 1/3; 4/9] k 3 in
  (fst b, snd b, gemv 4 dt (fst b) [7/24; 1/4; 1/3; 1/8] x0).

(** enum aa_ode_integrator, include/amino/math.h 811-826, split by the switch of aa_ode_sol, sigsys.c 606-632 *)
Inductive fixed_method := RK1 | RK2 | RK4.
Inductive adaptive_method := RK45_F | RK45_CK | RK45_DP | RK23_BS.
Definition fixed_step (m : fixed_method) : sysfun -> R -> R -> vec -> vec :=
  match m with RK1 => odestep_rk1 | RK2 => odestep_rk2 | RK4 => odestep_rk4 end.
Definition adaptive_step (m : adaptive_method) : sysfun -> R -> R -> vec -> (nat -> vec) -> kxx :=
  match m with RK45_F => odestep_rkf45 | RK45_CK => odestep_rkck45 | RK45_DP => odestep_dorpri45 | RK23_BS => odestep_rkbs23 end.
Definition n_k (m : adaptive_method) : nat := match m with RK45_F => 5 | RK45_CK => 5 | RK45_DP => 6 | RK23_BS => 4 end.
(** struct aa_ode_sol_opts, include/amino/math.h 850-866 *)
Record sol_opts := { tol_dec : R; tol_inc : R; factor_dec : R; factor_inc : R }.

Section Solver.
(** the check function and its context: it may change the context and returns an int *)
Context {C : Type} (chk : C -> R -> vec -> vec -> C * Z) (n : nat) (f : sysfun).

(** aa_ode_sol with a fixed step, sigsys.c 677-701: the final state, what check returned, and the context;
    None when the loop is still running after fuel steps *)
Fixpoint sol_fixed (fuel : nat) (step : sysfun -> R -> R -> vec -> vec) (t dt : R) (px0 : vec) (cx : C) : option (vec * Z * C) :=
  match fuel with
  | O => None
  | S k =>
      let px1 := step f t dt px0 in
      let t := t + dt in
      let y := f t px1 in
      let '(cx, r) := chk cx t px1 y in
      if Z.eqb r 0 then sol_fixed k step t dt px1 cx else Some (px1, r, cx)
  end.

(** aa_ode_sol with an adaptive step, sigsys.c 639-676; one unit of fuel per call of the integrator.
    aa_la_ssd is the sum of squared differences (src/la.c 77-79) *)
Fixpoint sol_adaptive (fuel : nat) (m : adaptive_method) (opts : sol_opts) (t dt : R) (px0 : vec) (k : nat -> vec) (cx : C)
  : option (vec * Z * C) :=
  match fuel with
  | O => None
  | S fuel' =>
      let r := adaptive_step m f t dt px0 k in
      let k := k_of r in
      let err := bsum n (fun i => (x_lo r i - x_hi r i) * (x_lo r i - x_hi r i)) in
      if Rlt_b (tol_dec opts) err
      then sol_adaptive fuel' m opts t (dt * factor_dec opts) px0 k cx
      else
        let dt := if Rlt_b err (tol_inc opts) then dt * factor_inc opts else dt in
        let kn := k (n_k m - 1)%nat in
        let '(cx, c) := chk cx t (x_hi r) kn in
        if Z.eqb c 0 then sol_adaptive fuel' m opts t dt (x_hi r) (setcol k 0 kn) cx
        else Some (x_hi r, c, cx)
  end.

(** aa_ode_sol, sigsys.c 590-708: final state and return value *)
Definition ret (r : Z) : Z := if Z.ltb 0 r then 0%Z else r.
Definition ode_sol (fuel : nat) (m : fixed_method + adaptive_method) (opts : sol_opts) (t0 dt0 : R) (x0 : vec) (cx : C)
  : option (vec * Z * C) :=
  match (match m with
         | inl m => sol_fixed fuel (fixed_step m) t0 dt0 x0 cx
         | inr m => sol_adaptive fuel m opts t0 dt0 x0 (fun _ => f t0 x0) cx
         end) with
  | Some (x1, r, cx) => Some (x1, ret r, cx)
  | None => None
  end.
End Solver.

(** ode_path_check, sigsys.c 722-729: the context also holds the list of points *)
Definition path_chk {C} (chk : C -> R -> vec -> vec -> C * Z) (cx : C * list vec) (t : R) (x y : vec) : (C * list vec) * Z :=
  let '(c, r) := chk (fst cx) t x y in ((c, snd cx ++ [x]), r).
(** aa_ode_path, sigsys.c 731-780: the points, the return value, the context *)
Definition ode_path {C} (chk : C -> R -> vec -> vec -> C * Z) (n : nat) (f : sysfun) (fuel : nat)
  (m : fixed_method + adaptive_method) (opts : sol_opts) (t0 dt0 : R) (x0 : vec) (cx : C) : option (list vec * Z * C) :=
  match ode_sol (path_chk chk) n f fuel m opts t0 dt0 x0 (cx, [x0]) with
  | Some (_, r, (c, path)) => Some (path, r, c)
  | None => None
  end.

(** aa_de_grad_fd, diffeq.c 41-68: y is the array behind the result vector, inc its increment *)
Definition upd1 (y : vec) (a : nat) (v : R) : vec := fun b => if Nat.eqb b a then v else y b.
Definition de_grad_fd (n : nat) (fn : vec -> R) (x : vec) (eps : R) (y : vec) (inc : nat) : vec :=
  let '(y, _, _) :=
    fold_left (fun '(y, p, m) i =>
      let orig := p i in
      let p1 := upd1 p i (p i + eps) in
      let m1 := upd1 m i (m i - eps) in
      let y := upd1 y (i * inc) ((fn p1 - fn m1) / (2 * eps)) in
      (y, upd1 p1 i orig, upd1 m1 i orig)) (seq 0 n) (y, x, x) in y.
(** aa_de_jac_fd, diffeq.c 71-105: J is the array behind the m by n result with leading dimension ld;
    a vector field fills the vector it is given *)
Definition de_jac_fd (m n : nat) (fn : vec -> vec) (x : vec) (eps : R) (J : vec) (ld : nat) : vec :=
  let '(J, _, _) :=
    fold_left (fun '(J, p, mv) j =>
      let orig := p j in
      let p1 := upd1 p j (p j + eps) in
      let m1 := upd1 mv j (mv j - eps) in
      let jtmp := fn m1 in
      let J := fold_left (fun J i => upd1 J (j * ld + i) (fn p1 i)) (seq 0 m) J in
      let J := fold_left (fun J i => upd1 J (j * ld + i) (J (j * ld + i)%nat + -1 * jtmp i)) (seq 0 m) J in
      let J := fold_left (fun J i => upd1 J (j * ld + i) (1 / (2 * eps) * J (j * ld + i)%nat)) (seq 0 m) J in
      (J, upd1 p1 j orig, upd1 m1 j orig)) (seq 0 n) (J, x, x) in J.
