(** C39, C77, C78: integration steps, the differential equation solver and finite differences. *)
From Coq Require Import Reals List ZArith Arith Lra Lia.
From Verif Require Import MatModel TrModel RkModel RkSpec RkProofs RkOrder RkTree RkSol RkFinal.
Import ListNotations.
Open Scope R_scope.

(** ** C39 *)
(** The fixed steps are the methods of Euler, Heun and Runge-Kutta, for every right-hand side *)
Theorem C39_fixed_steps : forall n f t0 dt x0, of_dim n f ->
  rk_step euler_T euler_b n f t0 dt x0 (odestep_rk1 f t0 dt x0) /\
  rk_step heun_T heun_b n f t0 dt x0 (odestep_rk2 f t0 dt x0) /\
  rk_step rk4_T rk4_b n f t0 dt x0 (odestep_rk4 f t0 dt x0).
Proof. exact c39_fixed_steps. Qed.
Print Assumptions C39_fixed_steps.

(** Fehlberg's step: both outputs; the caller supplies the derivative at the start in column 0 of k *)
Theorem C39_fehlberg_step : forall n f t0 dt x0 k, of_dim n f -> agree n (k 0%nat) (f t0 x0) ->
  let r := odestep_rkf45 f t0 dt x0 k in
  rk_step rkf_T rkf_b4 n f t0 dt x0 (x_lo r) /\ rk_step rkf_T rkf_b5 n f t0 dt x0 (x_hi r).
Proof. exact c39_fehlberg. Qed.
Print Assumptions C39_fehlberg_step.

(** The first output of the Cash-Karp step *)
Theorem C39_cash_karp_step_partial : forall n f t0 dt x0 k, of_dim n f -> agree n (k 0%nat) (f t0 x0) ->
  rk_step ck_T ck_b5 n f t0 dt x0 (x_lo (odestep_rkck45 f t0 dt x0 k)).
Proof. exact c39_cash_karp. Qed.
Print Assumptions C39_cash_karp_step_partial.

(** Both outputs of the Dormand-Prince step, when the right-hand side does not depend on the time *)
Theorem C39_dormand_prince_step_partial : forall n f t0 dt x0 k, of_dim n f ->
  (forall t t' x i, (i < n)%nat -> f t x i = f t' x i) -> agree n (k 0%nat) (f t0 x0) ->
  let r := odestep_dorpri45 f t0 dt x0 k in
  rk_step dp_T dp_b5 n f t0 dt x0 (x_lo r) /\ rk_step dp_T dp_b4 n f t0 dt x0 (x_hi r).
Proof. exact c39_dormand_prince. Qed.
Print Assumptions C39_dormand_prince_step_partial.

(** Both outputs of the Bogacki-Shampine step *)
Theorem C39_bogacki_shampine_step : forall n f t0 dt x0 k, of_dim n f -> agree n (k 0%nat) (f t0 x0) ->
  let r := odestep_rkbs23 f t0 dt x0 k in
  rk_step bs_T bs_b3 n f t0 dt x0 (x_lo r) /\ rk_step bs_T bs_b2 n f t0 dt x0 (x_hi r).
Proof. exact c39_bogacki. Qed.
Print Assumptions C39_bogacki_shampine_step.

(** The tableaux satisfy all of Butcher's conditions for their order *)
Theorem C39_orders :
  has_order 1 euler_T euler_b /\ has_order 2 heun_T heun_b /\ has_order 4 rk4_T rk4_b /\
  has_order 4 rkf_T rkf_b4 /\ has_order 5 rkf_T rkf_b5 /\
  has_order 5 ck_T ck_b5 /\ has_order 4 ck_T ck_b4 /\
  has_order 5 dp_T dp_b5 /\ has_order 4 dp_T dp_b4 /\
  has_order 3 bs_T bs_b3 /\ has_order 2 bs_T bs_b2.
Proof. exact c39_orders. Qed.
Print Assumptions C39_orders.

(** On a right-hand side whose components are polynomials of the time with at most p coefficients, p the order,
    the step ends on the exact motion *)
Theorem C39_polynomials : forall n f t0 dt x0 k v (x : R -> vec),
  (forall t y r, (r < n)%nat -> f t y r = poly (v r) t) -> moves_along n v x -> agree n x0 (x t0) -> agree n (k 0%nat) (f t0 x0) ->
  let short p := forall r, (r < n)%nat -> (length (v r) <= p)%nat in
  let exact x1 := agree n x1 (x (t0 + dt)) in
  (short 1%nat -> exact (odestep_rk1 f t0 dt x0)) /\
  (short 2%nat -> exact (odestep_rk2 f t0 dt x0)) /\
  (short 4%nat -> exact (odestep_rk4 f t0 dt x0)) /\
  (short 4%nat -> exact (x_lo (odestep_rkf45 f t0 dt x0 k))) /\
  (short 5%nat -> exact (x_hi (odestep_rkf45 f t0 dt x0 k))) /\
  (short 5%nat -> exact (x_lo (odestep_rkck45 f t0 dt x0 k))) /\
  (short 3%nat -> exact (x_lo (odestep_rkbs23 f t0 dt x0 k))) /\
  (short 2%nat -> exact (x_hi (odestep_rkbs23 f t0 dt x0 k))).
Proof. exact c39_polynomials. Qed.
Print Assumptions C39_polynomials.

(** On x' = A x + g the steps are the Taylor polynomials of the motion up to their order, plus terms of higher order
    whose coefficients depend on the method only *)
Theorem C39_affine : forall m : fixed_method + adaptive_method,
  let p1 := match m with inl RK1 => 1 | inl RK2 => 2 | inl RK4 => 4 | inr RK45_F => 4 | inr RK45_CK => 5 | inr RK45_DP => 5 | inr RK23_BS => 3 end%nat in
  let e1 := match m with inl _ => 0 | inr RK45_F => 2 | inr RK45_CK => 1 | inr RK45_DP => 2 | inr RK23_BS => 1 end%nat in
  exists w : nat -> R, forall n f A g t0 h x0 k, of_dim n f ->
    (forall t x r, (r < n)%nat -> f t x r = affine_rhs n A g x r) -> agree n (k 0%nat) (f t0 x0) ->
    agree n (match m with inl m => fixed_step m f t0 h x0 | inr m => x_lo (adaptive_step m f t0 h x0 k) end)
      (fun r => affine_taylor n p1 A g x0 h r +
         bsum e1 (fun q => w q * h ^ (p1 + q + 1) * mat_pow n A (p1 + q) (affine_rhs n A g x0) r)).
Proof. exact c39_affine. Qed.
Print Assumptions C39_affine.

(** aa_lsim_rk4step takes x' = A x + B u to the Taylor polynomial of degree four, and aa_lsim_estep to that of degree one *)
Theorem C39_linear_simulation : forall m n dt (A B : nat -> R) x0 u,
  let A' := fun i j => A (i + m * j)%nat in
  let g := mat_vec n (fun i j => B (i + m * j)%nat) u in
  agree m (lsim_dstep m n A B x0 u) (affine_rhs m A' g x0) /\
  agree m (lsim_estep m n dt A B x0 u) (affine_taylor m 1 A' g x0 dt) /\
  agree m (lsim_rk4step m n dt A B x0 u) (affine_taylor m 4 A' g x0 dt).
Proof. exact c39_lsim. Qed.
Print Assumptions C39_linear_simulation.

(** VIOLATED: x' = t is a polynomial of degree one, yet neither output of the Dormand-Prince step is exact on it, for
    any start and any step: the node 8/9 is an integer quotient *)
Theorem C39_dormand_prince_refuted : forall x0 t0 dt k, dt <> 0 -> agree 1 (k 0%nat) (tpow 1 t0 x0) ->
  let exact := x0 0%nat + (t0 * dt + dt^2/2) in
  x_lo (odestep_dorpri45 (tpow 1) t0 dt x0 k) 0%nat <> exact /\ x_hi (odestep_dorpri45 (tpow 1) t0 dt x0 k) 0%nat <> exact.
Proof. exact c39_dp_refuted. Qed.
Print Assumptions C39_dormand_prince_refuted.

(** VIOLATED: the second output of the Cash-Karp step is not even exact on x' = t: two weights are exchanged *)
Theorem C39_cash_karp_refuted : forall x0 t0 dt k, dt <> 0 -> agree 1 (k 0%nat) (tpow 1 t0 x0) ->
  x_hi (odestep_rkck45 (tpow 1) t0 dt x0 k) 0%nat <> x0 0%nat + (t0 * dt + dt^2/2).
Proof. exact c39_ck_refuted. Qed.
Print Assumptions C39_cash_karp_refuted.

(** VIOLATED: the second output is documented as the one of higher order.  For Bogacki-Shampine (x' = t^2) and for
    Dormand-Prince (s' = 1, y' = s^4) the first output is exact and the second is not *)
Theorem C39_output_order_refuted : forall x0 dt k k', dt <> 0 -> x0 0%nat = 0 ->
  agree 1 (k 0%nat) (tpow 2 0 x0) -> agree 2 (k' 0%nat) (clock4 0 x0) ->
  let bs := odestep_rkbs23 (tpow 2) 0 dt x0 k in
  let dp := odestep_dorpri45 clock4 0 dt x0 k' in
  (x_lo bs 0%nat = x0 0%nat + dt^3/3 /\ x_hi bs 0%nat <> x0 0%nat + dt^3/3) /\
  (x_lo dp 1%nat = x0 1%nat + dt^5/5 /\ x_hi dp 1%nat <> x0 1%nat + dt^5/5).
Proof. exact c39_order_refuted. Qed.
Print Assumptions C39_output_order_refuted.

Example C39_nonvacuous :
  of_dim 2 (fun t x i => match i with O => x 1%nat | _ => - x 0%nat + t end) /\
  moves_along 1 (fun _ => [1; 2]) (fun t _ => 5 + t + t^2) /\
  (vertices (Node [Node []; Node [Node []]]) = 4%nat /\ weight rk4_T rk4_b (Node [Node []; Node [Node []]]) = / 8).
Proof. exact c39_nonvacuous. Qed.

(** ** C77 *)
(** A fixed-step run that returns: check was called once per step, with the time t0 + i dt, the i-th iterate of the
    step and the derivative there; it answered 0 until the last call; the state returned is the last iterate, and the
    return value is 0 when the last answer is positive and the answer itself otherwise *)
Theorem C77_fixed_run : forall C (chk : C -> R -> vec -> vec -> C * Z) n f fuel m opts t0 dt x0 cx x1 rv cx',
  ode_sol chk n f fuel (inl m) opts t0 dt x0 cx = Some (x1, rv, cx') ->
  exists (N : nat) (x : nat -> vec) (r : Z),
    (1 <= N)%nat /\ x 0%nat = x0 /\ (forall i, x (S i) = fixed_step m f (t0 + INR i * dt) dt (x i)) /\
    checked chk cx (map (fun i => (t0 + INR i * dt, x i, f (t0 + INR i * dt) (x i))) (seq 1 N)) r cx' /\
    x1 = x N /\ rv = (if Z.ltb 0 r then 0 else r)%Z.
Proof. exact c77_fixed_run. Qed.
Print Assumptions C77_fixed_run.

(** and it returns whenever check stops it at some iterate *)
Theorem C77_fixed_stops : forall C (chk : C -> R -> vec -> vec -> C * Z) n f m opts t0 dt (x : nat -> vec) cx N r cx',
  (forall i, x (S i) = fixed_step m f (t0 + INR i * dt) dt (x i)) ->
  checked chk cx (map (fun i => (t0 + INR i * dt, x i, f (t0 + INR i * dt) (x i))) (seq 1 N)) r cx' ->
  forall fuel, (N <= fuel)%nat ->
  ode_sol chk n f fuel (inl m) opts t0 dt (x 0%nat) cx = Some (x N, (if Z.ltb 0 r then 0 else r)%Z, cx').
Proof. exact c77_fixed_stops. Qed.
Print Assumptions C77_fixed_stops.

(** aa_ode_path with a fixed step returns the start and all the iterates given to check, in order *)
Theorem C77_fixed_path : forall C (chk : C -> R -> vec -> vec -> C * Z) n f fuel m opts t0 dt x0 cx path rv cx',
  ode_path chk n f fuel (inl m) opts t0 dt x0 cx = Some (path, rv, cx') ->
  exists (N : nat) (x : nat -> vec) (r : Z),
    (1 <= N)%nat /\ x 0%nat = x0 /\ (forall i, x (S i) = fixed_step m f (t0 + INR i * dt) dt (x i)) /\
    checked chk cx (map (fun i => (t0 + INR i * dt, x i, f (t0 + INR i * dt) (x i))) (seq 1 N)) r cx' /\
    path = map x (seq 0 (S N)) /\ rv = (if Z.ltb 0 r then 0 else r)%Z.
Proof. exact c77_fixed_path. Qed.
Print Assumptions C77_fixed_path.

(** An adaptive run that returns: every point given to check is the second output of an embedded step from the point
    before whose two outputs differ by at most the tolerance, and the last one is the state returned.  Missing: these
    steps start at t0 and from a stale derivative, see the refutations below *)
Theorem C77_adaptive_run_partial : forall C (chk : C -> R -> vec -> vec -> C * Z) n f fuel m opts t0 dt x0 cx x1 rv cx',
  ode_sol chk n f fuel (inr m) opts t0 dt x0 cx = Some (x1, rv, cx') ->
  exists (l : list call) (r : Z),
    checked chk cx l r cx' /\ rv = (if Z.ltb 0 r then 0 else r)%Z /\
    let pts := x0 :: map (fun c => snd (fst c)) l in
    last pts x0 = x1 /\
    forall i, (i < length l)%nat -> exists h k,
      let s := adaptive_step m f t0 h (nth i pts x0) k in
      nth (S i) pts x0 = x_hi s /\ bsum n (fun j => (x_lo s j - x_hi s j) * (x_lo s j - x_hi s j)) <= tol_dec opts.
Proof. exact c77_adaptive_run. Qed.
Print Assumptions C77_adaptive_run_partial.

(** The first point is a step of the method from x0 with the derivative at x0, for the first of the sizes dt, dt q,
    dt q^2, ... whose outputs are within the tolerance *)
Theorem C77_adaptive_first_point : forall C (chk : C -> R -> vec -> vec -> C * Z) n f fuel m opts t0 dt x0 cx x1 rv cx',
  ode_sol chk n f fuel (inr m) opts t0 dt x0 cx = Some (x1, rv, cx') ->
  exists j, let step i := adaptive_step m f t0 (dt * factor_dec opts ^ i) x0 (fun _ => f t0 x0) in
    let err i := bsum n (fun c => (x_lo (step i) c - x_hi (step i) c) * (x_lo (step i) c - x_hi (step i) c)) in
    (forall i, (i < j)%nat -> tol_dec opts < err i) /\ err j <= tol_dec opts /\
    exists y l r x', (forall c, x' c = x_hi (step j) c) /\ checked chk cx ((t0, x', y) :: l) r cx'.
Proof. exact c77_first_point. Qed.
Print Assumptions C77_adaptive_first_point.

(** VIOLATED: in an adaptive run the time given to check is t0 every time, so a check that waits for a later time is
    never satisfied and the call does not return, whatever the system, the method and the options *)
Theorem C77_adaptive_time_refuted : forall C (chk : C -> R -> vec -> vec -> C * Z) n f m opts t0 dt x0 cx,
  (forall c x y, snd (chk c t0 x y) = 0%Z) -> forall fuel, ode_sol chk n f fuel (inr m) opts t0 dt x0 cx = None.
Proof. exact c77_time_refuted. Qed.
Print Assumptions C77_adaptive_time_refuted.

(** VIOLATED: with each of the four adaptive methods the second step of a run on x' = x is not the method's step from
    the point accepted first: the derivative it starts from belongs to another point *)
Theorem C77_adaptive_second_step_refuted : forall m,
  let f : sysfun := fun _ x => x in
  let chk := fun (c : nat) (t : R) (x y : vec) => (S c, match c with O => 0%Z | S _ => 1%Z end) in
  let opts := {| tol_dec := 1000000; tol_inc := 0; factor_dec := 1/2; factor_inc := 2 |} in
  let step := fun x => x_hi (adaptive_step m f 0 1 x (fun _ => f 0 x)) in
  exists x1, ode_sol chk 1 f 2 (inr m) opts 0 1 (fun _ => 1) 0%nat = Some (x1, 0%Z, 2%nat) /\
    x1 0%nat <> step (step (fun _ => 1)) 0%nat.
Proof. exact second_step_wrong. Qed.
Print Assumptions C77_adaptive_second_step_refuted.

Example C77_nonvacuous : exists x1,
  ode_sol twice 1 grow 5 (inl RK4) loose 0 1 (fun _ => 1) 0%nat = Some (x1, 0%Z, 2%nat) /\ x1 0%nat = (65/24) * (65/24).
Proof. exact c77_nonvacuous. Qed.

(** ** C78 *)
(** aa_de_grad_fd: entry i of the result is the central difference in direction i; no other memory changes *)
Theorem C78_gradient : forall n fn x eps y inc, (1 <= inc)%nat ->
  (forall i, (i < n)%nat -> de_grad_fd n fn x eps y inc (i * inc)%nat = (fn (shift x i eps) - fn (shift x i (- eps))) / (2 * eps)) /\
  (forall a, (forall i, (i < n)%nat -> a <> (i * inc)%nat) -> de_grad_fd n fn x eps y inc a = y a).
Proof. exact grad_fd. Qed.
Print Assumptions C78_gradient.

(** aa_de_jac_fd: the same for every component of a vector field, at row i and column j of the result *)
Theorem C78_jacobian : forall m n fn x eps J ld, (m <= ld)%nat ->
  (forall i j, (i < m)%nat -> (j < n)%nat ->
     de_jac_fd m n fn x eps J ld (j * ld + i)%nat = (fn (shift x j eps) i - fn (shift x j (- eps)) i) / (2 * eps)) /\
  (forall a, (forall i j, (i < m)%nat -> (j < n)%nat -> a <> (j * ld + i)%nat) -> de_jac_fd m n fn x eps J ld a = J a).
Proof. exact jac_fd. Qed.
Print Assumptions C78_jacobian.

(** as eps goes to zero the entries go to the partial derivatives *)
Theorem C78_limit : forall n fn x i d, (i < n)%nat -> derivable_pt_lim (fun h => fn (shift x i h)) 0 d ->
  forall e, 0 < e -> exists delta : posreal, forall eps y, eps <> 0 -> Rabs eps < delta ->
    Rabs (de_grad_fd n fn x eps y 1 i - d) < e.
Proof. exact c78_limit. Qed.
Print Assumptions C78_limit.

(** and they equal them for every eps when the function is quadratic along the axis *)
Theorem C78_quadratic : forall n fn x i a b c, (i < n)%nat -> (forall h, fn (shift x i h) = a + b * h + c * h * h) ->
  forall eps y, eps <> 0 -> de_grad_fd n fn x eps y 1 i = b /\ derivable_pt_lim (fun h => fn (shift x i h)) 0 b.
Proof. exact c78_quadratic. Qed.
Print Assumptions C78_quadratic.

Example C78_nonvacuous : de_grad_fd 2 (fun x => x 0%nat * x 0%nat + 3 * x 1%nat) (fun i => INR i + 1) (1/10) (fun _ => 7) 2 2%nat = 3 /\
  de_grad_fd 2 (fun x => x 0%nat * x 0%nat + 3 * x 1%nat) (fun i => INR i + 1) (1/10) (fun _ => 7) 2 1%nat = 7.
Proof. exact c78_nonvacuous. Qed.
