(** The statements of Properties_Rk assembled from the lemmas. *)
From Coq Require Import Reals List ZArith Arith Lra Lia.
From Verif Require Import MatModel TrModel RkModel RkSpec RkProofs RkOrder RkTree RkSol.
Import ListNotations.
Open Scope R_scope.

Lemma c39_fixed_steps : forall n f t0 dt x0, of_dim n f ->
  rk_step euler_T euler_b n f t0 dt x0 (odestep_rk1 f t0 dt x0) /\
  rk_step heun_T heun_b n f t0 dt x0 (odestep_rk2 f t0 dt x0) /\
  rk_step rk4_T rk4_b n f t0 dt x0 (odestep_rk4 f t0 dt x0).
Proof. intros. split; [apply rk1_step|split; [apply rk2_step|apply rk4_step]]; assumption. Qed.
Lemma c39_fehlberg : forall n f t0 dt x0 k, of_dim n f -> agree n (k 0%nat) (f t0 x0) ->
  let r := odestep_rkf45 f t0 dt x0 k in
  rk_step rkf_T rkf_b4 n f t0 dt x0 (x_lo r) /\ rk_step rkf_T rkf_b5 n f t0 dt x0 (x_hi r).
Proof. intros n f t0 dt x0 k Hf Hk r. pose proof (rkf_step n f t0 dt x0 k Hf Hk) as S. cbv zeta in S. unfold r. split; apply S. Qed.
Lemma c39_cash_karp : forall n f t0 dt x0 k, of_dim n f -> agree n (k 0%nat) (f t0 x0) ->
  rk_step ck_T ck_b5 n f t0 dt x0 (x_lo (odestep_rkck45 f t0 dt x0 k)).
Proof. intros n f t0 dt x0 k Hf Hk. pose proof (ck_step n f t0 dt x0 k Hf Hk) as S. cbv zeta in S. apply S. Qed.
Lemma c39_dormand_prince : forall n f t0 dt x0 k, of_dim n f ->
  (forall t t' x i, (i < n)%nat -> f t x i = f t' x i) -> agree n (k 0%nat) (f t0 x0) ->
  let r := odestep_dorpri45 f t0 dt x0 k in
  rk_step dp_T dp_b5 n f t0 dt x0 (x_lo r) /\ rk_step dp_T dp_b4 n f t0 dt x0 (x_hi r).
Proof. intros n f t0 dt x0 k Hf Ha Hk r. pose proof (dp_step n f t0 dt x0 k Hf Hk Ha) as S. cbv zeta in S. unfold r. split; apply S. Qed.
Lemma c39_bogacki : forall n f t0 dt x0 k, of_dim n f -> agree n (k 0%nat) (f t0 x0) ->
  let r := odestep_rkbs23 f t0 dt x0 k in
  rk_step bs_T bs_b3 n f t0 dt x0 (x_lo r) /\ rk_step bs_T bs_b2 n f t0 dt x0 (x_hi r).
Proof. intros n f t0 dt x0 k Hf Hk r. pose proof (bs_step n f t0 dt x0 k Hf Hk) as S. cbv zeta in S. unfold r. split; apply S. Qed.

Lemma c39_orders :
  has_order 1 euler_T euler_b /\ has_order 2 heun_T heun_b /\ has_order 4 rk4_T rk4_b /\
  has_order 4 rkf_T rkf_b4 /\ has_order 5 rkf_T rkf_b5 /\
  has_order 5 ck_T ck_b5 /\ has_order 4 ck_T ck_b4 /\
  has_order 5 dp_T dp_b5 /\ has_order 4 dp_T dp_b4 /\
  has_order 3 bs_T bs_b3 /\ has_order 2 bs_T bs_b2.
Proof.
  exact (conj euler_order (conj heun_order (conj rk4_order (conj rkf4_order (conj rkf5_order (conj ck5_order (conj ck4_order
        (conj dp5_order (conj dp4_order (conj bs3_order bs2_order)))))))))).
Qed.

Lemma c39_polynomials : forall n f t0 dt x0 k v (x : R -> vec),
  (forall t y r, (r < n)%nat -> f t y r = poly (v r) t) -> moves_along n v x -> agree n x0 (x t0) -> agree n (k 0%nat) (f t0 x0) ->
  let short p := forall r, (r < n)%nat -> (length (v r) <= p)%nat in
  let exact x1 := agree n x1 (x (t0 + dt)) in
  (short 1%nat -> exact (odestep_rk1 f t0 dt x0)) /\
  (short 2%nat -> exact (odestep_rk2 f t0 dt x0)) /\
  (short 4%nat -> exact (odestep_rk4 f t0 dt x0)) /\
  (short 4%nat -> exact (x_lo (odestep_rkf45 f t0 dt x0 k))) /\
  (short 5%nat -> exact (x_hi (odestep_rkf45 f t0 dt x0 k))) /\
  (short 5%nat -> exact (x_lo (odestep_rkck45 f t0 dt x0 k))) /\
  (short 3%nat -> exact (x_lo (odestep_rkbs23 f t0 dt x0 k))) /\
  (short 2%nat -> exact (x_hi (odestep_rkbs23 f t0 dt x0 k))).
Proof.
  intros n f t0 dt x0 k v x Hf Hx H0 Hk short exact'.
  assert (D : of_dim n f) by (intros t y z _ i Hi; rewrite !Hf by exact Hi; reflexivity).
  destruct (c39_fixed_steps n f t0 dt x0 D) as [S1 [S2 S4]].
  destruct (c39_fehlberg n f t0 dt x0 k D Hk) as [F4 F5].
  pose proof (c39_cash_karp n f t0 dt x0 k D Hk) as CK.
  destruct (c39_bogacki n f t0 dt x0 k D Hk) as [B3 B2].
  repeat apply conj; intro Sh; unfold exact'.
  - exact (poly_exact 1 _ _ n f t0 dt x0 _ v x ltac:(lia) euler_quad Hf Sh Hx H0 S1).
  - exact (poly_exact 2 _ _ n f t0 dt x0 _ v x ltac:(lia) heun_quad Hf Sh Hx H0 S2).
  - exact (poly_exact 4 _ _ n f t0 dt x0 _ v x ltac:(lia) rk4_quad Hf Sh Hx H0 S4).
  - exact (poly_exact 4 _ _ n f t0 dt x0 _ v x ltac:(lia) rkf4_quad Hf Sh Hx H0 F4).
  - exact (poly_exact 5 _ _ n f t0 dt x0 _ v x ltac:(lia) rkf5_quad Hf Sh Hx H0 F5).
  - exact (poly_exact 5 _ _ n f t0 dt x0 _ v x ltac:(lia) ck5_quad Hf Sh Hx H0 CK).
  - exact (poly_exact 3 _ _ n f t0 dt x0 _ v x ltac:(lia) bs3_quad Hf Sh Hx H0 B3).
  - exact (poly_exact 2 _ _ n f t0 dt x0 _ v x ltac:(lia) bs2_quad Hf Sh Hx H0 B2).
Qed.

Lemma affine_indep : forall n (f : sysfun) A g, (forall t x r, (r < n)%nat -> f t x r = affine_rhs n A g x r) ->
  forall t t' x i, (i < n)%nat -> f t x i = f t' x i.
Proof. intros n f A g H t t' x i Hi. rewrite !H by exact Hi. reflexivity. Qed.

Lemma c39_affine : forall m : fixed_method + adaptive_method,
  let p1 := match m with inl RK1 => 1 | inl RK2 => 2 | inl RK4 => 4 | inr RK45_F => 4 | inr RK45_CK => 5 | inr RK45_DP => 5 | inr RK23_BS => 3 end%nat in
  let e1 := match m with inl _ => 0 | inr RK45_F => 2 | inr RK45_CK => 1 | inr RK45_DP => 2 | inr RK23_BS => 1 end%nat in
  exists w : nat -> R, forall n f A g t0 h x0 k, of_dim n f ->
    (forall t x r, (r < n)%nat -> f t x r = affine_rhs n A g x r) -> agree n (k 0%nat) (f t0 x0) ->
    agree n (match m with inl m => fixed_step m f t0 h x0 | inr m => x_lo (adaptive_step m f t0 h x0 k) end)
      (fun r => affine_taylor n p1 A g x0 h r +
         bsum e1 (fun q => w q * h ^ (p1 + q + 1) * mat_pow n A (p1 + q) (affine_rhs n A g x0) r)).
Proof.
  intros [[]|[]].
  - destruct (affine_order 1 euler_T _ (le_n 1) euler_stab) as [w W]. exists w. intros n f A g t0 h x0 k D Hf Hk.
    apply (W n f A g x0 t0 h _ Hf). apply (c39_fixed_steps n f t0 h x0 D).
  - destruct (affine_order 2 heun_T _ (le_n 2) heun_stab) as [w W]. exists w. intros n f A g t0 h x0 k D Hf Hk.
    apply (W n f A g x0 t0 h _ Hf). apply (c39_fixed_steps n f t0 h x0 D).
  - destruct (affine_order 4 rk4_T _ (le_n 4) rk4_stab) as [w W]. exists w. intros n f A g t0 h x0 k D Hf Hk.
    apply (W n f A g x0 t0 h _ Hf). apply (c39_fixed_steps n f t0 h x0 D).
  - destruct (affine_order 4 rkf_T _ ltac:(cbn; lia) rkf4_stab) as [w W]. exists w. intros n f A g t0 h x0 k D Hf Hk.
    apply (W n f A g x0 t0 h _ Hf). apply (c39_fehlberg n f t0 h x0 k D Hk).
  - destruct (affine_order 5 ck_T _ ltac:(cbn; lia) ck5_stab) as [w W]. exists w. intros n f A g t0 h x0 k D Hf Hk.
    apply (W n f A g x0 t0 h _ Hf). apply (c39_cash_karp n f t0 h x0 k D Hk).
  - destruct (affine_order 5 dp_T _ ltac:(cbn; lia) dp5_stab) as [w W]. exists w. intros n f A g t0 h x0 k D Hf Hk.
    apply (W n f A g x0 t0 h _ Hf). apply (c39_dormand_prince n f t0 h x0 k D (affine_indep n f A g Hf) Hk).
  - destruct (affine_order 3 bs_T _ ltac:(cbn; lia) bs3_stab) as [w W]. exists w. intros n f A g t0 h x0 k D Hf Hk.
    apply (W n f A g x0 t0 h _ Hf). apply (c39_bogacki n f t0 h x0 k D Hk).
Qed.

Lemma c39_lsim : forall m n dt (A B : nat -> R) x0 u,
  let A' := fun i j => A (i + m * j)%nat in
  let g := mat_vec n (fun i j => B (i + m * j)%nat) u in
  agree m (lsim_dstep m n A B x0 u) (affine_rhs m A' g x0) /\
  agree m (lsim_estep m n dt A B x0 u) (affine_taylor m 1 A' g x0 dt) /\
  agree m (lsim_rk4step m n dt A B x0 u) (affine_taylor m 4 A' g x0 dt).
Proof.
  intros m n dt A B x0 u A' g. split; [|split].
  - intros i Hi. reflexivity.
  - intros i Hi. unfold lsim_estep, affine_taylor. cbn [bsum mat_pow]. change (INR (fact (0 + 1))) with 1.
    change (lsim_dstep m n A B x0 u i) with (affine_rhs m A' g x0 i). cbn [pow plus]. field.
  - assert (D : of_dim m (lsim_sys m n A B u)).
    { intros t x y E i Hi. unfold lsim_sys, lsim_dstep. f_equal. apply bs_ext. intros j Hj. rewrite E by exact Hj. reflexivity. }
    destruct (c39_affine (inl RK4)) as [w W].
    intros i Hi. unfold lsim_rk4step. rewrite (W m (lsim_sys m n A B u) A' g 0 dt x0 (fun _ => lsim_sys m n A B u 0 x0) D); [|reflexivity| |exact Hi].
    + cbn [bsum]. ring.
    + intros j Hj. reflexivity.
Qed.

Lemma nz2 : forall dt, dt <> 0 -> forall c, c <> 0 -> c * dt^2 <> 0.
Proof. intros dt H c Hc. apply Rmult_integral_contrapositive_currified; [exact Hc|apply pow_nonzero, H]. Qed.

Lemma c39_dp_refuted : forall x0 t0 dt k, dt <> 0 -> agree 1 (k 0%nat) (tpow 1 t0 x0) ->
  let exact := x0 0%nat + (t0 * dt + dt^2/2) in
  x_lo (odestep_dorpri45 (tpow 1) t0 dt x0 k) 0%nat <> exact /\ x_hi (odestep_dorpri45 (tpow 1) t0 dt x0 k) 0%nat <> exact.
Proof.
  intros x0 t0 dt k H K e. rewrite (dp_clock _ _ _ _ K), (dp_clock_hi _ _ _ _ K). unfold e.
  pose proof (nz2 dt H ((2187*8) / (6784*9)) ltac:(lra)). pose proof (nz2 dt H ((92097*8) / (339200*9)) ltac:(lra)). split; lra.
Qed.
Lemma c39_ck_refuted : forall x0 t0 dt k, dt <> 0 -> agree 1 (k 0%nat) (tpow 1 t0 x0) ->
  x_hi (odestep_rkck45 (tpow 1) t0 dt x0 k) 0%nat <> x0 0%nat + (t0 * dt + dt^2/2).
Proof.
  intros x0 t0 dt k H K. rewrite (ck_clock _ _ _ _ K). pose proof (nz2 dt H ((1/4 - 277/14336) / 8) ltac:(lra)). lra.
Qed.
Lemma c39_order_refuted : forall x0 dt k k', dt <> 0 -> x0 0%nat = 0 ->
  agree 1 (k 0%nat) (tpow 2 0 x0) -> agree 2 (k' 0%nat) (clock4 0 x0) ->
  let bs := odestep_rkbs23 (tpow 2) 0 dt x0 k in
  let dp := odestep_dorpri45 clock4 0 dt x0 k' in
  (x_lo bs 0%nat = x0 0%nat + dt^3/3 /\ x_hi bs 0%nat <> x0 0%nat + dt^3/3) /\
  (x_lo dp 1%nat = x0 1%nat + dt^5/5 /\ x_hi dp 1%nat <> x0 1%nat + dt^5/5).
Proof.
  intros x0 dt k k' H Z K K' bs dp.
  assert (N : forall q, dt^q <> 0) by (intro; apply pow_nonzero, H). pose proof (N 3%nat). pose proof (N 5%nat).
  destruct (dp_quartic x0 0 dt k' Z K') as [P Q]. fold dp in P, Q. split; (split; [|]).
  - pose proof (K 0%nat (Nat.lt_0_succ 0)) as K0. unfold tpow in K0.
    unfold bs, x_lo, odestep_rkbs23. run. unfold gemv. run. rewrite K0. unfold tpow. field.
  - unfold bs. rewrite (bs_clock _ _ _ K). lra.
  - exact P.
  - rewrite Q. lra.
Qed.

Lemma c39_nonvacuous :
  of_dim 2 (fun t x i => match i with O => x 1%nat | _ => - x 0%nat + t end) /\
  moves_along 1 (fun _ => [1; 2]) (fun t _ => 5 + t + t^2) /\
  (vertices (Node [Node []; Node [Node []]]) = 4%nat /\ weight rk4_T rk4_b (Node [Node []; Node [Node []]]) = / 8).
Proof.
  split; [|split; [|split]].
  - intros t x y E [|i] Hi; [apply E; lia|rewrite E by lia; reflexivity].
  - intros r t _. apply (derivable_ext _ _ (0 + 1 + INR 2 * t ^ 1)); [cbn; ring|].
    apply (derivable_pt_lim_plus (fun t => 5 + t) (fun t => t^2)); [|apply derivable_pt_lim_pow].
    apply (derivable_pt_lim_plus (fun _ => 5) (fun t => t)); [apply derivable_pt_lim_const|apply derivable_pt_lim_id].
  - reflexivity.
  - unfold weight, rk4_T. cbn -[Rmult Rplus Rdiv Rinv IZR Ropp INR]. field.
Qed.

(** ** C77 *)
Lemma ode_sol_some : forall C (chk : C -> R -> vec -> vec -> C * Z) n f fuel m opts t0 dt x0 cx x1 rv cx',
  ode_sol chk n f fuel (inl m) opts t0 dt x0 cx = Some (x1, rv, cx') ->
  exists r, sol_fixed chk f fuel (fixed_step m) t0 dt x0 cx = Some (x1, r, cx') /\ rv = ret r.
Proof. intros. unfold ode_sol in H. destruct (sol_fixed _ _ _ _ _ _ _ _) as [[[a b] c]|]; [|discriminate]. inversion H; subst. exists b. split; reflexivity. Qed.
Lemma ode_sol_some_a : forall C (chk : C -> R -> vec -> vec -> C * Z) n f fuel m opts t0 dt x0 cx x1 rv cx',
  ode_sol chk n f fuel (inr m) opts t0 dt x0 cx = Some (x1, rv, cx') ->
  exists r, sol_adaptive chk n f fuel m opts t0 dt x0 (fun _ => f t0 x0) cx = Some (x1, r, cx') /\ rv = ret r.
Proof. intros. unfold ode_sol in H. destruct (sol_adaptive _ _ _ _ _ _ _ _ _ _ _) as [[[a b] c]|]; [|discriminate]. inversion H; subst. exists b. split; reflexivity. Qed.

Lemma c77_fixed_run : forall C (chk : C -> R -> vec -> vec -> C * Z) n f fuel m opts t0 dt x0 cx x1 rv cx',
  ode_sol chk n f fuel (inl m) opts t0 dt x0 cx = Some (x1, rv, cx') ->
  exists (N : nat) (x : nat -> vec) (r : Z),
    (1 <= N)%nat /\ x 0%nat = x0 /\ (forall i, x (S i) = fixed_step m f (t0 + INR i * dt) dt (x i)) /\
    checked chk cx (map (fun i => (t0 + INR i * dt, x i, f (t0 + INR i * dt) (x i))) (seq 1 N)) r cx' /\
    x1 = x N /\ rv = (if Z.ltb 0 r then 0 else r)%Z.
Proof.
  intros C chk n f fuel m opts t0 dt x0 cx x1 rv cx' H. destruct (ode_sol_some _ _ _ _ _ _ _ _ _ _ _ _ _ _ H) as [r [S E]].
  destruct (sol_fixed_run _ _ _ _ _ _ _ _ _ _ _ S) as [N [B [K X]]].
  exists N, (iter_steps f m dt t0 x0), r. split; [lia|]. split; [reflexivity|]. split; [reflexivity|]. split; [exact K|]. split; [exact X|exact E].
Qed.
Lemma c77_fixed_stops : forall C (chk : C -> R -> vec -> vec -> C * Z) n f m opts t0 dt (x : nat -> vec) cx N r cx',
  (forall i, x (S i) = fixed_step m f (t0 + INR i * dt) dt (x i)) ->
  checked chk cx (map (fun i => (t0 + INR i * dt, x i, f (t0 + INR i * dt) (x i))) (seq 1 N)) r cx' ->
  forall fuel, (N <= fuel)%nat ->
  ode_sol chk n f fuel (inl m) opts t0 dt (x 0%nat) cx = Some (x N, (if Z.ltb 0 r then 0 else r)%Z, cx').
Proof.
  intros C chk n f m opts t0 dt x cx N r cx' X K fuel L.
  assert (E : forall i, x i = iter_steps f m dt t0 (x 0%nat) i) by (induction i as [|i IH]; [reflexivity|rewrite X, IH at 1; reflexivity]).
  unfold ode_sol. rewrite (sol_fixed_stops chk f m dt N t0 (x 0%nat) cx r cx' fuel L); [rewrite <- E; reflexivity|].
  unfold calls. rewrite (map_ext _ (fun i => (t0 + INR i * dt, x i, f (t0 + INR i * dt) (x i)))); [exact K|].
  intro i. rewrite <- E. reflexivity.
Qed.
Lemma c77_fixed_path : forall C (chk : C -> R -> vec -> vec -> C * Z) n f fuel m opts t0 dt x0 cx path rv cx',
  ode_path chk n f fuel (inl m) opts t0 dt x0 cx = Some (path, rv, cx') ->
  exists (N : nat) (x : nat -> vec) (r : Z),
    (1 <= N)%nat /\ x 0%nat = x0 /\ (forall i, x (S i) = fixed_step m f (t0 + INR i * dt) dt (x i)) /\
    checked chk cx (map (fun i => (t0 + INR i * dt, x i, f (t0 + INR i * dt) (x i))) (seq 1 N)) r cx' /\
    path = map x (seq 0 (S N)) /\ rv = (if Z.ltb 0 r then 0 else r)%Z.
Proof.
  intros C chk n f fuel m opts t0 dt x0 cx path rv cx' H. unfold ode_path in H.
  destruct (ode_sol (path_chk chk) n f fuel (inl m) opts t0 dt x0 (cx, [x0])) as [[[x1 r1] [c p]]|] eqn:E; [|discriminate].
  inversion H; subst. destruct (c77_fixed_run _ _ _ _ _ _ _ _ _ _ _ _ _ _ E) as [N [x [r [A [B [D [K [X R]]]]]]]].
  exists N, x, r. destruct (path_checked _ _ _ _ _ _ _ K) as [K1 K2]. cbn [fst snd] in K1, K2.
  split; [exact A|]. split; [exact B|]. split; [exact D|]. split; [exact K1|]. split; [|exact R].
  rewrite K2, map_map. cbn [seq map app]. rewrite B. f_equal.
Qed.
Lemma last_default : forall A (q : list A) a d e, last (a :: q) d = last (a :: q) e.
Proof. induction q as [|b q IH]; intros; [reflexivity|]. change (last (b :: q) d = last (b :: q) e). apply IH. Qed.
Lemma c77_adaptive_run : forall C (chk : C -> R -> vec -> vec -> C * Z) n f fuel m opts t0 dt x0 cx x1 rv cx',
  ode_sol chk n f fuel (inr m) opts t0 dt x0 cx = Some (x1, rv, cx') ->
  exists (l : list call) (r : Z),
    checked chk cx l r cx' /\ rv = (if Z.ltb 0 r then 0 else r)%Z /\
    let pts := x0 :: map (fun c => snd (fst c)) l in
    last pts x0 = x1 /\
    forall i, (i < length l)%nat -> exists h k,
      let s := adaptive_step m f t0 h (nth i pts x0) k in
      nth (S i) pts x0 = x_hi s /\ bsum n (fun j => (x_lo s j - x_hi s j) * (x_lo s j - x_hi s j)) <= tol_dec opts.
Proof.
  intros C chk n f fuel m opts t0 dt x0 cx x1 rv cx' H. destruct (ode_sol_some_a _ _ _ _ _ _ _ _ _ _ _ _ _ _ H) as [r [S E]].
  destruct (adaptive_chain _ _ _ _ _ _ _ _ _ _ _ _ _ _ S) as [l [A [B D]]].
  exists l, r. split; [exact A|]. split; [exact E|]. cbv zeta. split; [|exact D].
  destruct l as [|c l]; [inversion A|]. rewrite <- B. clear.
  cbn [map]. apply (last_default _ (map (fun c => snd (fst c)) l) (snd (fst c)) x0 x1).
Qed.

Lemma step_k0 : forall m f t h x k k', k 0%nat = k' 0%nat ->
  (forall c, x_lo (adaptive_step m f t h x k) c = x_lo (adaptive_step m f t h x k') c) /\
  (forall c, x_hi (adaptive_step m f t h x k) c = x_hi (adaptive_step m f t h x k') c).
Proof.
  intros m f t h x k k' E. destruct m; unfold adaptive_step, x_lo, x_hi, odestep_rkf45, odestep_rkck45, odestep_dorpri45, odestep_rkbs23;
    (split; [|]); intro c; run; unfold gemv; run; rewrite E; reflexivity.
Qed.

Lemma c77_first_point : forall C (chk : C -> R -> vec -> vec -> C * Z) n f fuel m opts t0 dt x0 cx x1 rv cx',
  ode_sol chk n f fuel (inr m) opts t0 dt x0 cx = Some (x1, rv, cx') ->
  exists j, let step i := adaptive_step m f t0 (dt * factor_dec opts ^ i) x0 (fun _ => f t0 x0) in
    let err i := bsum n (fun c => (x_lo (step i) c - x_hi (step i) c) * (x_lo (step i) c - x_hi (step i) c)) in
    (forall i, (i < j)%nat -> tol_dec opts < err i) /\ err j <= tol_dec opts /\
    exists y l r x', (forall c, x' c = x_hi (step j) c) /\ checked chk cx ((t0, x', y) :: l) r cx'.
Proof.
  intros C chk n f fuel m opts t0 dt x0 cx x1 rv cx' H. destruct (ode_sol_some_a _ _ _ _ _ _ _ _ _ _ _ _ _ _ H) as [r [S E]].
  destruct (adaptive_first _ _ _ _ _ _ _ _ _ _ _ _ _ _ S) as [j [k1 [K [A [B [y [l D]]]]]]].
  exists j. cbv zeta in *. split; [|split].
  - intros i Hi. destruct (A i Hi) as [k2 [K2 L]]. eapply Rlt_le_trans; [exact L|]. right. unfold ssd. apply bs_ext. intros c Hc.
    destruct (step_k0 m f t0 (dt * factor_dec opts ^ i) x0 k2 (fun _ => f t0 x0) K2) as [P Q]. rewrite P, Q. reflexivity.
  - eapply Rle_trans; [|exact B]. right. unfold ssd. apply bs_ext. intros c Hc.
    destruct (step_k0 m f t0 (dt * factor_dec opts ^ j) x0 k1 (fun _ => f t0 x0) K) as [P Q]. rewrite P, Q. reflexivity.
  - exists y, l, r, (x_hi (adaptive_step m f t0 (dt * factor_dec opts ^ j) x0 k1)). split; [|exact D].
    apply (step_k0 m f t0 (dt * factor_dec opts ^ j) x0 k1 (fun _ => f t0 x0) K).
Qed.
Lemma c77_time_refuted : forall C (chk : C -> R -> vec -> vec -> C * Z) n f m opts t0 dt x0 cx,
  (forall c x y, snd (chk c t0 x y) = 0%Z) -> forall fuel, ode_sol chk n f fuel (inr m) opts t0 dt x0 cx = None.
Proof. intros. unfold ode_sol. rewrite (adaptive_endless chk n f t0) by assumption. reflexivity. Qed.
Lemma c77_nonvacuous : exists x1,
  ode_sol twice 1 grow 5 (inl RK4) loose 0 1 (fun _ => 1) 0%nat = Some (x1, 0%Z, 2%nat) /\ x1 0%nat = (65/24) * (65/24).
Proof.
  unfold ode_sol. cbn [sol_fixed fixed_step twice Z.eqb]. eexists. split; [reflexivity|].
  unfold odestep_rk4. run. unfold gemv. run. unfold grow, odestep_euler. run. field.
Qed.

(** ** C78 *)
Lemma c78_limit : forall n fn x i d, (i < n)%nat -> derivable_pt_lim (fun h => fn (shift x i h)) 0 d ->
  forall e, 0 < e -> exists delta : posreal, forall eps y, eps <> 0 -> Rabs eps < delta ->
    Rabs (de_grad_fd n fn x eps y 1 i - d) < e.
Proof.
  intros n fn x i d Hi D e He. destruct (central_limit fn x i d D e He) as [delta P]. exists delta. intros eps y N L.
  destruct (grad_fd n fn x eps y 1 (le_n 1)) as [G _]. pose proof (G i Hi) as Gi. rewrite Nat.mul_1_r in Gi. rewrite Gi. apply P; assumption.
Qed.
Lemma c78_quadratic : forall n fn x i a b c, (i < n)%nat -> (forall h, fn (shift x i h) = a + b * h + c * h * h) ->
  forall eps y, eps <> 0 -> de_grad_fd n fn x eps y 1 i = b /\ derivable_pt_lim (fun h => fn (shift x i h)) 0 b.
Proof.
  intros n fn x i a b c Hi H eps y N.
  destruct (grad_fd n fn x eps y 1 (le_n 1)) as [G _]. pose proof (G i Hi) as Gi. rewrite Nat.mul_1_r in Gi. rewrite Gi.
  apply (central_quadratic fn x i a b c H eps N).
Qed.
Lemma c78_nonvacuous : de_grad_fd 2 (fun x => x 0%nat * x 0%nat + 3 * x 1%nat) (fun i => INR i + 1) (1/10) (fun _ => 7) 2 2%nat = 3 /\
  de_grad_fd 2 (fun x => x 0%nat * x 0%nat + 3 * x 1%nat) (fun i => INR i + 1) (1/10) (fun _ => 7) 2 1%nat = 7.
Proof.
  destruct (grad_fd 2 (fun x => x 0%nat * x 0%nat + 3 * x 1%nat) (fun i => INR i + 1) (1/10) (fun _ => 7) 2 ltac:(lia)) as [A B]. split.
  - pose proof (A 1%nat ltac:(lia)) as E. cbn [Nat.mul Nat.add] in E. rewrite E. unfold central, shift. cbn. field.
  - apply B. intros i Hi. lia.
Qed.
