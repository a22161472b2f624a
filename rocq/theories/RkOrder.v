(** What a tableau does on polynomial and on affine right-hand sides. *)
From Coq Require Import Reals List ZArith Arith Lra Lia.
From Verif Require Import MatModel TrModel RkModel RkSpec TfScrewProofs RkProofs.
Import ListNotations.
Open Scope R_scope.

Lemma bs_ext : forall n f g, (forall i, (i < n)%nat -> f i = g i) -> bsum n f = bsum n g.
Proof. induction n as [|n IH]; intros f g H; cbn [bsum]; [reflexivity|]. rewrite (IH f g) by (intros; apply H; lia). rewrite H by lia. reflexivity. Qed.
Lemma bs_plus : forall n f g, bsum n (fun i => f i + g i) = bsum n f + bsum n g.
Proof. induction n as [|n IH]; intros; cbn [bsum]; [lra|]. rewrite IH. lra. Qed.
Lemma bs_scal : forall n c f, bsum n (fun i => c * f i) = c * bsum n f.
Proof. induction n as [|n IH]; intros; cbn [bsum]; [lra|]. rewrite IH. lra. Qed.
Lemma bs_zero : forall n, bsum n (fun _ => 0) = 0.
Proof. induction n as [|n IH]; cbn [bsum]; [lra|]. rewrite IH. lra. Qed.
Lemma bs_swap : forall n m f, bsum n (fun i => bsum m (fun j => f i j)) = bsum m (fun j => bsum n (fun i => f i j)).
Proof.
  induction n as [|n IH]; intros m f; cbn [bsum]; [symmetry; apply bs_zero|]. rewrite IH, <- bs_plus. reflexivity.
Qed.
Lemma bs_shift : forall n f, bsum (S n) f = f 0%nat + bsum n (fun i => f (S i)).
Proof. induction n as [|n IH]; intros f; [cbn [bsum]; lra|]. change (bsum (S (S n)) f) with (bsum (S n) f + f (S n)). rewrite IH. cbn [bsum]. lra. Qed.

(** ** right-hand sides that are polynomials of the time *)
Definition node (T : tableau) (i : nat) : R := fst (nth i T (0, [])).
(** the weights integrate t^q exactly for q < p *)
Definition quad (T : tableau) (b : list R) (q : nat) : R := bsum (length T) (fun i => nth i b 0 * node T i ^ q).

Lemma prim4 : forall c0 c1 c2 c3 c4 x, (forall t, derivable_pt_lim x t (poly [c0; c1; c2; c3; c4] t)) ->
  forall t0 h, x (t0 + h) - x t0 =
    h * c0 + c1 * ((t0 + h)^2 - t0^2) / 2 + c2 * ((t0 + h)^3 - t0^3) / 3 + c3 * ((t0+h)^4 - t0^4) / 4 + c4 * ((t0+h)^5 - t0^5) / 5.
Proof.
  intros c0 c1 c2 c3 c4 x D t0 h.
  set (P := fun t : R => c0 * t + c1 * t^2 / 2 + c2 * t^3 / 3 + c3 * t^4 / 4 + c4 * t^5 / 5).
  assert (DP : forall t, derivable_pt_lim P t (poly [c0; c1; c2; c3; c4] t)).
  { intro t. unfold P. 
    replace (poly [c0; c1; c2; c3; c4] t) with (c0 * (INR 1 * t ^ 0) + (c1 / 2) * (INR 2 * t^1) + (c2/3) * (INR 3 * t^2) + (c3/4) * (INR 4 * t^3) + (c4/5) * (INR 5 * t^4))
      by (cbn; field).
    assert (M : forall c n, derivable_pt_lim (fun t => c * t ^ n) t (c * (INR n * t ^ pred n))).
    { intros. apply derivable_pt_lim_scal, derivable_pt_lim_pow. }
    apply (derivable_pt_lim_ext (fun t => c0 * t^1 + (c1/2) * t^2 + (c2/3) * t^3 + (c3/4) * t^4 + (c4/5) * t^5)); [intro; field|].
    assert (S : forall a b a' b', derivable_pt_lim a t a' -> derivable_pt_lim b t b' -> derivable_pt_lim (fun s => a s + b s) t (a' + b')).
    { intros. apply (derivable_pt_lim_plus a b); assumption. }
    apply (S (fun t => c0 * t^1 + (c1/2) * t^2 + (c2/3) * t^3 + (c3/4) * t^4)); [|apply (M (c4/5) 5%nat)].
    apply (S (fun t => c0 * t^1 + (c1/2) * t^2 + (c2/3) * t^3)); [|apply (M (c3/4) 4%nat)].
    apply (S (fun t => c0 * t^1 + (c1/2) * t^2)); [|apply (M (c2/3) 3%nat)].
    apply (S (fun t => c0 * t^1)); [apply (M c0 1%nat)|apply (M (c1/2) 2%nat)]. }
  assert (E : forall t, (fun s => x s - P s) t = (fun s => x s - P s) 0).
  { apply const_deriv. intro t. replace 0 with (poly [c0; c1; c2; c3; c4] t - poly [c0; c1; c2; c3; c4] t) by ring.
    apply derivable_pt_lim_minus; [apply D|apply DP]. }
  pose proof (E (t0 + h)) as E1. pose proof (E t0) as E2. cbv beta in E1, E2. unfold P in *. lra.
Qed.

Lemma poly_pad : forall cs t, poly (cs ++ [0]) t = poly cs t.
Proof. induction cs as [|c cs IH]; intro t; cbn; [ring|]. rewrite IH. reflexivity. Qed.

Lemma poly5 : forall cs, (length cs <= 5)%nat -> exists c0 c1 c2 c3 c4, (forall t, poly cs t = poly [c0; c1; c2; c3; c4] t) /\
  forall q, nth q cs 0 = nth q [c0; c1; c2; c3; c4] 0.
Proof.
  intros cs H.
  destruct cs as [|a0 cs]; [exists 0,0,0,0,0; split; [intro; cbn; ring|intro q; do 6 (destruct q; [reflexivity|]); reflexivity]|].
  destruct cs as [|a1 cs]; [exists a0,0,0,0,0; split; [intro; cbn; ring|intro q; do 6 (destruct q; [reflexivity|]); reflexivity]|].
  destruct cs as [|a2 cs]; [exists a0,a1,0,0,0; split; [intro; cbn; ring|intro q; do 6 (destruct q; [reflexivity|]); reflexivity]|].
  destruct cs as [|a3 cs]; [exists a0,a1,a2,0,0; split; [intro; cbn; ring|intro q; do 6 (destruct q; [reflexivity|]); reflexivity]|].
  destruct cs as [|a4 cs]; [exists a0,a1,a2,a3,0; split; [intro; cbn; ring|intro q; do 6 (destruct q; [reflexivity|]); reflexivity]|].
  destruct cs as [|a5 cs]; [exists a0,a1,a2,a3,a4; split; [intro; cbn; ring|reflexivity]|]. cbn in H. lia.
Qed.

Lemma derivable_ext : forall f t l l', l = l' -> derivable_pt_lim f t l -> derivable_pt_lim f t l'.
Proof. intros; subst; assumption. Qed.

(** the sum of the weighted samples of the polynomial, as a combination of the quadrature sums *)
Lemma samples : forall T b c0 c1 c2 c3 c4 t0 h,
  bsum (length T) (fun i => nth i b 0 * poly [c0; c1; c2; c3; c4] (t0 + node T i * h)) =
    quad T b 0 * (c0 + c1 * t0 + c2 * t0^2 + c3 * t0^3 + c4 * t0^4) +
    quad T b 1 * h * (c1 + 2 * c2 * t0 + 3 * c3 * t0^2 + 4 * c4 * t0^3) +
    quad T b 2 * h^2 * (c2 + 3 * c3 * t0 + 6 * c4 * t0^2) +
    quad T b 3 * h^3 * (c3 + 4 * c4 * t0) + quad T b 4 * h^4 * c4.
Proof.
  intros. unfold quad. induction (length T) as [|m IH]; cbn [bsum]; [ring|]. rewrite IH. cbn [poly]. ring.
Qed.

Lemma poly_exact : forall p T b n f t0 dt x0 x1 v x,
  (p <= 5)%nat -> (forall q, (q < p)%nat -> quad T b q = / INR (q + 1)) ->
  (forall t y r, (r < n)%nat -> f t y r = poly (v r) t) -> (forall r, (r < n)%nat -> (length (v r) <= p)%nat) ->
  moves_along n v x -> agree n x0 (x t0) ->
  rk_step T b n f t0 dt x0 x1 -> agree n x1 (x (t0 + dt)).
Proof.
  intros p T b n f t0 dt x0 x1 v x Hp Hq Hf Hv Hx H0 [k [K1 K2]] r Hr.
  rewrite (K2 r Hr). rewrite (bs_ext _ _ (fun i => nth i b 0 * poly (v r) (t0 + node T i * dt))).
  2: { intros i Hi. rewrite (K1 i Hi r Hr), Hf by exact Hr. reflexivity. }
  pose proof (Hv r Hr) as Hl.
  destruct (poly5 (v r) ltac:(lia)) as [c0 [c1 [c2 [c3 [c4 [E N]]]]]].
  rewrite (bs_ext _ _ (fun i => nth i b 0 * poly [c0; c1; c2; c3; c4] (t0 + node T i * dt))) by (intros; rewrite E; reflexivity).
  assert (Z : forall q, (p <= q)%nat -> nth q [c0; c1; c2; c3; c4] 0 = 0) by (intros q Q; rewrite <- N; apply nth_overflow; lia).
  assert (D : forall t, derivable_pt_lim (fun s => x s r) t (poly [c0; c1; c2; c3; c4] t)).
  { intro t. rewrite <- E. apply Hx, Hr. }
  pose proof (prim4 _ _ _ _ _ _ D t0 dt) as P. cbv beta in P.
  rewrite samples, (H0 r Hr).
  pose proof (Z 0%nat) as Z0. pose proof (Z 1%nat) as Z1. pose proof (Z 2%nat) as Z2. pose proof (Z 3%nat) as Z3. pose proof (Z 4%nat) as Z4.
  pose proof (Hq 0%nat) as Q0. pose proof (Hq 1%nat) as Q1. pose proof (Hq 2%nat) as Q2. pose proof (Hq 3%nat) as Q3. pose proof (Hq 4%nat) as Q4.
  cbn in Z0, Z1, Z2, Z3, Z4.
  replace (INR (0 + 1)) with 1 in Q0 by reflexivity. replace (INR (1 + 1)) with 2 in Q1 by reflexivity.
  replace (INR (2 + 1)) with 3 in Q2 by (cbn; ring). replace (INR (3 + 1)) with 4 in Q3 by (cbn; ring). replace (INR (4 + 1)) with 5 in Q4 by (cbn; ring).
  do 5 (destruct p as [|p]; [repeat match goal with
      | H : (?a <= ?b)%nat -> _ = 0 |- _ => first [specialize (H ltac:(lia)) | clear H]
      | H : (?a < ?b)%nat -> quad _ _ _ = _ |- _ => first [specialize (H ltac:(lia)); rewrite H | clear H]
      end; try rewrite Z4 in *; try rewrite Z3 in *; try rewrite Z2 in *; try rewrite Z1 in *; try rewrite Z0 in *;
      apply (Rplus_eq_reg_r (- x t0 r)); rewrite (Rplus_comm _ (- x t0 r)), (Rplus_comm _ (- x t0 r));
      replace (- x t0 r + x (t0 + dt) r) with (x (t0 + dt) r - x t0 r) by ring; rewrite P; field|]).
  assert (p = 0)%nat by lia. subst p.
  rewrite Q0, Q1, Q2, Q3, Q4 by lia.
  apply (Rplus_eq_reg_r (- x t0 r)). rewrite (Rplus_comm _ (- x t0 r)), (Rplus_comm _ (- x t0 r)).
  replace (- x t0 r + x (t0 + dt) r) with (x (t0 + dt) r - x t0 r) by ring. rewrite P. field.
Qed.

Ltac quads := intros q Hq; repeat (destruct q as [|q]; [unfold quad, node; wts; cbn; field|]); exfalso; lia.
Lemma euler_quad : forall q, (q < 1)%nat -> quad euler_T euler_b q = / INR (q + 1). Proof. quads. Qed.
Lemma heun_quad : forall q, (q < 2)%nat -> quad heun_T heun_b q = / INR (q + 1). Proof. quads. Qed.
Lemma rk4_quad : forall q, (q < 4)%nat -> quad rk4_T rk4_b q = / INR (q + 1). Proof. quads. Qed.
Lemma rkf4_quad : forall q, (q < 4)%nat -> quad rkf_T rkf_b4 q = / INR (q + 1). Proof. quads. Qed.
Lemma rkf5_quad : forall q, (q < 5)%nat -> quad rkf_T rkf_b5 q = / INR (q + 1). Proof. quads. Qed.
Lemma ck5_quad : forall q, (q < 5)%nat -> quad ck_T ck_b5 q = / INR (q + 1). Proof. quads. Qed.
Lemma bs3_quad : forall q, (q < 3)%nat -> quad bs_T bs_b3 q = / INR (q + 1). Proof. quads. Qed.
Lemma bs2_quad : forall q, (q < 2)%nat -> quad bs_T bs_b2 q = / INR (q + 1). Proof. quads. Qed.

(** ** affine right-hand sides *)
Definition coef (T : tableau) (i j : nat) : R := nth j (snd (nth i T (0, []))) 0.
Fixpoint gam (T : tableau) (q i : nat) : R :=
  match q with O => 1 | S q' => bsum i (fun j => coef T i j * gam T q' j) end.
Definition stab (T : tableau) (b : list R) (q : nat) : R := bsum (length T) (fun i => nth i b 0 * gam T q i).

Lemma gam_zero : forall T q i, (i < q)%nat -> gam T q i = 0.
Proof.
  induction q as [|q IH]; intros i H; [lia|]. cbn [gam].
  rewrite (bs_ext _ _ (fun _ => 0)); [apply bs_zero|]. intros j Hj. rewrite IH by lia. ring.
Qed.

Lemma mat_vec_ext : forall n A x y i, agree n x y -> mat_vec n A x i = mat_vec n A y i.
Proof. intros. unfold mat_vec. apply bs_ext. intros j Hj. rewrite (H j Hj). reflexivity. Qed.
Lemma mat_vec_sum : forall n A m c (X : nat -> vec) i,
  mat_vec n A (fun r => bsum m (fun j => c j * X j r)) i = bsum m (fun j => c j * mat_vec n A (X j) i).
Proof.
  intros. unfold mat_vec. rewrite (bs_ext m (fun j => c j * bsum n _) (fun j => bsum n (fun l => A i l * (c j * X j l)))).
  - rewrite bs_swap. apply bs_ext. intros j Hj. rewrite bs_scal. reflexivity.
  - intros j Hj. rewrite <- bs_scal. apply bs_ext. intros. ring.
Qed.
Lemma mat_vec_plus : forall n A x y i, mat_vec n A (fun r => x r + y r) i = mat_vec n A x i + mat_vec n A y i.
Proof. intros. unfold mat_vec. rewrite <- bs_plus. apply bs_ext. intros. ring. Qed.
Lemma mat_vec_scal : forall n A c x i, mat_vec n A (fun r => c * x r) i = c * mat_vec n A x i.
Proof. intros. unfold mat_vec. rewrite <- bs_scal. apply bs_ext. intros. ring. Qed.

Section Affine.
Variables (T : tableau) (b : list R) (n : nat) (f : sysfun) (A : nat -> nat -> R) (g x0 : vec) (t0 h : R).
Hypothesis Hf : forall t x r, (r < n)%nat -> f t x r = affine_rhs n A g x r.
Let v := affine_rhs n A g x0.
Let s := length T.

Lemma stage_series : forall (k : nat -> vec),
  (forall i, (i < s)%nat -> agree n (k i) (f (t0 + fst (nth i T (0, [])) * h)
     (fun r => x0 r + h * bsum i (fun j => nth j (snd (nth i T (0, []))) 0 * k j r)))) ->
  forall i, (i < s)%nat -> agree n (k i) (fun r => bsum s (fun q => h ^ q * gam T q i * mat_pow n A q v r)).
Proof.
  intros k K. induction i as [i IH] using (well_founded_induction lt_wf). intros Hi r Hr.
  rewrite (K i Hi r Hr), Hf by exact Hr. unfold affine_rhs at 1.
  rewrite (mat_vec_plus n A x0 (fun r => h * bsum i (fun j => nth j (snd (nth i T (0, []))) 0 * k j r))).
  rewrite mat_vec_scal, mat_vec_sum.
  rewrite (bs_ext i _ (fun j => bsum s (fun q => coef T i j * (h ^ q * gam T q j) * mat_pow n A (S q) v r))).
  2: { intros j Hj. rewrite (mat_vec_ext n A (k j) (fun r => bsum s (fun q => h ^ q * gam T q j * mat_pow n A q v r))) by (apply IH; lia).
       rewrite (mat_vec_sum n A s (fun q => h ^ q * gam T q j) (fun q => mat_pow n A q v)). rewrite <- bs_scal.
       apply bs_ext. intros q Hq. cbn [mat_pow]. unfold coef. ring. }
  rewrite bs_swap.
  assert (E : h * bsum s (fun q => bsum i (fun j => coef T i j * (h ^ q * gam T q j) * mat_pow n A (S q) v r)) =
              bsum s (fun q => h ^ S q * gam T (S q) i * mat_pow n A (S q) v r)).
  { rewrite <- bs_scal. apply bs_ext. intros q Hq. cbn [gam]. 
    rewrite (bs_ext i _ (fun j => (h ^ q * mat_pow n A (S q) v r) * (coef T i j * gam T q j))) by (intros; ring).
    rewrite bs_scal. cbn [pow]. ring. }
  replace (mat_vec n A x0 r + h * bsum s (fun j : nat => bsum i (fun i0 : nat => coef T i i0 * (h ^ j * gam T j i0) * mat_pow n A (S j) v r)) + g r)
    with (v r + bsum s (fun q => h ^ S q * gam T (S q) i * mat_pow n A (S q) v r)) by (rewrite <- E; unfold v, affine_rhs; ring).
  destruct s as [|s'] eqn:Es; [lia|].
  cbn [bsum]. rewrite gam_zero by lia.
  pose proof (bs_shift s' (fun q => h ^ q * gam T q i * mat_pow n A q v r)) as B. cbn [bsum] in B. rewrite B. cbn [gam mat_pow pow]. ring.
Qed.

Lemma affine_series : forall x1, rk_step T b n f t0 h x0 x1 ->
  agree n x1 (fun r => x0 r + bsum s (fun q => h ^ (q + 1) * stab T b q * mat_pow n A q v r)).
Proof.
  intros x1 [k [K1 K2]] r Hr. rewrite (K2 r Hr). f_equal.
  rewrite (bs_ext (length T) _ (fun i => bsum s (fun q => nth i b 0 * (h ^ q * gam T q i * mat_pow n A q v r)))).
  2: { intros i Hi. rewrite (stage_series k K1 i Hi r Hr). rewrite bs_scal. reflexivity. }
  rewrite bs_swap, <- bs_scal. apply bs_ext. intros q Hq. unfold stab.
  rewrite (bs_ext (length T) _ (fun i => (h ^ q * mat_pow n A q v r) * (nth i b 0 * gam T q i))) by (intros; ring).
  rewrite bs_scal. rewrite pow_add. ring.
Qed.
End Affine.

Lemma bs_split : forall p m f, bsum (p + m) f = bsum p f + bsum m (fun q => f (p + q)%nat).
Proof.
  induction m as [|m IH]; intros f; [rewrite Nat.add_0_r; cbn [bsum]; ring|].
  rewrite Nat.add_succ_r. cbn [bsum]. rewrite IH. ring.
Qed.

Lemma affine_order : forall p T b, (p <= length T)%nat -> (forall q, (q < p)%nat -> stab T b q = / INR (fact (q + 1))) ->
  exists w : nat -> R, forall n f A g x0 t0 h x1,
    (forall t x r, (r < n)%nat -> f t x r = affine_rhs n A g x r) ->
    rk_step T b n f t0 h x0 x1 ->
    agree n x1 (fun r => affine_taylor n p A g x0 h r +
      bsum (length T - p) (fun q => w q * h ^ (p + q + 1) * mat_pow n A (p + q) (affine_rhs n A g x0) r)).
Proof.
  intros p T b Hp H. exists (fun q => stab T b (p + q)). intros n f A g x0 t0 h x1 Hf S r Hr.
  rewrite (affine_series T b n f A g x0 t0 h Hf x1 S r Hr).
  replace (length T) with (p + (length T - p))%nat at 1 by lia. rewrite bs_split. unfold affine_taylor.
  rewrite Rplus_assoc. f_equal. f_equal.
  - apply bs_ext. intros q Hq. rewrite (H q Hq). unfold Rdiv. ring.
  - apply bs_ext. intros q Hq. ring.
Qed.

Ltac stabs := intros q Hq; repeat (destruct q as [|q]; [unfold stab; cbn [gam]; unfold coef; wts; cbn; field|]); exfalso; lia.
Lemma euler_stab : forall q, (q < 1)%nat -> stab euler_T euler_b q = / INR (fact (q + 1)). Proof. stabs. Qed.
Lemma heun_stab : forall q, (q < 2)%nat -> stab heun_T heun_b q = / INR (fact (q + 1)). Proof. stabs. Qed.
Lemma rk4_stab : forall q, (q < 4)%nat -> stab rk4_T rk4_b q = / INR (fact (q + 1)). Proof. stabs. Qed.
Lemma bs3_stab : forall q, (q < 3)%nat -> stab bs_T bs_b3 q = / INR (fact (q + 1)). Proof. stabs. Qed.
Lemma bs2_stab : forall q, (q < 2)%nat -> stab bs_T bs_b2 q = / INR (fact (q + 1)). Proof. stabs. Qed.
Lemma rkf4_stab : forall q, (q < 4)%nat -> stab rkf_T rkf_b4 q = / INR (fact (q + 1)). Proof. stabs. Qed.
Lemma rkf5_stab : forall q, (q < 5)%nat -> stab rkf_T rkf_b5 q = / INR (fact (q + 1)). Proof. stabs. Qed.
Lemma ck5_stab : forall q, (q < 5)%nat -> stab ck_T ck_b5 q = / INR (fact (q + 1)). Proof. stabs. Qed.
Lemma dp5_stab : forall q, (q < 5)%nat -> stab dp_T dp_b5 q = / INR (fact (q + 1)). Proof. stabs. Qed.
Lemma dp4_stab : forall q, (q < 4)%nat -> stab dp_T dp_b4 q = / INR (fact (q + 1)). Proof. stabs. Qed.
