(** The steps of sigsys.c evaluate the published tableaux. *)
From Coq Require Import Reals List ZArith Arith Lra Lia.
From Verif Require Import MatModel TrModel RkModel RkSpec.
Import ListNotations.
Open Scope R_scope.

Lemma agree_sym : forall n x y, agree n x y -> agree n y x.
Proof. intros n x y H i Hi. symmetry. apply H, Hi. Qed.

(** equal right-hand sides at equal times and states *)
Lemma f_at : forall n f t t' x y r, of_dim n f -> (r < n)%nat -> t = t' -> (forall i, (i < n)%nat -> x i = y i) -> f t x r = f t' y r.
Proof. intros n f t t' x y r Hf Hr -> H. apply Hf; assumption. Qed.

Ltac cols := cbv [gemv setcol odestep_euler butcher steps14 fold_left fst snd nth row Nat.eqb bsum Nat.add
  rkf_a rkf_c ck_a ck_c dp_a dp_c euler_T euler_b heun_T heun_b rk4_T rk4_b rkf_T rkf_b4 rkf_b5 ck_T ck_b4 ck_b5 dp_T dp_b4 dp_b5 bs_T bs_b2 bs_b3 length k_of x_lo x_hi].

Ltac wts := cbv [fst snd nth Nat.eqb bsum Nat.add
  euler_T euler_b heun_T heun_b rk4_T rk4_b rkf_T rkf_b4 rkf_b5 ck_T ck_b4 ck_b5 dp_T dp_b4 dp_b5 bs_T bs_b2 bs_b3 length].

(** the list of stages as a function *)
Definition stg (l : list vec) : nat -> vec := fun i => nth i l (fun _ => 0).

Ltac idx i H := repeat (destruct i as [|i]; [|try (exfalso; cbn in H; lia)]).

Lemma rk1_step : forall n f t0 dt x0, of_dim n f -> rk_step euler_T euler_b n f t0 dt x0 (odestep_rk1 f t0 dt x0).
Proof.
  intros n f t0 dt x0 Hf. exists (stg [f t0 x0]). split.
  - intros i Hi. idx i Hi. intros r Hr. unfold stg. cols. apply (f_at n); [exact Hf|exact Hr|ring|]. intros; cbv beta; ring.
  - intros r Hr. unfold odestep_rk1, stg. cols. ring.
Qed.

Lemma rk2_step : forall n f t0 dt x0, of_dim n f -> rk_step heun_T heun_b n f t0 dt x0 (odestep_rk2 f t0 dt x0).
Proof.
  intros n f t0 dt x0 Hf. unfold odestep_rk2. cbv zeta.
  set (K0 := f t0 x0). set (K1 := f (t0 + dt) (odestep_euler dt (setcol (fun _ _ => 0) 0 K0 0%nat) x0)).
  exists (stg [K0; K1]). split.
  - intros i Hi. idx i Hi; intros r Hr; unfold stg; cols.
    + unfold K0. apply (f_at n); [exact Hf|exact Hr|ring|]. intros; ring.
    + unfold K1. apply (f_at n); [exact Hf|exact Hr|ring|]. intros; cols. ring.
  - intros r Hr. unfold stg. cols. field.
Qed.

Lemma rk4_step : forall n f t0 dt x0, of_dim n f -> rk_step rk4_T rk4_b n f t0 dt x0 (odestep_rk4 f t0 dt x0).
Proof.
  intros n f t0 dt x0 Hf. unfold odestep_rk4. cbv zeta.
  cbv [setcol Nat.eqb]. set (K0 := f t0 x0). set (K1 := f _ (odestep_euler (dt/2) K0 x0)).
  set (K2 := f _ (odestep_euler (dt/2) K1 x0)). set (K3 := f _ (odestep_euler dt K2 x0)).
  exists (stg [K0; K1; K2; K3]). split.
  - intros i Hi. idx i Hi; intros r Hr; unfold stg; cols.
    + unfold K0. apply (f_at n); [exact Hf|exact Hr|ring|]. intros; ring.
    + unfold K1. apply (f_at n); [exact Hf|exact Hr|field|]. intros; cols. field.
    + unfold K2. apply (f_at n); [exact Hf|exact Hr|field|]. intros; cols. field.
    + unfold K3. apply (f_at n); [exact Hf|exact Hr|field|]. intros; cols. field.
  - intros r Hr. unfold stg. cols. field.
Qed.

(** the first five stages of a four-five method *)
Definition K1_ (f : sysfun) t0 dt (x0 : vec) a c (K0 : vec) : vec := f (t0 + dt * nth 0 c 0) (fun r => x0 r + nth 0 (row a 0) 0 * dt * K0 r).
Definition Kn_ (f : sysfun) t0 dt (x0 : vec) a c i (l : list vec) : vec :=
  f (t0 + dt * nth i c 0) (gemv (i + 1) dt (stg l) (row a i) x0).

Lemma steps14_cols : forall f t0 dt x0 a c k,
  let K0 := k 0%nat in
  let K1 := K1_ f t0 dt x0 a c K0 in
  let K2 := Kn_ f t0 dt x0 a c 1 [K0; K1] in
  let K3 := Kn_ f t0 dt x0 a c 2 [K0; K1; K2] in
  let K4 := Kn_ f t0 dt x0 a c 3 [K0; K1; K2; K3] in
  forall j, steps14 f t0 dt x0 a c k j =
    match j with 0 => K0 | 1 => K1 | 2 => K2 | 3 => K3 | 4 => K4 | _ => k j end%nat.
Proof.
  intros f t0 dt x0 a c k K0 K1 K2 K3 K4 j.
  unfold steps14. cbv zeta. cbn [fold_left]. unfold butcher. cbv zeta. cbn [fst snd Nat.add].
  do 5 (destruct j as [|j]; [reflexivity|]). reflexivity.
Qed.

Section FourFive.
Variables (n : nat) (f : sysfun) (t0 dt : R) (x0 : vec) (k : nat -> vec).
Hypothesis Hf : of_dim n f.
Hypothesis Hk : agree n (k 0%nat) (f t0 x0).

Ltac stage := unfold K1_, Kn_, stg; cols; (apply (f_at n); [exact Hf|assumption|field|]); intros; cols; field.
Ltac col0 := unfold stg; cols; (etransitivity; [apply Hk; assumption|]); (apply (f_at n); [exact Hf|assumption|field|]); intros; cols; field.


Section With.
Variables (a : list (list R)) (c : list R).
Definition S1 : vec := K1_ f t0 dt x0 a c (k 0%nat).
Definition S2 : vec := Kn_ f t0 dt x0 a c 1 [k 0%nat; S1].
Definition S3_ : vec := Kn_ f t0 dt x0 a c 2 [k 0%nat; S1; S2].
Definition S4_ : vec := Kn_ f t0 dt x0 a c 3 [k 0%nat; S1; S2; S3_].
Definition S5_ : vec := Kn_ f t0 dt x0 a c 4 [k 0%nat; S1; S2; S3_; S4_].
(** stage six of Dormand-Prince, whose second column already holds stage five *)
Definition S6_ : vec := Kn_ f t0 dt x0 a c 5 [k 0%nat; S5_; S2; S3_; S4_].
End With.

Lemma col5 : forall a c,
  let r := fst (butcher f t0 dt x0 (nth 4 c 0) 5 (row a 4) (steps14 f t0 dt x0 a c k) 1) in
  r 0%nat = k 0%nat /\ r 1%nat = S5_ a c /\ r 2%nat = S2 a c /\ r 3%nat = S3_ a c /\ r 4%nat = S4_ a c.
Proof.
  intros a c. cbv zeta. unfold butcher. cbv zeta. cbn [fst]. unfold setcol. cbn [Nat.eqb].
  rewrite !steps14_cols. split; [reflexivity|]. split; [|repeat split; reflexivity].
  unfold S5_, Kn_. f_equal.
Qed.

Lemma rkf_step :
  let r := odestep_rkf45 f t0 dt x0 k in
  rk_step rkf_T rkf_b4 n f t0 dt x0 (x_lo r) /\ rk_step rkf_T rkf_b5 n f t0 dt x0 (x_hi r) /\ k_of r 0%nat = k 0%nat.
Proof.
  cbv zeta. unfold odestep_rkf45. cbv zeta.
  destruct (col5 rkf_a rkf_c) as [C0 [C1 [C2 [C3 C4]]]].
  set (r := fst (butcher f t0 dt x0 (nth 4 rkf_c 0) 5 (row rkf_a 4) (steps14 f t0 dt x0 rkf_a rkf_c k) 1)) in *.
  clearbody r. unfold x_lo, x_hi, k_of. cbn [fst snd].
  assert (G : forall i, (i < length rkf_T)%nat ->
     agree n (stg [k 0%nat; S1 rkf_a rkf_c; S2 rkf_a rkf_c; S3_ rkf_a rkf_c; S4_ rkf_a rkf_c; S5_ rkf_a rkf_c] i)
       (f (t0 + fst (nth i rkf_T (0, [])) * dt)
          (fun r => x0 r + dt * bsum i (fun j => nth j (snd (nth i rkf_T (0, []))) 0 *
             stg [k 0%nat; S1 rkf_a rkf_c; S2 rkf_a rkf_c; S3_ rkf_a rkf_c; S4_ rkf_a rkf_c; S5_ rkf_a rkf_c] j r)))).
  { intros i Hi. idx i Hi; intros q Hq.
    - col0.
    - unfold S1 at 1. stage.
    - unfold S2 at 1. stage.
    - unfold S3_ at 1. stage.
    - unfold S4_ at 1. stage.
    - unfold S5_ at 1. stage. }
  split; [|split; [|exact C0]].
  - eexists. split; [exact G|]. intros q Hq. unfold gemv. cbn [bsum]. rewrite C0, C1, C2, C3, C4. unfold stg. wts. field.
  - eexists. split; [exact G|]. intros q Hq. unfold gemv. cbn [bsum]. rewrite C0, C1, C2, C3, C4. unfold stg. wts. field.
Qed.

(** the weights aa_odestep_rkck45 uses for its second output: the last two are exchanged *)
Definition ck_b4' : list R := [2825/27648; 0; 18575/48384; 13525/55296; 1/4; 277/14336].
Lemma ck_step :
  let r := odestep_rkck45 f t0 dt x0 k in
  rk_step ck_T ck_b5 n f t0 dt x0 (x_lo r) /\ rk_step ck_T ck_b4' n f t0 dt x0 (x_hi r) /\ k_of r 0%nat = k 0%nat.
Proof.
  cbv zeta. unfold odestep_rkck45. cbv zeta.
  destruct (col5 ck_a ck_c) as [C0 [C1 [C2 [C3 C4]]]].
  set (r := fst (butcher f t0 dt x0 (nth 4 ck_c 0) 5 (row ck_a 4) (steps14 f t0 dt x0 ck_a ck_c k) 1)) in *.
  clearbody r. unfold x_lo, x_hi, k_of. cbn [fst snd].
  assert (G : forall i, (i < length ck_T)%nat ->
     agree n (stg [k 0%nat; S1 ck_a ck_c; S2 ck_a ck_c; S3_ ck_a ck_c; S4_ ck_a ck_c; S5_ ck_a ck_c] i)
       (f (t0 + fst (nth i ck_T (0, [])) * dt)
          (fun r => x0 r + dt * bsum i (fun j => nth j (snd (nth i ck_T (0, []))) 0 *
             stg [k 0%nat; S1 ck_a ck_c; S2 ck_a ck_c; S3_ ck_a ck_c; S4_ ck_a ck_c; S5_ ck_a ck_c] j r)))).
  { intros i Hi. idx i Hi; intros q Hq.
    - col0.
    - unfold S1 at 1. stage.
    - unfold S2 at 1. stage.
    - unfold S3_ at 1. stage.
    - unfold S4_ at 1. stage.
    - unfold S5_ at 1. stage. }
  split; [|split; [|exact C0]].
  - eexists. split; [exact G|]. intros q Hq. unfold gemv. cbn [bsum]. rewrite C0, C1, C2, C3. unfold stg. wts. field.
  - eexists. split; [exact G|]. intros q Hq. unfold gemv. cbn [bsum]. rewrite C0, C1, C2, C3, C4. unfold stg, ck_b4'. wts. field.
Qed.

(** the tableau the code of aa_odestep_dorpri45 evaluates: the fifth node is 0 instead of 8/9 *)
Definition dp_T' : tableau := firstn 4 dp_T ++ [(0, [19372/6561; -25360/2187; 64448/6561; -212/729])] ++ skipn 5 dp_T.

Lemma dp_step' :
  let r := odestep_dorpri45 f t0 dt x0 k in
  rk_step dp_T' dp_b5 n f t0 dt x0 (x_lo r) /\ rk_step dp_T' dp_b4 n f t0 dt x0 (x_hi r) /\
  k_of r 0%nat = k 0%nat /\ agree n (k_of r 5%nat) (f (t0 + dt) (x_lo r)).
Proof.
  cbv zeta. unfold odestep_dorpri45. cbv zeta.
  destruct (col5 dp_a dp_c) as [C0 [C1 [C2 [C3 C4]]]].
  set (r := fst (butcher f t0 dt x0 (nth 4 dp_c 0) 5 (row dp_a 4) (steps14 f t0 dt x0 dp_a dp_c k) 1)) in *.
  clearbody r. unfold x_lo, x_hi, k_of, butcher. cbv zeta. cbn [fst snd].
  assert (C5 : agree n (setcol r 5 (f (t0 + dt * nth 5 dp_c 0) (gemv 5 dt r (row dp_a 5) x0)) 5%nat) (S6_ dp_a dp_c)).
  { intros q Hq. unfold setcol. cbn [Nat.eqb]. unfold S6_, Kn_. apply (f_at n); [exact Hf|exact Hq|reflexivity|].
    intros. unfold gemv. cbn [bsum Nat.add]. rewrite C0, C1, C2, C3, C4.
    unfold stg. cbn [nth]. ring. }
  assert (E8 : IZR (8 ÷ 9) = 0) by reflexivity.
  set (L := [k 0%nat; S1 dp_a dp_c; S2 dp_a dp_c; S3_ dp_a dp_c; S4_ dp_a dp_c; S5_ dp_a dp_c; S6_ dp_a dp_c]).
  assert (G : forall i, (i < length dp_T')%nat ->
     agree n (stg L i)
       (f (t0 + fst (nth i dp_T' (0, [])) * dt)
          (fun r => x0 r + dt * bsum i (fun j => nth j (snd (nth i dp_T' (0, []))) 0 * stg L j r)))).
  { unfold L, dp_T', dp_T. cbn [firstn skipn app].
    intros i Hi. idx i Hi; intros q Hq.
    - col0.
    - unfold S1 at 1. stage.
    - unfold S2 at 1. stage.
    - unfold S3_ at 1. stage.
    - unfold S4_ at 1. unfold K1_, Kn_, stg; cols. apply (f_at n); [exact Hf|assumption|rewrite E8; field|]. intros; cols; field.
    - unfold S5_ at 1. stage.
    - unfold S6_ at 1. stage. }
  split; [|split; [|split]].
  - eexists. split; [exact G|]. intros q Hq. unfold gemv. cbn [bsum]. rewrite C0, C1, C2, C3, C4.
    unfold stg, L, dp_T', dp_T. cbn [firstn skipn app]. cols. field.
  - eexists. split; [exact G|]. intros q Hq. unfold gemv at 1. cbn [bsum]. rewrite (C5 q Hq).
    unfold setcol. cbn [Nat.eqb]. rewrite C0, C1, C2, C3, C4.
    unfold stg, L, dp_T', dp_T. cbn [firstn skipn app]. cols. field.
  - unfold setcol. cbn [Nat.eqb]. exact C0.
  - intros q Hq. unfold setcol. cbn [Nat.eqb]. apply (f_at n); [exact Hf|exact Hq|cols; ring|reflexivity].
Qed.

(** for a right-hand side that does not depend on time the wrong node does not matter *)
Lemma dp_step : (forall t t' x i, (i < n)%nat -> f t x i = f t' x i) ->
  let r := odestep_dorpri45 f t0 dt x0 k in
  rk_step dp_T dp_b5 n f t0 dt x0 (x_lo r) /\ rk_step dp_T dp_b4 n f t0 dt x0 (x_hi r).
Proof.
  intros Ht. cbv zeta. destruct dp_step' as [A [B _]].
  assert (G : forall b y, rk_step dp_T' b n f t0 dt x0 y -> rk_step dp_T b n f t0 dt x0 y).
  { intros b y [kk [H1 H2]]. exists kk. split; [|exact H2].
    intros i Hi q Hq. pose proof (H1 i Hi q Hq) as E.
    assert (R : snd (nth i dp_T' (0, [])) = snd (nth i dp_T (0, []))).
    { do 7 (destruct i as [|i]; [reflexivity|]). reflexivity. }
    rewrite R in E. rewrite E. apply Ht, Hq. }
  split; apply G; assumption.
Qed.

Lemma bs_step :
  let r := odestep_rkbs23 f t0 dt x0 k in
  rk_step bs_T bs_b3 n f t0 dt x0 (x_lo r) /\ rk_step bs_T bs_b2 n f t0 dt x0 (x_hi r) /\
  k_of r 0%nat = k 0%nat /\ agree n (k_of r 3%nat) (f (t0 + dt) (x_lo r)).
Proof.
  cbv zeta. unfold odestep_rkbs23. cbv zeta. unfold butcher. cbv zeta. unfold x_lo, x_hi, k_of. cbn [fst snd].
  unfold setcol. cbn [Nat.eqb].
  set (K1 := f (t0 + dt/2) (fun r => x0 r + dt / 2 * k 0%nat r)).
  set (K2 := f (t0 + 3 * dt / 4) (fun r => x0 r + 3 * dt / 4 * K1 r)).
  set (kk := fun c' : nat => match c' with 2%nat => K2 | _ => match c' with 1%nat => K1 | _ => k c' end end).
  set (y := gemv 3 dt _ _ _).
  set (K3 := f (t0 + dt * 1) y).
  assert (Ey : forall i, y i = x0 i + dt * (k 0%nat i * (2/9) + K1 i * (1/3) + K2 i * (4/9))).
  { intros. unfold y, gemv. cbn [bsum Nat.eqb nth]. ring. }
  assert (G : forall i, (i < length bs_T)%nat ->
     agree n (stg [k 0%nat; K1; K2; K3] i)
       (f (t0 + fst (nth i bs_T (0, [])) * dt)
          (fun r => x0 r + dt * bsum i (fun j => nth j (snd (nth i bs_T (0, []))) 0 * stg [k 0%nat; K1; K2; K3] j r)))).
  { intros i Hi. idx i Hi; intros q Hq.
    - col0.
    - unfold stg; cols. unfold K1. apply (f_at n); [exact Hf|exact Hq|field|]. intros; cols; field.
    - unfold stg; cols. unfold K2. apply (f_at n); [exact Hf|exact Hq|field|]. intros; cols; field.
    - unfold stg; cols. unfold K3. apply (f_at n); [exact Hf|exact Hq|field|]. intros j Hj. rewrite Ey; cols; field. }
  split; [|split; [|split]].
  - eexists. split; [exact G|]. intros q Hq. rewrite Ey. unfold stg. wts. field.
  - eexists. split; [exact G|]. intros q Hq. unfold gemv. cbn [bsum Nat.eqb nth]. unfold stg. wts. field.
  - reflexivity.
  - intros q Hq. unfold K3. apply (f_at n); [exact Hf|exact Hq|ring|reflexivity].
Qed.
End FourFive.
