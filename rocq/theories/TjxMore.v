(** Proofs about paths that are on track, along interpolated poses, and for wrong arguments, and the path of a
    single slider. *)
From Coq Require Import ZArith String List Bool Reals Lra Lia.
From Verif Require Import TrModel TfModel TfSpec TfProofs TfExpModel TfExpSpec TfExpProofs TfLogProofs TfInterpProofs SgModel SgSpec SgKinSpec SgInvProofs SgQueryProofs
  SgClaims1 SgClaims2 SgClaims3 SgExamples IkSpec IkModel IkObj IkPose MatModel MatSpec MatProofs LaModel LaSpec LaAlg RkModel RkSpec RkProofs
  WkSpec WkModel WkServo WkLoop WkRateModel WkRateSpec WkRate2 WkRate4 IkSolveModel IkSolveSpec IkSolve IkSolve3
  TrCartModel TrCartProofs TjxModel TjxSpec TjxProofs TjxPath.
Import ListNotations.
Open Scope R_scope.

(** ** On track *)
Lemma servo_shift ga gt Ea Er dx d : unit_qutr Ea -> unit_qutr Er -> (forall p, point Er p = plus3 (point Ea p) d) ->
  wk_dx_pos ga gt Ea Er dx = mkDX (plus3 (dxv dx) (times3 (gt / 2) d)) (dxw dx).
Proof.
  intros A B P. assert (T : turn_to (point Ea) (TfModel.eq Er) 0).
  { pose proof PI_RGT_0. split; [lra|]. exists (mkV 0 0 1). split; [unfold unit3, dot; cbn; ring|]. intros p.
    assert (R : rodrigues (mkV 0 0 1) 0 p = p) by apply rod0.
    rewrite R. pose proof (P p) as P1. pose proof (P zero3) as P2. unfold point in *. rewrite place_zero in P2 by exact B. rewrite place_rot in P1 by exact B.
    rewrite (place_rot (TfModel.eq Er) zero3) by exact B. revert P1 P2. generalize (place (TfModel.eq Ea) (ev Ea) p) (place (TfModel.eq Ea) (ev Ea) zero3) (qrot (TfModel.eq Er) p).
    intros [a1 a2 a3] [b1 b2 b3] [c1 c2 c3] P1 P2. rewrite P2 in P1. clear P2. destruct d as [d1 d2 d3]. unfold plus3, zero3 in *. cbn in *. injection P1 as H1 H2 H3. f_equal; lra. }
  destruct (servo_ok ga gt Ea Er dx 0 A B T (or_introl eq_refl)) as (V & W & E & Lw & F).
  assert (W0 : W = zero3) by (apply TfExpProofs.len3_zero; lra). subst W.
  assert (M : moved_by V zero3 (ev Ea) (fun t p => plus3 p (times3 t V))).
  { unfold moved_by. split.
    - intros p. destruct p, V. unfold plus3, times3. cbn. f_equal; ring.
    - intros t p. destruct p, V, (ev Ea). unfold vderiv, plus3, times3, xprod, minus3, zero3. cbn.
      repeat split; (eapply TfCalcProofs.dpl_eq; [|apply TfCalcProofs.dpl_plus; [apply TfCalcProofs.dpl_const|apply TfCalcProofs.dpl_mult; [apply derivable_pt_lim_id|apply TfCalcProofs.dpl_const]]]); cbn; ring. }
  specialize (F _ M zero3). cbv beta in F. rewrite P in F.
  assert (V0 : V = times3 (1 / 2) d).
  { destruct (point Ea zero3) as [a b c], V as [x y z], d as [d1 d2 d3]. unfold plus3, times3 in *. cbn in *. injection F as F1 F2 F3. f_equal; lra. }
  rewrite E, V0. destruct (dxv dx), (dxw dx), d. unfold plus3, times3, zero3. cbn. f_equal; f_equal; field.
Qed.
Lemma meets n J b y : least_squares 6 n J b y -> (exists z, forall i, (i < 6)%nat -> mulv n J z i = b i) -> forall i, (i < 6)%nat -> mulv n J y i = b i.
Proof.
  intros L [z Hz] i Hi. specialize (L z).
  assert (Z : ssq 6 (fun i => mulv n J z i - b i) = 0) by (unfold ssq, dotp; apply bsum_zero; intros k Hk; rewrite Hz by exact Hk; ring).
  rewrite Z in L. assert (Q : ssq 6 (fun i => mulv n J y i - b i) = 0) by (apply Rle_antisym; [exact L|apply ssq_nonneg]).
  pose proof (ssq_zero 6 _ Q i Hi) as H. cbv beta in H. lra.
Qed.
Lemma c85_on_track g root tip ls gesdd p n cfg q X dX y :
  tracking_rates g root tip ls gesdd p n cfg q X dX y ->
  unit_qutr X -> (forall a, located g cfg tip a (point X a)) ->
  (forall J, velocity_matrix g root tip ls cfg J -> regular (ip_wk p) n (gesdd 6%nat n J) /\
    exists z, forall i, (i < 6)%nat -> mulv n J z i = stacked (dxv dX) (dxw dX) i) ->
  exists J, velocity_matrix g root tip ls cfg J /\ forall i, (i < 6)%nat -> mulv n J y i = stacked (dxv dX) (dxw dX) i.
Proof.
  intros (J & E & VJ & UE & LE & H) UX LX HJ. exists J. split; [exact VJ|]. destruct (HJ J VJ) as [Rg At].
  cbv zeta in H. assert (Ec : wk_dx_pos (wo_angle (ip_wk p)) (wo_trans (ip_wk p)) E X dX = dX).
  { rewrite (servo_shift _ _ E X dX zero3 UE UX).
    - destruct dX as [[v1 v2 v3] w]. unfold plus3, times3, zero3. cbn. f_equal. f_equal; ring.
    - intros a. rewrite (located_fun _ _ _ _ _ _ (LX a) (LE a)). destruct (point E a). unfold plus3, zero3. cbn. f_equal; ring. }
  rewrite Ec in H. destruct (ip_qref p) as [qr|]; [destruct (ip_dqdt p) as [gn|]; [|contradiction]|].
  - specialize (H Rg). destruct H as [L _]. intros i Hi. exact (meets n J _ y L At i Hi).
  - intros i Hi. exact (rf_meets _ _ _ _ _ _ H Rg At i Hi).
Qed.

(** ** Interpolated poses *)
Definition slerp_dX (e0 e1 : QV) (t : R) : DX :=
  if Rle_dec t 0 then dx0 else if Rle_dec 1 t then dx0 else
  mkDX (plus3 (ev e1) (times3 (-1) (ev e0))) (times3 2 (qv (qln (qminimize (qmulc (TfModel.eq e1) (TfModel.eq e0)))))).
Lemma slerp_traj_run e0 e1 : exists l, slerp_generate [e0; e1] = Some (l, 1) /\
  forall x v a t, slerp_traj l x v a t = Ok (slerp_X e0 e1 t, slerp_dX e0 e1 t).
Proof.
  destruct (slerp_eval_run e0 e1) as (l & dx & G & -> & H). exists l. split; [exact G|]. intros x v a t.
  unfold slerp_traj. rewrite H by auto. cbn [x_X x_dX xput from bind]. reflexivity.
Qed.
Lemma c85_slerp e0 e1 : unit_qutr e0 -> unit_qutr e1 ->
  exists l X dX, slerp_generate [e0; e1] = Some (l, 1) /\ (forall x v a t, slerp_traj l x v a t = Ok (X t, dX t)) /\
    (forall t, t <= 0 -> X t = e0 /\ dX t = dx0) /\ (forall t, 1 <= t -> X t = e1 /\ dX t = dx0) /\
    (forall th, 0 <= th <= PI / 2 -> cos th = Rabs (dot4 (TfModel.eq e0) (TfModel.eq e1)) -> th = 0 \/ / 2 ^ 13 <= th ->
      forall t, 0 < t < 1 -> body_velocity (fun u p => qutr_tf (X u) p) t (dxv (dX t)) (dxw (dX t))).
Proof.
  intros U0 U1. destruct (slerp_traj_run e0 e1) as (l & G & H). exists l, (slerp_X e0 e1), (slerp_dX e0 e1).
  split; [exact G|]. split; [exact H|]. unfold slerp_X, slerp_dX. split; [|split].
  - intros t Ht. destruct (Rle_dec t 0); [auto|lra].
  - intros t Ht. destruct (Rle_dec t 0); [lra|]. destruct (Rle_dec 1 t); [auto|lra].
  - intros th T1 T2 T3 t Ht. destruct (Rle_dec t 0); [lra|]. destruct (Rle_dec 1 t); [lra|].
    eapply slerp_velocity; eauto.
Qed.

(** ** Wrong arguments *)
Lemma c85_rejects gesdd M0 junk fuel ev D s ss p : 
  tjx_path gesdd M0 junk fuel ev D s ss p None = Ok (INVALID, []) /\
  tjx_path gesdd M0 junk fuel ev D s ss p (Some []) = Ok (INVALID, []) /\
  forall q0 n, q0 <> [] -> config_count s = Ok n -> n <> length q0 -> tjx_path gesdd M0 junk fuel ev D s ss p (Some q0) = Abort.
Proof.
  split; [reflexivity|]. split; [reflexivity|]. intros q0 n Nq Cn Ne. unfold tjx_path.
  destruct q0 as [|a q]; [congruence|]. cbn [length Nat.eqb]. rewrite Cn. cbn [bind].
  destruct (Nat.eqb_spec n (S (length q))); [cbn [length] in Ne; lia|]. reflexivity.
Qed.
(** ** Blended poses *)
Lemma eval_loop_keeps {A B} (f : A -> B) evf left : (forall k s t r s', evf k s t = Some (r, s') -> f s' = f s) ->
  forall k s t r s' it, eval_loop evf left k s t = Some (r, s', it) -> f s' = f s.
Proof.
  intros H. induction left as [|left IH]; intros k s t r s' it E; cbn [eval_loop] in E.
  - injection E as <- <- <-. reflexivity.
  - destruct (evf k s t) as [[r1 s1]|] eqn:E1; [|discriminate]. cbn [TrModel.obind] in E. destruct r1.
    + injection E as <- <- <-. eapply H; eauto.
    + rewrite (IH _ _ _ _ _ _ E). eapply H; eauto.
Qed.
Lemma c85_blend l junk it s t r s' it' : tjX_pb_eval l junk it s t = Some (r, s', it') -> x_dX s' = x_dX s.
Proof.
  unfold tjX_pb_eval, list_eval. destruct (Nat.leb _ _); [discriminate|]. apply eval_loop_keeps.
  clear. intros k s t r s' E. unfold tjX_pb_ev in E. destruct (pb_ev _ _ _ _) as [[r1 st]|]; [|discriminate]. cbn [TrModel.obind] in E.
  destruct r1; [|injection E as <- <-; reflexivity]. destruct (s_q st) as [q|]; [|discriminate]. cbn [TrModel.obind] in E.
  destruct q as [|a [|b [|c [|d [|e [|f [|g q]]]]]]]; try discriminate. destruct (x_X s); [|discriminate]. injection E as <- <-. reflexivity.
Qed.
