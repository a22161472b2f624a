(** Theorems about joint paths along Cartesian trajectories: aa_rx_ct_tjx_path, aa_rx_ct_limits and aa_rx_ct_sg_limits. *)
From Coq Require Import ZArith String List Bool Reals Lra Lia.
From Verif Require Import TrModel TfModel TfSpec TfProofs TfExpModel TfExpSpec SgModel SgSpec SgKinSpec SgExamples IkSpec IkPose
  LaModel RkModel RkSpec WkSpec WkModel WkRateModel WkRateSpec LaSpec MatModel IkSolveModel TrCartModel TjxModel TjxSpec TjxProofs TjxPath TjxMore TjxExamples.
Import ListNotations.
Open Scope R_scope.

(** C85: aa_rx_ct_limits has the limits of every variable; a missing limit is infinite. *)
Theorem C85_limits : forall h s n, ready h s -> config_count s = Ok n ->
  exists l, ct_limits s = Ok l /\ length l = n /\
    forall i r k, nth_error l i = Some r -> exists o, sg_get_limit s k (Z.of_nat i) = Ok o /\
      of_kind k r = match o with Some (a, b) => (Fin a, Fin b) | None => (NegInf, PosInf) end.
Proof. exact c85_limits. Qed.
Print Assumptions C85_limits.

(** C85: violated for aa_rx_ct_sg_limits: a missing limit on position, velocity or acceleration is reported as the
    interval from 0 to 0, one on effort as what the memory held. *)
Theorem C85_sg_limits_refuted : forall h s n, ready h s -> config_count s = Ok n -> forall junk,
  exists l, ct_sg_limits s junk = Ok l /\ length l = n /\
    forall i r k, nth_error l i = Some r -> exists o, sg_get_limit s k (Z.of_nat i) = Ok o /\
      of_kind k r = match o with
        | Some (a, b) => (Fin a, Fin b)
        | None => match k with LEff => (Fin (fst (junk (Z.of_nat i))), Fin (snd (junk (Z.of_nat i)))) | _ => (Fin 0, Fin 0) end
        end.
Proof. exact c85_sg_limits. Qed.
Print Assumptions C85_sg_limits_refuted.

(** C85: the points of a path are those of the classical Runge-Kutta method for the tracking rates, from the start
    configuration to the first step at or after the duration, brought within the limits of the joints. *)
Theorem C85_path :
  forall gesdd M0 junk h s root tip tz ls ss p q0, chain_of h s root tip tz ls ss ->
  NoDup (map d_cfg (joint_decls (declared h) ls)) -> config_count s = Ok (length q0) ->
  ip_frame p = FRAME_NONE \/ ip_frame p = tz -> 0 < wo_s2min (ip_wk p) -> svd_works gesdd s ss ->
  let n := length (ss_configs ss) in ref_given p n ->
  forall ev X dX, (forall t, ev t = Ok (X t, dX t)) -> (0 < n)%nat ->
  exists f x,
    (forall t q cfg, chain_at (declared h) s ls q0 q cfg -> tracking_rates (declared h) root tip ls gesdd p n cfg q (X t) (dX t) (f t q)) /\
    of_dim n f /\
    (forall i d, nth_error (joint_decls (declared h) ls) i = Some d -> x 0%nat i = config_of s q0 (d_cfg d)) /\
    (forall k, rk_step rk4_T rk4_b n f (INR k * ip_dt p) (ip_dt p) (x k) (x (S k))) /\
    forall D K fuel lims, last_step D (ip_dt p) K -> limits_seen (declared h) s ls lims ->
      ((K <= fuel)%nat -> exists pts, tjx_path gesdd M0 junk fuel ev D s ss p (Some q0) = Ok (0%Z, pts) /\ length pts = S K /\
        forall k y, nth_error pts k = Some y -> clamped lims (x k) y) /\
      ((fuel < K)%nat -> tjx_path gesdd M0 junk fuel ev D s ss p (Some q0) = Hang).
Proof. exact c85_path. Qed.
Print Assumptions C85_path.

(** C85: there is a last step whenever the step is positive; without a positive step the call does not return. *)
Theorem C85_last_step : forall D dt, 0 < dt -> exists K, last_step D dt K.
Proof. exact last_step_ex. Qed.
Print Assumptions C85_last_step.
Theorem C85_endless_refuted :
  forall gesdd M0 junk h s root tip tz ls ss p q0, chain_of h s root tip tz ls ss ->
  NoDup (map d_cfg (joint_decls (declared h) ls)) -> config_count s = Ok (length q0) ->
  ip_frame p = FRAME_NONE \/ ip_frame p = tz -> 0 < wo_s2min (ip_wk p) -> svd_works gesdd s ss ->
  ref_given p (length (ss_configs ss)) ->
  forall ev X dX, (forall t, ev t = Ok (X t, dX t)) -> (0 < length (ss_configs ss))%nat ->
  forall D fuel, ip_dt p <= 0 -> 0 < D -> tjx_path gesdd M0 junk fuel ev D s ss p (Some q0) = Hang.
Proof. exact c85_endless. Qed.
Print Assumptions C85_endless_refuted.

(** C85: where the tip is on the trajectory and can move with its velocity, the rates move it with that velocity. *)
Theorem C85_on_track : forall g root tip ls gesdd p n cfg q X dX y,
  tracking_rates g root tip ls gesdd p n cfg q X dX y ->
  unit_qutr X -> (forall a, located g cfg tip a (point X a)) ->
  (forall J, velocity_matrix g root tip ls cfg J -> regular (ip_wk p) n (gesdd 6%nat n J) /\
    exists z, forall i, (i < 6)%nat -> mulv n J z i = stacked (dxv dX) (dxw dX) i) ->
  exists J, velocity_matrix g root tip ls cfg J /\ forall i, (i < 6)%nat -> mulv n J y i = stacked (dxv dX) (dxw dX) i.
Proof. exact c85_on_track. Qed.
Print Assumptions C85_on_track.

(** C85: the trajectories of aa_ct_tjx_slerp_generate can be followed: they give a pose and a velocity at every time. *)
Theorem C85_slerp : forall e0 e1, unit_qutr e0 -> unit_qutr e1 ->
  exists l X dX, slerp_generate [e0; e1] = Some (l, 1) /\ (forall x v a t, slerp_traj l x v a t = Ok (X t, dX t)) /\
    (forall t, t <= 0 -> X t = e0 /\ dX t = dx0) /\ (forall t, 1 <= t -> X t = e1 /\ dX t = dx0) /\
    (forall th, 0 <= th <= PI / 2 -> cos th = Rabs (dot4 (TfModel.eq e0) (TfModel.eq e1)) -> th = 0 \/ / 2 ^ 13 <= th ->
      forall t, 0 < t < 1 -> body_velocity (fun u p => qutr_tf (X u) p) t (dxv (dX t)) (dxw (dX t))).
Proof. exact c85_slerp. Qed.
Print Assumptions C85_slerp.

(** C85: violated: with the default options, a slider that can follow the trajectory exactly ends 17/64 of the way
    short of its end. *)
Theorem C85_end_refuted : exists h s root tip tz ls ss q0 gesdd e0 e1 l,
  chain_of h s root tip tz ls ss /\ svd_works gesdd s ss /\ unit_qutr e0 /\ unit_qutr e1 /\
  slerp_generate [e0; e1] = Some (l, 1) /\ (forall a, located (declared h) (config_of s q0) tip a (point e0 a)) /\
  forall M0 junk fuel x v d, (1 <= fuel)%nat -> exists last,
    tjx_path gesdd M0 junk fuel (slerp_traj l x v d) 1 s ss parm_create (Some q0) = Ok (0%Z, [q0; last]) /\
    forall a b, located (declared h) (config_of s last) tip a b -> point e1 a = plus3 b (mkV (17 / 64) 0 0).
Proof. exact c85_end. Qed.
Print Assumptions C85_end_refuted.

(** C85: violated: a joint without position limits is 0 in every point, wherever it starts and whatever the
    trajectory. *)
Theorem C85_unlimited_joints_refuted : exists h s root tip tz ls ss gesdd,
  chain_of h s root tip tz ls ss /\ svd_works gesdd s ss /\ limits_seen (declared h) s ls [None] /\
  forall a M0 junk fuel ev X dX, (forall t, ev t = Ok (X t, dX t)) -> (1 <= fuel)%nat ->
    tjx_path gesdd M0 junk fuel ev 1 s ss parm_create (Some [a]) = Ok (0%Z, [[0]; [0]]).
Proof. exact c85_unlimited. Qed.
Print Assumptions C85_unlimited_joints_refuted.

(** C85: without a start configuration the call fails; with one of the wrong size it ends the program. *)
Theorem C85_start_required : forall gesdd M0 junk fuel ev D s ss p,
  tjx_path gesdd M0 junk fuel ev D s ss p None = Ok (INVALID, []) /\
  tjx_path gesdd M0 junk fuel ev D s ss p (Some []) = Ok (INVALID, []) /\
  forall q0 n, q0 <> [] -> config_count s = Ok n -> n <> length q0 -> tjx_path gesdd M0 junk fuel ev D s ss p (Some q0) = Abort.
Proof. exact c85_rejects. Qed.
Print Assumptions C85_start_required.

(** C85: violated for the trajectories of aa_ct_tjX_pb_generate: evaluating them never writes the velocity. *)
Theorem C85_blend_velocity_refuted : forall l junk it s t r s' it', tjX_pb_eval l junk it s t = Some (r, s', it') -> x_dX s' = x_dX s.
Proof. exact c85_blend. Qed.
Print Assumptions C85_blend_velocity_refuted.

(** The slider with limits, from the origin to one unit along its axis *)
Example C85_nonvacuous : exists ss l, chain_of h_one one "" "a" 0 ["a"%string] ss /\
  NoDup (map d_cfg (joint_decls (declared h_one) ["a"%string])) /\ config_count one = Ok (length [0]) /\
  ip_frame parm_create = FRAME_NONE /\ 0 < wo_s2min (ip_wk parm_create) /\ svd_works (fun _ _ _ => one_svd) one ss /\
  ref_given parm_create (length (ss_configs ss)) /\ (0 < length (ss_configs ss))%nat /\
  limits_seen (declared h_one) one ["a"%string] [Some (-10, 10)] /\ last_step 1 (ip_dt parm_create) 1 /\
  slerp_generate [line_0; line_1] = Some (l, 1) /\
  (forall x v a t, slerp_traj l x v a t = Ok (TrCartProofs.slerp_X line_0 line_1 t, slerp_dX line_0 line_1 t)) /\
  let X := TrCartProofs.slerp_X line_0 line_1 (1 / 2) in let dX := slerp_dX line_0 line_1 (1 / 2) in
  let cfg := fun c => if String.eqb c "qa" then 1 / 2 else 0 in
  (exists y, tracking_rates (declared h_one) "" "a" ["a"%string] (fun _ _ _ => one_svd) parm_create 1 cfg (fun _ => 1 / 2) X dX y /\ y 0%nat = 1) /\
  unit_qutr X /\ (forall a, located (declared h_one) cfg "a" a (point X a)) /\
  (forall J, velocity_matrix (declared h_one) "" "a" ["a"%string] cfg J -> regular (ip_wk parm_create) 1 one_svd /\
    exists z, forall i, (i < 6)%nat -> mulv 1 J z i = stacked (dxv dX) (dxw dX) i).
Proof.
  destruct one_chain as (ss & C & Ef & Ec). destruct (slerp_traj_run line_0 line_1) as (l & G & Tr). exists ss, l.
  assert (Ln : length (ss_configs ss) = 1%nat) by now rewrite Ec.
  split; [exact C|]. split; [exact one_nodup|]. split; [exact one_ids|]. split; [reflexivity|]. split; [cbn; lra|].
  split; [now apply one_works|]. split; [exact I|]. split; [rewrite Ln; lia|]. split; [exact one_limits|].
  split; [split; [lia|]; split; [cbn; lra|intros; lia]|]. split; [exact G|]. split; [exact Tr|].
  destruct (line_X (1 / 2) ltac:(lra)) as [-> ->]. cbv zeta. split; [|split; [exact unit_q1|split]].
  - destruct (C85_path (fun _ _ _ => one_svd) (fun _ => 0) (fun _ => (0, 0)) h_one one "" "a" 0 ["a"%string] ss parm_create [0] C one_nodup one_ids (or_introl eq_refl)) with
      (ev := fun t : R => Ok (mkE q1 (mkV (1 / 2) 0 0), mkDX (mkV 1 0 0) (mkV 0 0 0))) (X := fun t : R => mkE q1 (mkV (1 / 2) 0 0)) (dX := fun t : R => mkDX (mkV 1 0 0) (mkV 0 0 0))
      as (f & x & Hr & _); auto; [cbn; lra|now apply one_works|exact I|rewrite Ln; lia|].
    rewrite Ln in Hr.
    assert (T : tracking_rates (declared h_one) "" "a" ["a"%string] (fun _ _ _ => one_svd) parm_create 1 (fun c => if String.eqb c "qa" then 1 / 2 else 0) (fun _ => 1 / 2) (mkE q1 (mkV (1 / 2) 0 0)) (mkDX (mkV 1 0 0) (mkV 0 0 0)) (f 0 (fun _ => 1 / 2))).
    { apply Hr. split.
      - intros i d Hd. destruct i as [|[|i]]; [|discriminate|discriminate]. cbn in Hd. injection Hd as <-. reflexivity.
      - intros c Nc. destruct (String.eqb_spec c "qa") as [->|_]; [exfalso; apply Nc; now left|]. unfold config_of.
        destruct (config_id one c) as [z| | |]; [|reflexivity..]. destruct (Z.to_nat z) as [|[|k]]; reflexivity. }
    exists (f 0 (fun _ => 1 / 2)). split; [exact T|]. rewrite (one_rate parm_create (fun c => if String.eqb c "qa" then 1 / 2 else 0) (fun _ => 1 / 2) (1 / 2) 1 _ eq_refl ltac:(cbn; lra) eq_refl T). cbn. lra.
  - intros a. pose proof (one_located (fun c => if String.eqb c "qa" then 1 / 2 else 0) a) as L. cbn [String.eqb Ascii.eqb Bool.eqb] in L.
    replace (point (mkE q1 (mkV (1 / 2) 0 0)) a) with (plus3 a (mkV (1 / 2) 0 0)); [exact L|].
    destruct a. unfold point. rewrite place_rot by exact unit_q1. unfold plus3. tfc. cbv [q1]. cbn. f_equal; ring.
  - intros J VJ. split.
    + left. split; [cbn; lra|]. intros [|k] Hk; [|cbn in Hk; lia]. right. cbn. rewrite <- sqrt_1 at 1. apply sqrt_le_1; lra.
    + exists (fun _ => 1). intros i Hi. unfold mulv. cbn [bsum]. rewrite (one_matrix _ _ VJ i Hi).
      destruct i as [|[|[|[|[|[|i]]]]]]; [..|lia]; unfold stacked, delta; cbn; ring.
Qed.
