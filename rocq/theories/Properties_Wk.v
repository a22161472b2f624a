(** C81: pose servo. *)
From Coq Require Import ZArith List Bool Reals Lra.
From Verif Require Import TfModel TfSpec TfExpSpec SgSpec IkSpec TfProofs TfCalcProofs WkModel WkSpec WkServo WkLoop.
Open Scope R_scope.

(** What aa_rx_wk_dx_pos adds to dx is, with gains gt and ga, (gt V, ga W) for a velocity (V, W) of the
    actual pose that a body holding its twist for two seconds would end at the reference pose, by the
    shorter way around. *)
Theorem C81_reaches_reference : forall ga gt Ea Er dx phi, unit_qutr Ea -> unit_qutr Er ->
  turn_to (point Ea) (TfModel.eq Er) phi -> phi = 0 \/ / 2 ^ 25 <= phi ->
  exists V W, wk_dx_pos ga gt Ea Er dx = mkDX (plus3 (dxv dx) (times3 gt V)) (plus3 (dxw dx) (times3 ga W)) /\
    len3 W = phi / 2 /\ forall F, moved_by V W (ev Ea) F -> forall p, F 2 (point Ea p) = point Er p.
Proof. exact servo_ok. Qed.
Print Assumptions C81_reaches_reference.

(** With equal positive gains g a body exists that starts at the actual pose and moves with the commanded
    velocity; its turn from the reference decays as exp(-gt/2) and every point of it tends to its place. *)
Theorem C81_closed_loop : forall g Ea Er phi, 0 < g -> unit_qutr Ea -> unit_qutr Er ->
  turn_to (point Ea) (TfModel.eq Er) phi -> phi = 0 \/ / 2 ^ 25 <= phi ->
  exists E : R -> QV,
    (forall p, point (E 0) p = point Ea p) /\ (forall t, unit_qutr (E t)) /\
    (forall t, 0 <= t -> phi = 0 \/ / 2 ^ 25 <= phi * decay g t ->
       let d := wk_dx_pos g g (E t) Er still in body_velocity (fun u => point (E u)) t (dxv d) (dxw d)) /\
    (forall t, 0 <= t -> turn_to (point (E t)) (TfModel.eq Er) (phi * decay g t)) /\
    (forall p e, 0 < e -> exists T, forall t, T < t -> dist (point (E t) p) (point Er p) < e).
Proof. exact servo_loop. Qed.
Print Assumptions C81_closed_loop.

(** Without turn the command is half the gain times the distance vector: the gain is not the one of
    x' = gain (reference - actual). *)
Theorem C81_half_gain : forall ga gt Ea Er dx, unit_qutr Ea -> TfModel.eq Ea = TfModel.eq Er ->
  wk_dx_pos ga gt Ea Er dx = mkDX (plus3 (dxv dx) (times3 (gt / 2) (minus3 (ev Er) (ev Ea)))) (dxw dx).
Proof. exact servo_trans. Qed.
Print Assumptions C81_half_gain.

Example C81_nonvacuous : exists Ea Er, unit_qutr Ea /\ unit_qutr Er /\ turn_to (point Ea) (TfModel.eq Er) 1 /\ / 2 ^ 25 <= 1 /\
  ev Ea <> ev Er.
Proof.
  pose (uz := mkV 0 0 1). assert (U : unit3 uz) by (unfold unit3, uz; tfc; ring).
  exists (mkE (mkQ 0 0 0 1) (mkV 1 2 3)), (mkE (axang2quat (mkA uz 1)) zero3).
  assert (A : unitq (mkQ 0 0 0 1)) by (unfold unitq, norm2; tfc; ring).
  assert (B : unitq (axang2quat (mkA uz 1))) by (now apply axang2quat_unit).
  split; [exact A|]. split; [exact B|]. split; [|split; [simpl; lra|]].
  - split; [pose proof PI2_1; lra|]. exists uz. split; [exact U|]. intros p. unfold point. cbn [TfModel.eq ev].
    rewrite IkPose.place_zero, !IkPose.place_rot by assumption. rewrite (IkPose.qrot_axang _ _ _ U). f_equal.
    generalize (rodrigues uz 1 p). intros [a b c]. unfold zero3. tfc. f_equal; ring.
  - cbn. unfold zero3. intros E. injection E. lra.
Qed.
