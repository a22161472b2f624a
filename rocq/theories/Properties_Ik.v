(** C80: objective functions of inverse kinematics. *)
From Coq Require Import ZArith String List Bool Reals Lia Lra.
From Verif Require Import TfModel TfSpec TfExpModel TfExpSpec TfProofs TfCalcProofs SgModel SgSpec SgKinSpec SgClaims3 SgExamples
  IkModel IkSpec IkPose IkObj.
Import ListNotations.
Open Scope R_scope.

(** C80: aa_rx_ik_opt_err_trans.  The chain starts at a frame that does not move, the joint variables
    follow differentiable curves.  Then each call succeeds and changes only the poses of the chain; the
    value is the squared distance of the tip from the goal, with or without gradient; and the gradient
    times the velocities of the joints is the derivative of the value. *)
Theorem C80_position_objective :
  forall h s root tip tz ls ss, chain_of h s root tip tz ls ss ->
  forall (cfg : R -> string -> R) dcfg t B (fk : R -> list QV) Er,
  (forall u, base_at (declared h) s (cfg u) root B (fk u)) ->
  (forall d, In d (joint_decls (declared h) ls) -> derivable_pt_lim (fun u => cfg u (d_cfg d)) t (dcfg (d_cfg d))) ->
  exists val grad fk',
    (forall u, obj_trans s ss tz Er true (chain_config (declared h) ls (cfg u)) (fk u) = Ok (val u, grad u, fk' u) /\
       obj_trans s ss tz Er false (chain_config (declared h) ls (cfg u)) (fk u) = Ok (val u, [], fk' u) /\
       others_kept s ls (fk u) (fk' u)) /\
    (forall u x, located (declared h) (cfg u) tip zero3 x -> val u = dist2 x (ev Er)) /\
    derivable_pt_lim val t (wsum (grad t) (chain_config (declared h) ls dcfg)).
Proof. exact c80_trans. Qed.
Print Assumptions C80_position_objective.

(** C80: aa_rx_ik_opt_err_qlnpv.  The value is the squared distance plus the square of half the angle of
    the turn that is missing. *)
Theorem C80_pose_objective :
  forall h s root tip tz ls ss, chain_of h s root tip tz ls ss ->
  forall (cfg : R -> string -> R) dcfg t B (fk : R -> list QV) Er,
  (forall u, base_at (declared h) s (cfg u) root B (fk u)) ->
  (forall d, In d (joint_decls (declared h) ls) -> derivable_pt_lim (fun u => cfg u (d_cfg d)) t (dcfg (d_cfg d))) ->
  unitq (TfModel.eq Er) ->
  exists val grad fk',
    (forall u, obj_qlnpv s ss tz Er true (chain_config (declared h) ls (cfg u)) (fk u) = Ok (val u, grad u, fk' u) /\
       obj_qlnpv s ss tz Er false (chain_config (declared h) ls (cfg u)) (fk u) = Ok (val u, [], fk' u) /\
       others_kept s ls (fk u) (fk' u)) /\
    (forall u f phi, (forall p, located (declared h) (cfg u) tip p (f p)) -> turn_to f (TfModel.eq Er) phi ->
       phi = 0 \/ / 2 ^ 12 <= phi -> val u = dist2 (f zero3) (ev Er) + (phi / 2) * (phi / 2)) /\
    (forall f phi, (forall p, located (declared h) (cfg t) tip p (f p)) -> turn_to f (TfModel.eq Er) phi ->
       phi = 0 \/ / 2 ^ 12 < phi < PI -> derivable_pt_lim val t (wsum (grad t) (chain_config (declared h) ls dcfg))).
Proof. exact c80_qlnpv. Qed.
Print Assumptions C80_pose_objective.

(** C80: aa_rx_ik_opt_err_dqln, the default.  The value is the squared size of half the twist (v, w) whose
    flow, in the frame of the tip, takes the tip to the goal in unit time. *)
Theorem C80_twist_objective :
  forall h s root tip tz ls ss, chain_of h s root tip tz ls ss ->
  forall (cfg : R -> string -> R) dcfg t B (fk : R -> list QV) Er,
  (forall u, base_at (declared h) s (cfg u) root B (fk u)) ->
  (forall d, In d (joint_decls (declared h) ls) -> derivable_pt_lim (fun u => cfg u (d_cfg d)) t (dcfg (d_cfg d))) ->
  unitq (TfModel.eq Er) ->
  exists val grad fk',
    (forall u, obj_dqln s ss tz Er true (chain_config (declared h) ls (cfg u)) (fk u) = Ok (val u, grad u, fk' u) /\
       obj_dqln s ss tz Er false (chain_config (declared h) ls (cfg u)) (fk u) = Ok (val u, [], fk' u) /\
       others_kept s ls (fk u) (fk' u)) /\
    (forall u f phi, (forall p, located (declared h) (cfg u) tip p (f p)) -> turn_to f (TfModel.eq Er) phi ->
       phi = 0 \/ / 2 ^ 25 <= phi ->
       exists v w, val u = dot v v + dot w w /\ len3 w = phi / 2 /\
         forall F, screw_flow (times3 2 v) (times3 2 w) F -> forall p, f (F 1 p) = place (TfModel.eq Er) (ev Er) p) /\
    (forall f phi, (forall p, located (declared h) (cfg t) tip p (f p)) -> turn_to f (TfModel.eq Er) phi ->
       phi = 0 \/ 2 * eps < phi < PI -> derivable_pt_lim val t (wsum (grad t) (chain_config (declared h) ls dcfg))).
Proof. exact c80_dqln. Qed.
Print Assumptions C80_twist_objective.

(** C80: aa_rx_ik_opt_err_jcenter: half the squared distance of the variables from the middles of their limits. *)
Theorem C80_center_objective :
  forall h s root tip tz ls ss lims cfg dcfg t, chain_of h s root tip tz ls ss ->
  limits_seen (declared h) s ls lims ->
  (forall d, In d (joint_decls (declared h) ls) -> derivable_pt_lim (fun u => cfg u (d_cfg d)) t (dcfg (d_cfg d))) ->
  let e (u : R) := off_centers (chain_config (declared h) ls (cfg u)) lims in
  (forall u, obj_jcenter s ss true (chain_config (declared h) ls (cfg u)) = Ok (wsum (e u) (e u) / 2, e u) /\
             obj_jcenter s ss false (chain_config (declared h) ls (cfg u)) = Ok (wsum (e u) (e u) / 2, [])) /\
  derivable_pt_lim (fun u => wsum (e u) (e u) / 2) t (wsum (e t) (chain_config (declared h) ls dcfg)).
Proof. exact c80_center. Qed.
Print Assumptions C80_center_objective.

(** C80: violated by aa_rx_ik_opt_err_qlnpv_fd: every call reads past the end of a buffer. *)
Theorem C80_finite_difference_objective_refuted :
  forall h s root tip tz ls ss cfg B fk Er junk, chain_of h s root tip tz ls ss ->
  base_at (declared h) s cfg root B fk ->
  obj_qlnpv_fd s ss tz Er (chain_config (declared h) ls cfg) fk junk = UB.
Proof. exact c80_fd_chain. Qed.
Print Assumptions C80_finite_difference_objective_refuted.

(** C80: there is always such a turn, and the limits can always be read *)
Theorem C80_turn_exists :
  forall qa va qr, unitq qa -> unitq qr -> exists phi, turn_to (place qa va) qr phi.
Proof. exact turn_exists. Qed.
Print Assumptions C80_turn_exists.
Theorem C80_limits_exist :
  forall h s root tip tz ls ss, chain_of h s root tip tz ls ss -> exists lims, limits_seen (declared h) s ls lims.
Proof. exact limits_exist. Qed.
Print Assumptions C80_limits_exist.

(** The arm of SgExamples, all its joints moving at unit speed, and a goal turned by one radian *)
Definition arm_B : QV := mkE qz (mkV 0 0 2).
Definition arm_fk : list QV := arm_B :: repeat ident_tf 4.
Example C80_nonvacuous : forall t, exists ss Er f,
  chain_of h_arm arm "base" "tool" 4 arm_path ss /\
  (forall u, base_at (declared h_arm) arm (arm_cfg u) "base" arm_B arm_fk) /\
  (forall d, In d (joint_decls (declared h_arm) arm_path) -> derivable_pt_lim (fun u => arm_cfg u (d_cfg d)) t 1) /\
  (forall p, located (declared h_arm) (arm_cfg t) "tool" p (f p)) /\
  unitq (TfModel.eq Er) /\ turn_to f (TfModel.eq Er) 1 /\ / 2 ^ 12 < 1 < PI /\ joint_decls (declared h_arm) arm_path <> [].
Proof.
  intros t. destruct arm_ids as (I0 & _ & _ & _ & I4).
  destruct (c50_chain h_arm arm "base" "tool" 0 4 arm_path (fun _ => 0%Z) arm_ready arm_forest I0 I4 (or_introl arm_is_path)) as (zs & cs & E & _).
  set (ss := mkSS zs cs (Some [4%Z])).
  assert (C : chain_of h_arm arm "base" "tool" 4 arm_path ss).
  { constructor; auto using arm_ready, arm_forest, arm_proper.
    - discriminate.
    - left. exact arm_is_path.
    - exists 0%Z, (fun _ => 0%Z), 3%nat. split; [exact I0|]. split; [exact (arm_count 0)|exact E]. }
  assert (Hb : forall u, base_at (declared h_arm) arm (arm_cfg u) "base" arm_B arm_fk).
  { intros u. split; [vm_compute; reflexivity|]. right. exists 0%nat. split; [exact I0|]. split; [reflexivity|]. split; [exact unit_qz|]. apply arm_base. }
  destruct (obj_pose_ok _ _ _ _ _ _ _ C (arm_cfg t) arm_B arm_fk (Hb t)) as (fk' & Et & _ & _ & U & L & _).
  set (qe := qmul (TfModel.eq Et) (axang2quat (mkA uz 1))).
  assert (UU : unitq (axang2quat (mkA uz 1))) by (apply axang2quat_unit; exact unit_uz).
  exists ss, (mkE qe zero3), (place (TfModel.eq Et) (ev Et)).
  split; [exact C|]. split; [exact Hb|]. split; [intros d; apply arm_moves|]. split; [exact L|].
  split; [apply qmul_unit; assumption|]. split; [|split; [|discriminate]].
  - split; [pose proof PI2_1; lra|]. exists uz. split; [exact unit_uz|]. intros p. cbn [TfModel.eq].
    assert (Q : unitq qe) by (apply qmul_unit; assumption).
    rewrite place_zero, !place_rot by assumption. f_equal. unfold qe. rewrite qrot_mul, qrot_axang by (assumption || exact unit_uz).
    destruct (qrot (TfModel.eq Et) (rodrigues uz 1 p)). unfold plus3, zero3. cbn. f_equal; ring.
  - pose proof PI2_1. split; simpl; lra.
Qed.
