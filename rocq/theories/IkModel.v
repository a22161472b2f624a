(** Inverse kinematics: objective functions src/rx/ik_nlopt.c, over the reals. *)
From Coq Require Import ZArith List Bool Reals.
From Verif Require Import TfModel TfExpModel PdeModel SgModel.
Import ListNotations.
Open Scope Z_scope.

(** ** Objective functions

    struct kin_solve_cx (include/amino/rx/scene_ik_internal.h 185-205): the scene graph [s], the
    sub-scene-graph [ss], the array of absolute poses [fk], which every call updates, the end
    effector [fr] and the goal [E_ref].  [want] tells whether the buffer for the gradient is given;
    without it the gradient is the empty list.  The region allocations are not modelled. *)

(** A transposed matrix times a quaternion *)
Definition m44_tapp (M : M44) (x : Q4) : Q4 :=
  mkQ (qdot (c0 M) x) (qdot (c1 M) x) (qdot (c2 M) x) (qdot (c3 M) x).

(** mv_block_helper: ik_nlopt.c 119-129.  Columns 0-3 of A are used, all eight rows for the first
    half and the upper four for the second. *)
Definition mv_block (A : M88) (x : DQ) : DQ :=
  mkD (qadd (m44_tapp (jrr A) (dreal x)) (m44_tapp (jdr A) (ddual x)))
      (m44_tapp (jrr A) (ddual x)).
(** aa_tf_duqu_matrix_r: src/tf/quat_duqu.c 58-68 *)
Definition duqu_matrix_r (s : DQ) : M88 :=
  mkM88 (qmatrix_r (dreal s)) zero44 (qmatrix_r (ddual s)) (qmatrix_r (dreal s)).
(** duqu_rmul_helper: 131-137 *)
Definition duqu_rmul (s x : DQ) : DQ := mv_block (duqu_matrix_r s) x.
(** q_rmul_helper: 403-410 *)
Definition q_rmul (q x : Q4) : Q4 := m44_tapp (qmatrix_r q) x.

Definition qneg (q : Q4) : Q4 := mkQ (qx q * -1) (qy q * -1) (qz q * -1) (qw q * -1).
Definition dneg (s : DQ) : DQ := mkD (qneg (dreal s)) (qneg (ddual s)).
Definition ddot (a b : DQ) : R := (qdot (dreal a) (dreal b) + qdot (ddual a) (ddual b))%R.

(** aa_rx_ik_opt_err_trans: the value 369-380, and the weights of the translational rows *)
Definition v_err (Ea Er : QV) : V3 := vsub (ev Ea) (ev Er).
Definition trans_val (Ea Er : QV) : R := vdot (v_err Ea Er) (v_err Ea Er).

(** aa_rx_ik_opt_err_qlnpv 432-448: the error quaternion and whether it was negated *)
Definition qerr_of (Ea Er : QV) : Q4 * bool :=
  let e := qcmul (TfModel.eq Ea) (TfModel.eq Er) in
  if Rlt_dec (qw e) 0 then (qneg e, true) else (e, false).
Definition qlnpv_val (Ea Er : QV) : R :=
  let l := qln (fst (qerr_of Ea Er)) in (qdot l l + trans_val Ea Er)%R.
(** 464-491: the weights of the rotational rows *)
Definition qlnpv_cov (Ea Er : QV) : V3 :=
  let (e, neg) := qerr_of Ea Er in
  let l := qln e in
  let l' := if neg then qneg l else l in
  let a := m44_tapp (qln_jac e) l' in
  let b := qconj (q_rmul (TfModel.eq Er) a) in
  qv (q_rmul (TfModel.eq Ea) b).

(** aa_rx_ik_opt_err_dqln 150-163 *)
Definition serr_of (Ea Er : QV) : DQ * bool :=
  let e := dcmul (qutr2duqu Ea) (qutr2duqu Er) in
  if Rlt_dec (qw (dreal e)) 0 then (dneg e, true) else (e, false).
Definition dqln_val (Ea Er : QV) : R :=
  let l := duqu_ln (fst (serr_of Ea Er)) in ddot l l.
(** 165-227: the weights of the rows of the twist Jacobian *)
Definition dqln_cov (Ea Er : QV) : DX :=
  let (e, neg) := serr_of Ea Er in
  let l := duqu_ln e in
  let l' := if neg then dneg l else l in
  let a := mv_block (duqu_ln_jac e) l' in
  let b := dconj (duqu_rmul (qutr2duqu Er) a) in
  duqu2pure (duqu_rmul (qutr2duqu Ea) b).

(** Rows of a Jacobian are given by columns: rotational part, translational part *)
Definition jt_trans (J : list (V3 * V3)) (x : V3) : list R := map (fun c => vdot (snd c) x) J.
Definition jt_rot (J : list (V3 * V3)) (x : V3) : list R := map (fun c => vdot (fst c) x) J.
Definition scal_l (a : R) (x : list R) : list R := map (Rmult a) x.
Definition add_l (x y : list R) : list R := map (fun p => (fst p + snd p)%R) (combine x y).

(** forward kinematics and the end effector pose, common to all: e.g. 364-368 *)
Definition obj_pose (s : sg) (ss : ssg) (fr : Z) (q : list R) (fk : list QV) : res (list QV * QV) :=
  bind (fk_sub s ss (mkDV (length (ss_configs ss)) q 1) fk) (fun fk' =>
  bind (fk_read fk' fr) (fun Ea => Ok (fk', Ea))).

(** aa_rx_ik_opt_err_trans: 359-401 *)
Definition obj_trans (s : sg) (ss : ssg) (fr : Z) (Er : QV) (want : bool) (q : list R) (fk : list QV)
  : res (R * list R * list QV) :=
  bind (obj_pose s ss fr q fk) (fun '(fk', Ea) =>
  if want then bind (chain_jacobian s fk' ss) (fun J =>
    Ok (trans_val Ea Er, scal_l 2 (jt_trans J (v_err Ea Er)), fk'))
  else Ok (trans_val Ea Er, [], fk')).

(** aa_rx_ik_opt_err_qlnpv: 413-513 *)
Definition obj_qlnpv (s : sg) (ss : ssg) (fr : Z) (Er : QV) (want : bool) (q : list R) (fk : list QV)
  : res (R * list R * list QV) :=
  bind (obj_pose s ss fr q fk) (fun '(fk', Ea) =>
  if want then bind (chain_jacobian s fk' ss) (fun J =>
    Ok (qlnpv_val Ea Er,
        add_l (jt_rot J (qlnpv_cov Ea Er)) (scal_l 2 (jt_trans J (v_err Ea Er))), fk'))
  else Ok (qlnpv_val Ea Er, [], fk')).

(** aa_rx_ik_opt_err_dqln: 140-256 *)
Definition obj_dqln (s : sg) (ss : ssg) (fr : Z) (Er : QV) (want : bool) (q : list R) (fk : list QV)
  : res (R * list R * list QV) :=
  bind (obj_pose s ss fr q fk) (fun '(fk', Ea) =>
  if want then bind (jac_twist s fk' ss) (fun K =>
    let c := dqln_cov Ea Er in
    Ok (dqln_val Ea Er, add_l (jt_trans K (dxv c)) (jt_rot K (dxw c)), fk'))
  else Ok (dqln_val Ea Er, [], fk')).

(** s_nlobj_qv_fd_helper 303-336, called first by aa_rx_ik_opt_err_qlnpv_fd 339-357: aa_tf_duqu_ln
    reads eight numbers from a buffer of seven and writes eight to a buffer of four. *)
Definition read8 (l : list R) : res DQ :=
  match l with
  | a :: b :: c :: d :: e :: f :: g :: h :: _ => Ok (mkD (mkQ a b c d) (mkQ e f g h))
  | _ => UB
  end.
Definition obj_qlnpv_fd (s : sg) (ss : ssg) (fr : Z) (Er : QV) (q : list R) (fk : list QV) (junk : V3) : res R :=
  bind (obj_pose s ss fr q fk) (fun '(fk', Ea) =>
  let e := qminimize (qcmul (TfModel.eq Ea) (TfModel.eq Er)) in
  bind (read8 [qx e; qy e; qz e; qw e; vx junk; vy junk; vz junk]) (fun S =>
  let l := dreal (duqu_ln S) in Ok (qdot l l + trans_val Ea Er)%R)).

(** aa_rx_sg_sub_center_configv: src/rx/scene_kin.c 665-675 *)
Fixpoint sub_center (s : sg) (ids : list Z) : res (list R) :=
  match ids with
  | [] => Ok []
  | i :: r => bind (sg_config_center s i) (fun c => bind (sub_center s r) (fun l => Ok (c :: l)))
  end.
(** aa_rx_ik_opt_err_jcenter: ik_nlopt.c 522-556 *)
Fixpoint sub_l (x y : list R) : list R :=
  match x, y with a :: x', b :: y' => (a - b)%R :: sub_l x' y' | _, _ => [] end.
Definition obj_jcenter (s : sg) (ss : ssg) (want : bool) (q : list R) : res (R * list R) :=
  bind (sub_center s (ss_configs ss)) (fun c =>
  let d := sub_l q c in
  Ok ((fold_left (fun a x => a + x * x) d 0 / 2)%R, if want then d else [])).
