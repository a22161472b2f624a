(** Workspace control: src/rx/scene_wk.c and include/amino/rx/scene_wk_internal.h, over the reals. *)
From Coq Require Import ZArith List Bool Reals.
From Verif Require Import TfModel TfExpModel.
Import ListNotations.
Open Scope R_scope.

(** ** Proportional control on pose error *)

(** aa_rx_wk_dx_pos: scene_wk.c 170-195, after the check that dx has six elements.  ga and gt are
    the options gain_angle and gain_trans.  The increment of dx is not modelled. *)
Definition wk_dx_pos (ga gt : R) (Ea Er : QV) (dx : DX) : DX :=
  let Ee := qutr_mulc Ea Er in
  let Ee := mkE (qminimize (TfModel.eq Ee)) (ev Ee) in
  let w := qutr_lnv Ee in
  let vel := qutr_twist2vel Ea w in
  mkDX (vsub (dxv dx) (vscale gt (dxv vel))) (vsub (dxw dx) (vscale ga (dxw vel))).
