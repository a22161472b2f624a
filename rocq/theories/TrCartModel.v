(** Model of the Cartesian trajectory of src/ct/traj.cpp 1117-1197. *)
From Coq Require Import List Reals Arith ZArith.
From Verif Require Import TfModel TfExpModel TrModel.
Import ListNotations.
Open Scope R_scope.

(** The Cartesian members of struct aa_ct_state (null or given): X, dX, ddX.  The member eff is
    treated like ddX by the code and left out. *)
Record xst := mkXS { x_X : option QV; x_dX : option DX; x_ddX : option DX }.
(** writing through a pointer that the code tests *)
Definition xput {A} (v : A) (p : option A) : option A := match p with Some _ => Some v | None => None end.

(** struct aa_ct_slerp_seg: 1122-1127 *)
Record slerp_seg := mkSS { ss_0 : QV; ss_1 : QV; ss_dx : DX; ss_dt : R }.

Definition dx0 : DX := mkDX (mkV 0 0 0) (mkV 0 0 0).
(** aa_la_linterp (src/la.c 413-421) with aa_la_d_lerp (src/la_impl.c 361-374) on three elements *)
Definition linterp3 (t0 : R) (a : V3) (t1 : R) (b : V3) (t : R) : V3 :=
  let u := (t - t0) / (t1 - t0) in
  mkV (vx a + u * (vx b - vx a)) (vy a + u * (vy b - vy a)) (vz a + u * (vz b - vz a)).
(** aa_ct_seg_slerp_eval: 1129-1156.  It returns 0 (AA_CT_SEG_OUT) at every time. *)
Definition slerp_seg_eval (c : slerp_seg) (s : xst) (t : R) : option (bool * xst) :=
  let dd := xput dx0 (x_ddX s) in
  if Rle_b t 0 then Some (false, mkXS (xput (ss_0 c) (x_X s)) (xput dx0 (x_dX s)) dd)
  else if Rle_b (ss_dt c) t then Some (false, mkXS (xput (ss_1 c) (x_X s)) (xput dx0 (x_dX s)) dd)
  else Some (false, mkXS (xput (mkE (qslerp t (eq (ss_0 c)) (eq (ss_1 c))) (linterp3 0 (ev (ss_0 c)) 1 (ev (ss_1 c)) t)) (x_X s))
                         (xput (ss_dx c) (x_dX s)) dd).
(** aa_ct_tjx_slerp_generate: 1158-1197; None is the null pointer *)
Definition slerp_generate (pts : list QV) : option (list slerp_seg * R) :=
  match pts with
  | [e0; e1] =>
      let w := qv (qln (qminimize (qmulc (eq e1) (eq e0)))) in
      let v := mkV ((vx (ev e1) - vx (ev e0)) / 1) ((vy (ev e1) - vy (ev e0)) / 1) ((vz (ev e1) - vz (ev e0)) / 1) in
      Some ([mkSS e0 e1 (mkDX v (mkV (2 * vx w / 1) (2 * vy w / 1) (2 * vz w / 1))) 1], 1)
  | _ => None
  end.
(** aa_ct_seg_list_eval on such a list *)
Definition slerp_ev (l : list slerp_seg) (k : nat) (s : xst) (t : R) : option (bool * xst) :=
  obind (nth_error l k) (fun c => slerp_seg_eval c s t).
Definition slerp_list_eval (l : list slerp_seg) (it : option nat) (s : xst) (t : R) : option (bool * xst * option nat) :=
  list_eval (slerp_ev l) (length l) it s t.
