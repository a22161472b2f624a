(** Resolved-rate control: src/rx/scene_wk.c and include/amino/rx/scene_wk_internal.h, over the reals. *)
From Coq Require Import ZArith List Bool Reals.
From Verif Require Import TfModel SgModel MatModel LaModel.
Import ListNotations.
Open Scope R_scope.

(** struct aa_rx_wk_opts: scene_wk_internal.h 54-61, without the choice of LP solver *)
Record wk_opts := mkWk { wo_s2min : R; wo_kdls : R; wo_np : R; wo_angle : R; wo_trans : R }.
(** aa_rx_wk_opts_create: scene_wk.c 57-70 *)
Definition wk_opts_create : wk_opts := mkWk (1 / 1000) (1 / 1000) 1 1 1.

(** A scene graph outcome as an outcome of the vector functions: failed assertions and size checks
    both end the program. *)
Definition lift {A} (r : res A) : out A := match r with Ok a => Done a | Abort => Fail | _ => Undef end.

(** ** The Jacobian in memory *)
Definition put3 (a : nat) (v : V3) (M : mem) : mem := upd (upd (upd M a (vx v)) (a + 1) (vy v)) (a + 2) (vz v).
(** the stores of the loop of aa_rx_sg_sub_jac_vel_fill2 and aa_rx_sg_sub_jac_twist_fill2: scene_kin.c
    384-431, 477-525; a column is its rotational and its translational part *)
Fixpoint put_cols (jr ldr jp ldp : nat) (cols : list (V3 * V3)) (M : mem) : mem :=
  match cols with
  | [] => M
  | (r, t) :: l => put_cols (jr + ldr) ldr (jp + ldp) ldp l (put3 jp t (put3 jr r M))
  end.
(** the size checks and stores; the poses are not in the memory of the matrix, so that the columns are
    computed first *)
Definition jac_fill2 (ss : ssg) (cols : res (list (V3 * V3))) (Jr Jp : dmat) (M : mem) : out mem :=
  obind (lift cols) (fun l =>
  check 3 (m_rows Jr) (check 3 (m_rows Jp) (check (length (ss_configs ss)) (m_cols Jr) (check (length (ss_configs ss)) (m_cols Jp) (
  check (length l) (length (ss_configs ss)) (Done (put_cols (m_data Jr) (m_ld Jr) (m_data Jp) (m_ld Jp) l M))))))).
(** aa_rx_sg_sub_jac_vel_fill: scene_kin.c 550-559; AA_TF_DX_V is 0 and AA_TF_DX_W is 3 *)
Definition jac_vel_fill (s : sg) (abs : list QV) (ss : ssg) (J : dmat) (M : mem) : out mem :=
  obind (dmat_view_block J 0 0 3 (m_cols J)) (fun Jp =>
  obind (dmat_view_block J 3 0 3 (m_cols J)) (fun Jr =>
  jac_fill2 ss (chain_jacobian s abs ss) Jr Jp M)).
(** aa_rx_sg_sub_jac_twist_fill: 452-461 *)
Definition jac_twist_fill (s : sg) (abs : list QV) (ss : ssg) (J : dmat) (M : mem) : out mem :=
  obind (dmat_view_block J 0 0 3 (m_cols J)) (fun Jp =>
  obind (dmat_view_block J 3 0 3 (m_cols J)) (fun Jr =>
  jac_fill2 ss (jac_twist s abs ss) Jr Jp M)).

(** ** Rates *)
Section Svd.
  (** the singular value decomposition, and what a failed Cholesky factorisation leaves behind *)
  Context (gesdd : nat -> nat -> (nat -> nat -> R) -> svdres) (junk : nat -> R).

  (** aa_rx_wk_get_js: scene_wk_internal.h 63-87; w is the workspace.  The return value is not used by
      the callers. *)
  Definition wk_get_js (o : wk_opts) (s : sg) (abs : list QV) (ss : ssg) (J Js : dmat) (w : nat) (M : mem) : out mem :=
    obind (jac_vel_fill s abs ss J M) (fun M1 =>
    if Rlt_dec 0 (wo_s2min o) then dmat_dzdpinv gesdd J (sqrt (wo_s2min o)) Js w M1
    else if Rlt_dec 0 (wo_kdls o) then obind (dmat_dpinv junk J (wo_kdls o) Js w M1) (fun x => Done (snd x))
    else dmat_pinv gesdd J (-1) Js w M1).
  (** aa_rx_wk_get_n: scene_wk_internal.h 89-116 *)
  Definition wk_get_n (J Js : dmat) (alpha : R) (N : dmat) (M : mem) : out mem :=
    obind (dmat_gemm false false alpha Js J 0 N M) (fun M1 =>
    Done (add_diag (- alpha) (m_cols N) (m_data N) (m_ld N) M1)).
  (** aa_rx_wk_dx2dq: scene_wk.c 78-105.  w is the top of the thread's memory region: J, J_star and the
      workspace of the inverse are allocated there one after the other.  The return value is always 0. *)
  Definition wk_dx2dq (o : wk_opts) (s : sg) (abs : list QV) (ss : ssg) (dx dq : dvec) (w : nat) (M : mem) : out mem :=
    let n := length (ss_configs ss) in
    check (v_len dx) 6 (check (v_len dq) n (
    let J := mkDM 6 n w 6 in let Js := mkDM n 6 (w + 6 * n) n in
    obind (wk_get_js o s abs ss J Js (w + 12 * n) M) (fun M1 =>
    dmat_gemv false 1 Js dx 0 dq M1))).
  (** aa_rx_wk_dx2dq_np: scene_wk.c 107-141 *)
  Definition wk_dx2dq_np (o : wk_opts) (s : sg) (abs : list QV) (ss : ssg) (dx dqr dq : dvec) (w : nat) (M : mem) : out mem :=
    let n := length (ss_configs ss) in
    check (v_len dx) 6 (check (v_len dqr) n (check (v_len dq) n (
    let J := mkDM 6 n w 6 in let Js := mkDM n 6 (w + 6 * n) n in let N := mkDM n n (w + 12 * n) n in
    obind (wk_get_js o s abs ss J Js (w + 12 * n + n * n) M) (fun M1 =>
    obind (wk_get_n J Js 1 N M1) (fun M2 =>
    obind (dmat_gemv false 1 Js dx 0 dq M2) (fun M3 =>
    dmat_gemv false (-1) N dqr 1 dq M3)))))).
End Svd.

(** aa_rx_wk_dqcenter: scene_wk.c 143-168; pointers go up by the increments *)
Fixpoint dqcenter_loop (s : sg) (g : R) (ids : list Z) (xq incq xd incd : nat) (M : mem) : out mem :=
  match ids with
  | [] => Done M
  | c :: r =>
      obind (lift (sg_get_limit s LPos c)) (fun o =>
      let v := match o with
               | None => 0
               | Some (min, max) => let c := (max + min) / 2 in let d := (c - M xq) / (max - min) in g * d
               end in
      dqcenter_loop s g r (xq + incq) incq (xd + incd) incd (upd M xd v))
  end.
Definition wk_dqcenter (o : wk_opts) (s : sg) (ss : ssg) (q dqr : dvec) (M : mem) : out mem :=
  check (v_len q) (length (ss_configs ss)) (check (v_len dqr) (length (ss_configs ss)) (
  dqcenter_loop s (wo_np o) (ss_configs ss) (v_data q) (v_inc q) (v_data dqr) (v_inc dqr) M)).
