(** Trajectories and scene graphs: src/rx/rx_ct.c, aa_rx_ik_jac_x2dq and aa_rx_ik_jac_dx2dq of
    src/rx/ik_jacobian.c, and aa_ct_tjX_pb_eval of src/ct/traj.cpp, over the reals. *)
From Coq Require Import ZArith List Bool Reals.
From Verif Require Import TrModel TfModel TfExpModel SgModel MatModel LaModel RkModel IkModel WkModel WkRateModel IkSolveModel TrCartModel.
Import ListNotations.
Open Scope R_scope.

(** ** Limits *)

(** a double that may be infinite *)
Inductive ext := NegInf | Fin (x : R) | PosInf.
(** the members q, dq, ddq and eff of limit->min and limit->max at one index *)
Record lim_row := mkLR { lr_pos : ext * ext; lr_vel : ext * ext; lr_acc : ext * ext; lr_eff : ext * ext }.
Definition fins (l : R * R) : ext * ext := (Fin (fst l), Fin (snd l)).
Fixpoint rows (row : Z -> res lim_row) (ids : list nat) : res (list lim_row) :=
  match ids with
  | [] => Ok []
  | i :: r => do x <- row (Z.of_nat i); do l <- rows row r; Ok (x :: l)
  end.
(** aa_rx_ct_limits: rx_ct.c 83-108, with set_inf: 75-79 *)
Definition or_inf (o : option (R * R)) : ext * ext := match o with Some l => fins l | None => (NegInf, PosInf) end.
Definition ct_limits (s : sg) : res (list lim_row) :=
  do n <- config_count s;
  rows (fun i =>
    do p <- sg_get_limit s LPos i; do v <- sg_get_limit s LVel i; do a <- sg_get_limit s LAcc i; do e <- sg_get_limit s LEff i;
    Ok (mkLR (or_inf p) (or_inf v) (or_inf a) (or_inf e))) (seq 0 n).
(** aa_rx_ct_sg_limits: 292-313.  aa_ct_state_alloc (src/ct/state.c 44-70) zeroes q, dq and ddq, but not
    eff: [junk i] is what the two arrays hold at index i. *)
Definition or_old (old : R * R) (o : option (R * R)) : ext * ext := match o with Some l => fins l | None => fins old end.
Definition ct_sg_limits (s : sg) (junk : Z -> R * R) : res (list lim_row) :=
  do n <- config_count s;
  rows (fun i =>
    do p <- sg_get_limit s LPos i; do v <- sg_get_limit s LVel i; do a <- sg_get_limit s LAcc i; do e <- sg_get_limit s LEff i;
    Ok (mkLR (or_old (0, 0) p) (or_old (0, 0) v) (or_old (0, 0) a) (or_old (junk i) e))) (seq 0 n).

(** ** Joint rates *)

Section Path.
  (** the singular value decomposition, and the memory of the calling thread *)
  Context (gesdd : nat -> nat -> (nat -> nat -> R) -> svdres) (M0 : mem).

  (** aa_rx_ik_jac_dx2dq: ik_jacobian.c 213-243.  J, dx and dq are addresses; so are J_star, dqnull and the
      workspaces of aa_la_xlsnp and aa_la_dzdpinv.  The return value is always 0.  wk_opts.k_dls is not used. *)
  Definition jac_dx2dq (p : ik_parm) (n : nat) (q : list R) (J dx dq Js dn B w : nat) (M : mem) : out mem :=
    obind (la_dzdpinv gesdd 6 n (wo_s2min (ip_wk p)) J Js w M) (fun M1 =>
    match ip_qref p, ip_dqdt p with
    | None, _ => Done (la_mvmul n 6 Js dx dq M1)
    | Some qr, Some g =>
        if Nat.ltb (length qr) n || Nat.ltb (length g) n then Undef
        else Done (la_xlsnp 6 n J Js dx dn dq B (put_list dn (dqnull g qr q) M1))
    | Some _, None => Undef
    end).
  (** aa_rx_ik_jac_x2dq: 246-270, with dx_ref given.  The arrays are placed one after the other: w_e at 0,
      dqnull at 6, dq, the Jacobian, J_star, the workspaces.  The result is dq. *)
  Definition jac_x2dq (p : ik_parm) (n : nat) (q : list R) (Ea Er : QV) (dxr : DX) (cols : list (V3 * V3)) : out vec :=
    let o := ip_wk p in
    let dx := wk_dx_pos (wo_angle o) (wo_trans o) Ea Er dxr in
    let J := (6 + 2 * n)%nat in let Js := (J + 6 * n)%nat in let B := (Js + 6 * n)%nat in
    let M := put3 3 (dxw dx) (put3 0 (dxv dx) (put_cols (J + 3) 6 J 6 cols M0)) in
    obind (jac_dx2dq p n q J 0 (6 + n) Js 6 B (B + n * n) M) (fun M' =>
    Done (fun i => M' (6 + n + i)%nat)).

  (** ** The system that is integrated *)

  (** [ev t] is what aa_ct_seg_list_eval leaves in the members X and dX of the state at time t.
      Simplification: it depends on the time only (C66 for lists of aa_ct_tjx_slerp_generate). *)
  Context (ev : R -> res (QV * DX)).
  Context (s : sg) (ss : ssg) (p : ik_parm) (fr : Z) (q0 : list R) (nf : nat) (rel0 abs0 : list QV).
  Let n := length (ss_configs ss).

  (** path_sys: rx_ct.c 143-174.  cx->q_all starts as a copy of q_start_all; every call overwrites the same
      elements of it, so that the call is modelled with q_start_all. *)
  Definition path_sys (t : R) (q : vec) : res vec :=
    do (X, dX) <- ev t;
    do qa <- config_set (ss_configs ss) (to_list n q) q0;
    do (rel, abs) <- sg_tf_update s q0 qa nf rel0 abs0;
    do Ea <- fk_read abs fr;
    do cols <- chain_jacobian s abs ss;
    lower (jac_x2dq p n (to_list n q) Ea X dX cols).

  (** aa_odestep_rk4 (src/sigsys.c 233-259), for a system that may end the program *)
  Definition rk4 (t dt : R) (x0 : vec) : res vec :=
    do k0 <- path_sys t x0;
    do k1 <- path_sys (t + dt / 2) (odestep_euler (dt / 2) k0 x0);
    do k2 <- path_sys (t + dt / 2) (odestep_euler (dt / 2) k1 x0);
    do k3 <- path_sys (t + dt) (odestep_euler dt k2 x0);
    Ok (gemv 4 dt (setcol (setcol (setcol (setcol (fun _ _ => 0) 0 k0) 1 k1) 2 k2) 3 k3) [1/6; 1/3; 1/3; 1/6] x0).
  (** the loop of aa_ode_sol for a fixed step (src/sigsys.c 677-701), called from aa_ode_path (731-780) with
      path_check (rx_ct.c 176-182): the new points.  [D] is aa_ct_seg_list_duration. *)
  Fixpoint path_loop (fuel : nat) (D t dt : R) (x : vec) : res (list vec) :=
    match fuel with
    | O => Hang
    | S k =>
        do x1 <- rk4 t dt x;
        do _ <- path_sys (t + dt) x1;
        if Rle_dec D (t + dt) then Ok [x1]
        else do l <- path_loop k D (t + dt) dt x1; Ok (x1 :: l)
    end.
End Path.

(** the loop over the joints of one point: 270-276 *)
Fixpoint clamp_point (lims : list lim_row) (ids : list Z) (x : list R) : res (list R) :=
  match ids, x with
  | c :: r, a :: y =>
      if Z.ltb c 0 then UB else
      do l <- from (nth_error lims (Z.to_nat c));
      do b <- (match lr_pos l with (Fin min, Fin max) => Ok (fclamp a min max) | _ => UB end);
      do z <- clamp_point lims r y;
      Ok (b :: z)
  | _, _ => Ok []
  end.
Fixpoint clamp_points (lims : list lim_row) (ids : list Z) (xs : list (list R)) : res (list (list R)) :=
  match xs with
  | [] => Ok []
  | x :: r => do y <- clamp_point lims ids x; do l <- clamp_points lims ids r; Ok (y :: l)
  end.

(** aa_rx_ct_tjx_path: 184-290.  [q0] is None when q_start_all is NULL; n_q_all is its length.  The result is
    the return code and the points.  Memory management is not modelled. *)
Definition tjx_path (gesdd : nat -> nat -> (nat -> nat -> R) -> svdres) (M0 : mem) (junk : Z -> R * R) (fuel : nat)
    (ev : R -> res (QV * DX)) (D : R) (s : sg) (ss : ssg) (p : ik_parm) (q0 : option (list R)) : res (Z * list (list R)) :=
  match q0 with
  | None => Ok (INVALID, [])
  | Some q0 =>
      if Nat.eqb (length q0) 0 then Ok (INVALID, []) else
      do nq <- config_count s;
      if negb (Nat.eqb nq (length q0)) then Abort else
      do fr <- (if Z.eqb (ip_frame p) FRAME_NONE then do e <- from (ss_ees ss); from (hd_error e) else Ok (ip_frame p));
      let nf := Z.to_nat (frame_count s) in
      do lims <- ct_sg_limits s junk;
      do (rel0, abs0) <- sg_tf s q0 nf;
      do q <- config_get (ss_configs ss) q0;
      let x0 := of_list q in
      do xs <- path_loop gesdd M0 ev s ss p fr q0 nf rel0 abs0 fuel D 0 (ip_dt p) x0;
      do pts <- clamp_points lims (ss_configs ss) (map (to_list (length (ss_configs ss))) (x0 :: xs));
      Ok (0%Z, pts)
  end.

(** ** Trajectories *)

(** aa_ct_seg_list_eval (src/ct/traj.cpp 208-229) on a list of aa_ct_tjx_slerp_generate, for the state of
    aa_rx_ct_tjx_path, which has all its arrays; [X], [dX], [ddX] are what they hold *)
Definition slerp_traj (l : list slerp_seg) (X : QV) (dX ddX : DX) (t : R) : res (QV * DX) :=
  match slerp_list_eval l None (mkXS (Some X) (Some dX) (Some ddX)) t with
  | Some (_, s, _) => do x <- from (x_X s); do v <- from (x_dX s); Ok (x, v)
  | None => UB
  end.

(** aa_ct_tjX_pb_eval: traj.cpp 932-958, the segments of aa_ct_tjX_pb_generate.  [junk] is what the three
    automatic arrays hold. *)
Definition tjX_pb_ev (l : list pb) (junk : list R) (k : nat) (s : xst) (t : R) : option (bool * xst) :=
  TrModel.obind (pb_ev l k (mkSt 6 (Some junk) (Some junk) (Some junk)) t) (fun '(r, st) =>
  if r then
    TrModel.obind (s_q st) (fun q =>
    match q, x_X s with
    | [a; b; c; d; e; f], Some _ => Some (r, mkXS (Some (mkE (rotvec2quat (mkV d e f)) (mkV a b c))) (x_dX s) (x_ddX s))
    | _, _ => None
    end)
  else Some (r, s)).
Definition tjX_pb_eval (l : list pb) (junk : list R) (it : option nat) (s : xst) (t : R) : option (bool * xst * option nat) :=
  list_eval (tjX_pb_ev l junk) (length l) it s t.
