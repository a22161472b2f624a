(** Inverse kinematics solvers: src/rx/scene_ik.c, ik_jacobian.c, ik_nlopt.c and ik_opt.c, over the reals. *)
From Coq Require Import ZArith List Bool Reals.
From Verif Require Import TrModel TfModel TfExpModel SgModel MatModel LaModel RkModel IkModel WkModel WkRateModel.
Import ListNotations.
Open Scope R_scope.

Notation "'do' x <- a ; b" := (bind a (fun x => b)) (at level 61, x pattern, a at next level, right associativity).

(** ** Parameters *)

(** enum aa_rx_ik_algo: include/amino/rx/scene_ik.h 69-87 *)
Inductive ik_algo := JPINV | LMA | SQP.
(** struct aa_rx_ik_parm: include/amino/rx/scene_ik_internal.h 117-163, without the fields no solver
    reads (tol_angle_svd, tol_trans_svd, q_all_seed, n_dq_dt, n_q_ref), debug, and what only concerns
    the optimiser (tol_obj_abs, tol_obj_rel, obj_fun, eqct_fun, eqct_tol) *)
Record ik_parm := mkIP {
  ip_wk : wk_opts; ip_dt : R; ip_angle : R; ip_trans : R; ip_dq : R;
  ip_dqdt : option (list R); ip_qref : option (list R); ip_max : nat; ip_frame : Z; ip_algo : ik_algo }.
(** aa_rx_ik_parm_create: src/rx/ik_opt.c 55-89.  AA_NEW0 leaves zeros, so that tol_dq and the gain of
    the null space projection are 0. *)
Definition parm_create : ik_parm :=
  mkIP (mkWk (5 / 1000) (5 / 100000) 0 1 1) 1 (1 / 10 * PI / 180) (1 / 10000) 0 None None 1000 FRAME_NONE SQP.
(** aa_rx_ik_parm_set_ik_algo: ik_opt.c 99, set_tol_dq: 108 *)
Definition with_algo (p : ik_parm) (a : ik_algo) : ik_parm :=
  mkIP (ip_wk p) (ip_dt p) (ip_angle p) (ip_trans p) (ip_dq p) (ip_dqdt p) (ip_qref p) (ip_max p) (ip_frame p) a.
Definition with_tol_dq (p : ik_parm) (t : R) : ik_parm :=
  mkIP (ip_wk p) (ip_dt p) (ip_angle p) (ip_trans p) t (ip_dqdt p) (ip_qref p) (ip_max p) (ip_frame p) (ip_algo p).

(** ** Contexts *)

(** struct aa_rx_ik_cx: scene_ik_internal.h 165-181, without the scene graph, the matrix TF that no
    solver reads, and restart_time *)
Record ik_cx := mkIC {
  ic_ss : ssg; ic_parm : ik_parm; ic_start : list R; ic_seed : list R; ic_fk : list QV; ic_frames : list Z }.
(** aa_rx_ik_cx_create: scene_ik.c 74-102.  [junk] is what the new array of poses holds. *)
Definition ik_cx_create (s : sg) (ss : ssg) (p : ik_parm) (junk : list QV) : res ik_cx :=
  do fr <- (if Z.eqb (ip_frame p) FRAME_NONE then from (ss_ees ss) else Ok [ip_frame p]);
  do n <- config_count s;
  do seed <- sub_center s (ss_configs ss);
  let start := repeat 0 n in
  do fk <- fk_all s (SgModel.mkDV n start 1) junk;
  Ok (mkIC ss p start seed fk fr).
(** aa_rx_ik_set_start: 127-133; [aa_dvec_copy] checks the length *)
Definition ik_set_start (s : sg) (c : ik_cx) (q : list R) : res ik_cx :=
  if Nat.eqb (length q) (length (ic_start c)) then
    do fk <- fk_all s (SgModel.mkDV (length q) q 1) (ic_fk c);
    Ok (mkIC (ic_ss c) (ic_parm c) q (ic_seed c) fk (ic_frames c))
  else Abort.
(** aa_rx_ik_set_seed: 135-139 *)
Definition ik_set_seed (c : ik_cx) (q : list R) : res ik_cx :=
  if Nat.eqb (length q) (length (ic_seed c)) then
    Ok (mkIC (ic_ss c) (ic_parm c) (ic_start c) q (ic_fk c) (ic_frames c))
  else Abort.
(** aa_frand_minmax: src/math.c 77-81; [u] is what aa_frand returns *)
Definition frand_minmax (u min max : R) : R := min + u * (max - min).
(** aa_rx_sg_sub_rand_config: scene_kin.c 677-691; one random number for each element *)
Fixpoint rand_config (s : sg) (ids : list Z) (us : list R) : res (list R) :=
  match ids with
  | [] => Ok []
  | j :: r =>
      do o <- sg_get_limit s LPos j;
      let '(min, max) := match o with Some l => l | None => (- PI, PI) end in
      do l <- rand_config s r (tl us);
      Ok (frand_minmax (hd 0 us) min max :: l)
  end.

(** ** Tests *)

(** s_err2: scene_ik.c 338-354 *)
Definition err2 (Ea Er : QV) : R * R :=
  let E := qutr_cmul Ea Er in (qangle (qminimize (TfModel.eq E)), vnorm (ev E)).
(** AA_RX_NO_SOLUTION, AA_RX_NO_IK, AA_RX_INVALID_PARAMETER: include/amino/rx/rxerr.h 54-74 *)
Definition NO_IK : Z := Z.lor 1 2.
Definition INVALID : Z := 16.
(** s_check: scene_ik.c 358-383 *)
Definition s_check (p : ik_parm) (Er E : QV) : Z :=
  let '(theta, x) := err2 E Er in
  if Rlt_b theta (ip_angle p) && Rlt_b x (ip_trans p) then 0%Z else NO_IK.
(** aa_rx_ik_check: 385-404.  The array of poses is allocated and not initialised: [junk].  The goal is
    read without a check of its size.  The configuration q_all is not used. *)
Definition ik_check (s : sg) (c : ik_cx) (Er : QV) (q : list R) (junk : list QV) : res Z :=
  do fk <- fk_sub s (ic_ss c) (SgModel.mkDV (length q) q 1) junk;
  do fr <- from (hd_error (ic_frames c));
  do E <- fk_read fk fr;
  Ok (s_check (ic_parm c) Er E).

(** aa_fclamp: include/amino/math.h 82-86 *)
Definition fclamp (x min max : R) : R := if Rlt_dec max x then max else if Rlt_dec x min then min else x.
(** the first loop of kin_solve_check: ik_jacobian.c 82-89 *)
Fixpoint clamp_all (s : sg) (ids : list Z) (x : list R) : res (list R) :=
  match ids, x with
  | j :: r, a :: y =>
      do o <- sg_get_limit s LPos j;
      let b := match o with Some (min, max) => fclamp a min max | None => a end in
      do l <- clamp_all s r y;
      Ok (b :: l)
  | _, _ => Ok []
  end.

(** ** Vectors of the solver as functions *)
Definition to_list (n : nat) (x : vec) : list R := map x (seq 0 n).
Definition of_list (l : list R) : vec := fun i => nth i l 0.

Section Solver.
  (** the singular value decomposition, and what a failed Cholesky factorisation leaves behind *)
  Context (gesdd : nat -> nat -> (nat -> nat -> R) -> svdres) (junk : nat -> R) (M0 : mem).
  (** struct kin_solve_cx: scene_ik_internal.h 185-204.  aa_rx_fk_sub overwrites the poses of the frames
      of the chain before they are read, and no others (C50), so that every call is modelled with the
      array of the context. *)
  Context (s : sg) (ss : ssg) (p : ik_parm) (fr : Z) (Er : QV) (fk : list QV).
  Definition nq : nat := length (ss_configs ss).

  Definition lower {A} (o : out A) : res A := match o with Done a => Ok a | Fail => Abort | Undef => UB end.
  (** s_ksol_jpinv: scene_ik.c 407-436, called from kin_solve_sys: ik_jacobian.c 49-70.  The vectors are
      put one after the other at address 0: w_e, dqnull, dq, and then the free memory. *)
  Fixpoint put_list (a : nat) (l : list R) (M : mem) : mem :=
    match l with [] => M | x :: r => put_list (S a) r (upd M a x) end.
  Definition dqnull (g qr q : list R) : list R :=
    map (fun x => - fst x * (snd (snd x) - fst (snd x))) (combine g (combine qr q)).
  Definition solve_sys (q : vec) : res vec :=
    do (fk', Ea) <- obj_pose s ss fr (to_list nq q) fk;
    let o := ip_wk p in
    let dx := wk_dx_pos (wo_angle o) (wo_trans o) Ea Er (mkDX (mkV 0 0 0) (mkV 0 0 0)) in
    let M := put3 3 (dxw dx) (put3 0 (dxv dx) M0) in
    let w_e := MatModel.mkDV 6 0 1 in let v0 := MatModel.mkDV nq 6 1 in let dq := MatModel.mkDV nq (6 + nq) 1 in
    do M' <- (match ip_qref p, ip_dqdt p with
              | None, _ => lower (wk_dx2dq gesdd junk o s fk' ss w_e dq (6 + 2 * nq) M)
              | Some qr, Some g =>
                  if Nat.ltb (length qr) nq || Nat.ltb (length g) nq then UB
                  else lower (wk_dx2dq_np gesdd junk o s fk' ss w_e v0 dq (6 + 2 * nq)
                                (put_list 6 (dqnull g qr (to_list nq q)) M))
              | Some _, None => UB
              end);
    Ok (fun i => M' (6 + nq + i)%nat).

  (** kin_solve_check: ik_jacobian.c 73-112.  The state is changed in place; [it] is cx->iteration. *)
  Definition solve_check (it : nat) (x y : list R) : res (list R * nat * Z) :=
    do x' <- clamp_all s (ss_configs ss) x;
    let dq_norm := fold_right (fun a b => a * a + b) 0 y in
    do (_, Ea) <- obj_pose s ss fr x' fk;
    let '(theta, t) := err2 Ea Er in
    let it := S it in
    Ok (x', it,
        if Rlt_b theta (ip_angle p) && Rlt_b t (ip_trans p) && Rlt_b dq_norm (ip_dq p) then 1%Z
        else if Nat.ltb (ip_max p) it then (-1)%Z else 0%Z).

  (** aa_odestep_rkbs23 (src/sigsys.c 539-572), for a system that may end the program *)
  Definition bs23 (dt : R) (x0 : vec) (k : nat -> vec) : res kxx :=
    do k1 <- solve_sys (fun r => x0 r + dt / 2 * k 0%nat r);
    let k := setcol k 1 k1 in
    do k2 <- solve_sys (fun r => x0 r + 3 * dt / 4 * k 1%nat r);
    let k := setcol k 2 k2 in
    let x2 := gemv 3 dt k [2 / 9; 1 / 3; 4 / 9] x0 in
    do k3 <- solve_sys x2;
    let k := setcol k 3 k3 in
    Ok (k, x2, gemv 4 dt k [7 / 24; 1 / 4; 1 / 3; 1 / 8] x0).
  (** aa_ode_sol with AA_ODE_RK23_BS (sigsys.c 639-676) and the options of s_ik_jpinv (ik_jacobian.c
      134-138), for a check that changes the state.  One unit of fuel per step; without fuel the loop is
      still running. *)
  Fixpoint jp_loop (fuel : nat) (dt : R) (px0 : vec) (k : nat -> vec) (it : nat) : res (list R * nat * Z) :=
    match fuel with
    | O => Hang
    | S fuel' =>
        do r <- bs23 dt px0 k;
        let k := k_of r in
        let err := bsum nq (fun i => (x_lo r i - x_hi r i) * (x_lo r i - x_hi r i)) in
        if Rlt_b (ip_dq p / 16) err then jp_loop fuel' (dt * (1 / 10)) px0 k it
        else
          let dt := if Rlt_b err (ip_dq p / 2) then dt * 2 else dt in
          let kn := k 3%nat in
          do (x', it', c) <- solve_check it (to_list nq (x_hi r)) (to_list nq kn);
          if Z.eqb c 0 then jp_loop fuel' dt (of_list x') (setcol k 0 kn) it'
          else Ok (x', it', c)
    end.
  (** s_ik_jpinv: ik_jacobian.c 122-162.  The vectors of the context are contiguous (aa_dvec_dup). *)
  Definition ik_jpinv (fuel : nat) (q_sub : list R) (it : nat) : res (list R * nat * Z) :=
    do k0 <- solve_sys (of_list q_sub);
    do (x, it', c) <- jp_loop fuel (ip_dt p) (of_list q_sub) (fun _ => k0) it;
    Ok (x, it', if Z.eqb (ret c) 0 then 0%Z else NO_IK).

  (** s_ik_nlopt: ik_nlopt.c 570-644.  The optimiser is given the bounds and the start; what it returns as
      its result code is not looked at.  Without limits the bounds are those of the type double. *)
  Context (nlopt : list (option (R * R)) -> list R -> list R).
  Fixpoint bounds (ids : list Z) : res (list (option (R * R))) :=
    match ids with
    | [] => Ok []
    | j :: r => do o <- sg_get_limit s LPos j; do l <- bounds r; Ok (o :: l)
    end.
  Definition ik_nlopt (q_sub : list R) : res (list R * Z) :=
    do b <- bounds (ss_configs ss);
    let q := nlopt b q_sub in
    do (_, E) <- obj_pose s ss fr q fk;
    Ok (q, s_check p Er E).

  (** the loop of aa_rx_ik_solve: scene_ik.c 249-289.  [rs] are the random numbers of the restarts for
      which there is time; it is empty when restart_time is not positive. *)
  Fixpoint tries (fuel : nat) (rs : list (list R)) (q_sub : list R) (it : nat) : res (list R * nat * Z) :=
    do (q, it', r) <-
      (match ip_algo p with
       | SQP => do (q, r) <- ik_nlopt q_sub; Ok (q, it, r)
       | _ => ik_jpinv fuel q_sub it
       end);
    match rs with
    | us :: rs' => if Z.eqb r 0 then Ok (q, it', r) else do q_sub' <- rand_config s (ss_configs ss) us; tries fuel rs' q_sub' it'
    | [] => Ok (q, it', r)
    end.
End Solver.

(** What aa_rx_ik_solve leaves behind: the return value; the vector q, if it was written; how often
    kin_solve_check ran; whether the memory taken from the region was given back *)
Record solved := mkSol { so_code : Z; so_q : option (list R); so_steps : nat; so_freed : bool }.
(** aa_rx_ik_solve: scene_ik.c 218-298, built with NLopt.  [rows], [cols]: the size of the goal matrix,
    whose first column is [Er]; [len]: the length of the vector q, which is contiguous. *)
Definition ik_solve gesdd junk M0 nlopt (fuel : nat) (s : sg) (c : ik_cx) (rows cols : nat) (Er : QV) (len : nat) (rs : list (list R)) : res solved :=
  if negb (Nat.eqb (length (ss_configs (ic_ss c))) len) || negb (Nat.eqb 7 rows) then Ok (mkSol INVALID None 0 true)
  else
    do fr <- from (hd_error (ic_frames c));
    do _ <- sub_scatter s (ic_ss c) (SgModel.mkDV (length (ic_seed c)) (ic_seed c) 1) (map Some (ic_start c));
    if negb (Nat.eqb 1 cols) then Ok (mkSol INVALID None 0 false)
    else
      match ip_algo (ic_parm c) with
      | LMA => Ok (mkSol (Z.lor NO_IK INVALID) None 0 true)
      | _ =>
          do (q, it, r) <- tries gesdd junk M0 s (ic_ss c) (ic_parm c) fr Er (ic_fk c) nlopt fuel rs (ic_seed c) 0;
          Ok (mkSol r (Some q) it true)
      end.
