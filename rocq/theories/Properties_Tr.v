(** Trajectories: C40-C43, C66-C69.  The vocabulary is in TrSpec (and TfSpec, TfExpSpec for poses). *)
From Coq Require Import List Reals Arith ZArith Lra Lia.
From Verif Require Import TfModel TfSpec TfExpModel TfExpSpec TrModel TrSpec TrCartModel TrLinProofs TrCheckProofs TrTrapProofs TrCartProofs TrClaims.
Import ListNotations.
Open Scope R_scope.

(** * C40: straight-line joint trajectories *)

(** C40: for at least two way points, no two neighbours equal, and limits with room to move both ways,
    the generated trajectory is made of straight moves through all way points in order, within
    the velocity limits and as fast as they allow; a fresh evaluation returns the
    position and (if asked for) velocity at each time of the trajectory, and OUT at any other time. *)
Theorem C40_linear_trajectory : forall n pts L, velocity_limits n L -> way_points n pts -> distinct_steps pts ->
  (2 <= length pts)%nat ->
  exists segs D T q dq, lin_generate pts L = Some (segs, D) /\ 0 < D /\ straight_moves n pts L D T q dq /\
    (forall s t, buffers n s -> 0 <= t <= D -> exists k, lin_eval segs None s t = Some (true, lin_answer n q dq s t, Some k)) /\
    (forall s t, buffers n s -> t < 0 \/ D < t -> exists s', lin_eval segs None s t = Some (false, s', None)).
Proof. exact lin_claim. Qed.
Print Assumptions C40_linear_trajectory.

(** C40: the list of way points built by adding points one by one: consecutive points differ, the first
    is the first one given, every point given is within 1/1000 (in every joint) of one kept, the last of the last one kept. *)
Theorem C40_added_points : forall n qs, qs <> [] -> Forall (fun w => length w = n) qs ->
  let pts := pts_from qs in
  way_points n pts /\ distinct_steps pts /\ hd [] pts = hd [] qs /\
  close (last pts []) (last qs []) /\
  (forall w, In w qs -> exists p, In p pts /\ close p w) /\ (forall p, In p pts -> In p qs).
Proof. exact added_points. Qed.
Print Assumptions C40_added_points.

(** C40 is violated for way points closer than 1/1000 to the one before: the last one added is not
    reached. *)
Theorem C40_near_points_refuted : exists qs, Forall (fun w => length w = 1%nat) qs /\ last (pts_from qs) [] <> last qs [].
Proof.
  exists [[0]; [1]; [1 + 1 / 2000]]. rewrite lin_drops. split; [repeat constructor|]. cbn. intros H. injection H. lra.
Qed.
Print Assumptions C40_near_points_refuted.

(** C40 is violated for a single way point: a trajectory is generated, and evaluating it is
    undefined. *)
Theorem C40_single_point_refuted : forall n L w s it t, length w = n ->
  exists segs D, lin_generate [w] L = Some (segs, D) /\ lin_eval segs it s t = None.
Proof. exact lin_one_point. Qed.
Print Assumptions C40_single_point_refuted.

Example C40_nonvacuous : velocity_limits 1 L1 /\ way_points 1 ex_pts /\ distinct_steps ex_pts /\ (2 <= length ex_pts)%nat /\
  lin_generate ex_pts L1 = Some ([mkSD [0] [1] 0 1; mkSD [1] [1] 1 3], 3).
Proof. split; [apply L1_ok|]. split; [apply ex_points|]. split; [apply ex_points|]. split; [cbn; lia|exact c0_segs]. Qed.

(** * C41: parabolic blends *)

(** C41: whenever the generator returns, the motion goes from rest at the first way point to rest at the last, with
    velocity the derivative of position, both continuous, within the limits on
    velocity and acceleration; the reported acceleration is within its limits and, except at
    finitely many times, the derivative of the velocity; every way point between is
    approached, in order, to a quarter of the adjacent moves. *)
Theorem C41_blended_trajectory : forall n pts L fuel segs D, velocity_limits n L -> acceleration_limits n L -> way_points n pts ->
  pb_generate fuel pts L = Some (segs, D) ->
  exists q dq ddq, blended n pts L D q dq /\
    (forall s t, full_buffers n s -> 0 <= t <= D ->
       exists k, pb_eval segs None s t = Some (true, mkSt n (Some (q t)) (Some (dq t)) (Some (ddq t)), Some k)) /\
    (forall s t, full_buffers n s -> t < 0 \/ D < t -> pb_eval segs None s t = Some (false, s, None)) /\
    (forall t i, (i < n)%nat -> joint (min_ddq L) i <= joint (ddq t) i <= joint (max_ddq L) i) /\
    (exists B : list R, forall t i, 0 <= t <= D -> (i < n)%nat -> ~ In t B ->
       derivable_pt_lim (fun u => joint (dq u) i) t (joint (ddq t) i)) /\
    (exists T : list R, length T = length pts /\ (forall k, (k < length pts)%nat -> 0 <= nth k T 0 <= D) /\
       (forall k, (S k < length pts)%nat -> nth k T 0 < nth (S k) T 0) /\
       forall k i, (0 < k)%nat -> (S k < length pts)%nat -> (i < n)%nat ->
         Rabs (joint (q (nth k T 0)) i - joint (nth k pts []) i) <=
         (Rabs (joint (nth (S k) pts []) i - joint (nth k pts []) i) + Rabs (joint (nth k pts []) i - joint (nth (k - 1) pts []) i)) / 4).
Proof. exact pb_claim. Qed.
Print Assumptions C41_blended_trajectory.

(** C41: between two way points the generator always returns, after at most two rounds. *)
Theorem C41_two_points_return : forall n w0 w1 L, velocity_limits n L -> acceleration_limits n L ->
  length w0 = n -> length w1 = n -> exists segs D, pb_generate 2 [w0; w1] L = Some (segs, D).
Proof. exact two_returns. Qed.
Print Assumptions C41_two_points_return.

(** 0, 1 and back to 0 with speed 1 and acceleration 2 *)
Example C41_nonvacuous : velocity_limits 1 L1 /\ acceleration_limits 1 L1 /\ way_points 1 [[0]; [1]; [0]] /\
  exists segs D, pb_generate 1 [[0]; [1]; [0]] L1 = Some (segs, D).
Proof. split; [apply L1_ok|]. split; [apply L1_ok|]. split; [split; [discriminate|repeat constructor]|exact ex_pb]. Qed.

(** * C42: trapezoidal velocity *)

(** C42 is violated by every move: a joint that has to move starts in the wrong direction, and at the end
    of the trajectory it is past its target and still moving. *)
Theorem C42_trapezoid_refuted : forall n L w0 w1 i, velocity_limits n L -> acceleration_limits n L ->
  length w0 = n -> length w1 = n -> (i < n)%nat -> joint w0 i <> joint w1 i ->
  forall s, full_buffers n s ->
  exists segs D ta, trap_generate [w0; w1] L = Some (segs, D) /\ 0 < ta /\ 2 * ta <= D /\
    (forall t, 0 < t <= ta -> exists s' it q, trap_eval segs None s t = Some (true, s', it) /\ s_q s' = Some q /\
      (joint q i - joint w0 i) * (joint w1 i - joint w0 i) < 0) /\
    (exists s' it q d, trap_eval segs None s D = Some (true, s', it) /\ s_q s' = Some q /\ s_dq s' = Some d /\
      0 < (joint q i - joint w1 i) * (joint w1 i - joint w0 i) /\ 0 < joint d i * (joint w1 i - joint w0 i)).
Proof. exact trap_wrong. Qed.
Print Assumptions C42_trapezoid_refuted.

(** C42: the velocity limit is exceeded too: joint 0 may not go faster than 1. *)
Theorem C42_trapezoid_speed_refuted : velocity_limits 2 trapL /\ acceleration_limits 2 trapL /\ joint (max_dq trapL) 0 = 1 /\
  exists segs D s' it d, trap_generate [[0; 0]; [10; 25]] trapL = Some (segs, D) /\
  trap_eval segs None (state_alloc 2) (101 / 20) = Some (true, s', it) /\ s_dq s' = Some d /\ 1 < joint d 0.
Proof. split; [apply trapL_ok|]. split; [apply trapL_ok|]. split; [reflexivity|exact trap_too_fast]. Qed.
Print Assumptions C42_trapezoid_speed_refuted.

Example C42_nonvacuous : velocity_limits 2 trapL /\ acceleration_limits 2 trapL /\ joint [0; 0] 0 <> joint [10; 25] 0 /\
  full_buffers 2 (state_alloc 2).
Proof. split; [apply trapL_ok|]. split; [apply trapL_ok|]. split; [cbn; lra|apply state_alloc_buffers]. Qed.

(** * C43: evaluating a list of segments again and again *)

(** C43 (linear trajectories): any sequence of calls at non-decreasing times of the trajectory is answered IN with the
    position at that time.  For any sequence of calls: an answer IN is right, and after an answer OUT the
    next call starts afresh. *)
Theorem C43_linear_calls : forall n pts L, velocity_limits n L -> way_points n pts -> distinct_steps pts -> (2 <= length pts)%nat ->
  exists segs D T q dq, lin_generate pts L = Some (segs, D) /\ straight_moves n pts L D T q dq /\
  (forall h, Forall (fun c => buffers n (fst c)) h -> Forall (fun c => 0 <= snd c <= D) h ->
     (forall i, (S i < length h)%nat -> nth i (map snd h) 0 <= nth (S i) (map snd h) 0) ->
     exists out it, calls (lin_eval segs) None h = Some (out, it) /\
       Forall2 (fun c o => fst o = true /\ s_q (snd o) = Some (q (snd c))) h out) /\
  (forall h, Forall (fun c => buffers n (fst c)) h ->
     exists out it, calls (lin_eval segs) None h = Some (out, it) /\
       Forall2 (fun c o => fst o = true -> 0 <= snd c <= D /\ s_q (snd o) = Some (q (snd c))) h out /\
       forall s t, buffers n s -> 0 <= t <= D -> exists b s' it', lin_eval segs it s t = Some (b, s', it') /\
         (b = true -> s_q s' = Some (q t)) /\ (b = false -> it' = None)).
Proof. exact lin_hist. Qed.
Print Assumptions C43_linear_calls.

(** C43 (parabolic blends): the same, with velocities. *)
Theorem C43_blend_calls : forall n pts L fuel segs D, velocity_limits n L -> acceleration_limits n L -> way_points n pts ->
  pb_generate fuel pts L = Some (segs, D) ->
  exists q dq, blended n pts L D q dq /\
  (forall h, Forall (fun c => full_buffers n (fst c)) h -> Forall (fun c => 0 <= snd c <= D) h ->
     (forall i, (S i < length h)%nat -> nth i (map snd h) 0 <= nth (S i) (map snd h) 0) ->
     exists out it, calls (pb_eval segs) None h = Some (out, it) /\
       Forall2 (fun c o => fst o = true /\ s_q (snd o) = Some (q (snd c)) /\ s_dq (snd o) = Some (dq (snd c))) h out) /\
  (forall h, Forall (fun c => full_buffers n (fst c)) h ->
     exists out it, calls (pb_eval segs) None h = Some (out, it) /\
       Forall2 (fun c o => fst o = true -> 0 <= snd c <= D /\ s_q (snd o) = Some (q (snd c)) /\ s_dq (snd o) = Some (dq (snd c))) h out /\
       forall s t, full_buffers n s -> 0 <= t <= D -> exists b s' it', pb_eval segs it s t = Some (b, s', it') /\
         (b = true -> s_q s' = Some (q t) /\ s_dq s' = Some (dq t)) /\ (b = false -> it' = None)).
Proof. exact pb_hist. Qed.
Print Assumptions C43_blend_calls.

(** C43 is violated by every trajectory of more than one segment: evaluated at its end and then at
    its beginning, it answers OUT. *)
Theorem C43_backwards_refuted : forall n pts L s s', velocity_limits n L -> way_points n pts -> distinct_steps pts ->
  (3 <= length pts)%nat -> buffers n s -> buffers n s' ->
  exists segs D s1 s2, lin_generate pts L = Some (segs, D) /\ 0 <= D /\
    calls (lin_eval segs) None [(s, D); (s', 0)] = Some ([(true, s1); (false, s2)], None).
Proof. exact lin_backwards. Qed.
Print Assumptions C43_backwards_refuted.

Theorem C43_backwards_blend_refuted : forall n pts L fuel segs D s s', velocity_limits n L -> acceleration_limits n L ->
  way_points n pts -> (2 <= length pts)%nat -> pb_generate fuel pts L = Some (segs, D) -> full_buffers n s -> full_buffers n s' ->
  exists s1 s2, calls (pb_eval segs) None [(s, D); (s', 0)] = Some ([(true, s1); (false, s2)], None).
Proof. exact pb_backwards. Qed.
Print Assumptions C43_backwards_blend_refuted.

Example C43_nonvacuous : velocity_limits 1 L1 /\ way_points 1 ex_pts /\ distinct_steps ex_pts /\ (3 <= length ex_pts)%nat /\
  buffers 1 (st_q 1 [7]) /\ buffers 1 (st_dq 1 [7] [8]) /\ full_buffers 1 (state_alloc 1).
Proof.
  split; [apply L1_ok|]. split; [apply ex_points|]. split; [apply ex_points|]. split; [cbn; lia|].
  split; [|split]; [split; [reflexivity|]; split; [exists [7]; auto|exact I]
    |split; [reflexivity|]; split; [exists [7]; auto|reflexivity]|apply state_alloc_buffers].
Qed.

(** * C66: Cartesian interpolation *)

(** C66: between two unit poses the pose is the first one before time 0, the second after time 1, and in
    between its orientation follows the shorter great arc at constant rate and its position the
    straight line. *)
Theorem C66_slerp_pose : forall e0 e1, unit_qutr e0 -> unit_qutr e1 ->
  exists l X dX th q1, slerp_generate [e0; e1] = Some (l, 1) /\
  (forall it s t, (it = None \/ it = Some 0%nat) -> exists s' r, slerp_list_eval l it s t = Some (r, s', None) /\
     x_X s' = xput (X t) (x_X s) /\ x_dX s' = xput (dX t) (x_dX s)) /\
  0 <= th <= PI / 2 /\ cos th = Rabs (dot4 (eq e0) (eq e1)) /\ (q1 = eq e1 \/ q1 = scale4 (-1) (eq e1)) /\
  (forall t, t <= 0 -> X t = e0) /\ (forall t, 1 <= t -> X t = e1) /\
  forall t, 0 < t < 1 -> unit_qutr (X t) /\ on_arc (eq e0) q1 th t (eq (X t)) /\
    ev (X t) = plus3 (ev e0) (times3 t (plus3 (ev e1) (times3 (-1) (ev e0)))).
Proof. exact slerp_pose_claim. Qed.
Print Assumptions C66_slerp_pose.

(** C66: during the motion the reported velocity is constant and is the velocity of the moving body (rotation
    zero, or outside the logarithm's small-angle series). *)
Theorem C66_slerp_velocity : forall e0 e1 th, unit_qutr e0 -> unit_qutr e1 ->
  0 <= th <= PI / 2 -> cos th = Rabs (dot4 (eq e0) (eq e1)) -> th = 0 \/ / 2 ^ 13 <= th ->
  exists l X dx, slerp_generate [e0; e1] = Some (l, 1) /\
  (forall it s t, (it = None \/ it = Some 0%nat) -> 0 < t < 1 -> exists s' r, slerp_list_eval l it s t = Some (r, s', None) /\
     x_X s' = xput (X t) (x_X s) /\ x_dX s' = xput dx (x_dX s)) /\
  forall t, 0 < t < 1 -> body_velocity (fun u p => qutr_tf (X u) p) t (dxv dx) (dxw dx).
Proof. exact slerp_velocity_claim. Qed.
Print Assumptions C66_slerp_velocity.

(** C66 is violated: every evaluation, also during the motion, answers OUT. *)
Theorem C66_slerp_in_refuted : forall e0 e1, exists l, slerp_generate [e0; e1] = Some (l, 1) /\
  forall it s t, (it = None \/ it = Some 0%nat) -> exists s', slerp_list_eval l it s t = Some (false, s', None).
Proof. exact slerp_out_claim. Qed.
Print Assumptions C66_slerp_in_refuted.

(** A quarter turn about x with a shift along x. *)
Example C66_nonvacuous : unit_qutr (mkE (mkQ 0 0 0 1) (mkV 0 0 0)) /\
  unit_qutr (mkE (mkQ (sin (PI / 4)) 0 0 (cos (PI / 4))) (mkV 1 0 0)) /\ 0 <= PI / 4 <= PI / 2 /\ / 2 ^ 13 <= PI / 4 /\
  cos (PI / 4) = Rabs (dot4 (mkQ 0 0 0 1) (mkQ (sin (PI / 4)) 0 0 (cos (PI / 4)))).
Proof. exact slerp_example. Qed.

(** * C67: checking a trajectory by sampling *)

(** C67: on a list not evaluated before, aa_ct_seg_list_check returns the first non-zero verdict at the
    multiples of dt up to the duration, and 0 if there is none. *)
Theorem C67_check_linear : forall n pts L, velocity_limits n L -> way_points n pts -> distinct_steps pts -> (2 <= length pts)%nat ->
  exists segs D T q dq, lin_generate pts L = Some (segs, D) /\ straight_moves n pts L D T q dq /\
    forall g dt fuel, 0 < dt -> D < INR fuel * dt ->
      exists v it, seg_list_check (S fuel) (lin_eval segs) n None dt (positions g) = Some (v, it) /\ sampled g q D dt v.
Proof. exact lin_checked. Qed.
Print Assumptions C67_check_linear.

Theorem C67_check_blend : forall n pts L fuel segs D, velocity_limits n L -> acceleration_limits n L -> way_points n pts ->
  pb_generate fuel pts L = Some (segs, D) -> exists q dq, blended n pts L D q dq /\
    forall g dt steps, 0 < dt -> D < INR steps * dt ->
      exists v it, seg_list_check (S steps) (pb_eval segs) n None dt (positions g) = Some (v, it) /\ sampled g q D dt v.
Proof. exact pb_checked. Qed.
Print Assumptions C67_check_blend.

(** C67 is violated after an evaluation at the end: the check then returns 0 whatever the test function says. *)
Theorem C67_check_stale_refuted : forall n pts L s fn dt fuel, velocity_limits n L -> way_points n pts -> distinct_steps pts ->
  (3 <= length pts)%nat -> buffers n s ->
  exists segs D s1 it, lin_generate pts L = Some (segs, D) /\ lin_eval segs None s D = Some (true, s1, it) /\
    seg_list_check (S fuel) (lin_eval segs) n it dt fn = Some (0%Z, None).
Proof. exact lin_check_stale. Qed.
Print Assumptions C67_check_stale_refuted.

(** C67 is violated at the end of the trajectory: unless the duration is a multiple of dt the final configuration is not tested. *)
Theorem C67_check_end_refuted : forall n pts L dt, velocity_limits n L -> way_points n pts -> distinct_steps pts ->
  (2 <= length pts)%nat -> 0 < dt ->
  exists segs D, lin_generate pts L = Some (segs, D) /\ forall fuel, (forall k, INR k * dt <> D) -> D < INR fuel * dt ->
    exists it, seg_list_check (S fuel) (lin_eval segs) n None dt
      (positions (fun t _ => if Req_EM_T t D then 1%Z else 0%Z)) = Some (0%Z, it).
Proof. exact lin_check_end. Qed.
Print Assumptions C67_check_end_refuted.

(** C67 is violated for Cartesian trajectories: the check returns 0 without calling the test function. *)
Theorem C67_check_cartesian_refuted : forall e0 e1 l D fuel fn dt s, slerp_generate [e0; e1] = Some (l, D) ->
  check_loop (S fuel) (slerp_list_eval l) fn dt None s 0 = Some (0%Z, None).
Proof. exact slerp_check_blind. Qed.
Print Assumptions C67_check_cartesian_refuted.

Example C67_nonvacuous : exists segs, lin_generate ex_pts L1 = Some (segs, 3) /\ 3 < INR 7 * (1 / 2) /\
  (forall k, INR k * 2 <> 3).
Proof. exact check_example. Qed.

(** * C68: the continuity check *)

(** C68 is violated: a trajectory at constant speed 1, sampled every 0.8 seconds with tolerance 0.9, is
    reported as discontinuous. *)
Theorem C68_continuity_check_refuted : exists pts L segs D T q dq, velocity_limits 1 L /\ way_points 1 pts /\ distinct_steps pts /\
  lin_generate pts L = Some (segs, D) /\ straight_moves 1 pts L D T q dq /\
  (forall t u, 0 <= t <= u -> u <= D -> u - t <= 4 / 5 -> Rabs (joint (q u) 0 - joint (q t) 0) <= 4 / 5) /\
  lin_check_c0 3 segs 1 None (4 / 5) (9 / 10) (1 / 1000) = Some 1%Z.
Proof. exact c0_claim. Qed.
Print Assumptions C68_continuity_check_refuted.

(** * C69: evaluating positions only *)

(** C69 (linear): aa_ct_seg_list_eval_q and aa_ct_seg_list_eval_dq return the position, and the position and velocity. *)
Theorem C69_linear_positions : forall n pts L, velocity_limits n L -> way_points n pts -> distinct_steps pts -> (2 <= length pts)%nat ->
  exists segs D T q dq, lin_generate pts L = Some (segs, D) /\ straight_moves n pts L D T q dq /\
  forall t b c, 0 <= t <= D -> length b = n -> length c = n ->
    (exists k, lin_eval segs None (st_q n b) t = Some (true, st_q n (q t), Some k)) /\
    (exists k, lin_eval segs None (st_dq n b c) t = Some (true, st_dq n (q t) (dq t), Some k)).
Proof. exact lin_eval_q_claim. Qed.
Print Assumptions C69_linear_positions.

(** C69 is violated for parabolic blends: both functions write through a null pointer at every time of
    every trajectory. *)
Theorem C69_blend_positions_refuted : forall n pts L fuel segs D, velocity_limits n L -> acceleration_limits n L -> way_points n pts ->
  pb_generate fuel pts L = Some (segs, D) -> (0 < n)%nat -> forall t b c, 0 <= t <= D ->
  pb_eval segs None (st_q n b) t = None /\ pb_eval segs None (st_dq n b c) t = None.
Proof. exact pb_eval_q_claim. Qed.
Print Assumptions C69_blend_positions_refuted.

(** C69 is violated for trapezoidal velocities by aa_ct_seg_list_eval_q during acceleration. *)
Theorem C69_trapezoid_positions_refuted : forall n L w0 w1 i, velocity_limits n L -> acceleration_limits n L ->
  length w0 = n -> length w1 = n -> (i < n)%nat -> joint w0 i <> joint w1 i -> forall b t,
  exists segs D ta, trap_generate [w0; w1] L = Some (segs, D) /\ 0 < ta /\ 2 * ta <= D /\
    (0 <= t <= ta -> trap_eval segs None (st_q n b) t = None).
Proof. exact trap_eval_q_claim. Qed.
Print Assumptions C69_trapezoid_positions_refuted.
