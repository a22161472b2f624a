(** What a joint trajectory is, independently of how the library builds and stores it. *)
From Coq Require Import List Reals Arith ZArith.
From Verif Require Import TrModel.
Import ListNotations.
Open Scope R_scope.

(** joint i of a configuration *)
Definition joint (v : list R) (i : nat) : R := nth i v 0.

(** limits for n joints: room to move both ways *)
Definition velocity_limits (n : nat) (L : limit) : Prop :=
  length (min_dq L) = n /\ length (max_dq L) = n /\
  forall i, (i < n)%nat -> joint (min_dq L) i < 0 < joint (max_dq L) i.
Definition acceleration_limits (n : nat) (L : limit) : Prop :=
  length (min_ddq L) = n /\ length (max_ddq L) = n /\
  forall i, (i < n)%nat -> joint (min_ddq L) i < 0 < joint (max_ddq L) i.

(** way points: all with n joints, no two consecutive ones equal *)
Definition way_points (n : nat) (pts : list (list R)) : Prop :=
  pts <> [] /\ Forall (fun w => length w = n) pts.
Definition distinct_steps (pts : list (list R)) : Prop :=
  forall j, (S j < length pts)%nat -> nth j pts [] <> nth (S j) pts [].

(** the caller's buffers for n joints: q given, dq given or null *)
Definition buffers (n : nat) (s : st) : Prop :=
  s_n s = n /\ (exists q, s_q s = Some q /\ length q = n) /\
  match s_dq s with Some d => length d = n | None => True end.
(** the same, with q, dq and ddq all given *)
Definition full_buffers (n : nat) (s : st) : Prop :=
  s_n s = n /\ (exists q, s_q s = Some q /\ length q = n) /\
  (exists d, s_dq s = Some d /\ length d = n) /\ (exists a, s_ddq s = Some a /\ length a = n).

(** Straight moves between the way points: [T] are the times at the way points, [q] and [dq] position and
    velocity.  The velocity limits hold, and every move is as fast as they allow. *)
Record straight_moves (n : nat) (pts : list (list R)) (L : limit) (D : R) (T : list R) (q dq : R -> list R) : Prop := {
  sm_times : length T = length pts;
  sm_first : hd 0 T = 0;
  sm_last : last T 0 = D;
  sm_order : forall j, (S j < length T)%nat -> nth j T 0 < nth (S j) T 0;
  sm_points : forall j, (j < length pts)%nat -> q (nth j T 0) = nth j pts [];
  sm_size : forall t, length (q t) = n /\ length (dq t) = n;
  sm_straight : forall j t i, (S j < length T)%nat -> nth j T 0 <= t <= nth (S j) T 0 ->
    joint (q t) i = joint (nth j pts []) i +
      (t - nth j T 0) / (nth (S j) T 0 - nth j T 0) * (joint (nth (S j) pts []) i - joint (nth j pts []) i);
  sm_velocity : forall j t i, (S j < length T)%nat -> nth j T 0 < t < nth (S j) T 0 ->
    derivable_pt_lim (fun u => joint (q u) i) t (joint (dq t) i);
  sm_limits : forall t i, 0 <= t <= D -> (i < n)%nat ->
    joint (min_dq L) i <= joint (dq t) i <= joint (max_dq L) i;
  sm_speed : forall t u i, 0 <= t <= u -> u <= D -> (i < n)%nat ->
    joint (min_dq L) i * (u - t) <= joint (q u) i - joint (q t) i <= joint (max_dq L) i * (u - t);
  sm_fastest : forall j, (S j < length T)%nat -> exists i, (i < n)%nat /\
    (joint (nth (S j) pts []) i - joint (nth j pts []) i = joint (max_dq L) i * (nth (S j) T 0 - nth j T 0) \/
     joint (nth (S j) pts []) i - joint (nth j pts []) i = joint (min_dq L) i * (nth (S j) T 0 - nth j T 0))
}.

(** A blended motion: from rest at the first way point to rest at the last, with a continuous velocity
    that is the derivative of the position, within the limits on velocity and
    acceleration, and never outside the box spanned by the way points. *)
Record blended (n : nat) (pts : list (list R)) (L : limit) (D : R) (q dq : R -> list R) : Prop := {
  bl_size : forall t, length (q t) = n /\ length (dq t) = n;
  bl_start : q 0 = hd [] pts /\ dq 0 = repeat 0 n;
  bl_end : q D = last pts [] /\ dq D = repeat 0 n;
  bl_velocity : forall t i, 0 <= t <= D -> (i < n)%nat ->
    derivable_pt_lim (fun u => joint (q u) i) t (joint (dq t) i);
  bl_limits : forall t i, 0 <= t <= D -> (i < n)%nat ->
    joint (min_dq L) i <= joint (dq t) i <= joint (max_dq L) i;
  bl_acceleration : forall t u i, 0 <= t <= u -> u <= D -> (i < n)%nat ->
    joint (min_ddq L) i * (u - t) <= joint (dq u) i - joint (dq t) i <= joint (max_ddq L) i * (u - t);
  bl_box : forall i m M, (i < n)%nat -> (forall w, In w pts -> m <= joint w i <= M) ->
    forall t, 0 <= t <= D -> m <= joint (q t) i <= M
}.

(** a sequence of calls of an evaluation function, each with its own buffers and time; the
    library keeps a cursor between the calls *)
Fixpoint calls (ev : option nat -> st -> R -> option (bool * st * option nat)) (it : option nat)
    (h : list (st * R)) : option (list (bool * st) * option nat) :=
  match h with
  | [] => Some ([], it)
  | (s, t) :: r =>
      match ev it s t with
      | None => None
      | Some (b, s', it') =>
          match calls ev it' r with
          | None => None
          | Some (out, it'') => Some ((b, s') :: out, it'')
          end
      end
  end.

(** two configurations agree to one thousandth in every joint *)
Definition close (a b : list R) : Prop :=
  length a = length b /\ forall i, Rabs (joint a i - joint b i) <= 1 / 1000.

(** a validity test that looks only at time and position *)
Definition positions (g : R -> list R -> Z) (t : R) (s : st) : Z :=
  match s_q s with Some q => g t q | None => 0%Z end.
(** the verdict z of testing the motion q on [0, D] at the multiples of dt: 0 if all pass, otherwise the
    first non-zero result *)
Definition sampled (g : R -> list R -> Z) (q : R -> list R) (D dt : R) (z : Z) : Prop :=
  (z = 0%Z /\ forall k, INR k * dt <= D -> g (INR k * dt) (q (INR k * dt)) = 0%Z) \/
  (z <> 0%Z /\ exists k, INR k * dt <= D /\ z = g (INR k * dt) (q (INR k * dt)) /\
     forall j, (j < k)%nat -> g (INR j * dt) (q (INR j * dt)) = 0%Z).
