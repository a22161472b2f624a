(** Linear trajectories. *)
From Coq Require Import List Reals Arith Lia Lra Bool.
From Verif Require Import TrModel TrSpec TrEvalProofs.
Import ListNotations.
Open Scope R_scope.

(** ** Lists *)
Lemma zip_length f a b : length (zip f a b) = Nat.min (length a) (length b).
Proof. revert b. induction a as [|x a IH]; intros [|y b]; cbn; auto. Qed.
Lemma zip_joint f a b i : (i < length a)%nat -> length a = length b ->
  joint (zip f a b) i = f (joint a i) (joint b i).
Proof.
  unfold joint. revert b i. induction a as [|x a IH]; intros [|y b] [|i] H E; cbn in *; try lia; auto.
  apply IH; lia.
Qed.
Lemma joint_over v i : (length v <= i)%nat -> joint v i = 0.
Proof. intros H. unfold joint. apply nth_overflow. auto. Qed.
Lemma joint_ext a b : length a = length b -> (forall i, (i < length a)%nat -> joint a i = joint b i) -> a = b.
Proof. intros E H. apply nth_ext with (d := 0) (d' := 0); auto. Qed.
Lemma map_joint f a i : (i < length a)%nat -> joint (map f a) i = f (joint a i).
Proof.
  unfold joint. intros H. rewrite nth_indep with (d' := f 0) by (rewrite map_length; auto). apply map_nth.
Qed.
Lemma firstn_len {A} (l : list A) n : length l = n -> firstn n l = l.
Proof. intros <-. apply firstn_all. Qed.
Lemma fill_len n v old : length v = n -> length old = n -> fill n v old = Some v.
Proof.
  intros Hv Ho. unfold fill. rewrite Hv, Ho, Nat.leb_refl. cbn [andb].
  rewrite firstn_len by auto. rewrite skipn_all2 by lia. rewrite app_nil_r. auto.
Qed.
Lemma veq_joint a b tol : length a = length b ->
  veq a b tol = true <-> forall i, (i < length a)%nat -> Rabs (joint a i - joint b i) <= tol.
Proof.
  revert b. induction a as [|x a IH]; intros [|y b] E; cbn in E; try lia; cbn [veq].
  - split; auto. intros _ i Hi. cbn in Hi. lia.
  - rewrite andb_true_iff. unfold feq. rewrite Rle_b_true, IH by lia. split.
    + intros (A & B) [|i] Hi; [exact A|]. apply (B i). cbn in Hi. lia.
    + intros H. split; [apply (H 0%nat); cbn; lia|]. intros i Hi. apply (H (S i)). cbn. lia.
Qed.

(** ** Adding way points *)
Lemma aa_eps_pos : 0 <= aa_epsilon. Proof. unfold aa_epsilon. lra. Qed.

Lemma state_eq_close a b : state_eq a b = true <-> close a b.
Proof.
  unfold state_eq, close. rewrite andb_true_iff, Nat.eqb_eq. split.
  - intros (E & H). split; auto. rewrite veq_joint in H by auto. intros i.
    destruct (Nat.lt_ge_cases i (length a)); [apply H; auto|].
    rewrite !joint_over by lia. rewrite Rminus_0_r, Rabs_R0. pose proof aa_eps_pos. unfold aa_epsilon in *. lra.
  - intros (E & H). split; auto. rewrite veq_joint by auto. intros i _. apply H.
Qed.

Lemma last_app1 {A} (l : list A) x d : last (l ++ [x]) d = x.
Proof. apply last_last. Qed.

Lemma pt_add_spec l q :
  (l <> [] /\ close (last l []) q /\ pt_add l q = l) \/
  ((l = [] \/ ~ close (last l []) q) /\ pt_add l q = l ++ [q]).
Proof.
  destruct l as [|f l]; [right; auto|]. unfold pt_add.
  destruct (state_eq (last (f :: l) []) q) eqn:E; [left|right].
  - apply state_eq_close in E. repeat split; auto; [discriminate|apply E|apply E].
  - split; auto. right. intros C. apply state_eq_close in C. congruence.
Qed.

Definition steps_apart (l : list (list R)) : Prop :=
  forall j, (S j < length l)%nat -> ~ close (nth j l []) (nth (S j) l []).

Lemma last_nth {A} (l : list A) d : last l d = nth (length l - 1) l d.
Proof.
  induction l as [|x l IH]; auto. destruct l as [|y l]; auto.
  change (last (x :: y :: l) d) with (last (y :: l) d). rewrite IH. cbn. rewrite Nat.sub_0_r. auto.
Qed.

Lemma steps_apart_snoc l q : steps_apart l -> (l = [] \/ ~ close (last l []) q) -> steps_apart (l ++ [q]).
Proof.
  intros H C j Hj. rewrite app_length in Hj. cbn in Hj.
  destruct (Nat.eq_dec (S j) (length l)) as [E|E].
  - rewrite (app_nth1 _ _ _ (n := j)) by lia. rewrite app_nth2 by lia. replace (S j - length l)%nat with 0%nat by lia.
    cbn. destruct C as [->|C]; [cbn in E; lia|]. rewrite last_nth in C. replace (length l - 1)%nat with j in C by lia. auto.
  - rewrite !app_nth1 by lia. apply H. lia.
Qed.

Definition pts_from (qs : list (list R)) : list (list R) := fold_left pt_add qs [].

Lemma adds_spec : forall qs l, steps_apart l ->
  let r := fold_left pt_add qs l in
  steps_apart r /\ (exists more, r = l ++ more /\ (forall w, In w more -> In w qs)) /\
  (forall w, In w qs -> exists p, In p r /\ (p = w \/ close p w)) /\
  (qs <> [] -> last r [] = last qs [] \/ close (last r []) (last qs [])).
Proof.
  induction qs as [|q qs IH]; intros l Hl; cbn [fold_left].
  - repeat split; auto; try congruence. + exists []. rewrite app_nil_r. firstorder. + intros w [].
  - assert (S1 : steps_apart (pt_add l q)).
    { destruct (pt_add_spec l q) as [(_ & _ & ->)|(A & ->)]; auto. apply steps_apart_snoc; auto. }
    destruct (IH _ S1) as (A & (more & B1 & B2) & C & D).
    assert (P : exists p, In p (pt_add l q) /\ (p = q \/ close p q) /\ p = last (pt_add l q) []).
    { destruct (pt_add_spec l q) as [(A1 & A2 & ->)|(_ & ->)].
      - exists (last l []). split; [|auto]. rewrite last_nth. apply nth_In. destruct l; [congruence|cbn; lia].
      - exists q. rewrite last_app1. split; [apply in_app_iff; right; cbn; auto|auto]. }
    split; [exact A|]. split; [|split].
    + destruct (pt_add_spec l q) as [(_ & _ & E)|(_ & E)]; rewrite E in B1.
      * exists more. rewrite E. split; auto. intros w Hw. right. auto.
      * exists ([q] ++ more). rewrite E. rewrite app_assoc. split; auto.
        intros w Hw. apply in_app_iff in Hw. destruct Hw as [[<-|[]]|Hw]; [left; auto|right; auto].
    + intros w [<-|Hw]; [|auto]. destruct P as (p & P1 & P2 & _). exists p. split; auto.
      rewrite B1. apply in_app_iff. auto.
    + intros _. destruct qs as [|q' qs].
      * cbn [fold_left last]. destruct P as (p & P1 & P2 & <-). auto.
      * change (last (q :: q' :: qs) []) with (last (q' :: qs) []). apply D. discriminate.
Qed.

Lemma close_refl a : close a a.
Proof. split; auto. intros i. rewrite Rminus_diag_eq by auto. rewrite Rabs_R0. lra. Qed.

Lemma added_points : forall n qs, qs <> [] -> Forall (fun w => length w = n) qs ->
  let pts := pts_from qs in
  way_points n pts /\ distinct_steps pts /\ hd [] pts = hd [] qs /\
  close (last pts []) (last qs []) /\
  (forall w, In w qs -> exists p, In p pts /\ close p w) /\ (forall p, In p pts -> In p qs).
Proof.
  intros n [|q qs] Hq Hn; [congruence|]. intros pts.
  assert (S0 : steps_apart []) by (intros j Hj; cbn in Hj; lia).
  assert (S1 : steps_apart [q]) by (intros j Hj; cbn in Hj; lia).
  destruct (adds_spec (q :: qs) [] S0) as (A & (more & B1 & B2) & C & D).
  destruct (adds_spec qs [q] S1) as (_ & (m' & E & _) & _ & _).
  change (fold_left pt_add (q :: qs) []) with pts in A, B1, C, D.
  assert (E' : pts = q :: m') by exact E. cbn [app] in B1.
  assert (I : forall p, In p pts -> In p (q :: qs)) by (rewrite B1; auto).
  split; [|split; [|split; [|split; [|split]]]]; auto.
  - split; [rewrite E'; discriminate|]. apply Forall_forall. intros w Hw. rewrite Forall_forall in Hn. auto.
  - intros j Hj N. apply (A j Hj). rewrite N. apply close_refl.
  - rewrite E'. reflexivity.
  - destruct D as [D|D]; [discriminate| |]; rewrite ?D; auto using close_refl.
  - intros w Hw. destruct (C w Hw) as (p & P1 & P2). exists p. split; auto. destruct P2 as [->|P2]; auto using close_refl.
Qed.

(** ** Segment times *)
Lemma axis_time_bounds x a b tau : a < 0 < b -> axis_time x a b <= tau -> 0 <= tau /\ a * tau <= x <= b * tau.
Proof.
  intros H. unfold axis_time. rcase; rb; intros T.
  - assert (E : x = a * (x / a)) by (field; lra). assert (0 < x / a).
    { replace (x / a) with ((- x) * / (- a)) by (field; lra). apply Rmult_lt_0_compat; [lra|]. apply Rinv_0_lt_compat. lra. }
    assert (0 <= tau) by lra. split; auto. split; [|nra].
    rewrite E at 1. assert (a * (tau - x / a) <= 0) by nra. lra.
  - assert (E : x = b * (x / b)) by (field; lra). assert (0 <= x / b).
    { apply Rmult_le_pos; [lra|]. left. apply Rinv_0_lt_compat. lra. }
    assert (0 <= tau) by lra. split; auto. split; [nra|].
    rewrite E at 1. assert (0 <= b * (tau - x / b)) by nra. lra.
Qed.
Lemma axis_time_hits x a b : a < 0 < b -> x = a * axis_time x a b \/ x = b * axis_time x a b.
Proof. intros H. unfold axis_time. rcase; rb; [left|right]; field; lra. Qed.
Lemma axis_time_pos x a b : a < 0 < b -> x <> 0 -> 0 < axis_time x a b.
Proof.
  intros H N. unfold axis_time. rcase; rb.
  - replace (x / a) with ((- x) * / (- a)) by (field; lra). apply Rmult_lt_0_compat; [lra|]. apply Rinv_0_lt_compat. lra.
  - apply Rmult_lt_0_compat; [lra|]. apply Rinv_0_lt_compat. lra.
Qed.
Lemma aa_max_l a b : a <= aa_max a b. Proof. unfold aa_max. rcase; rb; lra. Qed.
Lemma aa_max_r a b : b <= aa_max a b. Proof. unfold aa_max. rcase; rb; lra. Qed.
Lemma aa_max_case a b : aa_max a b = a \/ aa_max a b = b. Proof. unfold aa_max. rcase; auto. Qed.

Lemma lin_time_spec : forall d mn mx t0, length d = length mn -> length d = length mx ->
  let t := lin_time t0 d mn mx in
  t0 <= t /\ (forall i, (i < length d)%nat -> axis_time (joint d i) (joint mn i) (joint mx i) <= t) /\
  (t = t0 \/ exists i, (i < length d)%nat /\ t = axis_time (joint d i) (joint mn i) (joint mx i)).
Proof.
  induction d as [|x d IH]; intros [|a mn] [|b mx] t0 E1 E2; cbn in E1, E2; try lia; cbn [lin_time].
  - split; [lra|]. split; auto. intros i Hi. cbn in Hi. lia.
  - destruct (IH mn mx (aa_max t0 (axis_time x a b)) ltac:(lia) ltac:(lia)) as (A & B & C).
    pose proof (aa_max_l t0 (axis_time x a b)). pose proof (aa_max_r t0 (axis_time x a b)).
    split; [lra|]. split.
    + intros [|i] Hi; [unfold joint; cbn; lra|]. apply (B i). cbn in Hi. lia.
    + destruct C as [C|(i & C1 & C2)].
      * rewrite C. destruct (aa_max_case t0 (axis_time x a b)) as [->| ->]; [left; auto|right; exists 0%nat; cbn; split; auto; lia].
      * right. exists (S i). cbn. split; [lia|auto].
Qed.

(** ** The segments *)
Definition move_time (q0 q1 : list R) (L : limit) : R := lin_time 0 (zip (fun a b => b - a) q0 q1) (min_dq L) (max_dq L).

Lemma dq_new_eq n t0 q0 q1 L : length q0 = n -> length q1 = n ->
  dq_new t0 q0 q1 L =
  mkSD q0 (map (fun x => x / move_time q0 q1 L) (zip (fun a b => b - a) q0 q1)) t0 (t0 + move_time q0 q1 L).
Proof.
  intros H0 H1. unfold dq_new. rewrite H0, H1, Nat.min_id.
  rewrite (firstn_len q0) by auto. rewrite (firstn_len (zip _ _ _)); [reflexivity|].
  rewrite zip_length, H0, H1, Nat.min_id. auto.
Qed.

Lemma move_time_spec n q0 q1 L : velocity_limits n L -> length q0 = n -> length q1 = n -> q0 <> q1 ->
  let dt := move_time q0 q1 L in
  0 < dt /\
  (forall i, (i < n)%nat -> joint (min_dq L) i * dt <= joint q1 i - joint q0 i <= joint (max_dq L) i * dt) /\
  exists i, (i < n)%nat /\ (joint q1 i - joint q0 i = joint (max_dq L) i * dt \/ joint q1 i - joint q0 i = joint (min_dq L) i * dt).
Proof.
  intros (L1 & L2 & L3) H0 H1 N dt.
  assert (Z : length (zip (fun a b => b - a) q0 q1) = n) by (rewrite zip_length, H0, H1, Nat.min_id; auto).
  destruct (lin_time_spec (zip (fun a b => b - a) q0 q1) (min_dq L) (max_dq L) 0) as (A & B & C); try congruence.
  change (lin_time 0 (zip (fun a b : R => b - a) q0 q1) (min_dq L) (max_dq L)) with dt in *. rewrite Z in *.
  assert (J : forall i, (i < n)%nat -> joint (zip (fun a b => b - a) q0 q1) i = joint q1 i - joint q0 i).
  { intros i Hi. rewrite zip_joint by lia. auto. }
  assert (P : 0 < dt).
  { destruct (Rlt_dec 0 dt); auto. exfalso. apply N. apply joint_ext; [congruence|]. intros i Hi.
    destruct (Req_dec (joint q1 i - joint q0 i) 0) as [E|E]; [lra|].
    assert (Hi' : (i < n)%nat) by lia.
    pose proof (B i Hi') as B1. rewrite J in B1 by auto. pose proof (axis_time_pos _ _ _ (L3 i Hi') E). lra. }
  split; auto. split.
  - intros i Hi. rewrite <- J by auto. apply (axis_time_bounds _ _ _ dt (L3 i Hi)). auto.
  - destruct C as [C|(i & C1 & C2)]; [lra|]. exists i. split; auto. rewrite <- J by auto. rewrite C2.
    destruct (axis_time_hits (joint (zip (fun a b => b - a) q0 q1) i) _ _ (L3 i C1)); [right|left]; auto.
Qed.

Fixpoint times (t0 : R) (q0 : list R) (r : list (list R)) (L : limit) : list R :=
  t0 :: match r with [] => [] | q1 :: r' => times (t0 + move_time q0 q1 L) q1 r' L end.
Lemma times_length : forall r t0 q0 L, length (times t0 q0 r L) = S (length r).
Proof. induction r; intros; cbn; auto. Qed.
Lemma times_0 : forall r t0 q0 L, nth 0 (times t0 q0 r L) 0 = t0.
Proof. intros [|]; reflexivity. Qed.

Lemma segs_spec n L : forall r t0 q0, length q0 = n -> Forall (fun w => length w = n) r ->
  length (lin_segs t0 q0 r L) = length r /\
  forall k, (k < length r)%nat ->
    let T := times t0 q0 r L in
    let a := nth k (q0 :: r) [] in let b := nth k r [] in
    nth (S k) T 0 = nth k T 0 + move_time a b L /\
    nth_error (lin_segs t0 q0 r L) k =
      Some (mkSD a (map (fun x => x / move_time a b L) (zip (fun a b => b - a) a b)) (nth k T 0) (nth (S k) T 0)).
Proof.
  induction r as [|q1 r IH]; intros t0 q0 H0 Hr; [split; auto; cbn; lia|].
  apply Forall_cons_iff in Hr. destruct Hr as (H1 & Hr).
  cbn [lin_segs]. rewrite (dq_new_eq n) by auto. cbn [sd_t1].
  destruct (IH (t0 + move_time q0 q1 L) q1 H1 Hr) as (A & B).
  split; [cbn; auto|]. intros [|k] Hk; cbn [length] in Hk.
  - cbn [nth nth_error times]. fold (times (t0 + move_time q0 q1 L) q1 r L). rewrite times_0. auto.
  - specialize (B k ltac:(lia)). cbn [nth nth_error times] in *. exact B.
Qed.

Lemma last_end n L : forall r t0 q0, length q0 = n -> Forall (fun w => length w = n) r ->
  r <> [] -> last (map sd_t1 (lin_segs t0 q0 r L)) 0 = last (times t0 q0 r L) 0.
Proof.
  induction r as [|q1 r IH]; intros t0 q0 H0 Hr N; [congruence|].
  apply Forall_cons_iff in Hr. destruct Hr as (H1 & Hr).
  cbn [lin_segs times]. rewrite (dq_new_eq n) by auto. cbn [sd_t1 map].
  destruct r as [|q2 r]; [reflexivity|].
  specialize (IH (t0 + move_time q0 q1 L) q1 H1 Hr ltac:(discriminate)).
  cbn [lin_segs] in IH |- *. cbn [map] in IH |- *. set (x := sd_t1 _) in *.
  match goal with |- last (_ :: x :: ?l) 0 = _ => change (last (x :: l) 0 = last (t0 :: times (t0 + move_time q0 q1 L) q1 (q2 :: r) L) 0) end.
  rewrite IH. reflexivity.
Qed.

(** derivative of a quadratic *)
Lemma quad_deriv (a b c d t : R) : derivable_pt_lim (fun u => a + b * (u - c) + d * (u - c) ^ 2 / 2) t (b + d * (t - c)).
Proof.
  intros eps He. assert (P : 0 < eps / (Rabs d + 1)).
  { apply Rmult_lt_0_compat; auto. apply Rinv_0_lt_compat. pose proof (Rabs_pos d). lra. }
  exists (mkposreal _ P). intros h Hh Hl. cbn [pos] in Hl.
  replace ((a + b * (t + h - c) + d * (t + h - c) ^ 2 / 2 - (a + b * (t - c) + d * (t - c) ^ 2 / 2)) / h - (b + d * (t - c)))
    with (d / 2 * h) by (field; auto).
  rewrite Rabs_mult. pose proof (Rabs_pos d). pose proof (Rabs_pos h).
  assert (E : Rabs (d / 2) <= Rabs d + 1).
  { unfold Rdiv. rewrite Rabs_mult, (Rabs_right (/ 2)) by lra. lra. }
  assert (Rabs h * (Rabs d + 1) < eps).
  { replace eps with (eps / (Rabs d + 1) * (Rabs d + 1)) by (field; lra). apply Rmult_lt_compat_r; lra. }
  pose proof (Rmult_le_compat_r _ _ _ H0 E). lra.
Qed.
Lemma affine_deriv (a b c t : R) : derivable_pt_lim (fun u => a + (u - b) * c) t c.
Proof.
  apply derivable_local with (f := fun u => a + c * (u - b) + 0 * (u - b) ^ 2 / 2) (d := 1); [lra|intros; field|].
  pose proof (quad_deriv a c b 0 t) as Q. replace (c + 0 * (t - b)) with c in Q by ring. exact Q.
Qed.

(** ** The whole trajectory *)
Section Linear.
Variables (n : nat) (L : limit) (w0 : list R) (r : list (list R)).
Hypothesis HL : velocity_limits n L.
Hypothesis H0 : length w0 = n.
Hypothesis Hr : Forall (fun w => length w = n) r.
Hypothesis Hne : r <> [].
Hypothesis Hd : distinct_steps (w0 :: r).

Let N := length r.
Let T := times 0 w0 r L.
Let D := last T 0.
Let segs := lin_segs 0 w0 r L.
Let lo k := nth k T 0.
Let hi k := nth (S k) T 0.
Let wa k := nth k (w0 :: r) [].
Let wb k := nth k r [].
Let tm k := move_time (wa k) (wb k) L.
Let vel k := map (fun x => x / tm k) (zip (fun a b => b - a) (wa k) (wb k)).
Let pos k t := zip (fun q d => q + (t - lo k) * d) (wa k) (vel k).

Lemma Npos : (0 < N)%nat.
Proof. unfold N. destruct r; [congruence|cbn; lia]. Qed.
Lemma wa_len k : (k <= N)%nat -> length (wa k) = n.
Proof.
  intros Hk. unfold wa. assert (F : Forall (fun w => length w = n) (w0 :: r)) by (constructor; auto).
  rewrite Forall_forall in F. apply F. apply nth_In. cbn. unfold N in Hk. lia.
Qed.
Lemma wb_wa k : wb k = wa (S k). Proof. reflexivity. Qed.
Lemma wa_neq k : (k < N)%nat -> wa k <> wb k.
Proof. intros Hk. apply (Hd k). cbn. unfold N in Hk. lia. Qed.
Lemma tm_spec k : (k < N)%nat ->
  0 < tm k /\
  (forall i, (i < n)%nat -> joint (min_dq L) i * tm k <= joint (wb k) i - joint (wa k) i <= joint (max_dq L) i * tm k) /\
  exists i, (i < n)%nat /\ (joint (wb k) i - joint (wa k) i = joint (max_dq L) i * tm k \/
                            joint (wb k) i - joint (wa k) i = joint (min_dq L) i * tm k).
Proof.
  intros Hk. apply move_time_spec; auto; [apply wa_len; lia|rewrite wb_wa; apply wa_len; lia|apply wa_neq; auto].
Qed.
Lemma hi_lo k : (k < N)%nat -> hi k = lo k + tm k.
Proof. intros Hk. apply (segs_spec n L r 0 w0 H0 Hr). auto. Qed.
Lemma lin_strict k : (k < N)%nat -> lo k < hi k.
Proof. intros Hk. rewrite hi_lo by auto. pose proof (tm_spec k Hk). lra. Qed.
Lemma lin_joined k : (S k < N)%nat -> hi k = lo (S k). Proof. reflexivity. Qed.
Lemma seg_nth k : (k < N)%nat -> nth_error segs k = Some (mkSD (wa k) (vel k) (lo k) (hi k)).
Proof. intros Hk. apply (segs_spec n L r 0 w0 H0 Hr). auto. Qed.
Lemma segs_len : length segs = N.
Proof. apply (segs_spec n L r 0 w0 H0 Hr). Qed.
Lemma vel_len k : (k < N)%nat -> length (vel k) = n.
Proof. intros Hk. unfold vel. rewrite map_length, zip_length, wb_wa, !wa_len by lia. lia. Qed.
Lemma pos_len k t : (k < N)%nat -> length (pos k t) = n.
Proof. intros Hk. unfold pos. rewrite zip_length, vel_len, wa_len by lia. lia. Qed.
Lemma vel_joint k i : (k < N)%nat -> (i < n)%nat -> joint (vel k) i = (joint (wb k) i - joint (wa k) i) / tm k.
Proof.
  intros Hk Hi. assert (length (wa k) = n) by (apply wa_len; lia). assert (length (wb k) = n) by (rewrite wb_wa; apply wa_len; lia).
  unfold vel. rewrite map_joint by (rewrite zip_length; lia). rewrite zip_joint by lia. auto.
Qed.
Lemma pos_joint k t i : (k < N)%nat -> (i < n)%nat ->
  joint (pos k t) i = joint (wa k) i + (t - lo k) * ((joint (wb k) i - joint (wa k) i) / tm k).
Proof.
  intros Hk Hi. pose proof (wa_len k ltac:(lia)). pose proof (vel_len k Hk).
  unfold pos. rewrite zip_joint by lia. rewrite vel_joint by auto. auto.
Qed.
Lemma pos_end k : (k < N)%nat -> pos k (hi k) = wb k.
Proof.
  intros Hk. assert (W : length (wb k) = n) by (rewrite wb_wa; apply wa_len; lia).
  apply joint_ext; [rewrite pos_len; auto|]. rewrite pos_len by auto. intros i Hi. rewrite pos_joint by auto.
  rewrite hi_lo by auto. pose proof (tm_spec k Hk) as (P & _). field. lra.
Qed.
Lemma pos_begin k : (k < N)%nat -> pos k (lo k) = wa k.
Proof.
  intros Hk. pose proof (wa_len k ltac:(lia)).
  apply joint_ext; [rewrite pos_len; auto|]. rewrite pos_len by auto. intros i Hi. rewrite pos_joint by auto. 
  pose proof (tm_spec k Hk) as (P & _). field. lra.
Qed.
Lemma pos_cont k : (S k < N)%nat -> pos k (hi k) = pos (S k) (hi k).
Proof. intros Hk. rewrite pos_end by lia. rewrite lin_joined, pos_begin by lia. apply wb_wa. Qed.

Definition lin_post k (s : st) (t : R) : st := mkSt n (Some (pos k t)) (option_map (fun _ => vel k) (s_dq s)) (s_ddq s).
Definition lin_miss (k : nat) (s : st) (t : R) : st := mkSt n (Some (wb k)) (s_dq s) (s_ddq s).

Lemma lin_ev_in k s t : (k < N)%nat -> buffers n s -> lo k <= t <= hi k ->
  lin_ev segs k s t = Some (true, lin_post k s t).
Proof.
  intros Hk (B1 & (q & B2 & B3) & B4) Ht. unfold lin_ev. rewrite seg_nth by auto. cbn [obind].
  unfold dq_eval. cbn [sd_q0 sd_dq sd_t0 sd_t1]. rewrite wa_len, B1, Nat.min_id by lia.
  assert (E1 : Rle_b (lo k) t = true) by (apply Rle_b_true; lra).
  assert (E2 : Rle_b t (hi k) = true) by (apply Rle_b_true; lra).
  rewrite E1, E2. cbn [andb]. rewrite B2. cbn [fill_if]. fold (pos k t).
  rewrite (fill_len n (pos k t)) by (auto; apply pos_len; auto). cbn [option_map obind].
  unfold lin_post. destruct (s_dq s) as [d|]; cbn [fill_if option_map obind]; auto.
  rewrite (fill_len n (vel k)) by (auto; apply vel_len; auto). reflexivity.
Qed.
Lemma lin_ev_out k s t : (k < N)%nat -> buffers n s -> t < lo k \/ hi k < t ->
  lin_ev segs k s t = Some (false, lin_miss k s t) /\ buffers n (lin_miss k s t) /\
  forall j u, lin_post j (lin_miss k s t) u = lin_post j s u.
Proof.
  intros Hk (B1 & (q & B2 & B3) & B4) Ht.
  assert (W : length (wb k) = n) by (rewrite wb_wa; apply wa_len; lia).
  split; [|split; [|reflexivity]].
  - unfold lin_ev. rewrite seg_nth by auto. cbn [obind].
    unfold dq_eval. cbn [sd_q0 sd_dq sd_t0 sd_t1]. rewrite wa_len, B1, Nat.min_id by lia.
    assert (E : Rle_b (lo k) t && Rle_b t (hi k) = false).
    { apply andb_false_iff. destruct Ht; [left|right]; apply Rle_b_false; auto. }
    rewrite E, B2. cbn [fill_ptr].
    assert (E' : zip (fun q d => q + d * (hi k - lo k)) (wa k) (vel k) = wb k).
    { rewrite <- (pos_end k Hk). pose proof (wa_len k ltac:(lia)). pose proof (vel_len k Hk).
      apply joint_ext; [unfold pos; rewrite !zip_length; auto|]. intros i Hi. rewrite zip_length in Hi.
      unfold pos. rewrite !zip_joint by lia. ring. }
    rewrite E', (fill_len n (wb k)) by auto. reflexivity.
  - split; [reflexivity|]. split; [exists (wb k); auto|]. exact B4.
Qed.

Lemma lin_missed left k s t : (k + left = N)%nat -> (0 < left)%nat ->
  missed lin_miss left k s t = mkSt n (Some (last (w0 :: r) [])) (s_dq s) (s_ddq s).
Proof.
  revert k s. induction left as [|left IH]; intros k s Hk Hl; [lia|]. cbn [missed].
  destruct left as [|left].
  - cbn [missed]. unfold lin_miss. rewrite last_nth. unfold wb, N in *. cbn [length nth].
    replace (S (length r) - 1)%nat with (S k) by lia. reflexivity.
  - rewrite IH by lia. reflexivity.
Qed.

Definition lin_q (t : R) : list R := pos (ix N hi t) t.
Definition lin_dq (t : R) : list R := vel (ix N hi t).

Lemma D_hi : D = hi (N - 1).
Proof.
  unfold D, hi. rewrite last_nth. unfold T. rewrite times_length. f_equal. pose proof Npos. unfold N in *. lia.
Qed.
Lemma lo_0 : lo 0 = 0. Proof. unfold lo, T. apply times_0. Qed.

Lemma lin_answers it s t : (cursor it < N)%nat -> buffers n s -> lo (cursor it) <= t <= D ->
  exists j, (cursor it <= j < N)%nat /\ lo j <= t <= hi j /\ (j = cursor it \/ lo j < t) /\
    lin_eval segs it s t = Some (true, lin_post j s t, Some j).
Proof.
  intros Hk Hs Ht. unfold lin_eval. rewrite segs_len. rewrite D_hi in Ht.
  apply list_eval_in with (good := buffers n) (miss := lin_miss) (hi := hi); auto using lin_ev_in, lin_ev_out, lin_strict, lin_joined.
Qed.
Lemma post_q j s t : (j < N)%nat -> lo j <= t <= hi j -> s_q (lin_post j s t) = Some (lin_q t).
Proof.
  intros Hj Ht. unfold lin_post, lin_q. cbn [s_q].
  rewrite (val_ix N lo hi Npos lin_strict lin_joined pos pos_cont t j) by auto. auto.
Qed.

Lemma lin_fresh s t : buffers n s -> 0 <= t <= D ->
  exists k, lin_eval segs None s t =
    Some (true, mkSt n (Some (lin_q t)) (option_map (fun _ => lin_dq t) (s_dq s)) (s_ddq s), Some k).
Proof.
  intros Hs Ht. destruct (lin_answers None s t) as (j & J1 & J2 & J3 & ->); auto; cbn [cursor] in *.
  - apply Npos.
  - rewrite lo_0. lra.
  - exists j. unfold lin_post, lin_q, lin_dq.
    rewrite (ix_unique N lo hi Npos lin_strict lin_joined t j); auto; try lia. right. lra.
Qed.
Lemma lin_outside s t : buffers n s -> t < 0 \/ D < t ->
  lin_eval segs None s t = Some (false, mkSt n (Some (last (w0 :: r) [])) (s_dq s) (s_ddq s), None).
Proof.
  intros Hs Ht. unfold lin_eval. rewrite segs_len.
  rewrite (list_eval_out (lin_ev segs) N lo hi (buffers n) lin_post lin_miss) ; auto using lin_ev_in, lin_ev_out, lin_strict, lin_joined.
  - cbn [cursor]. rewrite lin_missed; auto; [lia|]. pose proof Npos. lia.
  - cbn. apply Npos.
  - cbn [cursor]. rewrite lo_0, <- D_hi. auto.
Qed.

Lemma D_pos : 0 < D.
Proof.
  rewrite D_hi. pose proof Npos. pose proof (glo_mono N lo hi lin_strict lin_joined 0 (N - 1) ltac:(lia) ltac:(lia)).
  pose proof (lin_strict (N - 1) ltac:(lia)). rewrite lo_0 in *. lra.
Qed.

Lemma lin_straight : straight_moves n (w0 :: r) L D T lin_q lin_dq.
Proof.
  pose proof Npos as NP. assert (TL : length T = S N) by apply times_length.
  pose proof (ix_spec N lo hi NP lin_joined) as IX.
  assert (V : forall t k, (k < N)%nat -> lo k <= t <= hi k -> lin_q t = pos k t).
  { intros t k Hk Ht. unfold lin_q. apply (val_ix N lo hi NP lin_strict lin_joined pos pos_cont); auto. }
  split.
  - rewrite TL. reflexivity.
  - pose proof lo_0 as E0. unfold lo in E0. rewrite <- E0. clear. generalize T. intros [|]; reflexivity.
  - reflexivity.
  - intros j Hj. apply lin_strict. lia.
  - intros j Hj. cbn [length] in Hj. fold N in Hj. change (nth j T 0) with (lo j). change (nth j (w0 :: r) []) with (wa j).
    destruct (Nat.eq_dec j N) as [E|E].
    + assert (E' : lo j = hi (N - 1)) by (unfold lo, hi; f_equal; lia). rewrite E'.
      rewrite (V _ (N - 1)%nat) by (try lia; pose proof (lin_strict (N-1) ltac:(lia)); lra).
      rewrite pos_end by lia. rewrite wb_wa. f_equal. lia.
    + rewrite (V _ j) by (try lia; pose proof (lin_strict j ltac:(lia)); lra). apply pos_begin. lia.
  - intros t. unfold lin_q, lin_dq. destruct (IX t) as (A & _). split; [apply pos_len|apply vel_len]; auto.
  - intros j t i Hj Ht. change (nth j T 0) with (lo j) in *. change (nth (S j) T 0) with (hi j) in *.
    change (nth j (w0 :: r) []) with (wa j). change (nth (S j) (w0 :: r) []) with (wb j).
    assert (Hj' : (j < N)%nat) by lia. rewrite (V t j) by auto.
    destruct (Nat.lt_ge_cases i n) as [Hi|Hi].
    + rewrite pos_joint by auto. rewrite hi_lo by auto. pose proof (tm_spec j Hj') as (P & _). field. lra.
    + rewrite !joint_over; [ring| | |]; rewrite ?pos_len, ?wb_wa, ?wa_len by lia; auto.
  - intros j t i Hj Ht. change (nth j T 0) with (lo j) in *. change (nth (S j) T 0) with (hi j) in *.
    assert (Hj' : (j < N)%nat) by lia.
    assert (E : lin_dq t = vel j).
    { unfold lin_dq. rewrite (ix_unique N lo hi NP lin_strict lin_joined t j); auto; right; lra. }
    rewrite E. destruct (Nat.lt_ge_cases i n) as [Hi|Hi].
    + rewrite vel_joint by auto.
      apply derivable_local with (f := fun u => joint (wa j) i + (u - lo j) * ((joint (wb j) i - joint (wa j) i) / tm j))
        (d := Rmin (t - lo j) (hi j - t)).
      * apply Rmin_pos; lra.
      * intros u Hu. pose proof (Rmin_l (t - lo j) (hi j - t)). pose proof (Rmin_r (t - lo j) (hi j - t)).
        apply Rabs_def2 in Hu. rewrite (V u j) by (auto; lra). rewrite pos_joint by auto. auto.
      * apply affine_deriv.
    + rewrite joint_over by (rewrite vel_len; auto).
      apply derivable_local with (f := fun u => 0) (d := 1); [lra| |apply derivable_pt_lim_const].
      intros u _. symmetry. apply joint_over. unfold lin_q. rewrite pos_len; auto. apply IX.
  - intros t i Ht Hi. unfold lin_dq. destruct (IX t) as (A & _). set (k := ix N hi t) in *.
    rewrite vel_joint by auto. destruct (tm_spec k A) as (P & Q & _). specialize (Q i Hi).
    assert (J := Rinv_0_lt_compat _ P). unfold Rdiv. split.
    + replace (joint (min_dq L) i) with (joint (min_dq L) i * tm k * / tm k) by (field; lra). apply Rmult_le_compat_r; lra.
    + replace (joint (max_dq L) i) with (joint (max_dq L) i * tm k * / tm k) by (field; lra). apply Rmult_le_compat_r; lra.
  - intros t u i H1 H2 Hi. unfold lin_q.
    apply (glue_diff N lo hi NP lin_strict lin_joined (fun k t => joint (pos k t) i)).
    + intros k Hk. rewrite (pos_cont k Hk). auto.
    + intros k t' u' Hk A B. rewrite !pos_joint by auto. destruct (tm_spec k Hk) as (P & Q & _). specialize (Q i Hi).
      set (x := joint (wb k) i - joint (wa k) i) in *.
      replace (joint (wa k) i + (u' - lo k) * (x / tm k) - (joint (wa k) i + (t' - lo k) * (x / tm k)))
        with (x / tm k * (u' - t')) by ring.
      assert (J := Rinv_0_lt_compat _ P). split; apply Rmult_le_compat_r; try lra; unfold Rdiv.
      * replace (joint (min_dq L) i) with (joint (min_dq L) i * tm k * / tm k) by (field; lra). apply Rmult_le_compat_r; lra.
      * replace (joint (max_dq L) i) with (joint (max_dq L) i * tm k * / tm k) by (field; lra). apply Rmult_le_compat_r; lra.
    + rewrite lo_0. auto.
    + rewrite <- D_hi. auto.
  - intros j Hj. assert (Hj' : (j < N)%nat) by lia. destruct (tm_spec j Hj') as (P & _ & i & Q1 & Q2).
    exists i. split; auto. change (nth j T 0) with (lo j). change (nth (S j) T 0) with (hi j). rewrite hi_lo by auto.
    replace (lo j + tm j - lo j) with (tm j) by ring. exact Q2.
Qed.

Lemma lin_forward h : Forall (fun c => buffers n (fst c)) h -> Forall (fun c => 0 <= snd c <= D) h ->
  (forall i, (S i < length h)%nat -> nth i (map snd h) 0 <= nth (S i) (map snd h) 0) ->
  exists out it, calls (lin_eval segs) None h = Some (out, it) /\
    Forall2 (fun c o => fst o = true /\ s_q (snd o) = Some (lin_q (snd c))) h out.
Proof.
  intros Hb Ht Hm.
  destruct (calls_forward (lin_ev segs) N lo hi (buffers n) lin_post lin_miss) with (h := h) (it := @None nat)
    as (out & it & E & F); auto using lin_ev_in, lin_ev_out, lin_strict, lin_joined.
  - cbn. apply Npos.
  - cbn [cursor]. rewrite lo_0, <- D_hi. auto.
  - exists out, it. split.
    + unfold lin_eval. rewrite segs_len. exact E.
    + eapply Forall2_impl; [|exact F]. intros c o (j & J1 & J2 & ->). cbn [fst snd]. split; auto. apply post_q; auto.
Qed.
Lemma lin_any h : Forall (fun c => buffers n (fst c)) h ->
  exists out it, calls (lin_eval segs) None h = Some (out, it) /\
    Forall2 (fun c o => fst o = true -> 0 <= snd c <= D /\ s_q (snd o) = Some (lin_q (snd c))) h out /\
    forall s t, buffers n s -> 0 <= t <= D ->
      exists b s' it', lin_eval segs it s t = Some (b, s', it') /\
        (b = true -> s_q s' = Some (lin_q t)) /\
        (b = false -> it' = None).
Proof.
  intros Hb.
  destruct (calls_any (lin_ev segs) N lo hi (buffers n) lin_post lin_miss) with (h := h) (it := @None nat)
    as (out & it & E & C & F); auto using lin_ev_in, lin_ev_out, lin_strict, lin_joined.
  - cbn. apply Npos.
  - exists out, it. split; [|split].
    + unfold lin_eval. rewrite segs_len. exact E.
    + eapply Forall2_impl; [|exact F]. intros c o [(j & J1 & J2 & ->)|G]; [|intros G'; congruence].
      cbn [fst snd]. intros _. split; [|apply post_q; auto]. split.
      * rewrite <- lo_0. pose proof (glo_mono N lo hi lin_strict lin_joined 0 j ltac:(lia) ltac:(lia)). lra.
      * rewrite D_hi. pose proof (hi_mono N lo hi lin_strict lin_joined (N - 1 - j) j ltac:(lia) Npos). lra.
    + intros s t Hs Ht. unfold lin_eval. rewrite segs_len.
      destruct (list_eval_any (lin_ev segs) N lo hi (buffers n) lin_post lin_miss) with (it := it) (s := s) (t := t)
        as [(j & J1 & J2 & ->)|(_ & s' & ->)]; auto using lin_ev_in, lin_ev_out, lin_strict, lin_joined.
      * exists true, (lin_post j s t), (Some j). split; auto. split; [|discriminate]. intros _. apply post_q; auto.
      * exists false, s', None. repeat split; auto; discriminate.
Qed.
End Linear.
