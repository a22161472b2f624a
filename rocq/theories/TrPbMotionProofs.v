(** Parabolic blend trajectories: the motion. *)
From Coq Require Import List Reals Arith Lia Lra Psatz Bool.
From Verif Require Import TrModel TrSpec TrEvalProofs TrLinProofs TrPbProofs.
Import ListNotations.
Open Scope R_scope.

Lemma finish_len : forall l, length (pb_finish l) = length l.
Proof. induction l as [|x [|y l] IH]; auto. transitivity (S (length (pb_finish (y :: l)))); [reflexivity|]. rewrite IH. auto. Qed.
Definition stopped (c : pb) : pb := mkPB (pb_q c) (pb_dq c) (pb_ddq c) (pb_t c) 0 (pb_b c).
Lemma finish_nth : forall l k c, nth_error l k = Some c ->
  nth_error (pb_finish l) k = Some (if Nat.eqb (S k) (length l) then stopped c else c).
Proof.
  induction l as [|x l IH]; intros k c H; [destruct k; discriminate|].
  destruct l as [|y l].
  - destruct k as [|[|k]]; cbn in *; try discriminate. injection H as <-. reflexivity.
  - destruct k as [|k]; [cbn in *; congruence|]. exact (IH k c H).
Qed.

Lemma sum_shift : forall l x, fold_left Rplus l x = x + fold_left Rplus l 0.
Proof. induction l as [|y l IH]; intros x; cbn; [lra|]. rewrite IH, (IH (0 + y)). lra. Qed.

Lemma nth_firstn {A} : forall m k (l : list A), (k < m)%nat -> nth_error (firstn m l) k = nth_error l k.
Proof.
  induction m as [|m IH]; intros k l Hk; [lia|]. destruct l as [|x l]; [destruct k; auto|].
  destruct k as [|k]; auto. cbn. apply IH. lia.
Qed.
Lemma firstn_snoc {A} : forall m (l : list A) x, nth_error l m = Some x -> firstn (S m) l = firstn m l ++ [x].
Proof.
  induction m as [|m IH]; intros [|y l] x H; cbn in H; try discriminate; [injection H as ->; reflexivity|].
  cbn [firstn app]. f_equal. apply IH; auto.
Qed.

Section Motion.
Variables (n : nat) (L : limit) (pts : list (list R)) (l : list pb).
Hypothesis HV : velocity_limits n L.
Hypothesis HA : acceleration_limits n L.
Hypothesis HP : way_points n pts.
Hypothesis HU : updated n L pts l.
Hypothesis HS : apart l.
Let N := length pts.
Let pt k := nth k pts [].
Let c k := nth k l nojoint.
Let segs := pb_finish l.
Let vb k := vel_before n l k.
Let b k := pb_b (c k).
Let h k := pb_b (c k) / 2.
Let tc k := pb_t (c k).
Let dt k := pb_dt (c k).
Let q k i := joint (pt k) i.
Let d k i := joint (pb_dq (c k)) i.
Let p k i := joint (vb k) i.
Let a k i := (d k i - p k i) / b k.

Lemma mN : (0 < N)%nat. Proof. apply (Npos n pts HP). Qed.
Lemma mlen : length l = N. Proof. apply (u_ready n L pts l HU). Qed.
Lemma cnth k : (k < N)%nat -> nth_error l k = Some (c k).
Proof. intros Hk. apply nth_error_nth'. rewrite mlen. auto. Qed.
Lemma cq k : (k < N)%nat -> pb_q (c k) = pt k /\ length (pb_dq (c k)) = n /\ 0 < dt k.
Proof. intros Hk. apply (r_q n L pts l (u_ready n L pts l HU) k). apply cnth. auto. Qed.
Lemma ptlen k : (k < N)%nat -> length (pt k) = n.
Proof. apply (pt_len n pts HP). Qed.
Lemma vb_0 : vb 0 = zeros n. Proof. reflexivity. Qed.
Lemma vb_S k : (k < N)%nat -> vb (S k) = pb_dq (c k).
Proof. intros Hk. unfold vb, vel_before. cbn [before]. rewrite cnth; auto. Qed.
Lemma vb_len k : (k < N)%nat -> length (vb k) = n.
Proof. destruct k; intros Hk; [rewrite vb_0; apply zeros_len|]. rewrite vb_S by lia. apply cq. lia. Qed.
Lemma bpos k : (k < N)%nat -> 0 < b k.
Proof. intros Hk. apply (u_b n L pts l HU k). apply cnth. auto. Qed.
Lemma acc_ok k i : (k < N)%nat -> (i < n)%nat -> joint (min_ddq L) i * b k <= d k i - p k i <= joint (max_ddq L) i * b k.
Proof. intros Hk Hi. apply (u_b n L pts l HU k (c k) (cnth k Hk)). auto. Qed.
Lemma joint_zeros m i : joint (zeros m) i = 0.
Proof. unfold joint, zeros. destruct (Nat.lt_ge_cases i m); [apply nth_repeat|apply nth_overflow; rewrite repeat_length; auto]. Qed.
Lemma d_eq k i : (S k < N)%nat -> (i < n)%nat -> d k i = (q (S k) i - q k i) / dt k.
Proof.
  intros Hk Hi. unfold d. rewrite (u_dq n L pts l HU k (c k)) by (auto; apply cnth; lia).
  fold (pt k) (pt (S k)). rewrite zip_joint by (rewrite !ptlen by lia; auto). reflexivity.
Qed.
Lemma d_last i : d (N - 1) i = 0.
Proof.
  unfold d. pose proof mN.
  rewrite (r_last n L pts l (u_ready n L pts l HU) (c (N - 1))); [apply joint_zeros|]. apply cnth. lia.
Qed.
Lemma p_0 i : p 0 i = 0. Proof. unfold p. rewrite vb_0. apply joint_zeros. Qed.
Lemma p_S k i : (k < N)%nat -> p (S k) i = d k i. Proof. intros Hk. unfold p. rewrite vb_S; auto. Qed.
Lemma t_0 : tc 0 = h 0.
Proof. unfold tc. rewrite (u_t n L pts l HU 0 (c 0)) by (apply cnth; apply mN). reflexivity. Qed.
Lemma t_S k : (S k < N)%nat -> tc (S k) = tc k + dt k.
Proof. intros Hk. unfold tc. rewrite (u_t n L pts l HU (S k) (c (S k))) by (apply cnth; lia). cbn [before]. rewrite cnth by lia. reflexivity. Qed.
Lemma ap k : (S k < N)%nat -> h k + h (S k) <= dt k.
Proof. intros Hk. pose proof (HS k (c k) (c (S k)) (cnth k ltac:(lia)) (cnth (S k) Hk)). unfold h, dt. lra. Qed.
Lemma dtpos k : (k < N)%nat -> 0 < dt k. Proof. intros Hk. apply cq. auto. Qed.
Lemma speed k i : (S k < N)%nat -> (i < n)%nat -> joint (min_dq L) i <= d k i <= joint (max_dq L) i.
Proof.
  intros Hk Hi. rewrite d_eq by auto.
  pose proof (r_speed n L pts l (u_ready n L pts l HU) k (c k) (cnth k ltac:(lia)) Hk i Hi) as S.
  pose proof (dtpos k ltac:(lia)) as P. unfold dt, q, pt in *. set (x := pb_dt (c k)) in *.
  assert (I := Rinv_0_lt_compat _ P). unfold Rdiv. split.
  - replace (joint (min_dq L) i) with (joint (min_dq L) i * x * / x) by (field; lra). apply Rmult_le_compat_r; lra.
  - replace (joint (max_dq L) i) with (joint (max_dq L) i * x * / x) by (field; lra). apply Rmult_le_compat_r; lra.
Qed.
Lemma speed_all k i : (k < N)%nat -> (i < n)%nat -> joint (min_dq L) i <= d k i <= joint (max_dq L) i.
Proof.
  intros Hk Hi. destruct (Nat.lt_ge_cases (S k) N); [apply speed; auto|]. replace k with (N - 1)%nat by lia. rewrite d_last.
  destruct HV as (_ & _ & V). specialize (V i Hi). lra.
Qed.
Lemma speed_p k i : (k < N)%nat -> (i < n)%nat -> joint (min_dq L) i <= p k i <= joint (max_dq L) i.
Proof.
  intros Hk Hi. destruct k as [|k].
  - rewrite p_0. destruct HV as (_ & _ & V). specialize (V i Hi). lra.
  - rewrite p_S by lia. apply speed_all; auto; lia.
Qed.
Lemma hpos k : (k < N)%nat -> 0 < h k.
Proof. intros Hk. pose proof (bpos k Hk). unfold h, b in *. lra. Qed.
Lemma b_h k : b k = 2 * h k. Proof. unfold b, h. lra. Qed.

(** ** Intervals *)
Definition plo k := tc k - h k.
Definition phi k := if Nat.ltb (S k) N then tc (S k) - h (S k) else tc k + h k.
Lemma phi_S k : (S k < N)%nat -> phi k = tc k + dt k - h (S k).
Proof. intros Hk. unfold phi. rewrite (proj2 (Nat.ltb_lt _ _) Hk), t_S; auto. Qed.
Lemma phi_last : phi (N - 1) = tc (N - 1) + h (N - 1).
Proof. unfold phi. pose proof mN. replace (S (N - 1)) with N by lia. rewrite Nat.ltb_irrefl. auto. Qed.
Lemma pjoined k : (S k < N)%nat -> phi k = plo (S k).
Proof. intros Hk. unfold phi. rewrite (proj2 (Nat.ltb_lt _ _) Hk). reflexivity. Qed.
Lemma mid k : (k < N)%nat -> tc k + h k <= phi k.
Proof.
  intros Hk. destruct (Nat.lt_ge_cases (S k) N) as [K|K].
  - rewrite phi_S by auto. pose proof (ap k K). lra.
  - replace k with (N - 1)%nat by lia. rewrite phi_last. lra.
Qed.
Lemma pstrict k : (k < N)%nat -> plo k < phi k.
Proof. intros Hk. pose proof (mid k Hk). pose proof (hpos k Hk). unfold plo. lra. Qed.
Lemma plo_0 : plo 0 = 0. Proof. unfold plo. rewrite t_0. lra. Qed.

(** ** Position, velocity and acceleration of one joint in one segment *)
Definition pf k i t := if Rle_b t (tc k + h k) then q k i + p k i * (t - tc k) + a k i * (t - tc k + h k) ^ 2 / 2
                       else q k i + d k i * (t - tc k).
Definition vf k i t := if Rle_b t (tc k + h k) then p k i + a k i * (t - tc k + h k) else d k i.
Definition af k i t := if Rle_b t (tc k + h k) then a k i else 0.

Lemma a_b k i : (k < N)%nat -> p k i + a k i * b k = d k i.
Proof. intros Hk. unfold a. pose proof (bpos k Hk). field. lra. Qed.
Lemma pf_mid k i : (k < N)%nat ->
  q k i + p k i * (tc k + h k - tc k) + a k i * (tc k + h k - tc k + h k) ^ 2 / 2 = q k i + d k i * (tc k + h k - tc k).
Proof. intros Hk. rewrite <- (a_b k i Hk), b_h. field. Qed.
Lemma vf_mid k i : (k < N)%nat -> p k i + a k i * (tc k + h k - tc k + h k) = d k i.
Proof. intros Hk. rewrite <- (a_b k i Hk), b_h. ring. Qed.

Lemma pf_deriv k i t : (k < N)%nat -> derivable_pt_lim (pf k i) t (vf k i t).
Proof.
  intros Hk.
  assert (DB : forall u, derivable_pt_lim (fun u => q k i + p k i * (u - tc k) + a k i * (u - tc k + h k) ^ 2 / 2) u
                          (p k i + a k i * (u - tc k + h k))).
  { intros u. pose proof (quad_deriv (q k i - p k i * h k) (p k i) (tc k - h k) (a k i) u) as Q.
    replace (u - (tc k - h k)) with (u - tc k + h k) in Q by ring.
    apply derivable_local with (f := fun u => q k i - p k i * h k + p k i * (u - (tc k - h k)) + a k i * (u - (tc k - h k)) ^ 2 / 2)
      (d := 1); [lra|intros u0 _; field|exact Q]. }
  assert (DL : forall u, derivable_pt_lim (fun u => q k i + d k i * (u - tc k)) u (d k i)).
  { intros u. pose proof (affine_deriv (q k i) (tc k) (d k i) u) as Q.
    apply derivable_local with (f := fun u => q k i + (u - tc k) * d k i) (d := 1); [lra|intros; ring|exact Q]. }
  set (m := tc k + h k). destruct (Rtotal_order t m) as [H|[H|H]].
  - unfold vf. rewrite (proj2 (Rle_b_true t (tc k + h k))) by (fold m; lra).
    apply derivable_local with (f := fun u => q k i + p k i * (u - tc k) + a k i * (u - tc k + h k) ^ 2 / 2) (d := m - t);
      [lra| |apply DB].
    intros u Hu. unfold pf. rewrite (proj2 (Rle_b_true u (tc k + h k))); auto. fold m. apply Rabs_def2 in Hu. lra.
  - unfold vf. rewrite (proj2 (Rle_b_true t (tc k + h k))) by (fold m; lra).
    apply derivable_glued with (f := fun u => q k i + p k i * (u - tc k) + a k i * (u - tc k + h k) ^ 2 / 2)
      (g := fun u => q k i + d k i * (u - tc k)) (d := 1); [lra| | |apply DB|].
    + intros u _ Hu. unfold pf. rewrite (proj2 (Rle_b_true u (tc k + h k))) by (fold m; lra). reflexivity.
    + intros u _ Hu. unfold pf. rcase; auto. rb. fold m in Heqb0. assert (u = m) as -> by lra. apply pf_mid; auto.
    + rewrite H. unfold m. rewrite vf_mid by auto. apply DL.
  - unfold vf. rewrite (proj2 (Rle_b_false t (tc k + h k))) by (fold m; lra).
    apply derivable_local with (f := fun u => q k i + d k i * (u - tc k)) (d := t - m); [lra| |apply DL].
    intros u Hu. unfold pf. rewrite (proj2 (Rle_b_false u (tc k + h k))); auto. fold m. apply Rabs_def2 in Hu. lra.
Qed.

(** at the ends of a segment *)
Lemma pf_hi k i : (k < N)%nat -> pf k i (phi k) = q k i + d k i * (phi k - tc k).
Proof.
  intros Hk. unfold pf. rcase; auto. rb. pose proof (mid k Hk). assert (phi k = tc k + h k) as -> by lra. apply pf_mid; auto.
Qed.
Lemma vf_hi k i : (k < N)%nat -> vf k i (phi k) = d k i.
Proof.
  intros Hk. unfold vf. rcase; auto. rb. pose proof (mid k Hk). assert (phi k = tc k + h k) as -> by lra. apply vf_mid; auto.
Qed.
Lemma pf_lo k i : (k < N)%nat -> pf k i (plo k) = q k i - p k i * h k.
Proof.
  intros Hk. unfold pf, plo. pose proof (hpos k Hk). rewrite (proj2 (Rle_b_true _ _)) by lra. field.
Qed.
Lemma vf_lo k i : (k < N)%nat -> vf k i (plo k) = p k i.
Proof. intros Hk. unfold vf, plo. pose proof (hpos k Hk). rewrite (proj2 (Rle_b_true _ _)) by lra. field. Qed.
Lemma pf_cont k i : (i < n)%nat -> (S k < N)%nat -> pf k i (phi k) = pf (S k) i (phi k).
Proof.
  intros Hi Hk. rewrite pf_hi by lia. rewrite pjoined, pf_lo by auto. unfold plo. rewrite p_S, t_S by lia.
  assert (E := d_eq k i Hk Hi). pose proof (dtpos k ltac:(lia)).
  assert (q (S k) i = q k i + d k i * dt k) as -> by (rewrite E; field; lra). ring.
Qed.
Lemma vf_cont k i : (S k < N)%nat -> vf k i (phi k) = vf (S k) i (phi k).
Proof. intros Hk. rewrite vf_hi by lia. rewrite pjoined, vf_lo by auto. rewrite p_S by lia. auto. Qed.

(** ** Bounds *)
Lemma vf_bounds k i t : (k < N)%nat -> (i < n)%nat -> plo k <= t <= phi k ->
  joint (min_dq L) i <= vf k i t <= joint (max_dq L) i.
Proof.
  intros Hk Hi Ht. unfold vf. rcase; [|apply speed_all; auto]. rb.
  pose proof (speed_all k i Hk Hi) as S1. pose proof (speed_p k i Hk Hi) as S2. pose proof (bpos k Hk) as B.
  unfold plo in Ht. set (u := (t - tc k + h k) / b k).
  assert (U : t - tc k + h k = u * b k) by (unfold u; field; lra).
  assert (0 <= u <= 1).
  { rewrite b_h in U. pose proof (hpos k Hk). split; nra. }
  replace (p k i + a k i * (t - tc k + h k)) with ((1 - u) * p k i + u * d k i); [nra|].
  rewrite U. unfold a. field. lra.
Qed.
Lemma a_bounds k i : (k < N)%nat -> (i < n)%nat -> joint (min_ddq L) i <= a k i <= joint (max_ddq L) i.
Proof.
  intros Hk Hi. pose proof (acc_ok k i Hk Hi) as A. pose proof (bpos k Hk) as B. unfold a.
  assert (I := Rinv_0_lt_compat _ B). unfold Rdiv. split.
  - replace (joint (min_ddq L) i) with (joint (min_ddq L) i * b k * / b k) by (field; lra). apply Rmult_le_compat_r; lra.
  - replace (joint (max_ddq L) i) with (joint (max_ddq L) i * b k * / b k) by (field; lra). apply Rmult_le_compat_r; lra.
Qed.
Lemma vf_diff k i t u : (k < N)%nat -> (i < n)%nat -> t <= u ->
  joint (min_ddq L) i * (u - t) <= vf k i u - vf k i t <= joint (max_ddq L) i * (u - t).
Proof.
  intros Hk Hi Htu. pose proof (a_bounds k i Hk Hi) as A. destruct HA as (_ & _ & HA'). specialize (HA' i Hi).
  unfold vf. rcase; rcase; rb; try (exfalso; lra).
  - nra.
  - replace (d k i) with (p k i + a k i * (tc k + h k - tc k + h k)) by (apply vf_mid; auto). nra.
  - nra.
Qed.
Lemma mix m M x y s : m <= x <= M -> m <= y <= M -> 0 <= s <= 1 -> m <= x + (y - x) * s <= M.
Proof. intros. nra. Qed.
Lemma pf_box k i m M t : (i < n)%nat -> (forall j, (j < N)%nat -> m <= q j i <= M) -> (k < N)%nat -> plo k <= t <= phi k ->
  m <= pf k i t <= M.
Proof.
  intros Hi HM Hk Ht. pose proof (bpos k Hk) as B. pose proof (hpos k Hk) as Hh.
  (* a point of the outgoing line *)
  assert (OUT : forall u, 0 <= u -> u <= phi k - tc k -> m <= q k i + d k i * u <= M).
  { intros u U1 U2. destruct (Nat.lt_ge_cases (S k) N) as [K|K].
    - rewrite d_eq by auto. rewrite phi_S in U2 by auto. pose proof (dtpos k Hk). pose proof (hpos (S k) K).
      replace (q k i + (q (S k) i - q k i) / dt k * u) with (q k i + (q (S k) i - q k i) * (u / dt k)) by (field; lra).
      apply mix; auto. split.
      + apply Rmult_le_pos; auto. left. apply Rinv_0_lt_compat. auto.
      + apply Rmult_le_reg_r with (dt k); auto. unfold Rdiv. rewrite Rmult_assoc, Rinv_l by lra. lra.
    - replace k with (N - 1)%nat in * by lia. rewrite d_last. specialize (HM (N - 1)%nat Hk). lra. }
  assert (INC : m <= q k i - p k i * h k <= M).
  { destruct k as [|k].
    - rewrite p_0. specialize (HM 0%nat Hk). lra.
    - rewrite p_S, d_eq by (auto; lia). pose proof (dtpos k ltac:(lia)). pose proof (ap k Hk). pose proof (hpos k ltac:(lia)).
      replace (q (S k) i - (q (S k) i - q k i) / dt k * h (S k)) with (q (S k) i + (q k i - q (S k) i) * (h (S k) / dt k)) by (field; lra).
      apply mix; try (apply HM; lia). split.
      + apply Rmult_le_pos; [lra|]. left. apply Rinv_0_lt_compat. auto.
      + apply Rmult_le_reg_r with (dt k); auto. unfold Rdiv. rewrite Rmult_assoc, Rinv_l by lra. lra. }
  pose proof (mid k Hk) as MD. unfold pf. rcase; rb.
  - pose proof (OUT (h k) ltac:(lra) ltac:(lra)) as O2. pose proof (HM k Hk) as O1. unfold plo in Ht.
    set (u := (t - tc k + h k) / b k).
    assert (U : t - tc k + h k = u * b k) by (unfold u; field; lra).
    assert (U' : t - tc k = u * b k - h k) by lra.
    assert (0 <= u <= 1) by (rewrite b_h in U; split; nra).
    replace (q k i + p k i * (t - tc k) + a k i * (t - tc k + h k) ^ 2 / 2)
      with ((1 - u) * ((1 - u) * (q k i - p k i * h k) + u * q k i) + u * ((1 - u) * q k i + u * (q k i + d k i * h k))).
    + set (x := q k i - p k i * h k) in *. set (y := q k i) in *. set (z := y + d k i * h k) in *.
      pose proof (mix m M x y u INC O1 ltac:(lra)) as E1. pose proof (mix m M y z u O1 O2 ltac:(lra)) as E2.
      pose proof (mix m M (x + (y - x) * u) (y + (z - y) * u) u E1 E2 ltac:(lra)). lra.
    + rewrite U, U'. unfold a. rewrite b_h in *. field. lra.
  - apply OUT; lra.
Qed.

(** ** What the code computes *)
Definition ppos k t := if Rle_b t (tc k + h k)
  then zip Rplus (pt k) (zip (fun p a => p * (t - tc k) + a * (t - tc k + h k) ^ 2 / 2) (vb k) (pb_ddq (c k)))
  else zip (fun q d => q + d * (t - tc k)) (pt k) (pb_dq (c k)).
Definition pvel k t := if Rle_b t (tc k + h k)
  then zip (fun p a => p + a * (t - tc k + h k)) (vb k) (pb_ddq (c k)) else pb_dq (c k).
Definition pacc k t := if Rle_b t (tc k + h k) then pb_ddq (c k) else zeros n.

Lemma ddq_eq k : (k < N)%nat -> pb_ddq (c k) = zip (fun x y => (x - y) / b k) (pb_dq (c k)) (vb k).
Proof. intros Hk. apply (u_ddq n L pts l HU k). apply cnth. auto. Qed.
Lemma ddq_len k : (k < N)%nat -> length (pb_ddq (c k)) = n.
Proof. intros Hk. rewrite ddq_eq by auto. rewrite zip_length, vb_len by auto. destruct (cq k Hk) as (_ & -> & _). lia. Qed.
Lemma ddq_joint k i : (k < N)%nat -> (i < n)%nat -> joint (pb_ddq (c k)) i = a k i.
Proof.
  intros Hk Hi. rewrite ddq_eq by auto. destruct (cq k Hk) as (_ & E & _).
  rewrite zip_joint; [reflexivity|lia|rewrite vb_len; auto].
Qed.
Lemma ppos_len k t : (k < N)%nat -> length (ppos k t) = n.
Proof.
  intros Hk. unfold ppos. destruct (cq k Hk) as (_ & E & _).
  rcase; rewrite ?zip_length, ?ptlen, ?vb_len, ?ddq_len, ?E by auto; lia.
Qed.
Lemma pvel_len k t : (k < N)%nat -> length (pvel k t) = n.
Proof.
  intros Hk. unfold pvel. destruct (cq k Hk) as (_ & E & _).
  rcase; rewrite ?zip_length, ?ptlen, ?vb_len, ?ddq_len, ?E by auto; lia.
Qed.
Lemma pacc_len k t : (k < N)%nat -> length (pacc k t) = n.
Proof. intros Hk. unfold pacc. rcase; rewrite ?ddq_len by auto; auto. apply zeros_len. Qed.
Lemma ppos_joint k i t : (k < N)%nat -> (i < n)%nat -> joint (ppos k t) i = pf k i t.
Proof.
  intros Hk Hi. unfold ppos, pf. destruct (cq k Hk) as (_ & E & _).
  assert (P := ptlen k Hk). assert (V := vb_len k Hk). assert (D := ddq_len k Hk). rcase.
  - rewrite zip_joint; [|lia|rewrite zip_length; lia]. rewrite zip_joint by lia. rewrite ddq_joint by auto.
    fold (q k i) (p k i). ring.
  - rewrite zip_joint by lia. reflexivity.
Qed.
Lemma pvel_joint k i t : (k < N)%nat -> (i < n)%nat -> joint (pvel k t) i = vf k i t.
Proof.
  intros Hk Hi. unfold pvel, vf. assert (V := vb_len k Hk). assert (D := ddq_len k Hk). rcase; [|reflexivity].
  rewrite zip_joint by lia. rewrite ddq_joint by auto. reflexivity.
Qed.
Lemma pacc_joint k i t : (k < N)%nat -> (i < n)%nat -> joint (pacc k t) i = af k i t.
Proof. intros Hk Hi. unfold pacc, af. rcase; [apply ddq_joint; auto|apply joint_zeros]. Qed.

Definition pb_post k (s : st) (t : R) : st := mkSt n (Some (ppos k t)) (Some (pvel k t)) (Some (pacc k t)).
Definition pb_miss (k : nat) (s : st) (t : R) : st := s.

Lemma pb_ev_eq k s t : (k < N)%nat ->
  pb_ev segs k s t = pb_eval1 (before None l k) (c k) (nth_error l (S k)) s t.
Proof.
  intros Hk. unfold pb_ev, segs. rewrite (finish_nth l k (c k) (cnth k Hk)). cbn [obind]. rewrite mlen.
  assert (E1 : match k with O => None | S j => nth_error (pb_finish l) j end = before None l k).
  { destruct k as [|k]; auto. cbn [before]. rewrite (finish_nth l k (c k)) by (apply cnth; lia). rewrite mlen, cnth by lia.
    destruct (Nat.eqb_spec (S k) N); [lia|auto]. }
  rewrite E1. destruct (Nat.eqb_spec (S k) N) as [E|E].
  - assert (E2 : nth_error l (S k) = None) by (apply nth_error_None; rewrite mlen; lia).
    assert (E3 : nth_error (pb_finish l) (S k) = None) by (apply nth_error_None; rewrite finish_len, mlen; lia).
    rewrite E2, E3. reflexivity.
  - assert (K : (S k < N)%nat) by lia. rewrite (finish_nth l (S k) (c (S k)) (cnth (S k) K)), mlen, (cnth (S k) K).
    destruct (Nat.eqb (S (S k)) N); reflexivity.
Qed.

Lemma before_vel k : (k < N)%nat -> match before None l k with Some p => pb_dq p | None => zeros (length (pb_q (c k))) end = vb k.
Proof.
  intros Hk. unfold vb, vel_before. destruct (before None l k); auto. destruct (cq k Hk) as (-> & _). rewrite ptlen; auto.
Qed.

Lemma pb_ev_in k s t : (k < N)%nat -> full_buffers n s -> plo k <= t <= phi k ->
  pb_ev segs k s t = Some (true, pb_post k s t).
Proof.
  intros Hk (B1 & (x & X1 & X2) & (y & Y1 & Y2) & (z & Z1 & Z2)) Ht. rewrite pb_ev_eq by auto.
  unfold pb_eval1. rewrite before_vel by auto. destruct (cq k Hk) as (Q1 & Q2 & Q3). rewrite Q1, ptlen by auto.
  fold (tc k) (h k). unfold plo in Ht.
  assert (E1 : Rle_b (tc k - h k) t = true) by (apply Rle_b_true; lra). rewrite E1. cbn [andb].
  rewrite X1, Y1, Z1. cbn [fill_ptr]. assert (P := ppos_len k t Hk). assert (V := pvel_len k t Hk). assert (A := pacc_len k t Hk).
  unfold pb_post. unfold ppos, pvel, pacc in *. rewrite B1.
  destruct (Rle_b t (tc k + h k)) eqn:E2.
  - rewrite !fill_len by auto. reflexivity.
  - assert (K : (S k < N)%nat).
    { destruct (Nat.lt_ge_cases (S k) N); auto. replace k with (N - 1)%nat in * by lia. rewrite phi_last in Ht. rb. lra. }
    rewrite (cnth (S k) K). rb. rewrite phi_S in Ht by auto. fold (h (S k)). fold (dt k).
    rewrite (proj2 (Rle_b_true (tc k + h k) t)) by lra. rewrite (proj2 (Rle_b_true t (tc k + dt k - h (S k)))) by lra.
    cbn [andb]. rewrite !fill_len by auto. reflexivity.
Qed.
Lemma pb_ev_out k s t : (k < N)%nat -> full_buffers n s -> t < plo k \/ phi k < t ->
  pb_ev segs k s t = Some (false, pb_miss k s t) /\ full_buffers n (pb_miss k s t) /\
  forall j u, pb_post j (pb_miss k s t) u = pb_post j s u.
Proof.
  intros Hk B Ht. split; [|split; auto]. rewrite pb_ev_eq by auto.
  unfold pb_eval1. fold (tc k) (h k). unfold plo in Ht. pose proof (mid k Hk) as M. pose proof (hpos k Hk) as Hh.
  assert (E : Rle_b (tc k - h k) t && Rle_b t (tc k + h k) = false).
  { apply andb_false_iff. destruct Ht; [left|right]; apply Rle_b_false; lra. }
  rewrite E. destruct (Nat.lt_ge_cases (S k) N) as [K|K].
  - rewrite (cnth (S k) K). fold (h (S k)) (dt k). rewrite phi_S in Ht by auto.
    assert (E' : Rle_b (tc k + h k) t && Rle_b t (tc k + dt k - h (S k)) = false).
    { apply andb_false_iff. destruct Ht; [left|right]; apply Rle_b_false; lra. }
    rewrite E'. reflexivity.
  - assert (nth_error l (S k) = None) as -> by (apply nth_error_None; rewrite mlen; lia). reflexivity.
Qed.
Lemma pb_missed left k s t : missed pb_miss left k s t = s.
Proof. revert k s. induction left; intros; cbn; auto. Qed.

Definition pb_q_at t := ppos (ix N phi t) t.
Definition pb_dq_at t := pvel (ix N phi t) t.
Definition pb_ddq_at t := pacc (ix N phi t) t.
Definition pbD := phi (N - 1).

Lemma segs_N : length segs = N. Proof. unfold segs. rewrite finish_len. apply mlen. Qed.

Lemma ppos_cont k : (S k < N)%nat -> ppos k (phi k) = ppos (S k) (phi k).
Proof.
  intros Hk. apply joint_ext; rewrite !ppos_len by lia; auto. intros i Hi. rewrite !ppos_joint by (auto; lia). apply pf_cont; auto.
Qed.
Lemma pvel_cont k : (S k < N)%nat -> pvel k (phi k) = pvel (S k) (phi k).
Proof.
  intros Hk. apply joint_ext; rewrite !pvel_len by lia; auto. intros i Hi. rewrite !pvel_joint by (auto; lia). apply vf_cont; auto.
Qed.

Lemma pb_fresh s t : full_buffers n s -> 0 <= t <= pbD ->
  exists k, pb_eval segs None s t = Some (true, mkSt n (Some (pb_q_at t)) (Some (pb_dq_at t)) (Some (pb_ddq_at t)), Some k).
Proof.
  intros Hs Ht. unfold pb_eval. rewrite segs_N.
  destruct (list_eval_in (pb_ev segs) N plo phi (full_buffers n) pb_post pb_miss) with (it := @None nat) (s := s) (t := t)
    as (j & J1 & J2 & J3 & ->); auto using pb_ev_in, pb_ev_out, pstrict, pjoined.
  - cbn. apply mN.
  - cbn [cursor]. rewrite plo_0. auto.
  - exists j. unfold pb_post, pb_q_at, pb_dq_at, pb_ddq_at.
    rewrite (ix_unique N plo phi mN pstrict pjoined t j); auto; try lia. right. lra.
Qed.
Lemma pb_outside s t : full_buffers n s -> t < 0 \/ pbD < t -> pb_eval segs None s t = Some (false, s, None).
Proof.
  intros Hs Ht. unfold pb_eval. rewrite segs_N.
  rewrite (list_eval_out (pb_ev segs) N plo phi (full_buffers n) pb_post pb_miss); auto using pb_ev_in, pb_ev_out, pstrict, pjoined.
  - rewrite pb_missed. auto.
  - cbn. apply mN.
  - cbn [cursor]. rewrite plo_0. auto.
Qed.
Lemma post_same j s t : (j < N)%nat -> plo j <= t <= phi j ->
  s_q (pb_post j s t) = Some (pb_q_at t) /\ s_dq (pb_post j s t) = Some (pb_dq_at t).
Proof.
  intros Hj Ht. unfold pb_post, pb_q_at, pb_dq_at. cbn [s_q s_dq].
  rewrite (val_ix N plo phi mN pstrict pjoined ppos ppos_cont t j) by auto.
  rewrite (val_ix N plo phi mN pstrict pjoined pvel pvel_cont t j) by auto. auto.
Qed.

Lemma ix_N t : (ix N phi t < N)%nat. Proof. apply (ix_spec N plo phi mN pjoined). Qed.
Lemma D_nonneg : 0 < pbD.
Proof.
  unfold pbD. pose proof mN. pose proof (glo_mono N plo phi pstrict pjoined 0 (N - 1) ltac:(lia) ltac:(lia)).
  pose proof (pstrict (N - 1) ltac:(lia)). rewrite plo_0 in *. lra.
Qed.

Lemma pb_blended : blended n pts L pbD pb_q_at pb_dq_at.
Proof.
  pose proof mN as NP. pose proof D_nonneg as DP.
  assert (I0 : ix N phi 0 = 0%nat).
  { apply (ix_unique N plo phi NP pstrict pjoined); auto. right. pose proof (pstrict 0 NP). rewrite plo_0 in *. lra. }
  assert (ID : ix N phi pbD = (N - 1)%nat).
  { apply (ix_unique N plo phi NP pstrict pjoined); auto; [lia|]. right. apply pstrict. lia. }
  split.
  - intros t. unfold pb_q_at, pb_dq_at. split; [apply ppos_len|apply pvel_len]; apply ix_N.
  - unfold pb_q_at, pb_dq_at. rewrite I0. split.
    + replace (hd [] pts) with (pt 0) by (unfold pt; generalize pts; intros [|]; reflexivity).
      apply joint_ext; rewrite ?ppos_len, ?ptlen by auto; auto. intros i Hi. rewrite ppos_joint by auto.
      rewrite <- plo_0, pf_lo, p_0 by auto. fold (q 0 i). ring.
    + apply joint_ext; rewrite ?pvel_len, ?repeat_length by auto; auto. intros i Hi. rewrite pvel_joint by auto.
      rewrite <- plo_0 at 1. rewrite vf_lo, p_0 by auto. symmetry. apply joint_zeros.
  - unfold pb_q_at, pb_dq_at. rewrite ID. split.
    + rewrite last_nth. fold N. change (nth (N - 1) pts []) with (pt (N - 1)).
      apply joint_ext; rewrite ?ppos_len, ?ptlen by lia; auto. intros i Hi. rewrite ppos_joint by (auto; lia).
      unfold pbD. rewrite pf_hi, d_last by lia. fold (q (N - 1) i). ring.
    + apply joint_ext; rewrite ?pvel_len, ?repeat_length by lia; auto. intros i Hi. rewrite pvel_joint by (auto; lia).
      unfold pbD. rewrite vf_hi, d_last by lia. symmetry. apply joint_zeros.
  - intros t i Ht Hi. unfold pb_q_at, pb_dq_at. rewrite pvel_joint by (auto using ix_N).
    apply derivable_local with (f := fun u => pf (ix N phi u) i u) (d := 1); [lra| |].
    { intros u _. symmetry. apply ppos_joint; auto using ix_N. }
    apply (glue_derivable N plo phi NP pstrict pjoined (fun k u => pf k i u) (fun k u => vf k i u)).
    + intros k Hk. apply pf_cont; auto.
    + intros k Hk. apply vf_cont; auto.
    + intros k u Hk _ _. apply pf_deriv; auto.
  - intros t i Ht Hi. unfold pb_dq_at. rewrite pvel_joint by (auto using ix_N). apply vf_bounds; auto using ix_N.
    apply (ix_in N plo phi NP pjoined). rewrite plo_0. auto.
  - intros t u i H1 H2 Hi. unfold pb_dq_at. rewrite !pvel_joint by (auto using ix_N).
    apply (glue_diff N plo phi NP pstrict pjoined (fun k u => vf k i u)).
    + intros k Hk. apply vf_cont; auto.
    + intros k t' u' Hk A B. apply vf_diff; auto. lra.
    + rewrite plo_0. auto.
    + auto.
  - intros i m M Hi HM t Ht. unfold pb_q_at. rewrite ppos_joint by (auto using ix_N). apply pf_box; auto using ix_N.
    + intros j Hj. apply HM. apply nth_In. auto.
    + apply (ix_in N plo phi NP pjoined). rewrite plo_0. auto.
Qed.

(** the reported acceleration *)
Lemma pb_acc_bounds t i : (i < n)%nat -> joint (min_ddq L) i <= joint (pb_ddq_at t) i <= joint (max_ddq L) i.
Proof.
  intros Hi. unfold pb_ddq_at. rewrite pacc_joint by auto using ix_N. unfold af. rcase; [apply a_bounds; auto using ix_N|].
  destruct HA as (_ & _ & A). specialize (A i Hi). lra.
Qed.

(** the duration *)
Lemma dt_sum : forall m, (m < N)%nat -> fold_left Rplus (map pb_dt (firstn m l)) 0 = tc m - tc 0.
Proof.
  induction m as [|m IH]; intros Hm; [cbn; lra|].
  assert (E := firstn_snoc m l (c m) (cnth m ltac:(lia))).
  rewrite E, map_app, fold_left_app. cbn [map fold_left]. rewrite IH by lia. rewrite t_S by lia. fold (dt m). lra.
Qed.
Lemma finish_sum : fold_left Rplus (map pb_dt segs) 0 = tc (N - 1) - tc 0.
Proof.
  pose proof mN as NP.
  assert (E : segs = firstn (N - 1) l ++ [stopped (c (N - 1))]).
  { apply nth_error_ext. intros k. destruct (Nat.lt_ge_cases k N) as [Hk|Hk].
    - unfold segs. rewrite (finish_nth l k (c k) (cnth k Hk)), mlen. destruct (Nat.eqb_spec (S k) N) as [E|E].
      + rewrite nth_error_app2; rewrite firstn_length, mlen; [|lia]. replace (k - Nat.min (N - 1) N)%nat with 0%nat by lia.
        replace k with (N - 1)%nat by lia. reflexivity.
      + rewrite nth_error_app1 by (rewrite firstn_length, mlen; lia).
        rewrite nth_firstn by lia. symmetry. apply cnth. auto.
    - transitivity (@None pb); [|symmetry]; apply nth_error_None.
      + rewrite segs_N. auto.
      + rewrite app_length, firstn_length, mlen. cbn. lia. }
  rewrite E, map_app, fold_left_app, dt_sum by lia. cbn. lra.
Qed.
Lemma pb_duration : match segs with c :: _ => pb_b c | [] => 0 end / 2 + fold_left Rplus (map pb_dt segs) 0 + last (map pb_b segs) 0 / 2 = pbD.
Proof.
  pose proof mN as NP. rewrite finish_sum. unfold pbD. rewrite phi_last.
  assert (E0 : match segs with c :: _ => pb_b c | [] => 0 end = b 0).
  { transitivity (match nth_error segs 0 with Some c => pb_b c | None => 0 end); [generalize segs; intros [|]; reflexivity|].
    unfold segs. rewrite (finish_nth l 0 (c 0) (cnth 0 NP)). destruct (Nat.eqb 1 (length l)); reflexivity. }
  assert (E1 : last (map pb_b segs) 0 = b (N - 1)).
  { rewrite last_nth, map_length, segs_N. erewrite nth_indep with (d' := pb_b nojoint) by (rewrite map_length, segs_N; lia).
    rewrite map_nth. pose proof (finish_nth l (N - 1) (c (N - 1)) (cnth (N - 1) ltac:(lia))) as F.
    apply (nth_error_nth _ _ nojoint) in F. unfold segs. rewrite F. destruct (Nat.eqb _ _); reflexivity. }
  rewrite E0, E1, !b_h, t_0. lra.
Qed.

(** the reported acceleration is the derivative of the velocity, except where two pieces meet *)
Lemma pb_acc_deriv : exists B : list R, forall t i, 0 <= t <= pbD -> (i < n)%nat -> ~ In t B ->
  derivable_pt_lim (fun u => joint (pb_dq_at u) i) t (joint (pb_ddq_at t) i).
Proof.
  exists (map (fun k => tc k + h k) (seq 0 N) ++ map phi (seq 0 N) ++ [0]).
  intros t i Ht Hi Hn. pose proof mN as NP.
  pose proof (ix_spec N plo phi NP pjoined t) as (A & B & C). set (k := ix N phi t) in *.
  assert (N1 : t <> tc k + h k).
  { intros E. apply Hn. apply in_app_iff. left. rewrite E. apply (in_map (fun k => tc k + h k)). apply in_seq. lia. }
  assert (N2 : t <> phi k).
  { intros E. apply Hn. apply in_app_iff. right. apply in_app_iff. left. rewrite E. apply in_map. apply in_seq. lia. }
  assert (N3 : t <> 0).
  { intros E. apply Hn. apply in_app_iff. right. apply in_app_iff. right. rewrite E. left. auto. }
  assert (LO : plo k < t).
  { destruct B as [B|B]; auto. rewrite B, plo_0. lra. }
  assert (HI : t < phi k).
  { destruct C as [C|C]; [|lra]. unfold pbD in Ht. rewrite <- C in Ht. lra. }
  pose proof (mid k A) as M.
  unfold pb_ddq_at. fold k. rewrite pacc_joint by auto. unfold af.
  assert (EX : forall u, plo k < u <= phi k -> joint (pb_dq_at u) i = vf k i u).
  { intros u Hu. unfold pb_dq_at. rewrite (ix_unique N plo phi NP pstrict pjoined u k); auto; try (right; lra). apply pvel_joint; auto. }
  rcase; rb.
  - apply derivable_local with (f := fun u => p k i + (u - (tc k - h k)) * a k i) (d := Rmin (t - plo k) (tc k + h k - t)).
    + apply Rmin_pos; lra.
    + intros u Hu. pose proof (Rmin_l (t - plo k) (tc k + h k - t)). pose proof (Rmin_r (t - plo k) (tc k + h k - t)).
      apply Rabs_def2 in Hu. rewrite EX by lra. unfold vf. rewrite (proj2 (Rle_b_true _ _)) by lra. ring.
    + apply affine_deriv.
  - apply derivable_local with (f := fun u => d k i) (d := Rmin (t - (tc k + h k)) (phi k - t)).
    + apply Rmin_pos; lra.
    + intros u Hu. pose proof (Rmin_l (t - (tc k + h k)) (phi k - t)). pose proof (Rmin_r (t - (tc k + h k)) (phi k - t)).
      apply Rabs_def2 in Hu. pose proof (hpos k A). rewrite EX by (unfold plo; lra). unfold vf. rewrite (proj2 (Rle_b_false _ _)) by lra. auto.
    + apply derivable_pt_lim_const.
Qed.

(** how close the motion comes to the way points in between *)
Lemma pb_near : exists T : list R, length T = N /\ (forall k, (k < N)%nat -> 0 <= nth k T 0 <= pbD) /\ (forall k, (S k < N)%nat -> nth k T 0 < nth (S k) T 0) /\ (forall k i, (0 < k)%nat -> (S k < N)%nat -> (i < n)%nat ->
    Rabs (joint (pb_q_at (nth k T 0)) i - joint (nth k pts []) i) <=
    (Rabs (joint (nth (S k) pts []) i - joint (nth k pts []) i) + Rabs (joint (nth k pts []) i - joint (nth (k - 1) pts []) i)) / 4).
Proof.
  pose proof mN as NP.
  assert (TN : forall k, (k < N)%nat -> nth k (map tc (seq 0 N)) 0 = tc k).
  { intros k Hk. rewrite nth_indep with (d' := tc 0) by (rewrite map_length, seq_length; auto).
    rewrite map_nth, seq_nth by auto. auto. }
  assert (IN : forall k, (k < N)%nat -> plo k <= tc k <= phi k).
  { intros k Hk. pose proof (hpos k Hk). pose proof (mid k Hk). unfold plo. lra. }
  exists (map tc (seq 0 N)). split; [rewrite map_length, seq_length; auto|]. split; [|split].
  - intros k Hk. rewrite TN by auto. pose proof (IN k Hk).
    pose proof (glo_mono N plo phi pstrict pjoined 0 k ltac:(lia) Hk).
    pose proof (hi_mono N plo phi pstrict pjoined (N - 1 - k) k ltac:(lia) NP). pose proof plo_0. unfold pbD. lra.
  - intros k Hk. rewrite !TN by lia. rewrite t_S by auto. pose proof (dtpos k ltac:(lia)). lra.
  - intros [|k] i K0 Hk Hi; [lia|]. rewrite TN by lia. unfold pb_q_at.
    rewrite (val_ix N plo phi NP pstrict pjoined ppos ppos_cont (tc (S k)) (S k)) by (try apply IN; lia).
    rewrite ppos_joint by (auto; lia). replace (S k - 1)%nat with k by lia.
    change (joint (nth (S (S k)) pts []) i) with (q (S (S k)) i). change (joint (nth (S k) pts []) i) with (q (S k) i).
    change (joint (nth k pts []) i) with (q k i).
    unfold pf. pose proof (hpos (S k) ltac:(lia)) as Hh. rewrite (proj2 (Rle_b_true _ _)) by lra.
    pose proof (bpos (S k) ltac:(lia)) as Hb. pose proof (b_h (S k)) as BH.
    replace (q (S k) i + p (S k) i * (tc (S k) - tc (S k)) + a (S k) i * (tc (S k) - tc (S k) + h (S k)) ^ 2 / 2 - q (S k) i)
      with (d (S k) i * h (S k) / 4 - p (S k) i * h (S k) / 4).
    2:{ unfold a. rewrite BH. field. lra. }
    rewrite p_S, !d_eq by (auto; lia).
    pose proof (dtpos k ltac:(lia)) as D1. pose proof (dtpos (S k) ltac:(lia)) as D2.
    pose proof (ap k ltac:(lia)) as A1. pose proof (ap (S k) ltac:(lia)) as A2.
    pose proof (hpos k ltac:(lia)) as H1. pose proof (hpos (S (S k)) ltac:(lia)) as H2.
    set (x := q (S (S k)) i - q (S k) i). set (y := q (S k) i - q k i).
    assert (G : forall z e, 0 < e -> h (S k) <= e -> Rabs (z / e * h (S k) / 4) <= Rabs z / 4).
    { intros z e E1 E2. replace (z / e * h (S k) / 4) with (z * (h (S k) / e / 4)) by (field; lra).
      rewrite Rabs_mult. assert (0 <= h (S k) / e <= 1).
      { split; [apply Rmult_le_pos; [lra|]; left; apply Rinv_0_lt_compat; auto|].
        apply Rmult_le_reg_r with e; auto. unfold Rdiv. rewrite Rmult_assoc, Rinv_l by lra. lra. }
      rewrite (Rabs_right (h (S k) / e / 4)) by lra. pose proof (Rabs_pos z). nra. }
    pose proof (G x (dt (S k)) D2 ltac:(lra)). pose proof (G y (dt k) D1 ltac:(lra)).
    unfold Rminus at 1. eapply Rle_trans; [apply Rabs_triang|]. rewrite Rabs_Ropp. lra.
Qed.

(** sequences of calls *)
Lemma pb_forward hs : Forall (fun c => full_buffers n (fst c)) hs -> Forall (fun c => 0 <= snd c <= pbD) hs ->
  (forall i, (S i < length hs)%nat -> nth i (map snd hs) 0 <= nth (S i) (map snd hs) 0) ->
  exists out it, calls (pb_eval segs) None hs = Some (out, it) /\
    Forall2 (fun c o => fst o = true /\ s_q (snd o) = Some (pb_q_at (snd c)) /\ s_dq (snd o) = Some (pb_dq_at (snd c))) hs out.
Proof.
  intros Hb Ht Hm.
  destruct (calls_forward (pb_ev segs) N plo phi (full_buffers n) pb_post pb_miss) with (h := hs) (it := @None nat)
    as (out & it & E & F); auto using pb_ev_in, pb_ev_out, pstrict, pjoined.
  - cbn. apply mN.
  - cbn [cursor]. rewrite plo_0. auto.
  - exists out, it. split.
    + unfold pb_eval. rewrite segs_N. exact E.
    + eapply Forall2_impl; [|exact F]. intros x o (j & J1 & J2 & ->). cbn [fst snd]. split; auto. apply post_same; auto.
Qed.
Lemma pb_any hs : Forall (fun c => full_buffers n (fst c)) hs ->
  exists out it, calls (pb_eval segs) None hs = Some (out, it) /\
    Forall2 (fun c o => fst o = true -> 0 <= snd c <= pbD /\ s_q (snd o) = Some (pb_q_at (snd c)) /\ s_dq (snd o) = Some (pb_dq_at (snd c))) hs out /\
    forall s t, full_buffers n s -> 0 <= t <= pbD ->
      exists b s' it', pb_eval segs it s t = Some (b, s', it') /\
        (b = true -> s_q s' = Some (pb_q_at t) /\ s_dq s' = Some (pb_dq_at t)) /\
        (b = false -> it' = None).
Proof.
  intros Hb.
  destruct (calls_any (pb_ev segs) N plo phi (full_buffers n) pb_post pb_miss) with (h := hs) (it := @None nat)
    as (out & it & E & C & F); auto using pb_ev_in, pb_ev_out, pstrict, pjoined.
  - cbn. apply mN.
  - exists out, it. split; [|split].
    + unfold pb_eval. rewrite segs_N. exact E.
    + eapply Forall2_impl; [|exact F]. intros x o [(j & J1 & J2 & ->)|G]; [|intros G'; congruence].
      cbn [fst snd]. intros _. split; [|apply post_same; auto]. split.
      * rewrite <- plo_0. pose proof (glo_mono N plo phi pstrict pjoined 0 j ltac:(lia) ltac:(lia)). lra.
      * unfold pbD. pose proof (hi_mono N plo phi pstrict pjoined (N - 1 - j) j ltac:(lia) mN). lra.
    + intros s t Hs Ht. unfold pb_eval. rewrite segs_N.
      destruct (list_eval_any (pb_ev segs) N plo phi (full_buffers n) pb_post pb_miss) with (it := it) (s := s) (t := t)
        as [(j & J1 & J2 & ->)|(_ & s' & ->)]; auto using pb_ev_in, pb_ev_out, pstrict, pjoined.
      * exists true, (pb_post j s t), (Some j). split; auto. split; [|discriminate]. intros _. apply post_same; auto.
      * exists false, s', None. repeat split; auto; discriminate.
Qed.
End Motion.

(** ** The theorems *)
Lemma pb_generate_spec n L pts fuel segs D : velocity_limits n L -> acceleration_limits n L -> way_points n pts ->
  pb_generate fuel pts L = Some (segs, D) ->
  exists l, updated n L pts l /\ apart l /\ segs = pb_finish l /\ D = pbD pts l.
Proof.
  intros HV HA HP E. unfold pb_generate in E. destruct pts as [|w pts]; [discriminate|].
  destruct (pb_loop fuel (pb_init (w :: pts) L) L) as [l|] eqn:F; [|discriminate]. cbn [obind] in E.
  destruct (loop_spec n L (w :: pts) HV HA HP fuel _ l (ready_init n L (w :: pts) HV HP) F) as (U & A).
  exists l. split; auto. split; auto. pose proof (pb_duration n L (w :: pts) l HP U) as DU.
  remember (pb_finish l) as sg. injection E as E1 E2. split; auto. rewrite <- E2. exact DU.
Qed.
