(** Checking a trajectory by sampling; evaluating backwards; evaluating positions only. *)
From Coq Require Import List Reals Arith ZArith Lia Lra Bool.
From Verif Require Import TrModel TrSpec TrEvalProofs TrLinProofs TrPbProofs TrPbMotionProofs.
Import ListNotations.
Open Scope R_scope.

Section Check.
Variable ev : nat -> st -> R -> option (bool * st).
Variables (n : nat) (lo hi : nat -> R) (good : st -> Prop) (post miss : nat -> st -> R -> st).
Hypothesis ev_in : forall k s t, (k < n)%nat -> good s -> lo k <= t <= hi k -> ev k s t = Some (true, post k s t).
Hypothesis ev_out : forall k s t, (k < n)%nat -> good s -> t < lo k \/ hi k < t ->
  ev k s t = Some (false, miss k s t) /\ good (miss k s t) /\ forall j u, post j (miss k s t) u = post j s u.
Hypothesis strict : forall k, (k < n)%nat -> lo k < hi k.
Hypothesis joined : forall k, (S k < n)%nat -> hi k = lo (S k).
Variable qf : R -> list R.
Hypothesis post_good : forall k s t, (k < n)%nat -> good s -> good (post k s t).
Hypothesis post_q : forall k s t, (k < n)%nat -> lo k <= t <= hi k -> s_q (post k s t) = Some (qf t).

Lemma check_gen (g : R -> list R -> Z) (dt : R) : 0 < dt ->
  forall m fuel it s t, (m < fuel)%nat -> (cursor it < n)%nat -> good s -> lo (cursor it) <= t ->
  hi (n - 1) < t + INR m * dt ->
  exists z it', check_loop fuel (list_eval ev n) (positions g) dt it s t = Some (z, it') /\
    ((z = 0%Z /\ forall k, t + INR k * dt <= hi (n - 1) -> g (t + INR k * dt) (qf (t + INR k * dt)) = 0%Z) \/
     (z <> 0%Z /\ exists k, t + INR k * dt <= hi (n - 1) /\ z = g (t + INR k * dt) (qf (t + INR k * dt)) /\
        forall j, (j < k)%nat -> g (t + INR j * dt) (qf (t + INR j * dt)) = 0%Z)).
Proof.
  intros Hdt. induction m as [|m IH]; intros fuel it s t Hf Hk Hs Hl Hh; (destruct fuel as [|fuel]; [lia|]); cbn [check_loop].
  - cbn [INR] in Hh. rewrite (list_eval_out ev n lo hi good post miss) by (auto; right; lra). cbn [obind].
    exists 0%Z, None. split; auto. left. split; auto. intros k Hk'. pose proof (pos_INR k). nra.
  - destruct (Rlt_dec (hi (n - 1)) t) as [O|O].
    + rewrite (list_eval_out ev n lo hi good post miss) by (auto; right; lra). cbn [obind].
      exists 0%Z, None. split; auto. left. split; auto. intros k Hk'. pose proof (pos_INR k). nra.
    + destruct (list_eval_in ev n lo hi good post miss ev_in ev_out joined it s t Hk Hs ltac:(lra)) as (j & J1 & J2 & _ & ->).
      cbn [obind]. unfold positions at 1 3. rewrite post_q by (auto; lia).
      rewrite S_INR in Hh.
      assert (Z0 : t + INR 0 * dt = t) by (cbn; ring).
      destruct (Z.eqb_spec (g t (qf t)) 0) as [E|E].
      * destruct (IH fuel (Some j) (post j s t) (t + dt)) as (z & it' & C1 & C2); auto; try lia; try (cbn [cursor]; lra || lia).
        { apply post_good; auto; lia. }
        exists z, it'. split; auto.
        assert (SH : forall k, t + dt + INR k * dt = t + INR (S k) * dt) by (intros k; rewrite S_INR; ring).
        destruct C2 as [(-> & C2)|(Hz & k & C2 & C3 & C4)]; [left|right]; split; auto.
        -- intros [|k] Hk'; [rewrite Z0; auto|]. rewrite <- SH in *. auto.
        -- exists (S k). rewrite <- SH. repeat split; auto. intros [|i] Hi; [rewrite Z0; auto|]. rewrite <- SH. apply C4. lia.
      * exists (g t (qf t)), (Some j). split; auto. right. split; auto. exists 0%nat. rewrite Z0. repeat split; auto; try lra. intros i Hi. lia.
Qed.

(** going back behind the cursor *)
Lemma eval_back s s' : good s -> good s' -> (1 < n)%nat ->
  exists s1 k s2, list_eval ev n None s (hi (n - 1)) = Some (true, s1, Some k) /\
    list_eval ev n (Some k) s' (lo 0) = Some (false, s2, None).
Proof.
  intros Hs Hs' Hn.
  pose proof (lo_mono n lo hi strict joined 0 (n - 1) ltac:(lia) ltac:(lia)) as M.
  pose proof (strict (n - 1) ltac:(lia)) as S1.
  destruct (list_eval_in ev n lo hi good post miss ev_in ev_out joined None s (hi (n - 1))) as (j & J1 & J2 & J3 & E);
    auto; try (cbn; lia || lra).
  assert (lo 0 < lo j).
  { destruct J3 as [J3|J3].
    - exfalso. cbn in J3. subst j. pose proof (hi_mono n lo hi strict joined (n - 1 - 1) 1 ltac:(lia) ltac:(lia)).
      pose proof (strict 1 ltac:(lia)). rewrite <- (joined 0) in H0 by lia. lra.
    - destruct j as [|j].
      + pose proof (hi_mono n lo hi strict joined (n - 1 - 1) 1 ltac:(lia) ltac:(lia)).
        pose proof (strict 1 ltac:(lia)). rewrite <- (joined 0) in H0 by lia. lra.
      + pose proof (lo_mono n lo hi strict joined 1 (S j) ltac:(lia) ltac:(lia)). pose proof (strict 0 ltac:(lia)).
        rewrite (joined 0) in H0 by lia. lra. }
  eexists _, j, _. split; [exact E|]. apply (list_eval_out ev n lo hi good post miss); auto; try (cbn; lia).
Qed.
End Check.

(** an evaluation that dereferences a null pointer in the segment that contains t *)
Lemma loop_null (ev : nat -> st -> R -> option (bool * st)) (n : nat) (lo hi : nat -> R) s t :
  (forall k, (k < n)%nat -> lo k <= t <= hi k -> ev k s t = None) ->
  (forall k, (k < n)%nat -> t < lo k \/ hi k < t -> ev k s t = Some (false, s)) ->
  (forall k, (S k < n)%nat -> hi k = lo (S k)) ->
  forall left k : nat, (k + left = n)%nat -> (0 < left)%nat -> lo k <= t <= hi (n - 1)%nat -> eval_loop ev left k s t = None.
Proof.
  intros H1 H2 HJ. induction left as [|left IH]; intros k Hk Hl Ht; [lia|]. cbn [eval_loop].
  destruct (Rle_dec t (hi k)) as [A|A]; [rewrite H1 by (lia || lra); auto|].
  rewrite H2 by (lia || lra). cbn [obind]. destruct left as [|left].
  - replace (n - 1)%nat with k in Ht by lia. lra.
  - apply IH; try lia. rewrite <- HJ by lia. lra.
Qed.

Lemma state_alloc_buffers n : full_buffers n (state_alloc n) /\ buffers n (state_alloc n).
Proof.
  unfold full_buffers, buffers, state_alloc. cbn. pose proof (zeros_len n).
  split; (split; [auto|]); repeat split; auto; exists (zeros n); auto.
Qed.

(** ** Linear trajectories *)
Section LinCheck.
Variables (n : nat) (L : limit) (w0 : list R) (r : list (list R)).
Hypothesis HL : velocity_limits n L.
Hypothesis H0 : length w0 = n.
Hypothesis Hr : Forall (fun w => length w = n) r.
Hypothesis Hne : r <> [].
Hypothesis Hd : distinct_steps (w0 :: r).
Let segs := lin_segs 0 w0 r L.
Let D := last (times 0 w0 r L) 0.
Let N := length r.
Let lo k := nth k (times 0 w0 r L) 0.
Let hi k := nth (S k) (times 0 w0 r L) 0.

Lemma lin_post_good k s t : (k < N)%nat -> buffers n s -> buffers n (lin_post n L w0 r k s t).
Proof.
  intros Hk (B1 & B2 & B3). split; [reflexivity|]. split.
  - eexists. split; [reflexivity|]. apply (pos_len n L w0 r H0 Hr); auto.
  - cbn [lin_post s_dq]. destruct (s_dq s); auto. apply (vel_len n L w0 r H0 Hr). auto.
Qed.

Lemma lin_check (g : R -> list R -> Z) dt fuel : 0 < dt -> D < INR fuel * dt ->
  exists z it, seg_list_check (S fuel) (lin_eval segs) n None dt (positions g) = Some (z, it) /\
    sampled g (lin_q L w0 r) D dt z.
Proof.
  intros Hdt Hf. unfold seg_list_check, sampled.
  destruct (check_gen (lin_ev segs) N lo hi (buffers n) (lin_post n L w0 r) (lin_miss n r)
    (fun k s t => lin_ev_in n L w0 r H0 Hr k s t) (fun k s t => lin_ev_out n L w0 r HL H0 Hr Hd k s t)
    (fun k => lin_strict n L w0 r HL H0 Hr Hd k) (fun k => lin_joined L w0 r k) (lin_q L w0 r) lin_post_good
    (fun k s t => post_q n L w0 r HL H0 Hr Hne Hd k s t) g dt Hdt fuel (S fuel) None (state_alloc n) 0) as (z & it & E & F).
  - lia.
  - cbn. destruct r; [congruence|cbn; lia].
  - apply state_alloc_buffers.
  - cbn [cursor]. unfold lo. rewrite times_0. lra.
  - pose proof (D_hi n L w0 r H0 Hr Hne Hd) as DH. fold N in DH. unfold hi. fold D in DH. unfold hi in *. rewrite <- DH. lra.
  - exists z, it. split.
    + unfold lin_eval. fold segs. unfold segs. rewrite (segs_len n L w0 r H0 Hr). exact E.
    + pose proof (D_hi n L w0 r H0 Hr Hne Hd) as DH. unfold hi, N in F. rewrite <- DH in F. fold D in F.
      assert (X : forall k, 0 + INR k * dt = INR k * dt) by (intros; ring).
      destruct F as [(F1 & F2)|(F1 & k & F2 & F3 & F4)]; [left|right]; split; auto.
      * intros k Hk. rewrite <- X in *. auto.
      * exists k. rewrite <- X. repeat split; auto. intros j Hj. rewrite <- X. auto.
Qed.

Lemma lin_back s s' : buffers n s -> buffers n s' -> (1 < length r)%nat ->
  exists s1 k s2, lin_eval segs None s D = Some (true, s1, Some k) /\ lin_eval segs (Some k) s' 0 = Some (false, s2, None).
Proof.
  intros Hs Hs' Hn.
  destruct (eval_back (lin_ev segs) N lo hi (buffers n) (lin_post n L w0 r) (lin_miss n r)
    (fun k s t => lin_ev_in n L w0 r H0 Hr k s t) (fun k s t => lin_ev_out n L w0 r HL H0 Hr Hd k s t)
    (fun k => lin_strict n L w0 r HL H0 Hr Hd k) (fun k => lin_joined L w0 r k) s s' Hs Hs' Hn) as (s1 & k & s2 & E1 & E2).
  exists s1, k, s2. unfold lin_eval, segs. rewrite (segs_len n L w0 r H0 Hr).
  pose proof (D_hi n L w0 r H0 Hr Hne Hd) as DH. unfold hi, N in E1. rewrite <- DH in E1.
  unfold lo in E2. rewrite times_0 in E2. auto.
Qed.
End LinCheck.

(** ** Parabolic blends *)
Section PbCheck.
Variables (n : nat) (L : limit) (pts : list (list R)) (l : list pb).
Hypothesis HV : velocity_limits n L.
Hypothesis HA : acceleration_limits n L.
Hypothesis HP : way_points n pts.
Hypothesis HU : updated n L pts l.
Hypothesis HS : apart l.
Let segs := pb_finish l.
Let N := length pts.

Lemma pb_post_good k s t : (k < N)%nat -> full_buffers n s -> full_buffers n (pb_post n pts l k s t).
Proof.
  intros Hk _. split; [reflexivity|]. split; [|split]; eexists; (split; [reflexivity|]).
  - apply (ppos_len n L pts l HP HU); auto.
  - apply (pvel_len n L pts l HU); auto.
  - apply (pacc_len n L pts l HU); auto.
Qed.

Lemma pb_check (g : R -> list R -> Z) dt fuel : 0 < dt -> pbD pts l < INR fuel * dt ->
  exists z it, seg_list_check (S fuel) (pb_eval segs) n None dt (positions g) = Some (z, it) /\
    sampled g (pb_q_at n pts l) (pbD pts l) dt z.
Proof.
  intros Hdt Hf. unfold seg_list_check, sampled.
  destruct (check_gen (pb_ev segs) N (plo l) (phi pts l) (full_buffers n) (pb_post n pts l) pb_miss
    (fun k s t => pb_ev_in n L pts l HP HU k s t) (fun k s t => pb_ev_out n L pts l HP HU HS k s t)
    (fun k => pstrict n L pts l HP HU HS k) (fun k => pjoined pts l k) (pb_q_at n pts l) pb_post_good
    (fun k s t Hk Ht => proj1 (post_same n L pts l HP HU HS k s t Hk Ht)) g dt Hdt fuel (S fuel) None (state_alloc n) 0) as (z & it & E & F).
  - lia.
  - cbn. apply (mN n pts HP).
  - apply state_alloc_buffers.
  - cbn [cursor]. rewrite (plo_0 n L pts l HP HU). lra.
  - unfold pbD in Hf. fold N in Hf. lra.
  - exists z, it. split.
    + unfold pb_eval, segs. rewrite (segs_N n L pts l HU). exact E.
    + fold (pbD pts l) in F. unfold pbD. fold N.
      assert (X : forall k, 0 + INR k * dt = INR k * dt) by (intros; ring).
      destruct F as [(F1 & F2)|(F1 & k & F2 & F3 & F4)]; [left|right]; split; auto.
      * intros k Hk. rewrite <- X in *. auto.
      * exists k. rewrite <- X. repeat split; auto. intros j Hj. rewrite <- X. auto.
Qed.
Lemma pb_back s s' : full_buffers n s -> full_buffers n s' -> (1 < length pts)%nat ->
  exists s1 k s2, pb_eval segs None s (pbD pts l) = Some (true, s1, Some k) /\ pb_eval segs (Some k) s' 0 = Some (false, s2, None).
Proof.
  intros Hs Hs' Hn.
  destruct (eval_back (pb_ev segs) N (plo l) (phi pts l) (full_buffers n) (pb_post n pts l) pb_miss
    (fun k s t => pb_ev_in n L pts l HP HU k s t) (fun k s t => pb_ev_out n L pts l HP HU HS k s t)
    (fun k => pstrict n L pts l HP HU HS k) (fun k => pjoined pts l k) s s' Hs Hs' Hn) as (s1 & k & s2 & E1 & E2).
  exists s1, k, s2. unfold pb_eval, segs. rewrite (segs_N n L pts l HU). rewrite (plo_0 n L pts l HP HU) in E2. auto.
Qed.

(** without velocity or acceleration buffers every evaluation inside the trajectory is undefined *)
Lemma pb_eval_null s t : (0 < n)%nat -> s_n s = n -> (s_dq s = None \/ s_ddq s = None) -> 0 <= t <= pbD pts l ->
  pb_eval segs None s t = None.
Proof.
  intros Hn Hsn Hs Ht. unfold pb_eval, segs. rewrite (segs_N n L pts l HU). unfold list_eval.
  pose proof (mN n pts HP) as NP. destruct (Nat.leb_spec (length pts) 0); [lia|].
  apply loop_null with (n := N) (lo := plo l) (hi := phi pts l); auto; try (unfold N; lia).
  - intros k Hk Hk'.
    (* the segment that contains t *)
    assert (FB : full_buffers n (state_alloc n)) by apply state_alloc_buffers.
    pose proof (pb_ev_in n L pts l HP HU k (state_alloc n) t Hk FB Hk') as E.
    rewrite (pb_ev_eq n L pts l HU) in * by auto.
    destruct (r_q n L pts l (u_ready n L pts l HU) k (nth k l nojoint)) as (Q1 & Q2 & Q3).
    { apply (cnth n L pts l HU). auto. }
    unfold pb_eval1 in *. rewrite Q1, (ptlen n pts HP k Hk) in *.
    assert (Z : forall x y : list R, fill_ptr n x None = @None (option (list R))).
    { intros x y. unfold fill_ptr. destruct (Nat.eqb_spec n 0); [lia|auto]. }
    destruct (Rle_b _ t && Rle_b t _).
    + destruct (fill_ptr n _ (s_q s)); cbn [obind]; auto. destruct Hs as [-> | ->].
      * rewrite Z by exact []. reflexivity.
      * destruct (fill_ptr n _ (s_dq s)); cbn [obind]; auto. rewrite Z by exact []. reflexivity.
    + destruct (nth_error l (S k)); [|discriminate]. destruct (Rle_b _ t && Rle_b t _); [|discriminate].
      destruct (fill_ptr n _ (s_q s)); cbn [obind]; auto. destruct Hs as [-> | ->].
      * rewrite Z by exact []. reflexivity.
      * destruct (fill_ptr n _ (s_dq s)); cbn [obind]; auto. rewrite Z by exact []. reflexivity.
  - intros k Hk Hk'. rewrite (pb_ev_eq n L pts l HU) by auto.
    assert (FB : full_buffers n (state_alloc n)) by apply state_alloc_buffers.
    pose proof (proj1 (pb_ev_out n L pts l HP HU HS k (state_alloc n) t Hk FB Hk')) as E.
    rewrite (pb_ev_eq n L pts l HU) in E by auto. unfold pb_eval1 in *.
    assert (Z : forall q dq ddq (X : st), obind (fill_ptr (length (pb_q (nth k l nojoint))) q (s_q X)) (fun q =>
      obind (fill_ptr (length (pb_q (nth k l nojoint))) dq (s_dq X)) (fun dq =>
      obind (fill_ptr (length (pb_q (nth k l nojoint))) ddq (s_ddq X)) (fun ddq => Some (true, mkSt (s_n X) q dq ddq)))) <> Some (false, pb_miss k (state_alloc n) t)).
    { intros q dq ddq X. destruct (fill_ptr _ q (s_q X)); cbn [obind]; [|discriminate].
      destruct (fill_ptr _ dq (s_dq X)); cbn [obind]; [|discriminate]. destruct (fill_ptr _ ddq (s_ddq X)); cbn [obind]; discriminate. }
    destruct (Rle_b _ t && Rle_b t _); [exfalso; apply Z in E; auto|].
    destruct (nth_error l (S k)); auto. destruct (Rle_b _ t && Rle_b t _); [exfalso; apply Z in E; auto|]. auto.
  - apply (pjoined pts l).
  - rewrite (plo_0 n L pts l HP HU). exact Ht.
Qed.
End PbCheck.
