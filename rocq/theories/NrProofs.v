(** Proofs about axis-angle normalisation and nearest rotation vectors. *)
From Coq Require Import Reals Lra Psatz ZArith List Arith Lia Bool.
From Verif Require Import AtanModel AtanProofs AngModel AngSpec AngProofs.
From Verif Require Import TfModel TfSpec TfProofs TfExpModel TfExpSpec TfExpProofs TfCalcProofs TfLnProofs TfConvProofs NrModel NrSpec.
Import ListNotations.
Open Scope R_scope.

(** ** Normalisation *)
Lemma rod_same k a b p : SameAngle a b -> rodrigues k a p = rodrigues k b p.
Proof. intros [C S]. unfold rodrigues. now rewrite C, S. Qed.
Lemma rod_flip k a p : rodrigues (times3 (-1) k) (- a) p = rodrigues k a p.
Proof. unfold rodrigues. rewrite cos_neg, sin_neg. destruct k, p. unfold plus3, times3, xprod, dot. cbn. f_equal; ring. Qed.

Lemma normalize_ok v t : nonzero3 v -> exists b, axang_normalize (mkA v t) = Some b /\
  unit3 (axis b) /\ 0 <= angle b <= PI /\ forall p, rodrigues (axis b) (angle b) p = rodrigues (times3 (/ len3 v) v) t p.
Proof.
  intros NZ. assert (L0 : len3 v <> 0). { intros E. apply NZ. rewrite <- len3_sq, E. ring. }
  assert (U : unit3 (times3 (/ len3 v) v)).
  { unfold unit3. transitivity (/ len3 v * / len3 v * dot v v); [destruct v; unfold dot, times3; cbn; ring|].
    rewrite <- len3_sq. field. exact L0. }
  destruct (norm_pi_spec t) as (B & S & _).
  unfold axang_normalize. cbn [axis angle]. change (sqrt (vdot v v)) with (len3 v).
  destruct (Rlt_dec (ang_norm_pi t) 0) as [N|N].
  - destruct (Req_EM_T (len3 v * -1) 0) as [Z|_]; [exfalso; apply L0; lra|].
    eexists; split; [reflexivity|]. cbn [axis angle].
    assert (E : mkV (vx v / (len3 v * -1)) (vy v / (len3 v * -1)) (vz v / (len3 v * -1)) = times3 (-1) (times3 (/ len3 v) v)).
    { destruct v as [a b c]; unfold times3; cbn [vx vy vz]. f_equal; field; exact L0. }
    rewrite E. split; [now apply unit3_neg|]. split; [lra|]. intros p.
    replace (ang_norm_pi t * -1) with (- ang_norm_pi t) by ring. rewrite rod_flip. now apply rod_same.
  - destruct (Req_EM_T (len3 v) 0) as [Z|_]; [tauto|].
    eexists; split; [reflexivity|]. cbn [axis angle].
    assert (E : mkV (vx v / len3 v) (vy v / len3 v) (vz v / len3 v) = times3 (/ len3 v) v).
    { destruct v as [a b c]; unfold times3; cbn [vx vy vz]. f_equal; field; exact L0. }
    rewrite E. split; [exact U|]. split; [lra|]. intros p. now apply rod_same.
Qed.

Lemma norm_pi_id t : 0 <= t <= PI -> ang_norm_pi t = t.
Proof.
  intros H. pose proof PI_RGT_0. destruct (Req_dec t PI) as [->|N]; [apply norm_pi_PI|].
  assert (S : SameAngle (ang_norm_pi t) t) by apply norm_pi_spec. destruct S as [C S].
  pose proof (norm_pi_bound t). destruct (Req_dec (ang_norm_pi t) (- PI)) as [E|E].
  - rewrite E, cos_neg, cos_PI in C. pose proof (cos_decreasing_1 t PI) as D. rewrite cos_PI in D.
    exfalso. assert (-1 < cos t) by (apply D; lra). lra.
  - apply angle_unique; auto; lra.
Qed.
Lemma normalize_fixed k t : unit3 k -> 0 <= t <= PI -> axang_normalize (mkA k t) = Some (mkA k t).
Proof.
  intros U T. unfold axang_normalize. cbn [axis angle]. rewrite norm_pi_id by exact T.
  change (sqrt (vdot k k)) with (len3 k). rewrite (len3_unit k U).
  destruct (Rlt_dec t 0); [lra|]. destruct (Req_EM_T 1 0); [lra|]. destruct k; cbn. do 3 f_equal; field.
Qed.
Lemma normalize_zero t : axang_normalize (mkA zero3 t) = None.
Proof.
  unfold axang_normalize. cbn [axis angle]. replace (vdot zero3 zero3) with 0 by (unfold vdot, zero3; cbn; ring).
  rewrite sqrt_0. destruct (Rlt_dec _ _); (destruct (Req_EM_T _ 0); [reflexivity|exfalso; lra]).
Qed.
Lemma permute2_ok a p :
  axang_rot (fst (axang_permute2 a)) p = axang_rot a p /\ axang_rot (snd (axang_permute2 a)) p = axang_rot a p.
Proof.
  rewrite !axang_rot_rodrigues. cbn [axang_permute2 fst snd axis angle].
  split; apply rod_same, same_congruent; [exists 1%Z|exists (-1)%Z]; lra.
Qed.

(** ** Nearest of the seven *)
Lemma minloc_from_ok : forall x pre imin xmin,
  (imin < length pre)%nat -> nth imin pre 0 = xmin -> (forall j, (j < length pre)%nat -> xmin <= nth j pre 0) ->
  let m := minloc_from x imin xmin (length pre) in
  (m < length (pre ++ x))%nat /\ forall j, (j < length (pre ++ x))%nat -> nth m (pre ++ x) 0 <= nth j (pre ++ x) 0.
Proof.
  induction x as [|a x IH]; intros pre imin xmin H1 H2 H3; cbn [minloc_from].
  - rewrite app_nil_r. split; [exact H1|]. intros j Hj. rewrite H2. auto.
  - assert (L : length (pre ++ [a]) = S (length pre)) by (rewrite app_length; cbn; lia).
    replace (pre ++ a :: x) with ((pre ++ [a]) ++ x) by (rewrite <- app_assoc; reflexivity).
    assert (NA : nth (length pre) (pre ++ [a]) 0 = a) by (rewrite app_nth2, Nat.sub_diag by lia; reflexivity).
    assert (NP : forall j, (j < length pre)%nat -> nth j (pre ++ [a]) 0 = nth j pre 0) by (intros; now apply app_nth1).
    destruct (Rlt_dec a xmin) as [T|T]; rewrite <- L; apply IH.
    + lia.
    + exact NA.
    + intros j Hj. destruct (Nat.eq_dec j (length pre)) as [->|N]; [rewrite NA; lra|].
      rewrite NP by lia. specialize (H3 j ltac:(lia)). lra.
    + lia.
    + rewrite NP by lia. exact H2.
    + intros j Hj. destruct (Nat.eq_dec j (length pre)) as [->|N]; [rewrite NA; lra|].
      rewrite NP by lia. apply H3. lia.
Qed.
Lemma minloc_ok x : x <> [] -> (minloc x < length x)%nat /\ forall j, (j < length x)%nat -> nth (minloc x) x 0 <= nth j x 0.
Proof.
  destruct x as [|a x]; [tauto|]. intros _. apply (minloc_from_ok x [a] 0 a); cbn; auto.
  intros [|j] Hj; [lra|lia].
Qed.

Lemma ssd_dist a b : ssd3 a b = dist2 a b.
Proof. unfold ssd3, dist2. ring. Qed.

Lemma near_member rv near : In (rotvec_near rv near) (near_tries rv) /\
  forall w, In w (near_tries rv) -> dist2 near (rotvec_near rv near) <= dist2 near w.
Proof.
  unfold rotvec_near. destruct (minloc_ok (map (ssd3 near) (near_tries rv)) ltac:(discriminate)) as (A & B).
  rewrite map_length in A, B. split; [now apply nth_In|].
  intros w Hw. apply (In_nth _ _ (mkV 0 0 0)) in Hw. destruct Hw as (j & Hj & <-).
  specialize (B j Hj). rewrite !(nth_indep (map _ _) 0 (ssd3 near (mkV 0 0 0))) in B by (rewrite map_length; assumption).
  rewrite !map_nth, !ssd_dist in B. exact B.
Qed.

Lemma permute_axis v k : tf_eps <= len3 v ->
  exists u, unit3 u /\ v = times3 (len3 v) u /\ rotvec_permute v k = times3 (len3 v + IZR k * (2 * PI)) u.
Proof.
  intros H. destruct (rotvec2axang_ok v H) as (A & U & E). exists (axis (rotvec2axang v)).
  split; [exact U|]. split; [rewrite <- A at 1; symmetry; exact E|].
  unfold rotvec_permute, axang_permute, axang2rotvec. cbn [axis angle]. rewrite A.
  replace (len3 v + IZR k * 2 * PI) with (len3 v + IZR k * (2 * PI)) by ring. reflexivity.
Qed.
Lemma rv_axis v : tf_eps <= len3 v -> exists u, unit3 u /\ v = times3 (len3 v) u /\
  forall k, rotvec_permute v k = times3 (len3 v + IZR k * (2 * PI)) u.
Proof.
  intros H. destruct (permute_axis v 0 H) as (u & U & E & _). exists u. split; [exact U|]. split; [exact E|].
  intros k. destruct (permute_axis v k H) as (u' & U' & E' & ->).
  assert (0 < len3 v) by (pose proof tf_eps_pos; lra).
  assert (u' = u); [|congruence].
  rewrite E in E' at 1. destruct u, u'. unfold times3 in E'. cbn in E'. inversion E'.
  f_equal; symmetry; eapply Rmult_eq_reg_l; try eassumption; lra.
Qed.
Lemma tries_eq v : tf_eps <= len3 v -> exists u, unit3 u /\ v = times3 (len3 v) u /\
  (forall w, In w (near_tries v) <-> exists k, (-3 <= k <= 3)%Z /\ w = times3 (len3 v + IZR k * (2 * PI)) u).
Proof.
  intros H. destruct (rv_axis v H) as (u & U & E & P). exists u. split; [exact U|]. split; [exact E|].
  assert (E0 : v = times3 (len3 v + IZR 0 * (2 * PI)) u).
  { rewrite E at 1. f_equal. ring. }
  intros w. unfold near_tries. rewrite !P. cbn [In]. split.
  - intros [<-|[<-|[<-|[<-|[<-|[<-|[<-|[]]]]]]]]; eexists; (split; [|first [exact E0|reflexivity]]); lia.
  - intros (k & K & ->). assert (D : (k = 0 \/ k = 1 \/ k = 2 \/ k = 3 \/ k = -1 \/ k = -2 \/ k = -3)%Z) by lia.
    destruct D as [->|[->|[->|[->|[->|[->| ->]]]]]]; auto 10.
Qed.

(** Along the axis the squared distance is a parabola. *)
Lemma dist_axis near u s : unit3 u -> dist2 near (times3 s u) = dot near near - 2 * s * dot near u + s * s.
Proof.
  intros U. unfold unit3 in U. transitivity (dot near near - 2 * s * dot near u + s * s * dot u u).
  - unfold dist2, dot, times3. cbn [vx vy vz]. ring.
  - rewrite U. ring.
Qed.
Lemma dot_len a u : unit3 u -> Rabs (dot a u) <= len3 a.
Proof.
  intros U. unfold unit3 in U. pose proof (lagrange a u) as L. rewrite U in L.
  pose proof (len3_sq a) as S. pose proof (len3_nonneg a) as N.
  assert (0 <= dot (xprod a u) (xprod a u)). { generalize (xprod a u). intros w. unfold dot. nra. }
  apply Rabs_le. split; nra.
Qed.

Lemma times_inj a k u : a <> 0 -> times3 a k = times3 a u -> k = u.
Proof.
  intros N E. destruct k as [x y z], u as [x' y' z']. unfold times3 in E. cbn [vx vy vz] in E. inversion E.
  f_equal; apply (Rmult_eq_reg_l a); assumption.
Qed.
Lemma near_turns rv near f : tf_eps <= len3 rv -> turns rv f -> turns (rotvec_near rv near) f.
Proof.
  intros H T. destruct (tries_eq rv H) as (u & U & E & TR).
  destruct (near_member rv near) as (I & _). apply TR in I. destruct I as (m & M & ->).
  destruct T as (k & a & Uk & Ea & F). exists u, (len3 rv + IZR m * (2 * PI)). split; [exact U|]. split; [reflexivity|].
  intros p. rewrite F.
  assert (P0 : 0 < len3 rv) by (pose proof tf_eps_pos; lra).
  assert (LA : Rabs a = len3 rv) by (rewrite Ea, len3_times, (len3_unit k Uk); ring).
  assert (SU : rodrigues u (len3 rv + IZR m * (2 * PI)) p = rodrigues u (len3 rv) p)
    by (apply rod_same, same_congruent; exists m; ring).
  rewrite SU. assert (X : times3 a k = times3 (len3 rv) u) by (rewrite <- Ea; exact E).
  destruct (Rle_dec 0 a) as [G|G].
  - rewrite Rabs_right in LA by lra. rewrite <- LA. f_equal. rewrite <- LA in X. apply (times_inj a); [lra|exact X].
  - rewrite Rabs_left in LA by lra. rewrite <- (rod_flip u).
    replace (- len3 rv) with a by lra. f_equal. apply (times_inj a); [lra|]. rewrite X, <- LA.
    destruct u as [x y z]; unfold times3; cbn [vx vy vz]. f_equal; ring.
Qed.

Lemma near_best_axis rv near : tf_eps <= len3 rv -> len3 rv + len3 near <= 7 * PI ->
  exists u, unit3 u /\ rv = times3 (len3 rv) u /\
  forall k : Z, dist2 near (rotvec_near rv near) <= dist2 near (times3 (len3 rv + IZR k * (2 * PI)) u).
Proof.
  intros H B. destruct (tries_eq rv H) as (u & U & E & TR). exists u. split; [exact U|]. split; [exact E|].
  destruct (near_member rv near) as (_ & M).
  assert (MK : forall k, (-3 <= k <= 3)%Z -> dist2 near (rotvec_near rv near) <= dist2 near (times3 (len3 rv + IZR k * (2 * PI)) u)).
  { intros k K. apply M, TR. eauto. }
  pose proof PI_RGT_0 as PP. pose proof (dot_len near u U) as D.
  assert (DD : - len3 near <= dot near u <= len3 near).
  { revert D. unfold Rabs. destruct (Rcase_abs (dot near u)); lra. }
  pose proof (len3_nonneg rv). pose proof (len3_nonneg near).
  intros k. destruct (Z_le_gt_dec k 3) as [K|K]; [destruct (Z_le_gt_dec (-3) k) as [K'|K']|].
  - apply MK. lia.
  - apply (Rle_trans _ _ _ (MK (-3)%Z ltac:(lia))). rewrite !dist_axis by exact U.
    assert (IZR k <= -4) by (apply IZR_le; lia). set (l := len3 rv) in *. set (x := dot near u) in *. set (z := IZR k) in *.
    (* (s+6pi... *)
    assert (0 <= (-3 - z) * (2 * PI) * (2 * (x - l) + (3 - z) * (2 * PI))); [|nra].
    apply Rmult_le_pos; [nra|]. nra.
  - apply (Rle_trans _ _ _ (MK 3%Z ltac:(lia))). rewrite !dist_axis by exact U.
    assert (4 <= IZR k) by (apply IZR_le; lia). set (l := len3 rv) in *. set (x := dot near u) in *. set (z := IZR k) in *.
    assert (0 <= (z - 3) * (2 * PI) * (2 * (l - x) + (z + 3) * (2 * PI))); [|nra].
    apply Rmult_le_pos; [nra|]. nra.
Qed.
