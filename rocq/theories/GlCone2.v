(** Cylinders and cones: the drawn points and the normals. *)
From Coq Require Import Reals ZArith List Bool Arith Lia Lra Psatz.
From Verif Require Import TfModel GlModel GlSpec GlProofs GlGrid GlCone.
Import ListNotations.
Open Scope R_scope.

Definition mix (a b s r z : R) : V3 :=
  mkV (r * ((1 - s) * cos a + s * cos b)) (r * ((1 - s) * sin a + s * sin b)) z.
Lemma ratio x y : 0 <= x <= y -> exists s, 0 <= s <= 1 /\ s * y = x.
Proof.
  intros H. destruct (Req_dec y 0) as [->|N].
  - exists 0. lra.
  - exists (x / y). split; [|field; lra]. split.
    + apply Rmult_le_pos; [lra|apply Rlt_le, Rinv_0_lt_compat; lra].
    + apply (Rmult_le_reg_r y); [lra|]. unfold Rdiv. rewrite Rmult_assoc, Rinv_l by lra. lra.
Qed.
Lemma side_gen a b z0 h r0 r1 q : 0 <= r0 -> 0 <= r1 ->
  (in_tri (ptat a z0 r0) (ptat a h r1) (ptat b z0 r0) q \/ in_tri (ptat b h r1) (ptat a h r1) (ptat b z0 r0) q) <->
  exists s t, 0 <= s <= 1 /\ 0 <= t <= 1 /\ q = mix a b s (cone_radius r0 r1 t) (z0 + t * (h - z0)).
Proof.
  intros H0 H1. unfold cone_radius. split.
  - intros [(u & v & w & Hu & Hv & Hw & E & ->)|(u & v & w & Hu & Hv & Hw & E & ->)].
    + destruct (ratio (w * r0) (r0 + v * (r1 - r0))) as (s & Hs & Es); [nra|].
      exists s, v. split; [lra|split; [lra|]]. unfold mix, ptat. apply V3_eq; cbn.
      * replace (((r0 + v * (r1 - r0)) * ((1 - s) * cos a + s * cos b))) with
          ((r0 + v * (r1 - r0) - s * (r0 + v * (r1 - r0))) * cos a + s * (r0 + v * (r1 - r0)) * cos b) by ring.
        rewrite Es. replace u with (1 - v - w) by lra. ring.
      * replace (((r0 + v * (r1 - r0)) * ((1 - s) * sin a + s * sin b))) with
          ((r0 + v * (r1 - r0) - s * (r0 + v * (r1 - r0))) * sin a + s * (r0 + v * (r1 - r0)) * sin b) by ring.
        rewrite Es. replace u with (1 - v - w) by lra. ring.
      * replace u with (1 - v - w) by lra. ring.
    + destruct (ratio (u * r1 + w * r0) (r0 + (u + v) * (r1 - r0))) as (s & Hs & Es); [nra|].
      exists s, (u + v). split; [lra|split; [lra|]]. unfold mix, ptat. apply V3_eq; cbn.
      * replace (((r0 + (u + v) * (r1 - r0)) * ((1 - s) * cos a + s * cos b))) with
          ((r0 + (u + v) * (r1 - r0) - s * (r0 + (u + v) * (r1 - r0))) * cos a + s * (r0 + (u + v) * (r1 - r0)) * cos b) by ring.
        rewrite Es. replace w with (1 - u - v) by lra. ring.
      * replace (((r0 + (u + v) * (r1 - r0)) * ((1 - s) * sin a + s * sin b))) with
          ((r0 + (u + v) * (r1 - r0) - s * (r0 + (u + v) * (r1 - r0))) * sin a + s * (r0 + (u + v) * (r1 - r0)) * sin b) by ring.
        rewrite Es. replace w with (1 - u - v) by lra. ring.
      * replace w with (1 - u - v) by lra. ring.
  - intros (s & t & Hs & Ht & ->). set (r := r0 + t * (r1 - r0)). assert (Hr : 0 <= r) by (unfold r; nra).
    destruct (Rle_dec (s * r) ((1 - t) * r0)) as [L|L].
    + left. (* w r0 = s r, v = t *)
      destruct (ratio (s * r) ((1 - t) * r0)) as (k & Hk & Ek); [split; [nra|lra]|].
      exists ((1 - k) * (1 - t)), t, (k * (1 - t)). repeat split; try nra.
      unfold mix, ptat. apply V3_eq; cbn.
      * replace (r * ((1 - s) * cos a + s * cos b)) with ((r - s * r) * cos a + (s * r) * cos b) by ring.
        rewrite <- Ek. unfold r. ring.
      * replace (r * ((1 - s) * sin a + s * sin b)) with ((r - s * r) * sin a + (s * r) * sin b) by ring.
        rewrite <- Ek. unfold r. ring.
      * ring.
    + right. (* v r1 = (1-s) r, w = 1 - t *)
      destruct (ratio ((1 - s) * r) (t * r1)) as (k & Hk & Ek); [split; [nra|unfold r in *; nra]|].
      exists ((1 - k) * t), (k * t), (1 - t). repeat split; try nra.
      unfold mix, ptat. apply V3_eq; cbn.
      * replace (r * ((1 - s) * cos a + s * cos b)) with (((1 - s) * r) * cos a + (r - (1 - s) * r) * cos b) by ring.
        rewrite <- Ek. unfold r. ring.
      * replace (r * ((1 - s) * sin a + s * sin b)) with (((1 - s) * r) * sin a + (r - (1 - s) * r) * sin b) by ring.
        rewrite <- Ek. unfold r. ring.
      * ring.
Qed.
Lemma side_tri a b h r0 r1 q : 0 <= r0 -> 0 <= r1 ->
  (in_tri (ptat a 0 r0) (ptat a h r1) (ptat b 0 r0) q \/ in_tri (ptat b h r1) (ptat a h r1) (ptat b 0 r0) q) <->
  exists s t, 0 <= s <= 1 /\ 0 <= t <= 1 /\ q = mix a b s (cone_radius r0 r1 t) (t * h).
Proof.
  intros H0 H1. rewrite side_gen by auto.
  split; intros (s & t & Hs & Ht & ->); exists s, t; repeat split; try lra; f_equal; ring.
Qed.
Lemma end_tri a b z r q :
  in_tri (mkV 0 0 z) (ptat a z r) (ptat b z r) q <->
  exists s k, 0 <= s <= 1 /\ 0 <= k <= 1 /\ q = mix a b s (k * r) z.
Proof.
  split.
  - intros (u & v & w & Hu & Hv & Hw & E & ->).
    destruct (ratio w (v + w)) as (s & Hs & Es); [lra|].
    exists s, (v + w). split; [lra|split; [lra|]]. unfold mix, ptat. apply V3_eq; cbn.
    + replace ((v + w) * r * ((1 - s) * cos a + s * cos b)) with
        (r * ((v + w - s * (v + w)) * cos a + s * (v + w) * cos b)) by ring. rewrite Es. ring.
    + replace ((v + w) * r * ((1 - s) * sin a + s * sin b)) with
        (r * ((v + w - s * (v + w)) * sin a + s * (v + w) * sin b)) by ring. rewrite Es. ring.
    + replace u with (1 - v - w) by lra. ring.
  - intros (s & k & Hs & Hk & ->). exists (1 - k), (k * (1 - s)), (k * s). repeat split; try nra.
    unfold mix, ptat. apply V3_eq; cbn; ring.
Qed.
Lemma mix_polar a b s k phi r z : on_chord a b s k phi -> mix a b s r z = polar (k * r) phi z.
Proof. intros (C & S). unfold mix, polar. rewrite C, S. apply V3_eq; cbn; ring. Qed.

Section Cone.
  Variables (p : nat) (h r0 r1 : R).
  Hypothesis Hp : (3 <= p)%nat.
  Hypothesis H0 : 0 <= r0.
  Hypothesis H1 : 0 <= r1.
  Let de := PI / INR p.
  Lemma de_ok : 0 <= de < PI / 2.
  Proof using Hp.
    assert (3 <= INR p) by (replace 3 with (INR 3) by (cbn; lra); apply le_INR; lia). pose proof PI_RGT_0. unfold de. split.
    - apply Rmult_le_pos; [lra|apply Rlt_le, Rinv_0_lt_compat; lra].
    - apply Rmult_lt_compat_l; [lra|]. apply Rinv_lt_contravar; lra.
  Qed.
  Lemma two_de : 2 * PI / INR p = 2 * de.
  Proof using Hp. unfold de. field. apply not_0_INR. lia. Qed.
  Lemma cone_points M q : cone_cylinder p h r0 r1 = Some M -> drawn M q ->
    (exists phi t k, 0 <= t <= 1 /\ cos de <= k <= 1 /\ q = polar (k * cone_radius r0 r1 t) phi (t * h)) \/
    (exists phi k, 0 <= k <= 1 /\ q = polar (k * r0) phi 0) \/
    (exists phi k, 0 <= k <= 1 /\ q = polar (k * r1) phi h).
  Proof using Hp H0 H1.
    rewrite cone_eq by lia. intros [= <-]. rewrite cc_triangles by lia. rewrite two_de.
    intros (i & Hi & H). cbv zeta in H. pose proof de_ok as D.
    assert (C : forall s, 0 <= s <= 1 -> exists phi k, cos de <= k <= 1 /\ on_chord (ang p i) (ang p i + 2 * de) s k phi).
    { intros s Hs. destruct (chord_fwd (ang p i) de D s Hs) as (phi & k & _ & K & O). eauto. }
    pose proof (cos_de_pos de D).
    destruct H as [H|[H|[H|H]]].
    - assert (X := proj1 (side_tri (ang p i) (ang p i + 2 * de) h r0 r1 q H0 H1) (or_introl H)).
      destruct X as (s & t & Hs & Ht & ->). destruct (C s Hs) as (phi & k & K & O).
      left. exists phi, t, k. rewrite (mix_polar _ _ _ _ _ _ _ O). auto.
    - assert (X := proj1 (side_tri (ang p i) (ang p i + 2 * de) h r0 r1 q H0 H1) (or_intror H)).
      destruct X as (s & t & Hs & Ht & ->). destruct (C s Hs) as (phi & k & K & O).
      left. exists phi, t, k. rewrite (mix_polar _ _ _ _ _ _ _ O). auto.
    - apply end_tri in H. destruct H as (s & l & Hs & Hl & ->). destruct (C s Hs) as (phi & k & K & O).
      right; left. exists phi, (k * l). rewrite (mix_polar _ _ _ _ _ _ _ O). split; [nra|]. f_equal. ring.
    - apply end_tri in H. destruct H as (s & l & Hs & Hl & ->). destruct (C s Hs) as (phi & k & K & O).
      right; right. exists phi, (k * l). rewrite (mix_polar _ _ _ _ _ _ _ O). split; [nra|]. f_equal. ring.
  Qed.
  Lemma sector_chord phi : exists i s k, (i < p)%nat /\ 0 <= s <= 1 /\ cos de <= k <= 1 /\
    on_chord (ang p i) (ang p i + 2 * de) s k phi.
  Proof using Hp.
    destruct (sector p phi ltac:(lia)) as (i & phi' & Hi & R & C & S).
    rewrite two_de in R. fold (ang p i) in R.
    assert (E : INR i * (2 * de) = ang p i) by (unfold ang; rewrite two_de; ring).
    rewrite E in R. destruct (chord_bwd (ang p i) de de_ok phi' R) as (s & k & Hs & K & O).
    exists i, s, k. repeat split; auto; try lra; destruct O as (O1 & O2); congruence.
  Qed.
  Lemma cone_around M phi t : cone_cylinder p h r0 r1 = Some M -> 0 <= t <= 1 ->
    exists k, cos de <= k <= 1 /\ drawn M (polar (k * cone_radius r0 r1 t) phi (t * h)).
  Proof using Hp H0 H1.
    rewrite cone_eq by lia. intros [= <-] Ht.
    destruct (sector_chord phi) as (i & s & k & Hi & Hs & K & O).
    exists k. split; auto. rewrite cc_triangles by lia. rewrite two_de. exists i. split; auto. cbv zeta.
    rewrite <- (mix_polar _ _ _ _ _ _ _ O).
    assert (X := proj2 (side_tri (ang p i) (ang p i + 2 * de) h r0 r1 _ H0 H1)
      (ex_intro _ s (ex_intro _ t (conj Hs (conj Ht Logic.eq_refl))))).
    tauto.
  Qed.
  Lemma cone_ends M phi rho : cone_cylinder p h r0 r1 = Some M -> 0 <= rho ->
    (rho <= r0 * cos de -> drawn M (polar rho phi 0)) /\ (rho <= r1 * cos de -> drawn M (polar rho phi h)).
  Proof using Hp H0 H1.
    rewrite cone_eq by lia. intros [= <-] Hr.
    destruct (sector_chord phi) as (i & s & k & Hi & Hs & K & O). pose proof (cos_de_pos de de_ok).
    assert (G : forall r z, 0 <= r -> rho <= r * cos de ->
      exists l, 0 <= l <= 1 /\ polar rho phi z = mix (ang p i) (ang p i + 2 * de) s (l * r) z).
    { intros r z Hr' B. destruct (ratio rho (k * r)) as (l & Hl & El); [split; [auto|nra]|].
      exists l. split; auto. rewrite (mix_polar _ _ _ _ _ _ _ O). f_equal. rewrite <- El. ring. }
    rewrite !cc_triangles by lia. rewrite two_de. split; intros B.
    - destruct (G r0 0 H0 B) as (l & Hl & ->). exists i. split; auto. cbv zeta. right; right; left.
      apply end_tri. eauto.
    - destruct (G r1 h H1 B) as (l & Hl & ->). exists i. split; auto. cbv zeta. right; right; right.
      apply end_tri. eauto.
  Qed.
End Cone.

Lemma cone_wf p h r0 r1 : (1 <= p)%nat -> exists M, cone_cylinder p h r0 r1 = Some M /\ well_formed M.
Proof.
  intros Hp. rewrite cone_eq by lia. eexists; split; [reflexivity|].
  unfold well_formed, indices; cbn [d_i d_v d_n].
  assert (LR : length (cc_v p h r0 r1) = (4 * p + 2)%nat).
  { unfold cc_v. rewrite !app_length. rewrite !(flat_len _ 2) by reflexivity. rewrite seq_length. cbn [length]. lia. }
  rewrite LR. split; [|split; [|split]].
  - unfold cc_i. rewrite app_length, !(flat_len _ 6) by reflexivity. rewrite !seq_length.
    replace (6 * p + 6 * p)%nat with (4 * p * 3)%nat by lia. apply Nat.mod_mul; lia.
  - apply Forall_forall. intros x Hx. unfold cc_i in Hx. apply in_app_iff in Hx.
    destruct Hx as [Hx|Hx]; apply in_flat_map in Hx; destruct Hx as (m & Hm & Hx); apply in_seq in Hm;
      pose proof (nxt_lt p m Hp); cbn [side_ix end_ix In] in Hx; lia.
  - unfold cc_n. rewrite !app_length. rewrite !(flat_len _ 2) by reflexivity. rewrite seq_length. cbn [length]. lia.
  - apply Forall_forall. intros x Hx. unfold cc_n in Hx.
    assert (E : forall t, cos t * cos t + sin t * sin t + 0 * 0 = 1).
    { intros t. pose proof (sin2_cos2 t) as S. unfold Rsqr in S. lra. }
    apply in_app_iff in Hx. destruct Hx as [Hx|Hx].
    + apply in_flat_map in Hx. destruct Hx as (m & _ & [<-|[<-|[]]]); apply E.
    + apply in_app_iff in Hx. destruct Hx as [Hx|Hx].
      * apply in_flat_map in Hx. destruct Hx as (m & _ & [<-|[<-|[]]]); unfold vdot; cbn; ring.
      * destruct Hx as [<-|[<-|[]]]; unfold vdot; cbn; ring.
Qed.
(** The vertices and their normals: sides first, then the ends. *)
Lemma cone_normals p h r0 r1 M i a n : (1 <= p)%nat -> cone_cylinder p h r0 r1 = Some M -> at_vertex M i a n ->
  ((i < 2 * p)%nat /\ exists phi, n = polar 1 phi 0 /\ (a = polar r0 phi 0 \/ a = polar r1 phi h)) \/
  ((2 * p <= i)%nat /\ ((n = mkV 0 0 (-1) /\ vz a = 0) \/ (n = mkV 0 0 1 /\ vz a = h))).
Proof.
  intros Hp. rewrite cone_eq by lia. intros [= <-] (Ha & l & [= <-] & Hn). cbn [d_v] in Ha.
  assert (LR : length (flat_map (rimv p h r0 r1) (seq 0 p)) = (2 * p)%nat)
    by (rewrite (flat_len _ 2) by reflexivity; now rewrite seq_length).
  assert (LN : length (flat_map (rimn p) (seq 0 p)) = (2 * p)%nat)
    by (rewrite (flat_len _ 2) by reflexivity; now rewrite seq_length).
  assert (LU : length (flat_map (fun _ : nat => [mkV 0 0 (-1); mkV 0 0 1]) (seq 0 p)) = (2 * p)%nat)
    by (rewrite (flat_len _ 2) by reflexivity; now rewrite seq_length).
  assert (Half : exists m, i = (2*m)%nat \/ i = (2*m+1)%nat).
  { exists (i / 2)%nat. pose proof (Nat.div_mod i 2 ltac:(lia)). pose proof (Nat.mod_upper_bound i 2 ltac:(lia)). lia. }
  assert (FR : forall m, (m < p)%nat -> nth_error (flat_map (rimv p h r0 r1) (seq 0 p)) (2*m) = Some (ptat (ang p m) 0 r0) /\
     nth_error (flat_map (rimv p h r0 r1) (seq 0 p)) (2*m+1) = Some (ptat (ang p m) h r1)).
  { intros m Hm. apply (flat_pair (fun m => ptat (ang p m) 0 r0) (fun m => ptat (ang p m) h r1)). now rewrite nth_seq. }
  assert (FN : forall m, (m < p)%nat -> nth_error (flat_map (rimn p) (seq 0 p)) (2*m) = Some (mkV (cos (ang p m)) (sin (ang p m)) 0) /\
     nth_error (flat_map (rimn p) (seq 0 p)) (2*m+1) = Some (mkV (cos (ang p m)) (sin (ang p m)) 0)).
  { intros m Hm. apply (flat_pair (fun m => mkV (cos (ang p m)) (sin (ang p m)) 0) (fun m => mkV (cos (ang p m)) (sin (ang p m)) 0)). now rewrite nth_seq. }
  assert (FU : forall m, (m < p)%nat -> nth_error (flat_map (fun _ : nat => [mkV 0 0 (-1); mkV 0 0 1]) (seq 0 p)) (2*m) = Some (mkV 0 0 (-1)) /\
     nth_error (flat_map (fun _ : nat => [mkV 0 0 (-1); mkV 0 0 1]) (seq 0 p)) (2*m+1) = Some (mkV 0 0 1)).
  { intros m Hm. apply (flat_pair (fun _ : nat => mkV 0 0 (-1)) (fun _ => mkV 0 0 1) (seq 0 p) m m). now rewrite nth_seq. }
  unfold cc_v in Ha. unfold cc_n in Hn.
  assert (E1 : forall r t z, ptat t z r = polar r t z) by (intros; unfold ptat, polar; f_equal; ring).
  assert (E2 : forall t, mkV (cos t) (sin t) 0 = polar 1 t 0) by (intros; unfold polar; f_equal; ring).
  destruct Half as (m & Hm). destruct (lt_dec i (2 * p)) as [L|L].
  - left. split; auto. rewrite nth_error_app1 in Ha, Hn by lia.
    destruct (FR m ltac:(lia)) as (A & B). destruct (FN m ltac:(lia)) as (C & D).
    exists (ang p m). destruct Hm as [->| ->].
    + rewrite A in Ha; rewrite C in Hn. injection Ha as <-; injection Hn as <-. rewrite E1, E2. auto.
    + rewrite B in Ha; rewrite D in Hn. injection Ha as <-; injection Hn as <-. rewrite E1, E2. auto.
  - right. split; [lia|]. rewrite nth_error_app2 in Ha, Hn by lia. rewrite LR in Ha. rewrite LN in Hn.
    destruct (lt_dec i (4 * p)) as [L'|L'].
    + rewrite nth_error_app1 in Ha, Hn by lia.
      destruct (FR (m - p)%nat ltac:(lia)) as (A & B). destruct (FU (m - p)%nat ltac:(lia)) as (C & D).
      destruct Hm as [->| ->].
      * replace (2 * m - 2 * p)%nat with (2 * (m - p))%nat in Ha, Hn by lia.
        rewrite A in Ha; rewrite C in Hn. injection Ha as <-; injection Hn as <-. left; auto.
      * replace (2 * m + 1 - 2 * p)%nat with (2 * (m - p) + 1)%nat in Ha, Hn by lia.
        rewrite B in Ha; rewrite D in Hn. injection Ha as <-; injection Hn as <-. right; auto.
    + rewrite nth_error_app2 in Ha, Hn by lia. rewrite LR in Ha. rewrite LU in Hn.
      destruct (i - 2 * p - 2 * p)%nat as [|[|j]].
      * injection Ha as <-; injection Hn as <-; left; auto.
      * injection Ha as <-; injection Hn as <-; right; auto.
      * cbn in Ha. destruct j; discriminate.
Qed.
