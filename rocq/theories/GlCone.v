(** Chords of circles; cylinders and cones. *)
From Coq Require Import Reals ZArith List Bool Arith Lia Lra Psatz.
From Verif Require Import TfModel GlModel GlSpec GlProofs GlGrid.
Import ListNotations.
Open Scope R_scope.

(** ** Chords *)
Definition on_chord (al be s k phi : R) : Prop :=
  (1 - s) * cos al + s * cos be = k * cos phi /\ (1 - s) * sin al + s * sin be = k * sin phi.

Section Chord.
  Variables al de : R.
  Hypothesis Hd : 0 <= de < PI / 2.
  Let ga := al + de.
  Lemma cos_de_pos : 0 < cos de.
  Proof using Hd. apply cos_gt_0; pose proof PI_RGT_0; lra. Qed.
  Lemma cos_psi psi : - de <= psi <= de -> cos de <= cos psi <= 1.
  Proof using Hd.
    intros H. split; [|apply COS_bound]. pose proof PI_RGT_0.
    assert (G : forall x, 0 <= x <= de -> cos de <= cos x).
    { intros x Hx. apply cos_decr_1; lra. }
    destruct (Rle_dec 0 psi); [apply G; lra|]. rewrite <- (cos_neg psi). apply G; lra.
  Qed.
  Lemma k_bounds psi : - de <= psi <= de -> cos de <= cos de / cos psi <= 1.
  Proof using Hd.
    intros H. pose proof (cos_psi psi H) as (A & B). pose proof cos_de_pos.
    assert (0 < cos psi) by lra. split.
    - apply (Rmult_le_reg_r (cos psi)); [lra|]. unfold Rdiv. rewrite Rmult_assoc, Rinv_l by lra. nra.
    - apply (Rmult_le_reg_r (cos psi)); [lra|]. unfold Rdiv. rewrite Rmult_assoc, Rinv_l by lra. lra.
  Qed.
  Lemma chord_expand s :
    (1 - s) * cos al + s * cos (al + 2 * de) = cos ga * cos de - (2 * s - 1) * (sin ga * sin de) /\
    (1 - s) * sin al + s * sin (al + 2 * de) = sin ga * cos de + (2 * s - 1) * (cos ga * sin de).
  Proof using.
    assert (E1 : al = ga - de) by (unfold ga; ring).
    assert (E2 : al + 2 * de = ga + de) by (unfold ga; ring).
    rewrite E2. rewrite E1. rewrite cos_minus, cos_plus, sin_minus, sin_plus. split; ring.
  Qed.
  Lemma chord_fwd s : 0 <= s <= 1 ->
    exists phi k, al <= phi <= al + 2 * de /\ cos de <= k <= 1 /\ on_chord al (al + 2 * de) s k phi.
  Proof using Hd.
    intros Hs. pose proof cos_de_pos as C. set (psi := atan ((2 * s - 1) * tan de)).
    assert (T0 : 0 <= tan de).
    { unfold tan. apply Rmult_le_pos; [apply sin_ge_0; pose proof PI_RGT_0; lra|apply Rlt_le, Rinv_0_lt_compat; auto]. }
    assert (Mono : forall x y, x <= y -> atan x <= atan y).
    { intros x y [H| ->]; [left; now apply atan_increasing|right; auto]. }
    assert (AT : atan (tan de) = de) by (apply atan_tan; pose proof PI_RGT_0; lra).
    assert (P : - de <= psi <= de).
    { unfold psi. split.
      - rewrite <- AT at 1. rewrite <- atan_opp. apply Mono. nra.
      - rewrite <- AT at 2. apply Mono. nra. }
    pose proof (cos_psi psi P) as (A & B).
    exists (ga + psi), (cos de / cos psi). split; [unfold ga; lra|]. split; [now apply k_bounds|].
    unfold on_chord. destruct (chord_expand s) as (-> & ->).
    assert (T : tan psi = (2 * s - 1) * tan de) by apply tan_atan.
    assert (S1 : sin psi = tan psi * cos psi) by (unfold tan; field; lra).
    assert (S2 : tan de * cos de = sin de) by (unfold tan; field; lra).
    rewrite cos_plus, sin_plus, S1, T. rewrite <- S2. split; field; lra.
  Qed.
  Lemma chord_bwd phi : al <= phi <= al + 2 * de ->
    exists s k, 0 <= s <= 1 /\ cos de <= k <= 1 /\ on_chord al (al + 2 * de) s k phi.
  Proof using Hd.
    intros Hp. pose proof cos_de_pos as C. set (psi := phi - ga).
    assert (P : - de <= psi <= de) by (unfold psi, ga; lra).
    pose proof (cos_psi psi P) as (A & B).
    destruct (Req_dec de 0) as [E|E].
    - exists 0, 1. split; [lra|]. split; [pose proof (COS_bound de); lra|].
      replace phi with al by lra. unfold on_chord. split; ring.
    - assert (T0 : 0 < tan de).
      { unfold tan. apply Rmult_lt_0_compat; [apply sin_gt_0; pose proof PI_RGT_0; lra|apply Rinv_0_lt_compat; auto]. }
      assert (Mono : forall x y, - PI/2 < x -> y < PI/2 -> x <= y -> tan x <= tan y).
      { intros x y H1 H2 [H| ->]; [left; apply tan_increasing; lra|right; auto]. }
      exists ((1 + tan psi / tan de) / 2), (cos de / cos psi). split; [|split; [now apply k_bounds|]].
      + assert (U : tan psi <= tan de) by (apply Mono; pose proof PI_RGT_0; lra).
        assert (L : - tan de <= tan psi) by (rewrite <- tan_neg; apply Mono; pose proof PI_RGT_0; lra).
        assert (-1 <= tan psi / tan de <= 1).
        { split; apply (Rmult_le_reg_r (tan de)); auto; unfold Rdiv; rewrite Rmult_assoc, Rinv_l by lra; lra. }
        lra.
      + unfold on_chord. destruct (chord_expand ((1 + tan psi / tan de) / 2)) as (-> & ->).
        replace (2 * ((1 + tan psi / tan de) / 2) - 1) with (tan psi / tan de) by lra.
        replace phi with (ga + psi) by (unfold psi; ring).
        assert (S1 : sin psi = tan psi * cos psi) by (unfold tan; field; lra).
        assert (S2 : sin de = tan de * cos de) by (unfold tan; field; lra).
        rewrite cos_plus, sin_plus, S1, S2. split; field; lra.
  Qed.
End Chord.

(** Every direction is in one of the sectors. *)
Lemma sector p phi : (1 <= p)%nat -> exists i phi', (i < p)%nat /\
  INR i * (2 * PI / INR p) <= phi' <= INR i * (2 * PI / INR p) + 2 * PI / INR p /\
  cos phi' = cos phi /\ sin phi' = sin phi.
Proof.
  intros Hp. pose proof PI_RGT_0.
  assert (Pp : 0 < INR p) by (apply lt_0_INR; lia).
  set (x := phi / (2 * PI)). set (k := (up x - 1)%Z).
  destruct (archimed x) as (A1 & A2). assert (K : IZR k <= x < IZR k + 1) by (unfold k; rewrite minus_IZR; lra).
  set (f := x - IZR k). assert (F : 0 <= f < 1) by (unfold f; lra).
  set (y := INR p * f). assert (Y : 0 <= y < INR p) by (unfold y; nra).
  destruct (archimed y) as (B1 & B2). assert (U : (0 < up y)%Z) by (apply lt_IZR; lra).
  set (i := Z.to_nat (up y - 1)).
  assert (Ei : INR i = IZR (up y) - 1) by (unfold i; rewrite INR_IZR_INZ, Z2Nat.id by lia; now rewrite minus_IZR).
  exists i, (phi - IZR k * (2 * PI)). split; [|split; [|split]].
  - apply INR_lt. lra.
  - assert (E : phi - IZR k * (2 * PI) = y * (2 * PI / INR p)) by (unfold y, f, x; field; lra).
    rewrite E. assert (0 < 2 * PI / INR p) by (apply Rmult_lt_0_compat; [lra|apply Rinv_0_lt_compat; lra]). nra.
  - destruct (Z.le_gt_cases 0 k).
    + replace (cos phi) with (cos ((phi - IZR k * (2 * PI)) + 2 * INR (Z.to_nat k) * PI)); [now rewrite cos_period|].
      f_equal. rewrite INR_IZR_INZ, Z2Nat.id by lia. ring.
    + replace (phi - IZR k * (2 * PI)) with (phi + 2 * INR (Z.to_nat (- k)) * PI); [now rewrite cos_period|].
      rewrite INR_IZR_INZ, Z2Nat.id by lia. rewrite opp_IZR. ring.
  - destruct (Z.le_gt_cases 0 k).
    + replace (sin phi) with (sin ((phi - IZR k * (2 * PI)) + 2 * INR (Z.to_nat k) * PI)); [now rewrite sin_period|].
      f_equal. rewrite INR_IZR_INZ, Z2Nat.id by lia. ring.
    + replace (phi - IZR k * (2 * PI)) with (phi + 2 * INR (Z.to_nat (- k)) * PI); [now rewrite sin_period|].
      rewrite INR_IZR_INZ, Z2Nat.id by lia. rewrite opp_IZR. ring.
Qed.

(** ** The mesh *)
Definition ang (p i : nat) : R := INR i * (2 * PI / INR p).
Definition rimv (p : nat) (h r0 r1 : R) (i : nat) : list V3 :=
  [mkV (cos (ang p i) * r0) (sin (ang p i) * r0) 0; mkV (cos (ang p i) * r1) (sin (ang p i) * r1) h].
Definition rimn (p i : nat) : list V3 := [mkV (cos (ang p i)) (sin (ang p i)) 0; mkV (cos (ang p i)) (sin (ang p i)) 0].
Definition nxt (p i : nat) : nat := ((i + 1) mod p)%nat.
Definition side_ix (p i : nat) : list nat := [2*i; 2*i+1; 2 * nxt p i; 2 * nxt p i + 1; 2*i+1; 2 * nxt p i]%nat.
Definition end_ix (p i : nat) : list nat :=
  [4*p; 2*p + 2*i; 2*p + 2 * nxt p i; 4*p+1; 2*p+(2*i+1); 2*p+(2 * nxt p i + 1)]%nat.
Definition cc_v p h r0 r1 := flat_map (rimv p h r0 r1) (seq 0 p) ++ flat_map (rimv p h r0 r1) (seq 0 p) ++ [mkV 0 0 0; mkV 0 0 h].
Definition cc_n p := flat_map (rimn p) (seq 0 p) ++ flat_map (fun _ => [mkV 0 0 (-1); mkV 0 0 1]) (seq 0 p) ++ [mkV 0 0 (-1); mkV 0 0 1].
Definition cc_i p := flat_map (side_ix p) (seq 0 p) ++ flat_map (end_ix p) (seq 0 p).

Lemma flat_len {A B} (f : A -> list B) k l : (forall x, length (f x) = k) -> length (flat_map f l) = (k * length l)%nat.
Proof. intros H; induction l as [|x l IH]; cbn; [lia|]. rewrite app_length, H, IH. lia. Qed.
Lemma flat_pair {A B} (f g : A -> B) l i x : nth_error l i = Some x ->
  nth_error (flat_map (fun x => [f x; g x]) l) (2*i) = Some (f x) /\
  nth_error (flat_map (fun x => [f x; g x]) l) (2*i+1) = Some (g x).
Proof.
  revert i; induction l as [|y l IH]; intros i H; [destruct i; discriminate|].
  destruct i as [|i]; cbn [nth_error] in H.
  - injection H as ->. cbn. auto.
  - destruct (IH i H). replace (2 * S i + 1)%nat with (S (S (2*i+1))) by lia.
    replace (2 * S i)%nat with (S (S (2*i))) by lia. cbn [flat_map app nth_error]. auto.
Qed.
Lemma nth_seq a n i : (i < n)%nat -> nth_error (seq a n) i = Some (a + i)%nat.
Proof.
  revert a i; induction n as [|n IH]; intros a i H; [lia|]. destruct i as [|i]; cbn; [f_equal; lia|].
  rewrite IH by lia. f_equal. lia.
Qed.
Lemma nxt_lt p i : (1 <= p)%nat -> (nxt p i < p)%nat.
Proof. intros; apply Nat.mod_upper_bound; lia. Qed.
Lemma mod2 p i : (1 <= p)%nat -> ((2*i+2) mod (2*p) = 2 * nxt p i)%nat.
Proof.
  intros H. unfold nxt. replace (2*i+2)%nat with (2*(i+1))%nat by lia.
  rewrite Nat.mul_mod_distr_l by lia. reflexivity.
Qed.
Lemma mod2' p i : (1 <= p)%nat -> ((2 * nxt p i + 1) mod (2*p) = 2 * nxt p i + 1)%nat.
Proof. intros H. apply Nat.mod_small. pose proof (nxt_lt p i H). lia. Qed.
Lemma mod3 p i : (1 <= p)%nat -> ((2*i+3) mod (2*p) = 2 * nxt p i + 1)%nat.
Proof.
  intros H. replace (2*i+3)%nat with ((2*i+2) + 1)%nat by lia.
  rewrite <- Nat.add_mod_idemp_l by lia. rewrite mod2 by lia. now apply mod2'.
Qed.

Lemma cone_eq p h r0 r1 : (1 <= p)%nat ->
  cone_cylinder p h r0 r1 = Some (mkD (cc_v p h r0 r1) (Some (cc_n p)) (Some (cc_i p))).
Proof.
  intros Hp. unfold cone_cylinder.
  assert (LR : forall l, length (flat_map (rimv p h r0 r1) l) = (2 * length l)%nat) by (intros; apply flat_len; reflexivity).
  assert (LN : forall l, length (flat_map (rimn p) l) = (2 * length l)%nat) by (intros; apply flat_len; reflexivity).
  assert (LS : forall l, length (flat_map (side_ix p) l) = (6 * length l)%nat) by (intros; apply flat_len; reflexivity).
  assert (LE : forall l, length (flat_map (end_ix p) l) = (6 * length l)%nat) by (intros; apply flat_len; reflexivity).
  assert (LU : forall l : list nat, length (flat_map (fun _ => [mkV 0 0 (-1); mkV 0 0 1]) l) = (2 * length l)%nat)
    by (intros; apply flat_len; reflexivity).
  destruct (loop_range (cc_side p h r0 r1)
    (fun i s => s = (flat_map (rimv p h r0 r1) (seq 0 i), flat_map (rimn p) (seq 0 i), flat_map (side_ix p) (seq 0 i)))
    0 p ([], [], [])) as (s & E & ->); [lia|reflexivity| |].
  { intros i s Hi ->. unfold cc_side.
    rewrite !puts_ok by (rewrite ?LR, ?LN, ?seq_length; cbn [length]; lia).
    replace (2 * i + 1 + 1)%nat with (2*i+2)%nat by lia. rewrite mod2, mod2' by lia.
    rewrite puts_ok by (rewrite LS, seq_length; cbn [length]; lia).
    eexists; split; [reflexivity|]. rewrite seq_app, !flat_map_app. cbn [seq flat_map]. now rewrite !app_nil_r. }
  rewrite E. cbv beta iota zeta. clear E.
  rewrite puts_ok by (rewrite LR, seq_length; lia).
  replace (length (flat_map (rimv p h r0 r1) (seq 0 p))) with (2 * p)%nat by (rewrite LR, seq_length; lia).
  destruct (loop_range (cc_end p (2 * p))
    (fun i s => s = (flat_map (rimn p) (seq 0 p) ++ flat_map (fun _ => [mkV 0 0 (-1); mkV 0 0 1]) (seq 0 i),
                     flat_map (side_ix p) (seq 0 p) ++ flat_map (end_ix p) (seq 0 i)))
    0 p (flat_map (rimn p) (seq 0 p), flat_map (side_ix p) (seq 0 p))) as (s & E & ->); [lia|cbn; now rewrite !app_nil_r| |].
  { intros i s Hi ->. unfold cc_end. rewrite mod2, mod3 by lia.
    rewrite puts_ok by (rewrite app_length, LS, LE, !seq_length; cbn [length]; lia).
    rewrite puts_ok by (rewrite app_length, LN, LU, !seq_length; cbn [length]; lia).
    eexists; split; [reflexivity|].
    replace (2 * (2 * p))%nat with (4 * p)%nat by lia.
    replace (2 * i + 0)%nat with (2 * i)%nat by lia.
    rewrite !seq_app, !flat_map_app. cbn [seq flat_map]. now rewrite !app_nil_r, <- !app_assoc. }
  rewrite E. cbv beta iota zeta. clear E.
  rewrite !puts_ok by (rewrite app_length, ?LR, ?LN, ?LU, !seq_length; cbn [length]; lia).
  rewrite !app_length, LR, LN, LU, LS, LE, !seq_length. cbn [length].
  replace (2 * p + 2 * p)%nat with (4 * p)%nat by lia. replace (6 * p + 6 * p)%nat with (12 * p)%nat by lia.
  rewrite !Nat.eqb_refl. cbn [andb].
  replace (4 * p + 2)%nat with (length (cc_v p h r0 r1))
    by (unfold cc_v; rewrite !app_length, !LR, !seq_length; cbn [length]; lia).
  replace (12 * p)%nat with (length (cc_i p)) by (unfold cc_i; rewrite !app_length, LS, LE, !seq_length; lia).
  rewrite <- !app_assoc. apply (tri_mesh_ok (cc_v p h r0 r1) (cc_n p) (cc_i p)).
  - unfold cc_v, cc_n. rewrite !app_length, LN, LU, !LR. reflexivity.
  - unfold cc_i. rewrite app_length, LS, LE, !seq_length. replace (6 * p + 6 * p)%nat with (4 * p * 3)%nat by lia.
    apply Nat.mod_mul; lia.
Qed.

(** Vertices by index. *)
Definition bot p h r0 r1 i := nth 0 (rimv p h r0 r1 i) (mkV 0 0 0).
Definition top p h r0 r1 i := nth 1 (rimv p h r0 r1 i) (mkV 0 0 0).
Lemma cc_v_nth p h r0 r1 i : (i < p)%nat ->
  nth_error (cc_v p h r0 r1) (2*i) = Some (bot p h r0 r1 i) /\ nth_error (cc_v p h r0 r1) (2*i+1) = Some (top p h r0 r1 i) /\
  nth_error (cc_v p h r0 r1) (2*p+2*i) = Some (bot p h r0 r1 i) /\ nth_error (cc_v p h r0 r1) (2*p+(2*i+1)) = Some (top p h r0 r1 i) /\
  nth_error (cc_v p h r0 r1) (4*p) = Some (mkV 0 0 0) /\ nth_error (cc_v p h r0 r1) (4*p+1) = Some (mkV 0 0 h).
Proof.
  intros Hi. unfold cc_v.
  assert (LR : length (flat_map (rimv p h r0 r1) (seq 0 p)) = (2 * p)%nat)
    by (rewrite (flat_len _ 2) by reflexivity; now rewrite seq_length).
  pose proof (flat_pair (bot p h r0 r1) (top p h r0 r1) (seq 0 p) i i) as F.
  destruct F as (F1 & F2); [now rewrite nth_seq|].
  change (flat_map (fun x => [bot p h r0 r1 x; top p h r0 r1 x]) (seq 0 p)) with (flat_map (rimv p h r0 r1) (seq 0 p)) in *.
  repeat split.
  - rewrite nth_error_app1 by lia. auto.
  - rewrite nth_error_app1 by lia. auto.
  - rewrite nth_error_app2 by lia. rewrite LR, nth_error_app1 by lia. rewrite <- F1. f_equal. lia.
  - rewrite nth_error_app2 by lia. rewrite LR, nth_error_app1 by lia. rewrite <- F2. f_equal. lia.
  - rewrite !nth_error_app2 by lia. rewrite LR. replace (4 * p - 2 * p - 2 * p)%nat with 0%nat by lia. reflexivity.
  - rewrite !nth_error_app2 by lia. rewrite LR. replace (4 * p + 1 - 2 * p - 2 * p)%nat with 1%nat by lia. reflexivity.
Qed.
(** The next vertex around, by angle. *)
Definition ptat (a h r : R) : V3 := mkV (cos a * r) (sin a * r) h.
Lemma ang_nxt p i : (1 <= p)%nat -> (i < p)%nat ->
  cos (ang p (nxt p i)) = cos (ang p i + 2 * PI / INR p) /\ sin (ang p (nxt p i)) = sin (ang p i + 2 * PI / INR p).
Proof.
  intros Hp Hi. assert (0 < INR p) by (apply lt_0_INR; lia).
  assert (E : ang p i + 2 * PI / INR p = ang p (i + 1)) by (unfold ang; rewrite plus_INR; cbn; ring).
  rewrite E. unfold nxt. destruct (Nat.eq_dec (i + 1) p) as [->|N].
  - rewrite Nat.mod_same by lia. unfold ang. cbn [INR]. rewrite Rmult_0_l.
    replace (INR p * (2 * PI / INR p)) with (2 * PI) by (field; lra).
    now rewrite cos_2PI, sin_2PI, cos_0, sin_0.
  - rewrite Nat.mod_small by lia. auto.
Qed.
Lemma bot_nxt p h r0 r1 i : (1 <= p)%nat -> (i < p)%nat -> bot p h r0 r1 (nxt p i) = ptat (ang p i + 2 * PI / INR p) 0 r0.
Proof. intros Hp Hi. unfold bot, ptat; cbn. destruct (ang_nxt p i Hp Hi) as (-> & ->). reflexivity. Qed.
Lemma top_nxt p h r0 r1 i : (1 <= p)%nat -> (i < p)%nat -> top p h r0 r1 (nxt p i) = ptat (ang p i + 2 * PI / INR p) h r1.
Proof. intros Hp Hi. unfold top, ptat; cbn. destruct (ang_nxt p i Hp Hi) as (-> & ->). reflexivity. Qed.

Lemma cc_triangles p h r0 r1 q : (1 <= p)%nat ->
  drawn (mkD (cc_v p h r0 r1) (Some (cc_n p)) (Some (cc_i p))) q <->
  exists i, (i < p)%nat /\
    let a := ang p i in let b := ang p i + 2 * PI / INR p in
    (in_tri (ptat a 0 r0) (ptat a h r1) (ptat b 0 r0) q \/ in_tri (ptat b h r1) (ptat a h r1) (ptat b 0 r0) q \/
     in_tri (mkV 0 0 0) (ptat a 0 r0) (ptat b 0 r0) q \/ in_tri (mkV 0 0 h) (ptat a h r1) (ptat b h r1) q).
Proof.
  intros Hp. unfold drawn, triangles, indices; cbn [d_i d_v].
  assert (T : triples (cc_i p) =
    flat_map (fun i => [(2*i, 2*i+1, 2 * nxt p i); (2 * nxt p i + 1, 2*i+1, 2 * nxt p i)]%nat) (seq 0 p) ++
    flat_map (fun i => [(4*p, 2*p+2*i, 2*p+2*nxt p i); (4*p+1, 2*p+(2*i+1), 2*p+(2*nxt p i + 1))]%nat) (seq 0 p)).
  { unfold cc_i. rewrite triples_app.
    - f_equal; apply triples_flat; reflexivity.
    - rewrite (flat_len _ 6) by reflexivity. rewrite seq_length. replace (6 * p)%nat with (2 * p * 3)%nat by lia.
      apply Nat.mod_mul; lia. }
  rewrite T. clear T.
  assert (B : forall i, bot p h r0 r1 i = ptat (ang p i) 0 r0) by reflexivity.
  assert (B' : forall i, top p h r0 r1 i = ptat (ang p i) h r1) by reflexivity.
  split.
  - intros (i & j & k & a & b & c & Hin & Ha & Hb & Hc & Ht). apply in_app_iff in Hin.
    destruct Hin as [Hin|Hin]; apply in_flat_map in Hin; destruct Hin as (m & Hm & Hi); apply in_seq in Hm;
      exists m; (split; [lia|]); cbv zeta;
      destruct (cc_v_nth p h r0 r1 m ltac:(lia)) as (V1 & V2 & V3 & V4 & V5 & V6);
      destruct (cc_v_nth p h r0 r1 (nxt p m) (nxt_lt p m Hp)) as (W1 & W2 & W3 & W4 & _);
      rewrite bot_nxt in W1, W3 by lia; rewrite top_nxt in W2, W4 by lia; rewrite B in V1, V3; rewrite B' in V2, V4;
      cbn [In] in Hi; destruct Hi as [E'|[E'|[]]]; apply trip_inj in E'; destruct E' as (-> & -> & ->).
    + rewrite V1 in Ha; rewrite V2 in Hb; rewrite W1 in Hc. injection Ha as <-; injection Hb as <-; injection Hc as <-. auto.
    + rewrite W2 in Ha; rewrite V2 in Hb; rewrite W1 in Hc. injection Ha as <-; injection Hb as <-; injection Hc as <-. auto.
    + rewrite V5 in Ha; rewrite V3 in Hb; rewrite W3 in Hc. injection Ha as <-; injection Hb as <-; injection Hc as <-. auto.
    + rewrite V6 in Ha; rewrite V4 in Hb; rewrite W4 in Hc. injection Ha as <-; injection Hb as <-; injection Hc as <-. auto.
  - intros (m & Hm & H). cbv zeta in H.
    destruct (cc_v_nth p h r0 r1 m ltac:(lia)) as (V1 & V2 & V3 & V4 & V5 & V6);
      destruct (cc_v_nth p h r0 r1 (nxt p m) (nxt_lt p m Hp)) as (W1 & W2 & W3 & W4 & _);
      rewrite bot_nxt in W1, W3 by lia; rewrite top_nxt in W2, W4 by lia; rewrite B in V1, V3; rewrite B' in V2, V4.
    destruct H as [H|[H|[H|H]]].
    + exists (2*m)%nat, (2*m+1)%nat, (2*nxt p m)%nat. do 3 eexists. split; [|split; [|split; [|split]]]; try eassumption.
      apply in_app_iff; left; apply in_flat_map; exists m; split; [apply in_seq; lia|cbn [In]; auto].
    + exists (2*nxt p m+1)%nat, (2*m+1)%nat, (2*nxt p m)%nat. do 3 eexists. split; [|split; [|split; [|split]]]; try eassumption.
      apply in_app_iff; left; apply in_flat_map; exists m; split; [apply in_seq; lia|cbn [In]; auto].
    + exists (4*p)%nat, (2*p+2*m)%nat, (2*p+2*nxt p m)%nat. do 3 eexists. split; [|split; [|split; [|split]]]; try eassumption.
      apply in_app_iff; right; apply in_flat_map; exists m; split; [apply in_seq; lia|cbn [In]; auto].
    + exists (4*p+1)%nat, (2*p+(2*m+1))%nat, (2*p+(2*nxt p m+1))%nat. do 3 eexists. split; [|split; [|split; [|split]]]; try eassumption.
      apply in_app_iff; right; apply in_flat_map; exists m; split; [apply in_seq; lia|cbn [In]; auto].
Qed.
