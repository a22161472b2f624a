(** Tori. *)
From Coq Require Import Reals ZArith NArith List Bool Arith Lia Lra Psatz.
From Verif Require Import TfModel GlModel GlSpec GlProofs GlGrid GlCone GlCone2.
Import ListNotations.
Open Scope R_scope.

Definition ringat (A : R) (d : R) (j : nat) : R := if Rlt_dec A (INR j * d) then A else INR j * d.
Definition rng (p : nat) (f : R -> R -> V3) (a d : R) (j : nat) : list V3 :=
  map (fun i => f (ringat a d j) (ang p i)) (seq 0 p).
Definition quad_ix (p j i : nat) : list nat :=
  [j*p+i; (j+1)*p+i; j*p+nxt p i; (j+1)*p+nxt p i; (j+1)*p+i; j*p+nxt p i]%nat.
Definition ring_ix (p j : nat) : list nat := flat_map (quad_ix p j) (seq 0 p).
Definition tor_mesh (p n : nat) (a d major minor : R) : dmesh :=
  mkD (flat_map (rng p (torus_point major minor) a d) (seq 0 n)) (Some (flat_map (rng p torus_normal a d) (seq 0 n)))
      (Some (flat_map (ring_ix p) (seq 0 (n - 1)))).

Lemma ring_len p f a d j : length (rng p f a d j) = p.
Proof. unfold rng. now rewrite map_length, seq_length. Qed.
Lemma ring_ix_len p j : length (ring_ix p j) = (6 * p)%nat.
Proof. unfold ring_ix. rewrite (flat_len _ 6) by reflexivity. now rewrite seq_length. Qed.
Lemma rings_len p f a d l : length (flat_map (rng p f a d) l) = (p * length l)%nat.
Proof. apply flat_len. intros; apply ring_len. Qed.

Lemma wrap p j i : (1 <= p)%nat -> (i < p)%nat -> ((j + 2) * p < 2 ^ 32)%nat -> forall k, (k = j * p + i)%nat ->
  N.to_nat (uadd (N.of_nat k) (if Nat.eqb (i + 1) p then ((2 ^ 32 - N.of_nat i) mod 2 ^ 32)%N else 1%N)) = (j * p + nxt p i)%nat.
Proof.
  intros Hp Hi Hb k ->.
  assert (Hb' : (N.of_nat ((j + 2) * p) < 2 ^ 32)%N).
  { replace (2 ^ 32)%N with (N.of_nat (2 ^ 32)); [lia|]. rewrite Nat2N.inj_pow. reflexivity. }
  clear Hb. unfold uadd, nxt. destruct (Nat.eqb_spec (i + 1) p) as [E|E].
  - rewrite E, Nat.mod_same by lia.
    assert (X : ((N.of_nat (j * p + i) + (2 ^ 32 - N.of_nat i) mod 2 ^ 32) mod 2 ^ 32 = N.of_nat (j * p))%N).
    { rewrite N.add_mod_idemp_r by discriminate.
      replace (N.of_nat (j * p + i) + (2 ^ 32 - N.of_nat i))%N with (N.of_nat (j * p) + 1 * 2 ^ 32)%N by nia.
      rewrite N.mod_add by discriminate. apply N.mod_small. nia. }
    rewrite X. lia.
  - rewrite (Nat.mod_small (i + 1) p) by lia.
    rewrite N.mod_small by nia. lia.
Qed.

Lemma torus_eq angle major minor m : to_unsigned (angle / (PI * 2 / 72)) = Some m ->
  let n := if (m <? 8)%nat then 8%nat else m in ((n + 1) * 36 < 2 ^ 32)%nat ->
  init_torus angle major minor = Some (tor_mesh 36 n angle (angle / INR (n - 1)) major minor).
Proof.
  intros Em n Hn. unfold init_torus. rewrite Em. cbv zeta. fold n.
  assert (N8 : (8 <= n)%nat) by (unfold n; destruct (Nat.ltb_spec m 8); lia).
  clearbody n. clear Em m. set (p := 36%nat) in *. assert (Hp : (1 <= p)%nat) by (unfold p; lia). clearbody p.
  set (d := angle / INR (n - 1)).
  destruct (loop_range (torus_ring p (p * n) angle d major minor)
    (fun j s => s = (flat_map (rng p (torus_point major minor) angle d) (seq 0 j), flat_map (rng p torus_normal angle d) (seq 0 j)))
    0 n ([], [])) as (s & E & ->); [lia|reflexivity| |].
  { intros j s Hj ->. unfold torus_ring. cbn [fst snd].
    assert (Q1 : map (fun i => mrot (zangle2rotmat (if Rlt_dec angle (INR j * d) then angle else INR j * d)) (circ_base p major minor i)) (range 0 p)
      = rng p (torus_point major minor) angle d j).
    { unfold rng, range. rewrite Nat.sub_0_r. apply map_ext. intros i. fold (ringat angle d j).
      unfold circ_base. fold (ang p i). unfold torus_point, polar, mrot, zangle2rotmat.
      apply V3_eq; cbn; ring. }
    assert (Q2 : map (fun i => mrot (zangle2rotmat (if Rlt_dec angle (INR j * d) then angle else INR j * d)) (circ_norm p i)) (range 0 p)
      = rng p torus_normal angle d j).
    { unfold rng, range. rewrite Nat.sub_0_r. apply map_ext. intros i. fold (ringat angle d j).
      unfold circ_norm. fold (ang p i). unfold torus_normal, mrot, zangle2rotmat.
      apply V3_eq; cbn; ring. }
    rewrite Q1, Q2.
    rewrite !puts_ok by (rewrite rings_len, seq_length, ring_len; nia).
    eexists; split; [reflexivity|]. rewrite !seq_app, !flat_map_app. cbn [seq flat_map]. now rewrite !app_nil_r. }
  rewrite E. clear E.
  destruct (loop_range (fun j s => loop (fun i s => torus_quad p (p * (n - 1) * 2 * 3) j i s) (range 0 p) s)
    (fun j s => s = flat_map (ring_ix p) (seq 0 j)) 0 (n - 1) []) as (s & E & ->); [lia|reflexivity| |].
  { intros j s Hj ->.
    destruct (loop_range (fun i s => torus_quad p (p * (n - 1) * 2 * 3) j i s)
      (fun i s => s = flat_map (ring_ix p) (seq 0 j) ++ flat_map (quad_ix p j) (seq 0 i)) 0 p (flat_map (ring_ix p) (seq 0 j)))
      as (s & E & ->); [lia|cbn; now rewrite app_nil_r| |].
    { intros i s Hi ->. unfold torus_quad.
      rewrite (wrap p j i) by (auto; try lia; nia). rewrite (wrap p (j + 1) i) by (auto; try lia; nia).
      rewrite puts_ok.
      - eexists; split; [reflexivity|]. rewrite (seq_app i 1), flat_map_app. cbn [seq flat_map]. rewrite app_nil_r, <- app_assoc.
        do 2 f_equal. unfold quad_ix. replace (j * p + i + p)%nat with ((j + 1) * p + i)%nat by lia. reflexivity.
      - rewrite app_length, (flat_len _ (6 * p)) by (intros; apply ring_ix_len).
        rewrite (flat_len _ 6) by reflexivity. rewrite !seq_length. cbn [length]. nia. }
    rewrite E. eexists; split; [reflexivity|]. rewrite seq_app, flat_map_app. cbn [seq flat_map]. now rewrite app_nil_r. }
  rewrite E. clear E.
  rewrite rings_len, seq_length, Nat.eqb_refl.
  assert (LI : length (flat_map (ring_ix p) (seq 0 (n - 1))) = (p * (n - 1) * 2 * 3)%nat).
  { rewrite (flat_len _ (6 * p)) by (intros; apply ring_ix_len). rewrite seq_length. lia. }
  rewrite LI, Nat.eqb_refl. cbn [andb]. rewrite <- LI.
  replace (p * n)%nat with (length (flat_map (rng p (torus_point major minor) angle d) (seq 0 n))) by (rewrite rings_len, seq_length; reflexivity).
  apply tri_mesh_ok.
  - now rewrite !rings_len.
  - rewrite LI. apply Nat.mod_mul. lia.
Qed.

(** ** Vertices and triangles *)
Lemma rows {A} (f : nat -> nat -> A) p n j i : (j < n)%nat -> (i < p)%nat ->
  nth_error (flat_map (fun j => map (f j) (seq 0 p)) (seq 0 n)) (j * p + i) = Some (f j i).
Proof.
  intros Hj Hi. assert (L : forall l, length (flat_map (fun j => map (f j) (seq 0 p)) l) = (p * length l)%nat).
  { intros l. apply flat_len. intros; now rewrite map_length, seq_length. }
  replace n with (j + S (n - j - 1))%nat by lia. rewrite seq_app, flat_map_app.
  rewrite nth_error_app2 by (rewrite L, seq_length; lia). rewrite L, seq_length.
  replace (j * p + i - p * j)%nat with i by lia. cbn [seq flat_map Nat.add].
  rewrite nth_error_app1 by (rewrite map_length, seq_length; auto).
  rewrite nth_error_map, nth_seq by auto. reflexivity.
Qed.
Lemma rows_inv {A} (f : nat -> nat -> A) p n k x : (1 <= p)%nat ->
  nth_error (flat_map (fun j => map (f j) (seq 0 p)) (seq 0 n)) k = Some x ->
  exists j i, (j < n)%nat /\ (i < p)%nat /\ (k = j * p + i)%nat /\ x = f j i.
Proof.
  intros Hp H. assert (L : length (flat_map (fun j => map (f j) (seq 0 p)) (seq 0 n)) = (p * n)%nat).
  { rewrite (flat_len _ p); [now rewrite seq_length|]. intros; now rewrite map_length, seq_length. }
  assert (K : (k < p * n)%nat) by (rewrite <- L; apply nth_error_Some; congruence).
  pose proof (Nat.div_mod k p ltac:(lia)) as D. pose proof (Nat.mod_upper_bound k p ltac:(lia)) as U.
  assert (J : (k / p < n)%nat) by (apply Nat.div_lt_upper_bound; lia).
  exists (k / p)%nat, (k mod p)%nat. repeat split; auto; [lia|].
  rewrite D in H. rewrite (Nat.mul_comm p) in H. rewrite rows in H; auto. congruence.
Qed.
Lemma ringat_eq a d n j : 0 <= d -> a = INR (n - 1) * d -> (j < n)%nat -> ringat a d j = INR j * d.
Proof.
  intros Hd Ea Hj. unfold ringat. destruct Rlt_dec as [L|]; auto. exfalso.
  assert (INR j <= INR (n - 1)) by (apply le_INR; lia). nra.
Qed.
Lemma ang_nxt2 p i : (1 <= p)%nat -> (i < p)%nat -> forall f : R -> R, (forall x, f (x + 2 * PI) = f x) ->
  f (ang p (nxt p i)) = f (ang p i + 2 * PI / INR p).
Proof.
  intros Hp Hi f Hf. unfold nxt. assert (INR p <> 0) by (apply not_0_INR; lia).
  destruct (Nat.eq_dec (i + 1) p) as [E|E].
  - rewrite E, Nat.mod_same by lia. rewrite <- (Hf (ang p 0)). f_equal. unfold ang. rewrite <- E, plus_INR in *. cbn in *. field. auto.
  - rewrite Nat.mod_small by lia. f_equal. unfold ang. rewrite plus_INR. cbn. field. auto.
Qed.

Section Torus.
  Variables (p n : nat) (a d major minor : R).
  Hypothesis Hp : (3 <= p)%nat.
  Hypothesis Hn : (2 <= n)%nat.
  Hypothesis Hd : 0 <= d.
  Hypothesis Ha : a = INR (n - 1) * d.
  Hypothesis Hr : 0 <= minor <= major.
  Let M := tor_mesh p n a d major minor.
  Let de := PI / INR p.
  Lemma vert j i : (j < n)%nat -> (i < p)%nat -> nth_error (d_v M) (j * p + i) = Some (torus_point major minor (INR j * d) (ang p i)).
  Proof using Hn Hd Ha.
    intros Hj Hi. unfold M, tor_mesh, rng; cbn [d_v].
    rewrite (rows (fun j i => torus_point major minor (ringat a d j) (ang p i))); auto.
    now rewrite (ringat_eq a d n).
  Qed.
  Lemma vertex k v m : at_vertex M k v m -> exists phi theta, 0 <= phi <= a /\
    v = torus_point major minor phi theta /\ m = torus_normal phi theta.
  Proof using Hp Hn Hd Ha.
    intros (A & l & [= <-] & B). unfold M, tor_mesh, rng in A; cbn [d_v] in A. unfold rng in B.
    destruct (rows_inv (fun j i => torus_point major minor (ringat a d j) (ang p i)) p n k v ltac:(lia) A) as (j & i & Hj & Hi & -> & ->).
    rewrite (rows (fun j i => torus_normal (ringat a d j) (ang p i))) in B; auto. injection B as <-.
    exists (ringat a d j), (ang p i). split; auto. rewrite (ringat_eq a d n) by auto.
    assert (INR j <= INR (n - 1)) by (apply le_INR; lia). pose proof (pos_INR j). nra.
  Qed.
  Lemma tor_wf : well_formed M.
  Proof using Hp Hn.
    unfold well_formed, indices, M, tor_mesh; cbn [d_i d_v d_n]. split; [|split; [|split]].
    - rewrite (flat_len _ (6 * p)) by (intros; apply ring_ix_len). rewrite seq_length.
      replace (6 * p * (n - 1))%nat with (2 * p * (n - 1) * 3)%nat by lia. apply Nat.mod_mul. lia.
    - rewrite rings_len, seq_length. apply Forall_forall. intros x Hx.
      apply in_flat_map in Hx. destruct Hx as (j & Hj & Hx). apply in_seq in Hj.
      apply in_flat_map in Hx. destruct Hx as (i & Hi & Hx). apply in_seq in Hi.
      pose proof (nxt_lt p i ltac:(lia)). assert (((j + 1) * p + p <= p * n)%nat) by nia.
      unfold quad_ix in Hx. set (z := nxt p i) in *. clearbody z. cbn [In] in Hx. lia.
    - now rewrite !rings_len.
    - apply Forall_forall. intros x Hx. apply in_flat_map in Hx. destruct Hx as (j & _ & Hx).
      apply in_map_iff in Hx. destruct Hx as (i & <- & _). unfold torus_normal, vdot; cbn.
      set (t := ang p i). set (f := ringat a d j).
      pose proof (sin2_cos2 t) as S1. pose proof (sin2_cos2 f) as S2. unfold Rsqr in S1, S2.
      replace (cos t * cos f * (cos t * cos f) + cos t * sin f * (cos t * sin f) + sin t * sin t)
        with (cos t * cos t * (sin f * sin f + cos f * cos f) + sin t * sin t) by ring. rewrite S2. lra.
  Qed.
  Lemma tor_triangles q : drawn M q <-> exists j i, (j < n - 1)%nat /\ (i < p)%nat /\
    let A := INR j * d in let B := INR (j + 1) * d in let t := ang p i in let t' := ang p i + 2 * PI / INR p in
    (in_tri (torus_point major minor A t) (torus_point major minor B t) (torus_point major minor A t') q \/
     in_tri (torus_point major minor B t') (torus_point major minor B t) (torus_point major minor A t') q).
  Proof using Hp Hn Hd Ha.
    assert (T : triangles M = flat_map (fun j => flat_map (fun i =>
      [(j*p+i, (j+1)*p+i, j*p+nxt p i); ((j+1)*p+nxt p i, (j+1)*p+i, j*p+nxt p i)]%nat) (seq 0 p)) (seq 0 (n - 1))).
    { unfold triangles, indices, M, tor_mesh; cbn [d_i]. apply triples_flat. intros j r.
      rewrite triples_app by (rewrite ring_ix_len; replace (6 * p)%nat with (2 * p * 3)%nat by lia; apply Nat.mod_mul; lia).
      f_equal. unfold ring_ix. apply triples_flat. intros i r'. reflexivity. }
    assert (W : forall phi i, (i < p)%nat -> torus_point major minor phi (ang p (nxt p i)) = torus_point major minor phi (ang p i + 2 * PI / INR p)).
    { intros phi i Hi. unfold torus_point, polar.
      rewrite (ang_nxt2 p i ltac:(lia) Hi cos) by (intros; replace (x + 2 * PI) with (x + 2 * INR 1 * PI) by (cbn; ring); apply cos_period).
      rewrite (ang_nxt2 p i ltac:(lia) Hi sin) by (intros; replace (x + 2 * PI) with (x + 2 * INR 1 * PI) by (cbn; ring); apply sin_period).
      reflexivity. }
    unfold drawn. rewrite T. split.
    - intros (x & y & z & u & v & w & Ht & X & Y & Z & Q).
      apply in_flat_map in Ht. destruct Ht as (j & Hj & Ht). apply in_flat_map in Ht. destruct Ht as (i & Hi & Ht).
      apply in_seq in Hj, Hi. exists j, i. split; [lia|]. split; [lia|]. cbv zeta.
      pose proof (nxt_lt p i ltac:(lia)) as Hx.
      destruct Ht as [Ht|[Ht|[]]]; apply trip_inj in Ht; destruct Ht as (-> & -> & ->); rewrite vert in X, Y, Z by lia.
      + left. injection X as <-; injection Y as <-; injection Z as <-. now rewrite <- W by lia.
      + right. injection X as <-; injection Y as <-; injection Z as <-. now rewrite <- !W by lia.
    - intros (j & i & Hj & Hi & H). cbv zeta in H. pose proof (nxt_lt p i ltac:(lia)) as Hx. rewrite <- !W in H by lia.
      destruct H as [H|H].
      + exists (j*p+i)%nat, ((j+1)*p+i)%nat, (j*p+nxt p i)%nat. do 3 eexists. split.
        { apply in_flat_map. exists j. split; [apply in_seq; lia|]. apply in_flat_map. exists i. split; [apply in_seq; lia|]. left; reflexivity. }
        rewrite !vert by lia. split; [reflexivity|]. split; [reflexivity|]. split; [reflexivity|]. exact H.
      + exists ((j+1)*p+nxt p i)%nat, ((j+1)*p+i)%nat, (j*p+nxt p i)%nat. do 3 eexists. split.
        { apply in_flat_map. exists j. split; [apply in_seq; lia|]. apply in_flat_map. exists i. split; [apply in_seq; lia|]. right; left; reflexivity. }
        rewrite !vert by lia. split; [reflexivity|]. split; [reflexivity|]. split; [reflexivity|]. exact H.
  Qed.
  Lemma tor_points q : drawn M q <-> exists j i s t, (j < n - 1)%nat /\ (i < p)%nat /\ 0 <= s <= 1 /\ 0 <= t <= 1 /\
    q = mix (INR j * d) (INR (j + 1) * d) s
          (major + minor * ((1 - t) * cos (ang p i) + t * cos (ang p i + 2 * de)))
          (minor * ((1 - t) * sin (ang p i) + t * sin (ang p i + 2 * de))).
  Proof using Hp Hn Hd Ha Hr.
    rewrite tor_triangles. assert (E2 : 2 * PI / INR p = 2 * de) by (unfold de; field; apply not_0_INR; lia). rewrite E2.
    assert (P : forall phi t, torus_point major minor phi t = ptat phi (minor * sin t) (major + minor * cos t)).
    { intros. unfold torus_point, polar, ptat. apply V3_eq; cbn; ring. }
    assert (Pos : forall t, 0 <= major + minor * cos t) by (intros t; pose proof (COS_bound t); nra).
    split.
    - intros (j & i & Hj & Hi & H). cbv zeta in H. rewrite !P in H.
      assert (H' : in_tri (ptat (INR j * d) (minor * sin (ang p i)) (major + minor * cos (ang p i)))
         (ptat (INR j * d) (minor * sin (ang p i + 2 * de)) (major + minor * cos (ang p i + 2 * de)))
         (ptat (INR (j + 1) * d) (minor * sin (ang p i)) (major + minor * cos (ang p i))) q \/
       in_tri (ptat (INR (j + 1) * d) (minor * sin (ang p i + 2 * de)) (major + minor * cos (ang p i + 2 * de)))
         (ptat (INR j * d) (minor * sin (ang p i + 2 * de)) (major + minor * cos (ang p i + 2 * de)))
         (ptat (INR (j + 1) * d) (minor * sin (ang p i)) (major + minor * cos (ang p i))) q)
        by (destruct H as [H|H]; [left|right]; now apply in_tri_perm1).
      apply side_gen in H'; auto. destruct H' as (s & t & Hs & Ht & ->). exists j, i, s, t. repeat split; auto; try lra.
      unfold cone_radius. f_equal; ring.
    - intros (j & i & s & t & Hj & Hi & Hs & Ht & ->). exists j, i. split; auto. split; auto. cbv zeta. rewrite !P.
      assert (G := proj2 (side_gen (INR j * d) (INR (j + 1) * d) (minor * sin (ang p i)) (minor * sin (ang p i + 2 * de))
        (major + minor * cos (ang p i)) (major + minor * cos (ang p i + 2 * de)) _ (Pos _) (Pos _))
        (ex_intro _ s (ex_intro _ t (conj Hs (conj Ht Logic.eq_refl))))).
      replace (mix (INR j * d) (INR (j + 1) * d) s (major + minor * ((1 - t) * cos (ang p i) + t * cos (ang p i + 2 * de)))
         (minor * ((1 - t) * sin (ang p i) + t * sin (ang p i + 2 * de)))) with
        (mix (INR j * d) (INR (j + 1) * d) s (cone_radius (major + minor * cos (ang p i)) (major + minor * cos (ang p i + 2 * de)) t)
         (minor * sin (ang p i) + t * (minor * sin (ang p i + 2 * de) - minor * sin (ang p i)))) by (unfold cone_radius; f_equal; ring).
      destruct G as [G|G]; [left|right]; now apply in_tri_perm1.
  Qed.
  Hypothesis Hd2 : d / 2 < PI / 2.
  Lemma tor_fwd q : drawn M q -> exists phi theta, 0 <= phi <= a /\ near_torus (cos de) (cos (d / 2)) major minor phi theta q.
  Proof using Hp Hn Hd Ha Hr Hd2.
    intros H. apply tor_points in H. destruct H as (j & i & s & t & Hj & Hi & Hs & Ht & ->).
    pose proof (de_ok p Hp) as Dp. fold de in Dp.
    destruct (chord_fwd (ang p i) de Dp t Ht) as (theta & k & _ & K & C1 & C2).
    assert (D2 : 0 <= d / 2 < PI / 2) by lra.
    destruct (chord_fwd (INR j * d) (d / 2) D2 s Hs) as (phi & l & L1 & L & O).
    replace (INR j * d + 2 * (d / 2)) with (INR (j + 1) * d) in L1, O by (rewrite plus_INR; cbn; field).
    exists phi, theta. split.
    - assert (INR (j + 1) <= INR (n - 1)) by (apply le_INR; lia). pose proof (pos_INR j). rewrite Ha. nra.
    - exists (k * minor), l. split; [nra|]. split; auto.
      rewrite (mix_polar _ _ _ _ _ _ _ O), C1, C2. f_equal; ring.
  Qed.
  Lemma tor_bwd phi theta : 0 <= phi <= a -> exists q, drawn M q /\ near_torus (cos de) (cos (d / 2)) major minor phi theta q.
  Proof using Hp Hn Hd Ha Hr Hd2.
    intros H.
    destruct (sector_chord p Hp theta) as (i & t & k & Hi & Ht & K & C1 & C2). fold de in K, C1, C2.
    assert (D2 : 0 <= d / 2 < PI / 2) by lra.
    assert (J : exists j, (j < n - 1)%nat /\ INR j * d <= phi <= INR (j + 1) * d).
    { clear - H Ha Hn Hd. subst a. revert H. assert (1 <= n - 1)%nat as N1 by lia. revert N1. generalize (n - 1)%nat as m. clear Hn.
      induction m as [|m IH]; intros N1 H; [lia|].
      destruct (Rle_dec (INR m * d) phi) as [L|L].
      - exists m. split; [lia|]. split; auto. replace (m + 1)%nat with (S m) by lia. lra.
      - destruct m as [|m']; [cbn in L; lra|]. destruct IH as (j & Hj & R); [lia|lra|]. exists j. split; [lia|auto]. }
    destruct J as (j & Hj & R).
    destruct (chord_bwd (INR j * d) (d / 2) D2 phi) as (s & l & Hs & L & O).
    { rewrite plus_INR in R. cbn in R. lra. }
    replace (INR j * d + 2 * (d / 2)) with (INR (j + 1) * d) in O by (rewrite plus_INR; cbn; field).
    eexists; split.
    - apply tor_points. exists j, i, s, t. split; [exact Hj|]. split; [exact Hi|]. split; [exact Hs|]. split; [exact Ht|]. reflexivity.
    - exists (k * minor), l. split; [nra|]. split; auto.
      rewrite (mix_polar _ _ _ _ _ _ _ O), C1, C2. f_equal; ring.
  Qed.
End Torus.

Lemma small_pow n : (n <= 72)%nat -> ((n + 1) * 36 < 2 ^ 32)%nat.
Proof.
  intros H. apply Nat.lt_le_trans with (2 ^ 12)%nat; [cbn; lia|]. apply Nat.pow_le_mono_r; lia.
Qed.
(** The rings of a torus of at most a full turn. *)
Lemma torus_init angle major minor : 0 <= angle <= 2 * PI -> exists n, (8 <= n)%nat /\
  init_torus angle major minor = Some (tor_mesh 36 n angle (angle / INR (n - 1)) major minor) /\
  0 <= angle / INR (n - 1) /\ angle = INR (n - 1) * (angle / INR (n - 1)) /\ angle / INR (n - 1) / 2 <= PI / 56.
Proof.
  intros Ha. pose proof PI_RGT_0 as Pi. pose proof PI_4 as Pi4. set (x := angle / (PI * 2 / 72)).
  assert (Ex : angle = x * (PI * 2 / 72)) by (unfold x; field; lra).
  assert (Hx : 0 <= x <= 72).
  { split; [unfold x; apply Rmult_le_pos; [lra|apply Rlt_le, Rinv_0_lt_compat; lra]|].
    apply (Rmult_le_reg_r (PI * 2 / 72)); [lra|]. rewrite <- Ex. lra. }
  assert (T : exists m, to_unsigned x = Some m /\ INR m <= x < INR m + 1).
  { unfold to_unsigned. destruct Rle_dec; [lra|]. destruct Rlt_dec as [|N]; [|exfalso; apply N; apply Rle_lt_trans with 72; [lra|apply IZR_lt; reflexivity]].
    eexists; split; [reflexivity|]. destruct (archimed x). assert (0 < up x)%Z by (apply lt_IZR; lra).
    rewrite INR_IZR_INZ, Z2Nat.id by lia. rewrite minus_IZR. lra. }
  destruct T as (m & T & B).
  assert (M72 : (m <= 72)%nat) by (apply INR_le; replace (INR 72) with 72 by (rewrite INR_IZR_INZ; reflexivity); lra).
  set (n := if (m <? 8)%nat then 8%nat else m).
  assert (N8 : (8 <= n <= 72)%nat) by (unfold n; destruct (Nat.ltb_spec m 8); lia).
  exists n. split; [lia|]. split; [apply (torus_eq angle major minor m T); apply small_pow; unfold n in N8; lia|].
  assert (Nn : 7 <= INR (n - 1)) by (replace 7 with (INR 7) by (rewrite INR_IZR_INZ; reflexivity); apply le_INR; lia).
  split; [apply Rmult_le_pos; [lra|apply Rlt_le, Rinv_0_lt_compat; lra]|]. split; [field; lra|].
  apply (Rmult_le_reg_r (2 * INR (n - 1))); [lra|].
  replace (angle / INR (n - 1) / 2 * (2 * INR (n - 1))) with angle by (field; lra).
  rewrite Ex. replace (PI / 56 * (2 * INR (n - 1))) with ((PI * 2 / 72) * (9 / 7 * INR (n - 1))) by field.
  rewrite Rmult_comm. apply Rmult_le_compat_l; [lra|].
  unfold n in *. destruct (Nat.ltb_spec m 8) as [L|L].
  - assert (INR m <= 7) by (replace 7 with (INR 7) by (rewrite INR_IZR_INZ; reflexivity); apply le_INR; lia). lra.
  - assert (8 <= INR m) by (replace 8 with (INR 8) by (rewrite INR_IZR_INZ; reflexivity); apply le_INR; lia).
    rewrite minus_INR by lia. cbn. lra.
Qed.
Lemma near_weaken c1 c1' c2 c2' major minor phi theta q : 0 <= minor -> c1' <= c1 -> c2' <= c2 ->
  near_torus c1 c2 major minor phi theta q -> near_torus c1' c2' major minor phi theta q.
Proof. intros Hm H1 H2 (mu & k & A & B & ->). exists mu, k. repeat split; try nra. Qed.
Lemma cos_56 d : 0 <= d <= PI / 56 -> cos (PI / 56) <= cos d.
Proof. intros H. pose proof PI_RGT_0. apply cos_decr_1; lra. Qed.
Lemma INR36 : INR 36 = 36. Proof. rewrite INR_IZR_INZ; reflexivity. Qed.

Theorem torus_facts angle major minor : 0 <= angle <= 2 * PI -> 0 <= minor <= major ->
  exists M, init_torus angle major minor = Some M /\ well_formed M /\
  (forall i v m, at_vertex M i v m -> exists phi theta, 0 <= phi <= angle /\ v = torus_point major minor phi theta /\ m = torus_normal phi theta) /\
  (forall q, drawn M q -> exists phi theta, 0 <= phi <= angle /\ near_torus (cos (PI / 36)) (cos (PI / 56)) major minor phi theta q) /\
  (forall phi theta, 0 <= phi <= angle -> exists q, drawn M q /\ near_torus (cos (PI / 36)) (cos (PI / 56)) major minor phi theta q).
Proof.
  intros Ha Hr. pose proof PI_RGT_0 as Pi. destruct (torus_init angle major minor Ha) as (n & N8 & E & D0 & Da & D2).
  eexists; split; [exact E|]. set (d := angle / INR (n - 1)) in *.
  assert (P36 : (3 <= 36)%nat) by lia. assert (N2 : (2 <= n)%nat) by lia. assert (Dh : d / 2 < PI / 2) by lra.
  assert (C : cos (PI / 56) <= cos (d / 2)) by (apply cos_56; lra).
  split; [apply tor_wf; auto|]. split; [|split].
  - intros i v m H. eapply vertex; eauto.
  - intros q H. destruct (tor_fwd 36 n angle d major minor P36 N2 D0 Da Hr Dh q H) as (phi & theta & A & B).
    exists phi, theta. split; auto. rewrite INR36 in B. eapply near_weaken; [| | |exact B]; lra.
  - intros phi theta H. destruct (tor_bwd 36 n angle d major minor P36 N2 D0 Da Hr Dh phi theta H) as (q & A & B).
    exists q. split; auto. rewrite INR36 in B. eapply near_weaken; [| | |exact B]; lra.
Qed.
(** No triangle closes the tube. *)
Lemma cos_lower x : 0 <= x <= 1 -> 1 - x * x / 2 <= cos x.
Proof.
  intros H. pose proof PI2_1 as P. assert (X : 0 <= x / 2 <= 1 / 2) by lra.
  assert (S : sin (x / 2) <= x / 2).
  { destruct (Req_dec x 0) as [->|]; [replace (0 / 2) with 0 by lra; rewrite sin_0; lra|]. left. apply sin_lt_x. lra. }
  assert (S0 : 0 <= sin (x / 2)) by (apply sin_ge_0; lra).
  replace x with (2 * (x / 2)) at 3 by field. rewrite cos_2a_sin. nra.
Qed.
Lemma ends_open angle major minor M : 0 <= angle <= 2 * PI -> 0 < minor <= major -> major <= 10 * minor ->
  init_torus angle major minor = Some M -> forall phi, ~ drawn M (polar major phi 0).
Proof.
  intros Ha Hr H10 E phi D. destruct (torus_facts angle major minor Ha ltac:(lra)) as (M' & E' & _ & _ & F & _).
  assert (M' = M) by congruence. subst M'. destruct (F _ D) as (ph & th & _ & mu & k & Hmu & Hk & Q).
  assert (Qn : vdot (polar major phi 0) (polar major phi 0) = vdot (polar (k * (major + mu * cos th)) ph (mu * sin th)) (polar (k * (major + mu * cos th)) ph (mu * sin th))) by now rewrite <- Q.
  assert (Qz : 0 = mu * sin th) by (apply (f_equal vz) in Q; exact Q).
  assert (Nrm : forall r f z, vdot (polar r f z) (polar r f z) = r * r + z * z).
  { intros r f z. unfold vdot, polar; cbn. pose proof (sin2_cos2 f) as S. unfold Rsqr in S.
    replace (r * cos f * (r * cos f) + r * sin f * (r * sin f) + z * z) with (r * r * (sin f * sin f + cos f * cos f) + z * z) by ring. rewrite S. ring. }
  rewrite !Nrm in Qn. rewrite <- Qz in Qn.
  pose proof PI_RGT_0. pose proof PI_4.
  assert (C1 : 0.99 <= cos (PI / 36)) by (pose proof (cos_lower (PI / 36) ltac:(lra)); nra).
  assert (C2 : 0.997 <= cos (PI / 56)) by (pose proof (cos_lower (PI / 56) ltac:(lra)); nra).
  assert (Mu : 0.99 * minor <= mu <= minor) by nra.
  assert (S0 : sin th = 0) by (apply (Rmult_eq_reg_l mu); lra).
  pose proof (sin2_cos2 th) as S. unfold Rsqr in S. rewrite S0 in S.
  assert (Cc : cos th = 1 \/ cos th = -1).
  { assert ((cos th - 1) * (cos th + 1) = 0) as Z by lra. apply Rmult_integral in Z. lra. }
  assert (Eq : major * major = k * (major + mu * cos th) * (k * (major + mu * cos th))) by lra.
  assert (L : k * (major + mu * cos th) = major).
  { assert (0 <= k * (major + mu * cos th)) by (apply Rmult_le_pos; [lra|destruct Cc as [-> | ->]; lra]).
    assert ((major - k * (major + mu * cos th)) * (major + k * (major + mu * cos th)) = 0) as Z by lra.
    apply Rmult_integral in Z. lra. }
  destruct Cc as [C| C]; rewrite C in L; nra.
Qed.
