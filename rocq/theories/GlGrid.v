(** The grid. *)
From Coq Require Import Reals ZArith List Bool Arith Lia Lra Psatz.
From Verif Require Import TfModel GlModel GlSpec GlProofs.
Import ListNotations.
Open Scope R_scope.

Definition quad := (V3 * V3 * V3 * V3)%type.
Definition qvs (q : quad) : list V3 := let '(a, b, c, d) := q in [a; b; c; d].
Definition qix (m : nat) : list nat := [4*m; 4*m+1; 4*m+2; 4*m; 4*m+2; 4*m+3]%nat.
Definition st_of (qs : list quad) : gst :=
  mkGst (flat_map qvs qs) (flat_map qix (seq 0 (length qs))) (4 * length qs).
Lemma qvs_length qs : length (flat_map qvs qs) = (4 * length qs)%nat.
Proof. induction qs as [|(((a & b) & c) & d) r IH]; cbn; [reflexivity|]. rewrite IH. lia. Qed.
Lemma qix_length n a : length (flat_map qix (seq a n)) = (6 * n)%nat.
Proof. revert a; induction n as [|n IH]; intros a; [reflexivity|]. cbn [seq flat_map]. rewrite app_length, IH. cbn [length qix]. lia. Qed.
Lemma grid_quad_ok vcap icap a b c d qs :
  (4 * length qs + 4 <= vcap)%nat -> (6 * length qs + 6 <= icap)%nat ->
  grid_quad vcap icap a b c d (st_of qs) = Some (st_of (qs ++ [(a, b, c, d)])).
Proof.
  intros H1 H2. unfold grid_quad, st_of; cbn [g_v g_i g_nn].
  rewrite puts_ok by (rewrite qvs_length; cbn; lia).
  rewrite puts_ok by (rewrite qix_length; cbn; lia).
  rewrite app_length; cbn [length]. rewrite flat_map_app, seq_app, flat_map_app. cbn [flat_map seq].
  rewrite !app_nil_r. f_equal. f_equal. lia.
Qed.

(** The marks a loop visits. *)
Definition marks (n : nat) (d : R) : list R :=
  map (fun i => sgn 0 * INR i * d) (seq 0 n) ++ map (fun i => sgn 1 * INR i * d) (seq 1 (n - 1)).
Definition xquad (w dm x : R) : quad := (mkV (x + w) (- dm) 0, mkV (x + w) dm 0, mkV (x - w) dm 0, mkV (x - w) (- dm) 0).
Definition yquad (w dm y : R) : quad := (mkV (- dm) (y + w) 0, mkV (- dm) (y - w) 0, mkV dm (y - w) 0, mkV dm (y + w) 0).
Lemma marks_length n d : (1 <= n)%nat -> length (marks n d) = (2 * n - 1)%nat.
Proof. intros H. unfold marks. rewrite app_length, !map_length, !seq_length. lia. Qed.

Lemma lines_ok vcap icap (f : R -> quad) (d : R) n qs :
  (1 <= n)%nat -> (4 * (length qs + (2 * n - 1)) <= vcap)%nat -> (6 * (length qs + (2 * n - 1)) <= icap)%nat ->
  loop (fun k s => loop (fun i s =>
    let '(a, b, c, e) := f (sgn k * INR i * d) in grid_quad vcap icap a b c e s) (range k n) s) (range 0 2) (st_of qs)
  = Some (st_of (qs ++ map f (marks n d))).
Proof.
  intros Hn Hv Hi.
  assert (Q : forall k q, (k <= n)%nat -> (4 * (length q + (n - k)) <= vcap)%nat -> (6 * (length q + (n - k)) <= icap)%nat ->
    loop (fun i s => let '(a, b, c, e) := f (sgn k * INR i * d) in grid_quad vcap icap a b c e s) (range k n) (st_of q)
    = Some (st_of (q ++ map (fun i => f (sgn k * INR i * d)) (seq k (n - k))))).
  { intros k q Hk H1 H2.
    destruct (loop_range (fun i s => let '(a, b, c, e) := f (sgn k * INR i * d) in grid_quad vcap icap a b c e s)
      (fun i s => s = st_of (q ++ map (fun i => f (sgn k * INR i * d)) (seq k (i - k)))) k n (st_of q)) as (s' & E & P); auto.
    - rewrite Nat.sub_diag. cbn. now rewrite app_nil_r.
    - intros i s Hi' ->. destruct (f (sgn k * INR i * d)) as (((a & b) & c) & e) eqn:Ef.
      rewrite grid_quad_ok by (rewrite app_length, map_length, seq_length; lia).
      eexists; split; [reflexivity|]. rewrite range_snoc by lia. rewrite map_app, <- app_assoc. cbn. now rewrite Ef.
    - now rewrite E, P. }
  unfold range at 2. cbn [seq Nat.sub]. cbn [loop].
  rewrite Q by lia. rewrite Nat.sub_0_r.
  rewrite Q by (try lia; rewrite app_length, map_length, seq_length; lia).
  unfold marks. rewrite map_app, !map_map, <- app_assoc. reflexivity.
Qed.

Lemma grid_x_ok vcap icap dx w dmy n qs :
  (1 <= n)%nat -> (4 * (length qs + (2 * n - 1)) <= vcap)%nat -> (6 * (length qs + (2 * n - 1)) <= icap)%nat ->
  grid_x vcap icap dx w dmy n (st_of qs) = Some (st_of (qs ++ map (xquad w dmy) (marks n dx))).
Proof. intros. apply (lines_ok vcap icap (xquad w dmy) dx n qs); auto. Qed.
Lemma grid_y_ok vcap icap dy w dmx n qs :
  (1 <= n)%nat -> (4 * (length qs + (2 * n - 1)) <= vcap)%nat -> (6 * (length qs + (2 * n - 1)) <= icap)%nat ->
  grid_y vcap icap dy w dmx n (st_of qs) = Some (st_of (qs ++ map (yquad w dmx) (marks n dy))).
Proof. intros. apply (lines_ok vcap icap (yquad w dmx) dy n qs); auto. Qed.

(** Drawing quads. *)
Definition qmesh (qs : list quad) : dmesh := mkD (flat_map qvs qs) None (Some (flat_map qix (seq 0 (length qs)))).
Lemma qvs_nth qs m a b c d : nth_error qs m = Some (a, b, c, d) ->
  nth_error (flat_map qvs qs) (4*m) = Some a /\ nth_error (flat_map qvs qs) (4*m+1) = Some b /\
  nth_error (flat_map qvs qs) (4*m+2) = Some c /\ nth_error (flat_map qvs qs) (4*m+3) = Some d.
Proof.
  revert m; induction qs as [|q r IH]; intros m H; [destruct m; discriminate|].
  destruct m as [|m].
  - injection H as ->. cbn. auto.
  - cbn [nth_error] in H. destruct (IH m H) as (A & B & C & D). destruct q as (((q0 & q1) & q2) & q3).
    replace (4 * S m + 1)%nat with (S (S (S (S (4*m+1))))) by lia.
    replace (4 * S m + 2)%nat with (S (S (S (S (4*m+2))))) by lia.
    replace (4 * S m + 3)%nat with (S (S (S (S (4*m+3))))) by lia.
    replace (4 * S m)%nat with (S (S (S (S (4*m))))) by lia. cbn [flat_map qvs app nth_error]. auto.
Qed.
Lemma qix_triples n a : triples (flat_map qix (seq a n)) = flat_map (fun m => [(4*m,4*m+1,4*m+2); (4*m,4*m+2,4*m+3)]%nat) (seq a n).
Proof. apply triples_flat. intros i r. reflexivity. Qed.
Lemma trip_inj (x y z x' y' z' : nat) : (x, y, z) = (x', y', z') -> x' = x /\ y' = y /\ z' = z.
Proof. intros [= -> -> ->]; auto. Qed.
Lemma qmesh_drawn qs p : drawn (qmesh qs) p <->
  exists a b c d, In (a, b, c, d) qs /\ (in_tri a b c p \/ in_tri a d c p).
Proof.
  unfold drawn, triangles, indices, qmesh; cbn [d_i d_v]. rewrite qix_triples. split.
  - intros (i & j & k & a & b & c & Hin & Ha & Hb & Hc & Ht).
    apply in_flat_map in Hin. destruct Hin as (m & Hm & Hi). apply in_seq in Hm.
    destruct (nth_error qs m) as [[[[a' b'] c'] d']|] eqn:E; [|apply nth_error_None in E; lia].
    destruct (qvs_nth _ _ _ _ _ _ E) as (A & B & C & D).
    exists a', b', c', d'. split; [eapply nth_error_In; eauto|].
    cbn [In] in Hi. destruct Hi as [E'|[E'|[]]]; apply trip_inj in E'; destruct E' as (-> & -> & ->).
    + left. rewrite A in Ha; rewrite B in Hb; rewrite C in Hc. injection Ha as <-; injection Hb as <-; injection Hc as <-. auto.
    + right. apply in_tri_perm1. rewrite A in Ha; rewrite C in Hb; rewrite D in Hc.
      injection Ha as <-; injection Hb as <-; injection Hc as <-. auto.
  - intros (a & b & c & d & Hin & Ht). apply In_nth_error in Hin. destruct Hin as (m & E).
    destruct (qvs_nth _ _ _ _ _ _ E) as (A & B & C & D).
    assert (m < length qs)%nat by (apply nth_error_Some; intros X; discriminate (eq_trans (eq_sym E) X)).
    destruct Ht as [Ht|Ht].
    + exists (4*m)%nat, (4*m+1)%nat, (4*m+2)%nat, a, b, c. repeat split; auto.
      apply in_flat_map. exists m. split; [apply in_seq; lia|cbn [In]; auto].
    + exists (4*m)%nat, (4*m+2)%nat, (4*m+3)%nat, a, c, d. repeat split; auto.
      * apply in_flat_map. exists m. split; [apply in_seq; lia|cbn [In]; auto].
      * now apply in_tri_perm1.
Qed.
Lemma qmesh_wf qs : well_formed (qmesh qs).
Proof.
  unfold well_formed, indices, qmesh; cbn [d_i d_v d_n]. split; [|split; auto].
  - rewrite qix_length. replace (6 * length qs)%nat with (2 * length qs * 3)%nat by lia. apply Nat.mod_mul. lia.
  - rewrite qvs_length. apply Forall_forall. intros x Hx. apply in_flat_map in Hx.
    destruct Hx as (m & Hm & Hx). apply in_seq in Hm. cbn [qix In] in Hx. lia.
Qed.

(** Conversion of a quotient to a size. *)
Lemma quot_size_ok D d : 0 <= D -> 0 < d -> D / d < IZR (2 ^ 64) ->
  exists n, quot_size D d = Some n /\ INR n * d <= D < (INR n + 1) * d.
Proof.
  intros HD Hd Hb. unfold quot_size. destruct Req_EM_T; [lra|]. unfold to_size.
  assert (Hp : 0 <= D / d) by (apply Rmult_le_pos; [lra|apply Rlt_le, Rinv_0_lt_compat; lra]).
  destruct Rle_dec; [lra|]. destruct Rlt_dec; [|lra].
  eexists; split; [reflexivity|]. set (x := D/d) in *.
  assert (Dx : D = x * d) by (unfold x; field; lra).
  destruct (archimed x) as (A1 & A2). assert (0 < up x)%Z by (apply lt_IZR; lra).
  rewrite INR_IZR_INZ, Z2Nat.id by lia. rewrite minus_IZR. nra.
Qed.
(** The marks visited are the marks of the specification. *)
Lemma marks_mark D d n m : 0 <= D -> 0 < d -> INR n * d <= D < (INR n + 1) * d ->
  (In m (marks (n + 1) d) <-> mark D d m).
Proof.
  intros HD Hd (H1 & H2). unfold marks, mark. rewrite in_app_iff, !in_map_iff. split.
  - intros [(i & E & Hi)|(i & E & Hi)]; apply in_seq in Hi; subst m; unfold sgn; cbn [Nat.eqb].
    + exists (Z.of_nat i). rewrite <- INR_IZR_INZ. split; [ring|].
      assert (INR i <= INR n) by (apply le_INR; lia). pose proof (pos_INR i).
      rewrite Rabs_right; nra.
    + exists (- Z.of_nat i)%Z. rewrite opp_IZR, <- INR_IZR_INZ. split; [ring|].
      assert (INR i <= INR n) by (apply le_INR; lia). pose proof (pos_INR i).
      replace (-1 * INR i * d) with (- (INR i * d)) by ring. rewrite Rabs_Ropp, Rabs_right; nra.
  - intros (k & -> & Hk).
    assert (B : Rabs (IZR k) * d <= D) by (rewrite Rabs_mult, (Rabs_right d) in Hk by lra; lra).
    assert (B2 : Rabs (IZR k) < INR n + 1) by nra.
    rewrite <- abs_IZR in B2. rewrite INR_IZR_INZ, <- plus_IZR in B2. apply lt_IZR in B2.
    destruct (Z.le_gt_cases 0 k).
    + left. exists (Z.to_nat k). split.
      * unfold sgn; cbn [Nat.eqb]. rewrite INR_IZR_INZ, Z2Nat.id by lia. ring.
      * apply in_seq. lia.
    + right. exists (Z.to_nat (- k)). split.
      * unfold sgn; cbn [Nat.eqb]. rewrite INR_IZR_INZ, Z2Nat.id by lia. rewrite opp_IZR. ring.
      * apply in_seq. lia.
Qed.
Lemma reach D d n y : 0 <= D -> 0 < d -> INR n * d <= D < (INR n + 1) * d ->
  (Rabs y <= INR n * d <-> exists l, mark D d l /\ Rabs y <= l).
Proof.
  intros HD Hd Hn. split.
  - intros H. exists (INR n * d). split; auto. exists (Z.of_nat n). rewrite <- INR_IZR_INZ. split; auto.
    pose proof (pos_INR n). rewrite Rabs_right; nra.
  - intros (l & (k & -> & Hk) & H). pose proof (Rabs_pos y).
    rewrite Rabs_right in Hk by lra.
    assert (B2 : IZR k < INR n + 1) by nra.
    rewrite INR_IZR_INZ, <- plus_IZR in B2. apply lt_IZR in B2.
    assert (IZR k <= INR n) by (rewrite INR_IZR_INZ; apply IZR_le; lia). nra.
Qed.

Lemma init_grid_eq Dx Dy dx dy w : 0 <= Dx -> 0 <= Dy -> 0 < dx -> 0 < dy ->
  Dx / dx < IZR (2 ^ 64) -> Dy / dy < IZR (2 ^ 64) ->
  exists n m, INR n * dx <= Dx < (INR n + 1) * dx /\ INR m * dy <= Dy < (INR m + 1) * dy /\
   init_grid Dx Dy dx dy w = Some (qmesh (map (xquad (w/2) (INR m * dy)) (marks (n + 1) dx) ++
                                          map (yquad (w/2) (INR n * dx)) (marks (m + 1) dy))).
Proof.
  intros HDx HDy Hdx Hdy Bx By.
  destruct (quot_size_ok Dx dx) as (n & En & Hn); auto.
  destruct (quot_size_ok Dy dy) as (m & Em & Hm); auto.
  exists n, m. split; [auto|split; [auto|]]. unfold init_grid. rewrite En, Em.
  replace (n + 1 - 1)%nat with n by lia. replace (m + 1 - 1)%nat with m by lia.
  change (mkGst [] [] 0) with (st_of []).
  rewrite grid_x_ok by (cbn [length]; lia). cbn [app].
  rewrite grid_y_ok by (try rewrite map_length, marks_length; lia).
  set (qs := _ ++ _). assert (L : length qs = (2 * (n + 1 + (m + 1) - 1))%nat).
  { unfold qs. rewrite app_length, !map_length, !marks_length by lia. lia. }
  unfold st_of; cbn [g_v g_i]. rewrite qvs_length, L.
  replace (4 * (2 * (n + 1 + (m + 1) - 1)))%nat with (8 * (n + 1 + (m + 1) - 1))%nat by lia.
  rewrite Nat.eqb_refl. unfold tri_mesh.
  replace (8 * (n + 1 + (m + 1) - 1))%nat with (length (flat_map qvs qs)) by (rewrite qvs_length; lia).
  rewrite take_all. rewrite qix_length.
  replace (6 * (2 * (n + 1 + (m + 1) - 1)) / 3)%nat with (4 * (n + 1 + (m + 1) - 1))%nat
    by (replace (6 * (2 * (n + 1 + (m + 1) - 1)))%nat with (4 * (n + 1 + (m + 1) - 1) * 3)%nat by lia; now rewrite Nat.div_mul).
  replace (3 * (4 * (n + 1 + (m + 1) - 1)))%nat with (length (flat_map qix (seq 0 (2 * (n + 1 + (m + 1) - 1)))))
    by (rewrite qix_length; lia).
  rewrite take_all. cbn [option_map]. unfold qmesh. now rewrite L.
Qed.

Lemma grid_drawn Dx Dy dx dy w M p : 0 <= Dx -> 0 <= Dy -> 0 < dx -> 0 < dy -> 0 <= w ->
  Dx / dx < IZR (2 ^ 64) -> Dy / dy < IZR (2 ^ 64) ->
  init_grid Dx Dy dx dy w = Some M -> (drawn M p <-> in_grid Dx Dy dx dy w p).
Proof.
  intros HDx HDy Hdx Hdy Hw Bx By E.
  destruct (init_grid_eq Dx Dy dx dy w) as (n & m & Hn & Hm & E'); auto.
  rewrite E' in E. injection E as <-. rewrite qmesh_drawn.
  assert (XR : forall x a b c d, xquad (w/2) (INR m * dy) x = (a, b, c, d) ->
     ((in_tri a b c p \/ in_tri a d c p) <-> vz p = 0 /\ Rabs (vx p - x) <= w/2 /\ Rabs (vy p) <= INR m * dy)).
  { intros x a b c d [= <- <- <- <-].
    rewrite (face_rect _ _ _ _ (mkV x 0 0) (mkV (w/2) 0 0) (mkV 0 (- (INR m * dy)) 0)) by (apply V3_eq; cbn; ring).
    pose proof (pos_INR m). rewrite <- (scaled (w/2)), <- (scaled (INR m * dy)) by nra. split.
    - intros (s & t & Hs & Ht & ->); cbn. split; [ring|]. split.
      + exists s. split; auto. ring.
      + exists (- t). split; [lra|ring].
    - intros (Z & (s & Hs & X) & (t & Ht & Y)). exists s, (- t). repeat split; try lra.
      apply V3_eq; cbn; lra. }
  assert (YR : forall y a b c d, yquad (w/2) (INR n * dx) y = (a, b, c, d) ->
     ((in_tri a b c p \/ in_tri a d c p) <-> vz p = 0 /\ Rabs (vy p - y) <= w/2 /\ Rabs (vx p) <= INR n * dx)).
  { intros x a b c d [= <- <- <- <-].
    rewrite (face_rect _ _ _ _ (mkV 0 x 0) (mkV (- (INR n * dx)) 0 0) (mkV 0 (w/2) 0)) by (apply V3_eq; cbn; ring).
    pose proof (pos_INR n). rewrite <- (scaled (w/2)), <- (scaled (INR n * dx)) by nra. split.
    - intros (s & t & Hs & Ht & ->); cbn. split; [ring|]. split.
      + exists t. split; auto. ring.
      + exists (- s). split; [lra|ring].
    - intros (Z & (s & Hs & X) & (t & Ht & Y)). exists (-t), s. repeat split; try lra.
      apply V3_eq; cbn; lra. }
  unfold in_grid. split.
  - intros (a & b & c & d & Hin & Ht). apply in_app_iff in Hin.
    destruct Hin as [Hin|Hin]; apply in_map_iff in Hin; destruct Hin as (x & Eq & Hx).
    + apply (marks_mark Dx) in Hx; auto. apply (XR _ _ _ _ _ Eq) in Ht. destruct Ht as (Z & X & Y).
      apply (reach Dy) in Y; auto. destruct Y as (l & Hl & Y). split; auto. left. exists x, l. auto.
    + apply (marks_mark Dy) in Hx; auto. apply (YR _ _ _ _ _ Eq) in Ht. destruct Ht as (Z & X & Y).
      apply (reach Dx) in Y; auto. destruct Y as (l & Hl & Y). split; auto. right. exists x, l. auto.
  - intros (Z & [(x & l & Hx & Hl & X & Y)|(x & l & Hx & Hl & X & Y)]).
    + destruct (xquad (w/2) (INR m * dy) x) as [[[a b] c] d] eqn:Eq. exists a, b, c, d. split.
      * apply in_app_iff. left. apply in_map_iff. exists x. split; auto. now apply (marks_mark Dx).
      * apply (XR _ _ _ _ _ Eq). repeat split; auto. apply (reach Dy); eauto.
    + destruct (yquad (w/2) (INR n * dx) x) as [[[a b] c] d] eqn:Eq. exists a, b, c, d. split.
      * apply in_app_iff. right. apply in_map_iff. exists x. split; auto. now apply (marks_mark Dy).
      * apply (YR _ _ _ _ _ Eq). repeat split; auto. apply (reach Dx); eauto.
Qed.
Lemma grid_ok Dx Dy dx dy w : 0 <= Dx -> 0 <= Dy -> 0 < dx -> 0 < dy ->
  Dx / dx < IZR (2 ^ 64) -> Dy / dy < IZR (2 ^ 64) ->
  exists M, init_grid Dx Dy dx dy w = Some M /\ well_formed M /\ d_n M = None.
Proof.
  intros. destruct (init_grid_eq Dx Dy dx dy w) as (n & m & Hn & Hm & E'); auto.
  eexists; split; [exact E'|]. split; [apply qmesh_wf|reflexivity].
Qed.
