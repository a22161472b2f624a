(** Spheres: the geodesic refinement of an icosahedron. *)
From Coq Require Import Reals ZArith List Bool Arith Lia Lra Psatz.
From Verif Require Import TfModel GlModel GlSpec GlProofs GlGrid.
Import ListNotations.
Open Scope R_scope.

Notation face := (nat * nat * nat)%type (only parsing).
Lemma vdot_comm a b : vdot a b = vdot b a. Proof. unfold vdot; ring. Qed.
Lemma vdot_add_l a b c : vdot (vadd a b) c = vdot a c + vdot b c. Proof. unfold vdot, vadd; cbn; ring. Qed.
Lemma vdot_scale_l k a c : vdot (vscale k a) c = k * vdot a c. Proof. unfold vdot, vscale; cbn; ring. Qed.
Lemma vdot_add_r a b c : vdot c (vadd a b) = vdot c a + vdot c b. Proof. unfold vdot, vadd; cbn; ring. Qed.
Lemma vdot_scale_r k a c : vdot c (vscale k a) = k * vdot c a. Proof. unfold vdot, vscale; cbn; ring. Qed.

Lemma middle_ok r a b : 0 < r -> vdot a a = r * r -> vdot b b = r * r -> 0 <= vdot a b ->
  exists k, 0 < k /\ k * k * (2 * (r * r + vdot a b)) = r * r /\ middle r a b = Some (vscale k (vadd a b)).
Proof.
  intros Hr Ha Hb Hab. unfold middle.
  set (u := vscale (1 / 2) (vadd a b)).
  assert (Eu : vdot u u = (r * r + vdot a b) / 2).
  { unfold u. rewrite vdot_scale_l, vdot_scale_r, vdot_add_l, !vdot_add_r, Ha, Hb, (vdot_comm b a). field. }
  assert (P : 0 < vdot u u) by (rewrite Eu; nra).
  destruct (Req_EM_T (vdot u u) 0) as [E|_]; [lra|].
  assert (S : 0 < sqrt (vdot u u)) by now apply sqrt_lt_R0.
  assert (SS : sqrt (vdot u u) * sqrt (vdot u u) = vdot u u) by (apply sqrt_def; lra).
  exists (r / sqrt (vdot u u) / 2). split; [|split].
  - apply Rmult_lt_0_compat; [|lra]. apply Rmult_lt_0_compat; [lra|]. now apply Rinv_0_lt_compat.
  - replace (2 * (r * r + vdot a b)) with (4 * vdot u u) by (rewrite Eu; field).
    rewrite <- SS at 3. field. lra.
  - f_equal. set (s := sqrt (vdot u u)) in *. clearbody s. unfold u, vscale, vadd; cbn [vx vy vz]. apply V3_eq; cbn [vx vy vz]; field; lra.
Qed.
Lemma next_ok d : 0 < d <= 1 -> 0 < next d <= 1.
Proof.
  intros H. unfold next. split.
  - apply Rmult_lt_0_compat; [lra|]. apply Rinv_0_lt_compat; lra.
  - apply (Rmult_le_reg_r (2 + 2 * d)); [lra|]. unfold Rdiv. rewrite Rmult_assoc, Rinv_l by lra. lra.
Qed.
Lemma sq_le x y : 0 <= y -> x * x <= y * y -> x <= y.
Proof. intros H G. apply Rsqr_incr_0_var; auto. Qed.
Lemma mid_vert N x k d : 0 < N -> 0 < d <= 1 -> 0 < k -> d * N <= x -> k * k * (2 * (N + x)) = N ->
  next d * N <= k * (N + x).
Proof.
  intros HN Hd Hk Hx E. pose proof (next_ok d Hd) as D. assert (0 < d * N) by nra.
  apply sq_le; [nra|].
  replace (k * (N + x) * (k * (N + x))) with (k * k * (2 * (N + x)) * (N + x) / 2) by field. rewrite E.
  assert (Q : next d * next d <= (1 + d) / 2).
  { unfold next. apply (Rmult_le_reg_r ((2 + 2 * d) * (2 + 2 * d))); [nra|].
    replace ((1 + 3 * d) / (2 + 2 * d) * ((1 + 3 * d) / (2 + 2 * d)) * ((2 + 2 * d) * (2 + 2 * d))) with ((1 + 3 * d) * (1 + 3 * d)) by (field; lra).
    assert (0 <= (1 - d) * (1 - d) * (1 + 2 * d)) by (apply Rmult_le_pos; [apply Rle_0_sqr|lra]). nra. }
  assert (N * N * (next d * next d) <= N * N * ((1 + d) / 2)) by (apply Rmult_le_compat_l; nra). nra.
Qed.
Lemma mid_mid N x y z k l d : 0 < N -> 0 < d <= 1 -> 0 < k -> 0 < l ->
  d * N <= x -> d * N <= y -> d * N <= z ->
  k * k * (2 * (N + x)) = N -> l * l * (2 * (N + y)) = N -> next d * N <= k * l * (N + x + y + z).
Proof.
  intros HN Hd Hk Hl Hx Hy Hz E1 E2. pose proof (next_ok d Hd) as D. assert (0 < d * N) by nra.
  assert (ED : next d * (2 + 2 * d) = 1 + 3 * d) by (unfold next; field; lra).
  assert (KL : N <= k * l * (2 * N + x + y)).
  { apply sq_le; [apply Rmult_le_pos; nra|].
    replace (k * l * (2 * N + x + y) * (k * l * (2 * N + x + y))) with
      (k * k * (l * l) * ((2 * N + x + y) * (2 * N + x + y))) by ring.
    assert (4 * ((N + x) * (N + y)) <= (2 * N + x + y) * (2 * N + x + y)) by (pose proof (Rle_0_sqr (x - y)) as S; unfold Rsqr in S; nra).
    assert (0 < k * k * (l * l)) by (apply Rmult_lt_0_compat; nra).
    assert (N * N = k * k * (l * l) * (4 * ((N + x) * (N + y)))) by (rewrite <- E1 at 1; rewrite <- E2 at 2; ring).
    assert (k * k * (l * l) * (4 * ((N + x) * (N + y))) <= k * k * (l * l) * ((2 * N + x + y) * (2 * N + x + y))) by (apply Rmult_le_compat_l; lra).
    lra. }
  assert (T : next d * (2 * N + x + y) <= N + x + y + z).
  { assert (0 <= (1 - next d) * (x + y - 2 * (d * N))) by (apply Rmult_le_pos; lra).
    assert (N * (next d * (2 + 2 * d)) = N * (1 + 3 * d)) by now rewrite ED. nra. }
  assert (0 < k * l) by nra.
  assert (k * l * (next d * (2 * N + x + y)) <= k * l * (N + x + y + z)) by (apply Rmult_le_compat_l; lra). nra.
Qed.

(** Four cones cover the cone that is split. *)
Lemma cone_split A B C p q s u : 0 < p -> 0 < q -> 0 < s -> in_cone A B C u ->
  let P := vscale p (vadd A B) in let Q := vscale q (vadd A C) in let S := vscale s (vadd B C) in
  in_cone A P Q u \/ in_cone B P S u \/ in_cone C Q S u \/ in_cone P Q S u.
Proof.
  intros Hp Hq Hs (x & y & z & Hx & Hy & Hz & ->) P Q S.
  pose proof (Rinv_0_lt_compat p Hp). pose proof (Rinv_0_lt_compat q Hq). pose proof (Rinv_0_lt_compat s Hs).
  assert (Pp : forall t, 0 <= t -> forall i, 0 < i -> 0 <= t * / i) by (intros; apply Rmult_le_pos; auto; apply Rlt_le, Rinv_0_lt_compat; auto).
  destruct (Rle_dec (y + z) x); [left|destruct (Rle_dec (x + z) y); [right; left|destruct (Rle_dec (x + y) z); [right; right; left|right; right; right]]].
  - exists (x - y - z), (y * / p), (z * / q). repeat split; auto; try lra.
    apply V3_eq; unfold P, Q, vadd, vscale; cbn; field; lra.
  - exists (y - x - z), (x * / p), (z * / s). repeat split; auto; try lra.
    apply V3_eq; unfold P, S, vadd, vscale; cbn; field; lra.
  - exists (z - x - y), (x * / q), (y * / s). repeat split; auto; try lra.
    apply V3_eq; unfold Q, S, vadd, vscale; cbn; field; lra.
  - exists ((x + y - z) / 2 * / p), ((x + z - y) / 2 * / q), ((y + z - x) / 2 * / s).
    repeat split; try (apply Pp; auto; lra).
    apply V3_eq; unfold P, Q, S, vadd, vscale; cbn; field; lra.
Qed.

Lemma nth_ext {A} (l w : list A) i a : nth_error l i = Some a -> nth_error (l ++ w) i = Some a.
Proof. intros H. rewrite nth_error_app1; auto. apply nth_error_Some. now rewrite H. Qed.
Lemma face_ok_ext N d v w t : face_ok N d v t -> face_ok N d (v ++ w) t.
Proof.
  destruct t as ((i & j) & k). intros (a & b & c & A & B & C & D). exists a, b, c.
  repeat split; try (apply nth_ext; auto); apply D.
Qed.
Lemma face_cone_ext v w t u : face_cone v t u -> face_cone (v ++ w) t u.
Proof.
  destruct t as ((i & j) & k). intros (a & b & c & A & B & C & D). exists a, b, c.
  repeat split; try (apply nth_ext; auto); apply D.
Qed.
Lemma Forall_at {A} (P : A -> Prop) l i a : Forall P l -> nth_error l i = Some a -> P a.
Proof. intros F H. rewrite Forall_forall in F. apply F. eapply nth_error_In; eauto. Qed.

Lemma round_spec r d : 0 < r -> 0 < d <= 1 -> forall faces v out,
  Forall (fun a => vdot a a = r * r) v -> Forall (face_ok (r * r) d v) faces -> Forall (face_ok (r * r) (next d) v) out ->
  exists w f', geodesic_round r faces v out = Some (v ++ w, f') /\
    Forall (fun a => vdot a a = r * r) (v ++ w) /\ Forall (face_ok (r * r) (next d) (v ++ w)) f' /\
    (forall t, In t out -> In t f') /\
    (forall t u, In t faces -> face_cone v t u -> exists t', In t' f' /\ face_cone (v ++ w) t' u).
Proof.
  intros Hr Hd. induction faces as [|[[j0 j1] j2] rest IH]; intros v out Hv Hf Ho.
  - exists [], out. rewrite app_nil_r. repeat split; auto. intros t u [].
  - cbn [geodesic_round]. pose proof (Forall_inv Hf) as (a & b & c & A & B & C & Dab & Dac & Dbc).
    apply Forall_inv_tail in Hf. rewrite A, B, C.
    assert (Na := Forall_at _ _ _ _ Hv A). assert (Nb := Forall_at _ _ _ _ Hv B). assert (Nc := Forall_at _ _ _ _ Hv C).
    cbn beta in Na, Nb, Nc. assert (RR : 0 < r * r) by nra. assert (0 < d * (r * r)) by nra.
    destruct (middle_ok r a b Hr Na Nb ltac:(lra)) as (k1 & K1 & E1 & ->).
    destruct (middle_ok r a c Hr Na Nc ltac:(lra)) as (k2 & K2 & E2 & ->).
    destruct (middle_ok r b c Hr Nb Nc ltac:(lra)) as (k3 & K3 & E3 & ->).
    set (u1 := vscale k1 (vadd a b)). set (u2 := vscale k2 (vadd a c)). set (u3 := vscale k3 (vadd b c)).
    assert (N1 : vdot u1 u1 = r * r).
    { unfold u1. rewrite vdot_scale_l, vdot_scale_r, vdot_add_l, !vdot_add_r, Na, Nb, (vdot_comm b a). rewrite <- E1 at 3. ring. }
    assert (N2 : vdot u2 u2 = r * r).
    { unfold u2. rewrite vdot_scale_l, vdot_scale_r, vdot_add_l, !vdot_add_r, Na, Nc, (vdot_comm c a). rewrite <- E2 at 3. ring. }
    assert (N3 : vdot u3 u3 = r * r).
    { unfold u3. rewrite vdot_scale_l, vdot_scale_r, vdot_add_l, !vdot_add_r, Nb, Nc, (vdot_comm c b). rewrite <- E3 at 3. ring. }
    assert (P1 : nth_error (v ++ [u1; u2; u3]) (length v) = Some u1) by (rewrite nth_error_app2 by lia; now rewrite Nat.sub_diag).
    assert (P2 : nth_error (v ++ [u1; u2; u3]) (length v + 1) = Some u2) by (rewrite nth_error_app2 by lia; now replace (length v + 1 - length v)%nat with 1%nat by lia).
    assert (P3 : nth_error (v ++ [u1; u2; u3]) (length v + 2) = Some u3) by (rewrite nth_error_app2 by lia; now replace (length v + 2 - length v)%nat with 2%nat by lia).
    assert (A' := nth_ext v [u1; u2; u3] _ _ A). assert (B' := nth_ext v [u1; u2; u3] _ _ B). assert (C' := nth_ext v [u1; u2; u3] _ _ C).
    pose proof (mid_vert _ _ _ _ RR Hd K1 Dab E1) as V1. pose proof (mid_vert _ _ _ _ RR Hd K2 Dac E2) as V2.
    pose proof (mid_vert _ _ _ _ RR Hd K3 Dbc E3) as V3.
    assert (Dba := Dab). rewrite vdot_comm in Dba. assert (Dca := Dac). rewrite vdot_comm in Dca. assert (Dcb := Dbc). rewrite vdot_comm in Dcb.
    assert (a1 : next d * (r * r) <= vdot a u1) by (unfold u1; rewrite vdot_scale_r, vdot_add_r, Na; lra).
    assert (b1 : next d * (r * r) <= vdot b u1) by (unfold u1; rewrite vdot_scale_r, vdot_add_r, Nb, (vdot_comm b a); lra).
    assert (a2 : next d * (r * r) <= vdot a u2) by (unfold u2; rewrite vdot_scale_r, vdot_add_r, Na; lra).
    assert (c2 : next d * (r * r) <= vdot c u2) by (unfold u2; rewrite vdot_scale_r, vdot_add_r, Nc, (vdot_comm c a); lra).
    assert (b3 : next d * (r * r) <= vdot b u3) by (unfold u3; rewrite vdot_scale_r, vdot_add_r, Nb; lra).
    assert (c3 : next d * (r * r) <= vdot c u3) by (unfold u3; rewrite vdot_scale_r, vdot_add_r, Nc, (vdot_comm c b); lra).
    assert (m12 : next d * (r * r) <= vdot u1 u2).
    { unfold u1, u2. rewrite vdot_scale_l, vdot_scale_r, vdot_add_l, !vdot_add_r, Na, (vdot_comm b a).
      pose proof (mid_mid _ _ _ _ _ _ _ RR Hd K1 K2 Dab Dac Dbc E1 E2). lra. }
    assert (m13 : next d * (r * r) <= vdot u1 u3).
    { unfold u1, u3. rewrite vdot_scale_l, vdot_scale_r, vdot_add_l, !vdot_add_r, Nb.
      pose proof (mid_mid _ _ _ _ _ _ _ RR Hd K1 K3 Dab Dbc Dac E1 E3). lra. }
    assert (m23 : next d * (r * r) <= vdot u2 u3).
    { unfold u2, u3. rewrite vdot_scale_l, vdot_scale_r, vdot_add_l, !vdot_add_r, Nc, (vdot_comm c b).
      pose proof (mid_mid _ _ _ _ _ _ _ RR Hd K2 K3 Dac Dbc Dab E2 E3). lra. }
    destruct (IH (v ++ [u1; u2; u3]) (out ++ [(j0, length v, (length v + 1)%nat); (j1, length v, (length v + 2)%nat);
      (j2, (length v + 1)%nat, (length v + 2)%nat); (length v, (length v + 1)%nat, (length v + 2)%nat)])) as (w & f' & E & G1 & G2 & G3 & G4).
    + apply Forall_app; split; auto.
    + eapply Forall_impl; [|exact Hf]. intros t. apply face_ok_ext.
    + apply Forall_app; split.
      * eapply Forall_impl; [|exact Ho]. intros t. apply face_ok_ext.
      * apply Forall_cons; [exists a, u1, u2; auto 10|]. apply Forall_cons; [exists b, u1, u3; auto 10|].
        apply Forall_cons; [exists c, u2, u3; auto 10|]. apply Forall_cons; [exists u1, u2, u3; auto 10|]. apply Forall_nil.
    + exists ([u1; u2; u3] ++ w), f'. rewrite app_assoc. split; [exact E|]. split; [auto|]. split; [auto|]. split.
      * intros t Ht. apply G3. apply in_app_iff; auto.
      * intros t u [<-|Ht] Hc.
        -- destruct Hc as (a' & b' & c' & A0 & B0 & C0 & Hc).
           rewrite A in A0; rewrite B in B0; rewrite C in C0. injection A0 as <-; injection B0 as <-; injection C0 as <-.
           destruct (cone_split a b c k1 k2 k3 u K1 K2 K3 Hc) as [X|[X|[X|X]]]; fold u1 u2 u3 in X.
           ++ exists (j0, length v, (length v + 1)%nat). split; [apply G3, in_app_iff; cbn; auto|]. apply face_cone_ext. exists a, u1, u2; auto.
           ++ exists (j1, length v, (length v + 2)%nat). split; [apply G3, in_app_iff; cbn; auto|]. apply face_cone_ext. exists b, u1, u3; auto.
           ++ exists (j2, (length v + 1)%nat, (length v + 2)%nat). split; [apply G3, in_app_iff; cbn; auto|]. apply face_cone_ext. exists c, u2, u3; auto.
           ++ exists (length v, (length v + 1)%nat, (length v + 2)%nat). split; [apply G3, in_app_iff; cbn; auto 6|]. apply face_cone_ext. exists u1, u2, u3; auto.
        -- destruct (G4 t u Ht (face_cone_ext _ _ _ _ Hc)) as (t' & T1 & T2). eauto.
Qed.

Lemma rounds_spec r : 0 < r -> forall n d v f, 0 < d <= 1 ->
  Forall (fun a => vdot a a = r * r) v -> Forall (face_ok (r * r) d v) f ->
  exists v' f', rounds n r v f = Some (v', f') /\
    Forall (fun a => vdot a a = r * r) v' /\ Forall (face_ok (r * r) (after n d) v') f' /\
    (forall u, (exists t, In t f /\ face_cone v t u) -> exists t, In t f' /\ face_cone v' t u).
Proof.
  intros Hr. induction n as [|n IH]; intros d v f Hd Hv Hf; cbn [rounds after].
  - exists v, f. auto.
  - destruct (round_spec r d Hr Hd f v [] Hv Hf (Forall_nil _)) as (w & f' & -> & G1 & G2 & _ & G4).
    destruct (IH (next d) (v ++ w) f' (next_ok d Hd) G1 G2) as (v'' & f'' & E & K1 & K2 & K3).
    exists v'', f''. repeat split; auto. intros u (t & Ht & Hc). apply K3.
    destruct (G4 t u Ht Hc) as (t' & ? & ?). eauto.
Qed.

(** ** The icosahedron *)
Lemma octant p q x y z : 0 < p -> 0 < q -> 0 <= x -> 0 <= y -> 0 <= z ->
  (exists a b c, 0 <= a /\ 0 <= b /\ 0 <= c /\ x = b * p + c * q /\ y = a * q + c * p /\ z = a * p + b * q) \/
  (exists b c e, 0 <= b /\ 0 <= c /\ 0 <= e /\ x = b * p + c * q + e * q /\ y = c * p - e * p /\ z = b * q) \/
  (exists a c e, 0 <= a /\ 0 <= c /\ 0 <= e /\ x = c * q /\ y = a * q + c * p + e * q /\ z = a * p - e * p) \/
  (exists a b e, 0 <= a /\ 0 <= b /\ 0 <= e /\ x = b * p - e * p /\ y = a * q /\ z = a * p + b * q + e * q).
Proof.
  intros Hp Hq Hx Hy Hz.
  assert (D : 0 < p * p * p + q * q * q) by (assert (0 < p * p * p) by (apply Rmult_lt_0_compat; nra); assert (0 < q * q * q) by (apply Rmult_lt_0_compat; nra); lra).
  set (D' := p * p * p + q * q * q) in *.
  assert (Q2 : 0 < q * q) by nra. assert (PQ : 0 < p * q) by nra.
  assert (Pd : forall t w, 0 <= t -> 0 < w -> 0 <= t / w) by (intros; apply Rmult_le_pos; auto; apply Rlt_le, Rinv_0_lt_compat; auto).
  (* a = (q^2 y + p^2 z - p q x) / D, cyclically *)
  destruct (Rle_dec 0 (q * q * y + p * p * z - p * q * x)) as [A|A].
  2: { right; left. set (m := (x - p * z / q) / q). assert (M : y / p <= m).
       { unfold m. apply Rnot_le_lt in A. apply (Rmult_le_reg_r (p * (q * q))); [nra|].
         replace (y / p * (p * (q * q))) with (q * q * y) by (field; lra).
         replace ((x - p * z / q) / q * (p * (q * q))) with (p * q * x - p * p * z) by (field; lra). lra. }
       assert (0 <= y / p) by now apply Pd.
       exists (z / q), ((m + y / p) / 2), ((m - y / p) / 2). repeat split; try lra; auto; unfold m; field; lra. }
  destruct (Rle_dec 0 (q * q * z + p * p * x - p * q * y)) as [B|B].
  2: { right; right; left. set (m := (y - p * x / q) / q). assert (M : z / p <= m).
       { unfold m. apply Rnot_le_lt in B. apply (Rmult_le_reg_r (p * (q * q))); [nra|].
         replace (z / p * (p * (q * q))) with (q * q * z) by (field; lra).
         replace ((y - p * x / q) / q * (p * (q * q))) with (p * q * y - p * p * x) by (field; lra). lra. }
       assert (0 <= z / p) by now apply Pd.
       exists ((m + z / p) / 2), (x / q), ((m - z / p) / 2). repeat split; try lra; auto; unfold m; field; lra. }
  destruct (Rle_dec 0 (q * q * x + p * p * y - p * q * z)) as [C|C].
  2: { right; right; right. set (m := (z - p * y / q) / q). assert (M : x / p <= m).
       { unfold m. apply Rnot_le_lt in C. apply (Rmult_le_reg_r (p * (q * q))); [nra|].
         replace (x / p * (p * (q * q))) with (q * q * x) by (field; lra).
         replace ((z - p * y / q) / q * (p * (q * q))) with (p * q * z - p * p * y) by (field; lra). lra. }
       assert (0 <= x / p) by now apply Pd.
       exists (y / q), ((m + x / p) / 2), ((m - x / p) / 2). repeat split; try lra; auto; unfold m; field; lra. }
  left. exists ((q * q * y + p * p * z - p * q * x) / D'), ((q * q * z + p * p * x - p * q * y) / D'), ((q * q * x + p * p * y - p * q * z) / D').
  repeat split; try (apply Pd; auto); unfold D'; field; unfold D' in D; lra.
Qed.
Ltac solve_face i j k s1 s2 s3 :=
  exists (i, j, k); split; [cbn; auto 30|]; cbn;
  do 3 eexists; split; [reflexivity|]; split; [reflexivity|]; split; [reflexivity|];
  exists s1, s2, s3; split; [assumption|]; split; [assumption|]; split; [assumption|];
  apply V3_eq; unfold vadd, vscale; cbn [vx vy vz]; nra.
Lemma ico_cover p q u : 0 < p -> 0 < q -> exists t, In t ico_f /\ face_cone (ico_v p q) t u.
Proof.
  intros Hp Hq. destruct u as [x y z].
  destruct (Rle_dec 0 x) as [X|X]; destruct (Rle_dec 0 y) as [Y|Y]; destruct (Rle_dec 0 z) as [Z|Z];
    try apply Rnot_le_lt in X; try apply Rnot_le_lt in Y; try apply Rnot_le_lt in Z.
  - destruct (octant p q x y z Hp Hq) as [(s1 & s2 & s3 & A & B & C & E1 & E2 & E3)|[(s1 & s2 & s3 & A & B & C & E1 & E2 & E3)|[(s1 & s2 & s3 & A & B & C & E1 & E2 & E3)|(s1 & s2 & s3 & A & B & C & E1 & E2 & E3)]]]; try lra;
    [solve_face 0%nat 4%nat 8%nat s1 s2 s3|solve_face 4%nat 9%nat 8%nat s1 s3 s2|solve_face 0%nat 8%nat 1%nat s1 s2 s3|solve_face 0%nat 4%nat 6%nat s1 s2 s3].
  - destruct (octant p q x y (- z) Hp Hq) as [(s1 & s2 & s3 & A & B & C & E1 & E2 & E3)|[(s1 & s2 & s3 & A & B & C & E1 & E2 & E3)|[(s1 & s2 & s3 & A & B & C & E1 & E2 & E3)|(s1 & s2 & s3 & A & B & C & E1 & E2 & E3)]]]; try lra;
    [solve_face 8%nat 5%nat 1%nat s3 s2 s1|solve_face 9%nat 8%nat 5%nat s3 s2 s1|solve_face 0%nat 8%nat 1%nat s3 s2 s1|solve_face 5%nat 1%nat 7%nat s2 s1 s3].
  - destruct (octant p q x (- y) z Hp Hq) as [(s1 & s2 & s3 & A & B & C & E1 & E2 & E3)|[(s1 & s2 & s3 & A & B & C & E1 & E2 & E3)|[(s1 & s2 & s3 & A & B & C & E1 & E2 & E3)|(s1 & s2 & s3 & A & B & C & E1 & E2 & E3)]]]; try lra;
    [solve_face 2%nat 4%nat 9%nat s1 s2 s3|solve_face 4%nat 9%nat 8%nat s1 s2 s3|solve_face 3%nat 2%nat 9%nat s3 s1 s2|solve_face 6%nat 2%nat 4%nat s3 s1 s2].
  - destruct (octant p q x (- y) (- z) Hp Hq) as [(s1 & s2 & s3 & A & B & C & E1 & E2 & E3)|[(s1 & s2 & s3 & A & B & C & E1 & E2 & E3)|[(s1 & s2 & s3 & A & B & C & E1 & E2 & E3)|(s1 & s2 & s3 & A & B & C & E1 & E2 & E3)]]]; try lra;
    [solve_face 3%nat 9%nat 5%nat s1 s3 s2|solve_face 9%nat 8%nat 5%nat s2 s3 s1|solve_face 3%nat 2%nat 9%nat s1 s3 s2|solve_face 3%nat 5%nat 7%nat s1 s2 s3].
  - destruct (octant p q (- x) y z Hp Hq) as [(s1 & s2 & s3 & A & B & C & E1 & E2 & E3)|[(s1 & s2 & s3 & A & B & C & E1 & E2 & E3)|[(s1 & s2 & s3 & A & B & C & E1 & E2 & E3)|(s1 & s2 & s3 & A & B & C & E1 & E2 & E3)]]]; try lra;
    [solve_face 0%nat 10%nat 6%nat s1 s3 s2|solve_face 10%nat 11%nat 6%nat s2 s3 s1|solve_face 0%nat 1%nat 10%nat s1 s3 s2|solve_face 0%nat 4%nat 6%nat s1 s3 s2].
  - destruct (octant p q (- x) y (- z) Hp Hq) as [(s1 & s2 & s3 & A & B & C & E1 & E2 & E3)|[(s1 & s2 & s3 & A & B & C & E1 & E2 & E3)|[(s1 & s2 & s3 & A & B & C & E1 & E2 & E3)|(s1 & s2 & s3 & A & B & C & E1 & E2 & E3)]]]; try lra;
    [solve_face 1%nat 7%nat 10%nat s1 s2 s3|solve_face 7%nat 10%nat 11%nat s1 s2 s3|solve_face 0%nat 1%nat 10%nat s3 s1 s2|solve_face 5%nat 1%nat 7%nat s3 s1 s2].
  - destruct (octant p q (- x) (- y) z Hp Hq) as [(s1 & s2 & s3 & A & B & C & E1 & E2 & E3)|[(s1 & s2 & s3 & A & B & C & E1 & E2 & E3)|[(s1 & s2 & s3 & A & B & C & E1 & E2 & E3)|(s1 & s2 & s3 & A & B & C & E1 & E2 & E3)]]]; try lra;
    [solve_face 11%nat 6%nat 2%nat s3 s2 s1|solve_face 10%nat 11%nat 6%nat s3 s2 s1|solve_face 3%nat 11%nat 2%nat s3 s2 s1|solve_face 6%nat 2%nat 4%nat s2 s1 s3].
  - destruct (octant p q (- x) (- y) (- z) Hp Hq) as [(s1 & s2 & s3 & A & B & C & E1 & E2 & E3)|[(s1 & s2 & s3 & A & B & C & E1 & E2 & E3)|[(s1 & s2 & s3 & A & B & C & E1 & E2 & E3)|(s1 & s2 & s3 & A & B & C & E1 & E2 & E3)]]]; try lra;
    [solve_face 3%nat 7%nat 11%nat s1 s2 s3|solve_face 7%nat 10%nat 11%nat s1 s3 s2|solve_face 3%nat 11%nat 2%nat s1 s2 s3|solve_face 3%nat 5%nat 7%nat s1 s3 s2].
Qed.
Lemma ico_ok N p q d : p * p + q * q = N -> q * q - p * p >= d * N -> p * q >= d * N ->
  Forall (fun a => vdot a a = N) (ico_v p q) /\ Forall (face_ok N d (ico_v p q)) ico_f.
Proof.
  intros E1 E2 E3. split.
  - unfold ico_v. repeat (apply Forall_cons; [unfold vdot; cbn; lra|]). apply Forall_nil.
  - unfold ico_f. repeat (apply Forall_cons;
      [cbn; do 3 eexists; split; [reflexivity|]; split; [reflexivity|]; split; [reflexivity|]; unfold vdot; cbn; repeat split; lra|]).
    apply Forall_nil.
Qed.

(** ** The sphere *)
Lemma face_ok_le N d d' v t : 0 < N -> d' <= d -> face_ok N d v t -> face_ok N d' v t.
Proof.
  destruct t as ((i & j) & k). intros HN L (a & b & c & A & B & C & D1 & D2 & D3). exists a, b, c.
  assert (d' * N <= d * N) by nra. repeat split; auto; lra.
Qed.
Lemma next_mono d d' : 0 < d -> d <= d' -> next d <= next d'.
Proof.
  intros H L. unfold next.
  replace ((1 + 3 * d) / (2 + 2 * d)) with (3 / 2 - / (1 + d)) by (field; lra).
  replace ((1 + 3 * d') / (2 + 2 * d')) with (3 / 2 - / (1 + d')) by (field; lra).
  assert (/ (1 + d') <= / (1 + d)) by (apply Rinv_le_contravar; lra). lra.
Qed.
Lemma next_ge d e : 0 < d -> e * (2 + 2 * d) <= 1 + 3 * d -> e <= next d.
Proof.
  intros H L. unfold next. apply (Rmult_le_reg_r (2 + 2 * d)); [lra|].
  unfold Rdiv. rewrite Rmult_assoc, Rinv_l by lra. lra.
Qed.
Lemma after3 : 0.9863 <= after 3 0.447.
Proof.
  cbn [after].
  assert (A1 : 0.808 <= next 0.447) by (apply next_ge; lra).
  assert (A2 : 0.9468 <= next (next 0.447)).
  { apply Rle_trans with (next 0.808); [apply next_ge; lra|apply next_mono; lra]. }
  apply Rle_trans with (next 0.9468); [apply next_ge; lra|apply next_mono; lra].
Qed.
Lemma dot_le r a b : vdot a a = r -> vdot b b = r -> vdot a b <= r.
Proof.
  intros A B. assert (0 <= vdot (vsub a b) (vsub a b)).
  { unfold vdot. pose proof (Rle_0_sqr (vx (vsub a b))). pose proof (Rle_0_sqr (vy (vsub a b))). pose proof (Rle_0_sqr (vz (vsub a b))). unfold Rsqr in *. lra. }
  assert (vdot (vsub a b) (vsub a b) = vdot a a + vdot b b - 2 * vdot a b) by (unfold vdot, vsub; cbn; ring). lra.
Qed.
(** Points of a triangle whose corners lie on the sphere and are close together. *)
Lemma tri_norm N d a b c q : 0 < N -> 0 < d <= 1 -> vdot a a = N -> vdot b b = N -> vdot c c = N ->
  d * N <= vdot a b -> d * N <= vdot a c -> d * N <= vdot b c -> in_tri a b c q ->
  (1 + 2 * d) / 3 * N <= vdot q q <= N.
Proof.
  intros HN Hd Ha Hb Hc Hab Hac Hbc (u & v & w & Hu & Hv & Hw & E & ->).
  assert (Eq : vdot (vadd (vscale u a) (vadd (vscale v b) (vscale w c))) (vadd (vscale u a) (vadd (vscale v b) (vscale w c)))
    = (u * u + v * v + w * w) * N + 2 * (u * v * vdot a b + u * w * vdot a c + v * w * vdot b c)).
  { rewrite <- (Rmult_1_r ((u * u + v * v + w * w) * N)).
    replace ((u * u + v * v + w * w) * N * 1) with (u * u * vdot a a + v * v * vdot b b + w * w * vdot c c) by (rewrite Ha, Hb, Hc; ring).
    unfold vdot, vadd, vscale; cbn [vx vy vz]; ring. }
  rewrite Eq. pose proof (dot_le N a b Ha Hb). pose proof (dot_le N a c Ha Hc). pose proof (dot_le N b c Hb Hc).
  assert (uv : 0 <= u * v) by nra. assert (uw : 0 <= u * w) by nra. assert (vw : 0 <= v * w) by nra.
  assert (S1 : u * u + v * v + w * w + 2 * (u * v + u * w + v * w) = 1).
  { replace (u * u + v * v + w * w + 2 * (u * v + u * w + v * w)) with ((u + v + w) * (u + v + w)) by ring. rewrite E. ring. }
  split.
  - assert (S3 : 1 <= 3 * (u * u + v * v + w * w)).
    { pose proof (Rle_0_sqr (u - v)) as Q1. pose proof (Rle_0_sqr (u - w)) as Q2. pose proof (Rle_0_sqr (v - w)) as Q3. unfold Rsqr in Q1, Q2, Q3. lra. }
    assert (u * v * (d * N) <= u * v * vdot a b) by now apply Rmult_le_compat_l.
    assert (u * w * (d * N) <= u * w * vdot a c) by now apply Rmult_le_compat_l.
    assert (v * w * (d * N) <= v * w * vdot b c) by now apply Rmult_le_compat_l.
    set (X := u * u + v * v + w * w) in *. set (Y := u * v + u * w + v * w) in *.
    assert (X * N + 2 * (Y * (d * N)) <= X * N + 2 * (u * v * vdot a b + u * w * vdot a c + v * w * vdot b c)) by (unfold Y; lra).
    assert ((1 + 2 * d) / 3 * N <= X * N + 2 * (Y * (d * N))); [|lra].
    replace (X * N + 2 * (Y * (d * N))) with ((X + 2 * Y * d) * N) by ring.
    apply Rmult_le_compat_r; [lra|]. replace (2 * Y) with (1 - X) by lra. nra.
  - assert (u * v * vdot a b <= u * v * N) by now apply Rmult_le_compat_l.
    assert (u * w * vdot a c <= u * w * N) by now apply Rmult_le_compat_l.
    assert (v * w * vdot b c <= v * w * N) by now apply Rmult_le_compat_l.
    assert (N * (u * u + v * v + w * w + 2 * (u * v + u * w + v * w)) = N * 1) by now rewrite S1. nra.
Qed.
Lemma golden : let phi := (1 + sqrt 5) / 2 in 1 < phi /\ phi * phi = phi + 1 /\ 0.447 * (1 + phi * phi) <= phi.
Proof.
  intros phi. assert (S : sqrt 5 * sqrt 5 = 5) by (apply sqrt_def; lra).
  assert (L : 2.236 < sqrt 5). { apply Rsqr_incrst_0; [|lra|apply sqrt_pos]. unfold Rsqr. rewrite S. lra. }
  assert (U : sqrt 5 < 2.237). { apply Rsqr_incrst_0; [|apply sqrt_pos|lra]. unfold Rsqr. rewrite S. lra. }
  assert (E : phi * phi = phi + 1) by (unfold phi; nra). split; [unfold phi; lra|split; auto]. rewrite E. unfold phi. lra.
Qed.
Lemma triples_flat3 f : triples (flat3 f) = f.
Proof. induction f as [|[[a b] c] f IH]; [reflexivity|]. cbn. f_equal. exact IH. Qed.
Lemma flat3_len f : length (flat3 f) = (3 * length f)%nat.
Proof. induction f as [|[[a b] c] f IH]; [reflexivity|].
  change (length (flat3 ((a, b, c) :: f))) with (3 + length (flat3 f))%nat. rewrite IH. cbn [length]. lia. Qed.

Lemma sphere_all r : 0 < r -> exists v f, init_sphere r = Some (mkD v (Some (map (fun a => vdivs a r) v)) (Some (flat3 f))) /\
  Forall (fun a => vdot a a = r * r) v /\ Forall (face_ok (r * r) 0.9863 v) f /\
  (forall u, exists t, In t f /\ face_cone v t u).
Proof.
  intros Hr. unfold init_sphere. destruct (Req_EM_T r 0) as [E|_]; [lra|].
  destruct golden as (G1 & G2 & G3). set (phi := (1 + sqrt 5) / 2) in *. clearbody phi.
  set (p := r / sqrt (1 + phi * phi)). assert (P1 : 0 < 1 + phi * phi) by nra.
  assert (S : 0 < sqrt (1 + phi * phi)) by now apply sqrt_lt_R0.
  assert (SS : sqrt (1 + phi * phi) * sqrt (1 + phi * phi) = 1 + phi * phi) by (apply sqrt_def; lra).
  assert (Hp : 0 < p) by (apply Rmult_lt_0_compat; [lra|now apply Rinv_0_lt_compat]).
  assert (E : p * p * (1 + phi * phi) = r * r) by (rewrite <- SS; unfold p; field; lra).
  assert (E' : p * p * (0.447 * (1 + phi * phi)) <= p * p * phi) by (apply Rmult_le_compat_l; nra).
  assert (D1 : p * p + phi * p * (phi * p) = r * r) by (rewrite <- E; ring).
  assert (D2 : phi * p * (phi * p) - p * p >= 0.447 * (r * r)).
  { replace (phi * p * (phi * p)) with (p * p * (phi * phi)) by ring. rewrite G2. lra. }
  assert (D3 : p * (phi * p) >= 0.447 * (r * r)) by lra.
  destruct (ico_ok (r * r) p (phi * p) 0.447 D1 D2 D3) as (I1 & I2).
  destruct (rounds_spec r Hr 3 0.447 (ico_v p (phi * p)) ico_f ltac:(lra) I1 I2) as (v & f & -> & V1 & V2 & V3).
  exists v, f. split.
  { replace (length f) with (length (flat3 f) / 3)%nat by (rewrite flat3_len, Nat.mul_comm; apply Nat.div_mul; lia).
    apply tri_mesh_ok; [now rewrite map_length|]. rewrite flat3_len, Nat.mul_comm. apply Nat.mod_mul. lia. }
  split; auto. split.
  - eapply Forall_impl; [|exact V2]. intros t. apply face_ok_le; [nra|apply after3].
  - intros u. apply V3. apply ico_cover; nra.
Qed.
Lemma sphere_wf r : 0 < r -> exists M, init_sphere r = Some M /\ well_formed M.
Proof.
  intros Hr. destruct (sphere_all r Hr) as (v & f & E & V1 & V2 & _). eexists; split; [exact E|].
  unfold well_formed, indices; cbn [d_v d_n d_i]. split; [|split; [|split]].
  - rewrite flat3_len. rewrite Nat.mul_comm. apply Nat.mod_mul. lia.
  - apply Forall_forall. intros x Hx. unfold flat3 in Hx. apply in_flat_map in Hx. destruct Hx as (((i & j) & k) & Ht & Hx).
    rewrite Forall_forall in V2. destruct (V2 _ Ht) as (a & b & c & A & B & C & _).
    cbn in Hx. destruct Hx as [<-|[<-|[<-|[]]]]; apply nth_error_Some; congruence.
  - now rewrite map_length.
  - apply Forall_forall. intros x Hx. apply in_map_iff in Hx. destruct Hx as (a & <- & Ha).
    rewrite Forall_forall in V1. specialize (V1 a Ha). cbn beta in V1.
    replace (vdot (vdivs a r) (vdivs a r)) with (vdot a a / (r * r)) by (unfold vdot, vdivs; cbn; field; lra).
    rewrite V1. field. lra.
Qed.
Lemma sphere_drawn r M : 0 < r -> init_sphere r = Some M ->
  (forall q, drawn M q -> 0.995 * r <= vnorm q <= r) /\
  (forall u, u <> mkV 0 0 0 -> exists k, 0 < k /\ drawn M (vscale k u)) /\
  (forall i a n, at_vertex M i a n -> vnorm a = r /\ a = vscale r n).
Proof.
  intros Hr EM. destruct (sphere_all r Hr) as (v & f & E & V1 & V2 & V3).
  assert (M = mkD v (Some (map (fun a => vdivs a r) v)) (Some (flat3 f))) as -> by congruence. clear E EM.
  assert (NN : forall a, vnorm a = sqrt (vdot a a)) by reflexivity.
  split; [|split].
  - intros q (i & j & k & a & b & c & T & A & B & C & Q). unfold triangles, indices in T; cbn [d_i] in T.
    rewrite triples_flat3 in T. cbn [d_v] in A, B, C. rewrite Forall_forall in V2.
    destruct (V2 _ T) as (a' & b' & c' & A' & B' & C' & D1 & D2 & D3).
    rewrite A in A'; rewrite B in B'; rewrite C in C'. injection A' as <-; injection B' as <-; injection C' as <-.
    destruct (tri_norm (r * r) 0.9863 a b c q ltac:(nra) ltac:(lra) (Forall_at _ _ _ _ V1 A) (Forall_at _ _ _ _ V1 B) (Forall_at _ _ _ _ V1 C) D1 D2 D3 Q) as (L & U).
    rewrite NN. split.
    + rewrite <- (sqrt_square (0.995 * r)) by lra. apply sqrt_le_1_alt. nra.
    + rewrite <- (sqrt_square r) by lra. apply sqrt_le_1_alt. lra.
  - intros u Hu. destruct (V3 u) as (((i & j) & k) & T & (a & b & c & A & B & C & (x & y & z & Hx & Hy & Hz & Eu))).
    assert (P : 0 < x + y + z).
    { destruct (Rle_lt_or_eq_dec 0 (x + y + z) ltac:(lra)) as [|E0]; auto. exfalso. apply Hu.
      assert (x = 0) by lra. assert (y = 0) by lra. assert (z = 0) by lra. subst x y z. rewrite Eu.
      apply V3_eq; unfold vadd, vscale; cbn; ring. }
    exists (/ (x + y + z)). split; [now apply Rinv_0_lt_compat|].
    exists i, j, k, a, b, c. cbn [d_v]. split; [unfold triangles, indices; cbn [d_i]; now rewrite triples_flat3|].
    split; auto. split; auto. split; auto. assert (Pi := Rinv_0_lt_compat _ P).
    exists (/ (x + y + z) * x), (/ (x + y + z) * y), (/ (x + y + z) * z).
    repeat split; try nra. { field. lra. }
    rewrite Eu. apply V3_eq; unfold vadd, vscale; cbn; ring.
  - intros i a n (A & l & [= <-] & B). cbn [d_v] in A. rewrite nth_error_map, A in B. injection B as <-.
    pose proof (Forall_at _ _ _ _ V1 A) as Na. cbn beta in Na. split.
    + rewrite NN, Na. apply sqrt_square. lra.
    + unfold vscale, vdivs; cbn. apply V3_eq; cbn; field; lra.
Qed.
