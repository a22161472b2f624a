(** The Jacobian of a chain as a matrix in memory. *)
From Coq Require Import ZArith String List Bool Reals Lra Lia.
From Verif Require Import TfModel TfSpec TfCalcProofs SgModel SgSpec SgKinSpec SgClaims1 SgClaims2 SgClaims3 SgChainProofs SgJacProofs IkSpec IkObj
  MatModel MatSpec MatProofs LaModel LaSpec LaAlg LaProofs La2Proofs La4Proofs WkRateModel WkRateSpec WkRate.
Import ListNotations.
Open Scope R_scope.

Definition colmat (l : list (V3 * V3)) (i j : nat) : R :=
  match nth_error l j with Some (r, t) => stacked t r i | None => 0 end.

Lemma upd_if m a x b : upd m a x b = if Nat.eqb b a then x else m b. Proof. reflexivity. Qed.
Lemma put3_other a v M b : (b < a \/ a + 3 <= b)%nat -> put3 a v M b = M b.
Proof. intros H. unfold put3. rewrite !upd_other by lia. reflexivity. Qed.
Lemma put3_0 a v M : put3 a v M a = vx v. Proof. unfold put3. rewrite !upd_other by lia. apply upd_same. Qed.
Lemma put3_1 a v M : put3 a v M (a + 1)%nat = vy v. Proof. unfold put3. rewrite upd_other by lia. apply upd_same. Qed.
Lemma put3_2 a v M : put3 a v M (a + 2)%nat = vz v. Proof. unfold put3. apply upd_same. Qed.

Lemma put_cols_ok ld : (6 <= ld)%nat -> forall l d M, let M' := put_cols (d + 3) ld d ld l M in
  (forall i j, (i < 6)%nat -> (j < length l)%nat -> M' (d + ld * j + i)%nat = colmat l i j) /\
  (forall a, (forall i j, (i < 6)%nat -> (j < length l)%nat -> a <> d + ld * j + i)%nat -> M' a = M a).
Proof.
  intros L. induction l as [|[r t] l IH]; intros d M; cbn [put_cols length]; [split; [intros; lia|auto]|].
  replace (d + 3 + ld)%nat with (d + ld + 3)%nat by lia. set (M1 := put3 d t (put3 (d + 3) r M)).
  destruct (IH (d + ld)%nat M1) as [V F]. cbv zeta. split.
  - intros i j Hi Hj. destruct j as [|j].
    + rewrite F.
      2:{ intros i' j' Hi' Hj'. nia. }
      rewrite Nat.mul_0_r, Nat.add_0_r. unfold colmat. cbn [nth_error]. unfold M1.
      destruct i as [|[|[|[|[|[|i]]]]]]; cbn [stacked]; try lia.
      * rewrite Nat.add_0_r. apply put3_0.
      * apply put3_1.
      * apply put3_2.
      * rewrite put3_other by lia. apply put3_0.
      * rewrite put3_other by lia. replace (d + 4)%nat with (d + 3 + 1)%nat by lia. apply put3_1.
      * rewrite put3_other by lia. replace (d + 5)%nat with (d + 3 + 2)%nat by lia. apply put3_2.
    + replace (d + ld * S j + i)%nat with (d + ld + ld * j + i)%nat by lia. rewrite V by lia. reflexivity.
  - intros a Ha. rewrite F.
    + unfold M1. pose proof (Ha 0%nat 0%nat ltac:(lia) ltac:(lia)). pose proof (Ha 1%nat 0%nat ltac:(lia) ltac:(lia)). pose proof (Ha 2%nat 0%nat ltac:(lia) ltac:(lia)).
      pose proof (Ha 3%nat 0%nat ltac:(lia) ltac:(lia)). pose proof (Ha 4%nat 0%nat ltac:(lia) ltac:(lia)). pose proof (Ha 5%nat 0%nat ltac:(lia) ltac:(lia)).
      rewrite !put3_other by lia. reflexivity.
    + intros i j Hi Hj. specialize (Ha i (S j) Hi ltac:(lia)). lia.
Qed.

Lemma fill_ok (cols : res (list (V3 * V3))) ss J M l : m_rows J = 6%nat -> good_mat J -> m_cols J = length (ss_configs ss) -> (0 < m_cols J)%nat ->
  cols = Ok l -> length l = length (ss_configs ss) ->
  exists M', obind (dmat_view_block J 0 0 3 (m_cols J)) (fun Jp => obind (dmat_view_block J 3 0 3 (m_cols J)) (fun Jr => jac_fill2 ss cols Jr Jp M)) = Done M' /\
    mat_becomes J M M' (colmat l).
Proof.
  intros R6 G C P -> L. unfold good_mat in G.
  assert (B : forall rs, (rs + 3 <= 6)%nat -> dmat_view_block J rs 0 3 (m_cols J) = Done (mkDM 3 (m_cols J) (m_data J + rs) (m_ld J))).
  { intros rs H. unfold dmat_view_block, dmat_block. rewrite R6.
    repeat match goal with |- context [Nat.leb ?a ?b] => destruct (Nat.leb_spec a b); try lia end.
    repeat match goal with |- context [Nat.ltb ?a ?b] => destruct (Nat.ltb_spec a b); try lia end.
    cbn [orb]. f_equal. f_equal; lia. }
  rewrite !B by lia. cbn [obind]. unfold jac_fill2. cbn [lift obind m_rows m_cols m_data m_ld]. unfold check.
  cbn [Nat.eqb]. rewrite L, <- C, !Nat.eqb_refl.
  eexists. split; [reflexivity|]. rewrite Nat.add_0_r.
  destruct (put_cols_ok (m_ld J) ltac:(lia) l (m_data J) M) as [V F]. split.
  - intros i j Hi Hj. apply V; lia.
  - intros a Ha. apply F. intros i j Hi Hj E. apply Ha. exists i, j. unfold melem. repeat split; lia.
Qed.
Lemma vel_fill_ok s abs ss J M l : m_rows J = 6%nat -> good_mat J -> m_cols J = length (ss_configs ss) -> (0 < m_cols J)%nat ->
  chain_jacobian s abs ss = Ok l -> length l = length (ss_configs ss) ->
  exists M', jac_vel_fill s abs ss J M = Done M' /\ mat_becomes J M M' (colmat l).
Proof. apply fill_ok. Qed.
Lemma twist_fill_ok s abs ss J M l : m_rows J = 6%nat -> good_mat J -> m_cols J = length (ss_configs ss) -> (0 < m_cols J)%nat ->
  jac_twist s abs ss = Ok l -> length l = length (ss_configs ss) ->
  exists M', jac_twist_fill s abs ss J M = Done M' /\ mat_becomes J M M' (colmat l).
Proof. apply fill_ok. Qed.

Lemma bsum_head n f : bsum (S n) f = f 0%nat + bsum n (fun i => f (S i)).
Proof. change (S n) with (1 + n)%nat. rewrite bsum_split. cbn [bsum]. cbn [Nat.add]. lra. Qed.
Lemma col_sum_mulv : forall l x i, (i < 6)%nat ->
  stacked (snd (col_sum l (map x (seq 0 (length l))))) (fst (col_sum l (map x (seq 0 (length l))))) i = mulv (length l) (colmat l) x i.
Proof.
  induction l as [|[r t] l IH]; intros x i Hi; cbn [length seq map col_sum].
  - unfold mulv. cbn [bsum fst snd]. destruct i as [|[|[|[|[|[|i]]]]]]; cbn; lra || lia.
  - rewrite <- seq_shift, map_map. specialize (IH (fun j => x (S j)) i Hi). destruct (col_sum l _) as [r' t'] eqn:E. cbn [fst snd] in *.
    unfold mulv. rewrite bsum_head. change (bsum (length l) (fun j => colmat ((r, t) :: l) i (S j) * x (S j))) with (mulv (length l) (colmat l) (fun j => x (S j)) i).
    rewrite <- IH. change (colmat ((r, t) :: l) i 0) with (stacked t r i).
    destruct r, t, r', t'. destruct i as [|[|[|[|[|[|i]]]]]]; cbn; lra || lia.
Qed.

Lemma rates_by_name cfg t : forall ds (x : nat -> R), (forall i d, nth_error ds i = Some d -> derivable_pt_lim (fun u => cfg u (d_cfg d)) t (x i)) ->
  exists dcfg : string -> R, forall i d, nth_error ds i = Some d -> dcfg (d_cfg d) = x i.
Proof.
  induction ds as [|d ds IH]; intros x H; [exists (fun _ => 0); intros [|i] d; discriminate|].
  destruct (IH (fun i => x (S i))) as [f Hf]; [intros i e He; apply (H (S i)); exact He|].
  exists (fun c => if String.eqb c (d_cfg d) then x 0%nat else f c). intros [|i] e He.
  - injection He as <-. now rewrite String.eqb_refl.
  - cbn in He. destruct (String.eqb_spec (d_cfg e) (d_cfg d)) as [E|E]; [|now apply Hf].
    pose proof (H 0%nat d eq_refl) as D0. pose proof (H (S i) e He) as D1. cbv beta in D0, D1. rewrite <- E in D0. exact (uniqueness_limite _ _ _ _ D0 D1).
Qed.

Lemma jac_loop_len s c1 c2 abs : forall fs n l1 l2, jac_loop s c1 abs fs n = Ok l1 -> jac_loop s c2 abs fs n = Ok l2 -> length l1 = length l2.
Proof.
  induction fs as [|f fs IH]; intros n l1 l2 H1 H2.
  - destruct n; cbn in H1, H2; injection H1 as <-; injection H2 as <-; reflexivity.
  - destruct n as [|n]; [cbn in H1, H2; injection H1 as <-; injection H2 as <-; reflexivity|]. cbn [jac_loop] in H1, H2. destruct (f <? 0)%Z; [discriminate|].
    destruct (frame_type s f) as [ft| | |]; cbn [bind] in H1, H2; try discriminate. destruct (is_joint ft); [|eapply IH; eauto].
    destruct (frame_axis s f); cbn [bind] in H1, H2; try discriminate. destruct (fk_read abs f); cbn [bind] in H1, H2; try discriminate.
    destruct (jac_loop s c1 abs fs n) as [m1| | |] eqn:E1; cbn [bind] in H1; try discriminate.
    destruct (jac_loop s c2 abs fs n) as [m2| | |] eqn:E2; cbn [bind] in H2; try discriminate.
    injection H1 as <-. injection H2 as <-. cbn [length]. f_equal. eapply IH; eauto.
Qed.

Section Chain.
  Context (h : list op) (s : sg) (root tip : string) (tz : Z) (ls : list string) (ss : ssg).
  Hypothesis C : chain_of h s root tip tz ls ss.
  Let g := declared h.
  Lemma joints_count : length (ss_configs ss) = length (joint_decls g ls).
  Proof.
    destruct C as [Rd Fo Pr Nn Zt Bt (rz & junk & n & Zr & Cn & Cc)].
    destruct (c50_chain h s root tip rz tz ls junk Rd Fo Zr Zt Bt) as (zs & cs & E & _ & H2). rewrite E in Cc. injection Cc as <-. cbn [ss_configs].
    clear -H2. unfold g. induction H2; cbn; auto.
  Qed.
  Lemma posed_cfg c1 c2 abs m : (forall c, c1 c = c2 c) -> posed_at g s c1 abs m -> posed_at g s c2 abs m.
  Proof.
    intros H [->|(i & E & Z & Ni & U & L)]; [now left|right]. exists i, E. repeat split; auto; try apply Z.
    intros p. eapply located_cfg; [|apply L]. intros; apply H.
  Qed.
  Lemma jac_matrix q0 abs : (forall m, In m (root :: ls) -> posed_at g s q0 abs m) ->
    exists l K, chain_jacobian s abs ss = Ok l /\ jac_twist s abs ss = Ok K /\ length l = length (ss_configs ss) /\ length K = length (ss_configs ss) /\
      velocity_matrix g root tip ls q0 (colmat l).
  Proof.
    intros Po. pose proof C as C'. destruct C' as [Rd Fo Pr Nn Zt Bt (rz & junk & n & Zr & Cn & Cc)].
    destruct (between_tip _ _ _ _ Bt Nn) as [It Nt].
    assert (Loc : forall m, In m (root :: ls) -> exists f, forall p, located g q0 m p (f p)).
    { intros m Hm. destruct (Po m Hm) as [->|(i & E & _ & _ & _ & L)]; [exists (fun p => p); intros; constructor|]. exists (place (TfModel.eq E) (ev E)). exact L. }
    destruct (Loc tip (or_intror It)) as [ft Lt]. destruct (Loc root (or_introl eq_refl)) as [fr Lr].
    destruct (c52 h s root tip rz tz ls junk ss abs (fun _ => q0) (fun _ => 0) 0 (fun _ => ft) fr) as (l & K & _ & _ & HJ & HK & _); auto.
    { destruct Bt as [P|P]; [left; split; [exact P|intros _ p; apply Lr]|right; exact P]. }
    { intros d _. apply derivable_pt_lim_const. }
    { intros m Hm. apply Po. now right. }
    assert (LK : length K = length (ss_configs ss)).
    { unfold jac_twist in HK. destruct (jac_loop s jac_twist_col abs (ss_frames ss) (length (ss_configs ss))) as [k| | |]; cbn [bind] in HK; try discriminate.
      destruct (Nat.eqb_spec (length k) (length (ss_configs ss))); [|discriminate]. now injection HK as <-. }
    assert (LJ : length l = length K).
    { unfold jac_twist in HK. unfold chain_jacobian in HJ. destruct (ss_frames ss) as [|f0 fs] eqn:Ef; [discriminate|].
      destruct (fk_read abs (last (f0 :: fs) 0%Z)) as [Ee| | |]; cbn [bind] in HJ; try discriminate.
      destruct (jac_loop s jac_twist_col abs (f0 :: fs) (length (ss_configs ss))) as [k| | |] eqn:E2; cbn [bind] in HK; try discriminate.
      assert (K = k) by (destruct (Nat.eqb (length k) (length (ss_configs ss))); [now injection HK as <-|discriminate]). subst k. eapply jac_loop_len; eauto. }
    exists l, K. split; [exact HJ|]. split; [exact HK|]. split; [congruence|]. split; [exact LK|].
    intros cfg t pos x Hq Hb Hpos Hx. destruct (rates_by_name cfg t (joint_decls g ls) x Hx) as [dcfg Hd].
    assert (Br : exists posr, forall u p, located g (cfg u) root p (posr p)).
    { destruct Hb as [->|B]; [exists (fun p => p); intros; constructor|exact B]. }
    destruct Br as [posr Hr].
    destruct (c52 h s root tip rz tz ls junk ss abs cfg dcfg t pos posr) as (l' & K' & v & w & HJ' & _ & SJ & _ & BV); auto.
    { destruct Bt as [P|P]; [left; split; [exact P|exact Hr]|right; exact P]. }
    { intros d Hin. apply In_nth_error in Hin. destruct Hin as [i Hi]. rewrite (Hd i d Hi). exact (Hx i d Hi). }
    { intros m Hm. apply (posed_cfg q0); [intros; symmetry; apply Hq|]. apply Po. now right. }
    rewrite HJ in HJ'. injection HJ' as <-.
    exists v, w. split; [exact BV|]. intros i Hi.
    assert (M : map (fun d => dcfg (d_cfg d)) (joint_decls g ls) = map x (seq 0 (length l))).
    { rewrite LJ, LK, joints_count. clear -Hd. revert x Hd. induction (joint_decls g ls) as [|d ds IH]; intros x Hd; [reflexivity|]. cbn [map length seq]. f_equal.
      - apply (Hd 0%nat). reflexivity.
      - rewrite <- seq_shift, map_map. apply (IH (fun j => x (S j))). intros i e He. apply (Hd (S i)). exact He. }
    change (declared h) with g in SJ. rewrite M in SJ. pose proof (col_sum_mulv l x i Hi) as E. rewrite SJ in E. cbn [fst snd] in E. rewrite E. f_equal. rewrite <- joints_count. congruence.
  Qed.
End Chain.
