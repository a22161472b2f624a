(** Proofs about the integration and the joint limits of a path. *)
From Coq Require Import ZArith String List Bool Reals Lra Lia FunctionalExtensionality.
From Verif Require Import TrModel TfModel TfSpec TfExpModel SgModel SgSpec SgKinSpec SgInvProofs SgQueryProofs SgClaims1 SgClaims2 SgClaims3 IkSpec IkModel IkObj
  MatModel MatSpec MatProofs LaModel LaSpec LaAlg RkModel RkSpec RkProofs
  WkSpec WkModel WkRateModel WkRateSpec WkRate2 WkRate4 IkSolveModel IkSolveSpec IkSolve IkSolve3
  TrCartModel TjxModel TjxSpec TjxProofs.
Import ListNotations.
Open Scope R_scope.

(** ** Steps *)
Lemma last_step_ex D dt : 0 < dt -> exists K, last_step D dt K.
Proof.
  intros H. assert (Hn : exists n, D / dt < INR n).
  { destruct (archimed (D / dt)) as [A _]. exists (Z.to_nat (Z.max 0 (up (D / dt)))). rewrite INR_IZR_INZ, Z2Nat.id by lia. eapply Rlt_le_trans; [exact A|]. apply IZR_le. lia. }
  destruct Hn as [n Hn].
  assert (Dn : D <= INR (S n) * dt). { rewrite S_INR. assert (D = D / dt * dt) by (field; lra). nra. }
  assert (G : forall m, (D <= INR (S m) * dt) -> exists K, last_step D dt K).
  { induction m as [|m IH]; intros Hm.
    - exists 1%nat. split; [lia|]. split; [exact Hm|]. intros; lia.
    - destruct (Rle_lt_dec D (INR (S m) * dt)) as [L|L]; [auto|].
      exists (S (S m)). split; [lia|]. split; [exact Hm|]. intros j Hj. eapply Rle_lt_trans; [|exact L].
      apply Rmult_le_compat_r; [lra|]. apply le_INR. lia. }
  eapply G; exact Dn.
Qed.

Section Loop.
  Context (gesdd : nat -> nat -> (nat -> nat -> R) -> svdres) (M0 : mem) (ev : R -> res (QV * DX))
    (s : sg) (ss : ssg) (p : ik_parm) (fr : Z) (q0 : list R) (nf : nat) (rel0 abs0 : list QV).
  Let sys := path_sys gesdd M0 ev s ss p fr q0 nf rel0 abs0.
  Let step := rk4 gesdd M0 ev s ss p fr q0 nf rel0 abs0.
  Let loop := path_loop gesdd M0 ev s ss p fr q0 nf rel0 abs0.
  Definition the_rates (t : R) (q : vec) : vec := match sys t q with Ok y => y | _ => fun _ => 0 end.
  Hypothesis T : forall t q, exists y, sys t q = Ok y.
  Lemma sys_rates t q : sys t q = Ok (the_rates t q).
  Proof. unfold the_rates. destruct (T t q) as [y E]. now rewrite E. Qed.
  Lemma step_rates t dt x : step t dt x = Ok (odestep_rk4 the_rates t dt x).
  Proof. unfold step, rk4. fold sys. rewrite !sys_rates. cbn [bind]. rewrite !sys_rates. cbn [bind]. rewrite !sys_rates. cbn [bind]. rewrite !sys_rates. cbn [bind]. reflexivity. Qed.
  Fixpoint iter_from (t dt : R) (x : vec) (k : nat) : vec :=
    match k with O => x | S j => odestep_rk4 the_rates (t + INR j * dt) dt (iter_from t dt x j) end.
  Lemma iter_shift dt k : forall t x, iter_from t dt x (S k) = iter_from (t + dt) dt (odestep_rk4 the_rates t dt x) k.
  Proof.
    induction k as [|k IH]; intros t x.
    - cbn [iter_from INR]. f_equal. ring.
    - cbn [iter_from] in IH |- *. rewrite <- IH. f_equal. change (match k with 0%nat => 1 | S _ => INR k + 1 end) with (INR (S k)). rewrite S_INR. ring.
  Qed.
  Lemma loop_ok D dt K : forall t x fuel, (1 <= K)%nat -> D <= t + INR K * dt -> (forall j, (1 <= j < K)%nat -> t + INR j * dt < D) ->
    loop fuel D t dt x = if Nat.leb K fuel then Ok (map (iter_from t dt x) (seq 1 K)) else Hang.
  Proof.
    induction K as [|K IH]; intros t x fuel HK HD Hj; [lia|]. destruct fuel as [|fuel]; [reflexivity|].
    unfold loop. cbn [path_loop]. fold step sys loop. rewrite step_rates. cbn [bind]. rewrite sys_rates. cbn [bind].
    assert (E1 : iter_from t dt x 1 = odestep_rk4 the_rates t dt x) by (cbn [iter_from INR]; f_equal; ring).
    destruct (Nat.eq_dec K 0) as [->|NK].
    - cbn [INR] in HD. destruct (Rle_dec D (t + dt)) as [_|N]; [|exfalso; apply N; lra]. cbn [Nat.leb seq map]. rewrite E1. reflexivity.
    - specialize (Hj 1%nat ltac:(lia)) as H1. cbn [INR] in H1. destruct (Rle_dec D (t + dt)) as [N|_]; [lra|].
      unfold loop in IH |- *. rewrite IH.
      + change (Nat.leb (S K) (S fuel)) with (Nat.leb K fuel). destruct (Nat.leb K fuel); [|reflexivity]. cbn [bind].
        change (seq 1 (S K)) with (1%nat :: seq 2 K). cbn [map]. rewrite E1. f_equal. f_equal.
        rewrite <- (seq_shift K 1), map_map. apply map_ext. intros k. now rewrite iter_shift.
      + lia.
      + rewrite S_INR in HD. lra.
      + intros j Hj'. specialize (Hj (S j) ltac:(lia)). rewrite S_INR in Hj. lra.
  Qed.
  (** a step that does not advance *)
  Lemma loop_endless D dt fuel : dt <= 0 -> forall t x, t < D -> loop fuel D t dt x = Hang.
  Proof.
    intros H. induction fuel as [|fuel IH]; intros t x Ht; [reflexivity|].
    unfold loop. cbn [path_loop]. fold step sys loop. rewrite step_rates. cbn [bind]. rewrite sys_rates. cbn [bind].
    destruct (Rle_dec D (t + dt)) as [N|_]; [lra|]. unfold loop in IH. rewrite IH by lra. reflexivity.
  Qed.
  Lemma sys_dim : of_dim (length (ss_configs ss)) the_rates.
  Proof.
    intros t x y H i Hi. assert (E : sys t x = sys t y); [|now unfold the_rates; rewrite E].
    unfold sys, path_sys. rewrite (to_list_ext _ x y H). reflexivity.
  Qed.
End Loop.

(** ** Limits *)
Lemma rows_ok row : forall ids, (forall i, In i ids -> exists x, row (Z.of_nat i) = Ok x) ->
  exists l, rows row ids = Ok l /\ Forall2 (fun i x => row (Z.of_nat i) = Ok x) ids l.
Proof.
  induction ids as [|i ids IH]; intros H; [exists []; auto|]. destruct (H i (or_introl eq_refl)) as [x E].
  destruct IH as (l & El & F); [intros; apply H; now right|]. exists (x :: l). cbn [rows]. rewrite E. cbn [bind]. rewrite El. cbn [bind]. auto.
Qed.
Lemma limit_ok h s k n i : ready h s -> config_count s = Ok n -> (i < n)%nat -> exists o, sg_get_limit s k (Z.of_nat i) = Ok o.
Proof.
  intros Rd Cn Hi. destruct (ready_inv _ _ Rd) as [I [l X]]. unfold config_count, clean in Cn. pose proof Rd as [_ Dt]. rewrite Dt in Cn.
  destruct (nth_error (s_crmap s) i) as [c|] eqn:E.
  - destruct (c54_sound h s k c (Z.of_nat i) Rd) as [H|H]; eauto.
    + eapply config_id_ok; eauto.
    + unfold CONFIG_NONE. lia.
  - apply nth_error_None in E. destruct (id_csize _ _ X) as [Ec|[Ec _]]; rewrite Ec in Cn; [|discriminate]. cbn in Cn. injection Cn as <-. lia.
Qed.
Lemma rows_nth (row : Z -> res lim_row) ids l i (x : lim_row) : Forall2 (fun i x => row (Z.of_nat i) = Ok x) ids l -> nth_error l i = Some x -> exists j, nth_error ids i = Some j /\ row (Z.of_nat j) = Ok x.
Proof. intros F. revert i. induction F as [|a b ids l H F IH]; intros [|i] E; try discriminate; cbn in *; [injection E as <-; eauto|auto]. Qed.
Lemma seq_nth_error n i j : nth_error (seq 0 n) i = Some j -> j = i /\ (i < n)%nat.
Proof.
  intros H. assert (L : (i < n)%nat) by (rewrite <- (seq_length n 0); apply nth_error_Some; congruence).
  split; [|exact L]. apply (nth_error_nth _ _ 0%nat) in H. rewrite seq_nth in H by exact L. lia.
Qed.
Lemma bind_ok {A B} (r : res A) (f : A -> res B) b : bind r f = Ok b -> exists a, r = Ok a /\ f a = Ok b.
Proof. destruct r; try discriminate. cbn. eauto. Qed.

Section Tables.
  Context (h : list op) (s : sg) (n : nat).
  Hypothesis Rd : ready h s.
  Hypothesis Cn : config_count s = Ok n.
  Lemma limits_table (g : Z -> lkind -> option (R * R) -> ext * ext) :
    exists l, rows (fun i =>
      do p <- sg_get_limit s LPos i; do v <- sg_get_limit s LVel i; do a <- sg_get_limit s LAcc i; do e <- sg_get_limit s LEff i;
      Ok (mkLR (g i LPos p) (g i LVel v) (g i LAcc a) (g i LEff e))) (seq 0 n) = Ok l /\ length l = n /\
      forall i r k, nth_error l i = Some r -> exists o, sg_get_limit s k (Z.of_nat i) = Ok o /\ of_kind k r = g (Z.of_nat i) k o.
  Proof.
    set (row := fun i : Z => do p <- sg_get_limit s LPos i; do v <- sg_get_limit s LVel i; do a <- sg_get_limit s LAcc i; do e <- sg_get_limit s LEff i;
      Ok (mkLR (g i LPos p) (g i LVel v) (g i LAcc a) (g i LEff e))).
    destruct (rows_ok row (seq 0 n)) as (l & E & F).
    { intros i Hi. apply in_seq in Hi. destruct (limit_ok h s LPos n i Rd Cn) as [o1 E1]; [lia|]. destruct (limit_ok h s LVel n i Rd Cn) as [o2 E2]; [lia|].
      destruct (limit_ok h s LAcc n i Rd Cn) as [o3 E3]; [lia|]. destruct (limit_ok h s LEff n i Rd Cn) as [o4 E4]; [lia|].
      unfold row. rewrite E1, E2, E3, E4. cbn [bind]. eauto. }
    exists l. split; [exact E|]. split; [rewrite <- (f2_length _ _ _ F); apply seq_length|].
    intros i r k Hr. destruct (rows_nth row _ _ _ _ F Hr) as (j & Hj & Ej). apply seq_nth_error in Hj as [-> Hi]. unfold row in Ej.
    apply bind_ok in Ej as (o1 & E1 & Ej). apply bind_ok in Ej as (o2 & E2 & Ej). apply bind_ok in Ej as (o3 & E3 & Ej). apply bind_ok in Ej as (o4 & E4 & Ej).
    injection Ej as <-. destruct k; cbn [of_kind lr_pos lr_vel lr_acc lr_eff]; eauto.
  Qed.
  Lemma c85_limits : exists l, ct_limits s = Ok l /\ length l = n /\
    forall i r k, nth_error l i = Some r -> exists o, sg_get_limit s k (Z.of_nat i) = Ok o /\
      of_kind k r = match o with Some (a, b) => (Fin a, Fin b) | None => (NegInf, PosInf) end.
  Proof.
    destruct (limits_table (fun _ _ => or_inf)) as (l & E & L & H). exists l. unfold ct_limits. rewrite Cn. cbn [bind]. split; [exact E|]. split; [exact L|].
    intros i r k Hr. destruct (H i r k Hr) as (o & Ho & V). exists o. split; [exact Ho|]. rewrite V. destruct o as [[a b]|]; reflexivity.
  Qed.
  Lemma c85_sg_limits junk : exists l, ct_sg_limits s junk = Ok l /\ length l = n /\
    forall i r k, nth_error l i = Some r -> exists o, sg_get_limit s k (Z.of_nat i) = Ok o /\
      of_kind k r = match o with Some (a, b) => (Fin a, Fin b) | None => match k with LEff => (Fin (fst (junk (Z.of_nat i))), Fin (snd (junk (Z.of_nat i)))) | _ => (Fin 0, Fin 0) end end.
  Proof.
    destruct (limits_table (fun i k => or_old (match k with LEff => junk i | _ => (0, 0) end))) as (l & E & L & H). exists l. unfold ct_sg_limits. rewrite Cn. cbn [bind]. split; [exact E|]. split; [exact L|].
    intros i r k Hr. destruct (H i r k Hr) as (o & Ho & V). exists o. split; [exact Ho|]. rewrite V. destruct o as [[a b]|]; [reflexivity|]. destruct k; reflexivity.
  Qed.
End Tables.

(** ** Clamping *)
Lemma fclamp_nearest x a b : a <= b -> nearest_within a b x (fclamp x a b).
Proof.
  intros H. unfold nearest_within, fclamp. destruct (Rlt_dec b x), (Rlt_dec x a); split; try lra; intros z Hz; unfold Rabs; repeat destruct Rcase_abs; lra.
Qed.
Lemma fclamp_zero x : fclamp x 0 0 = 0.
Proof. unfold fclamp. destruct (Rlt_dec 0 x), (Rlt_dec x 0); lra. Qed.
Section Clamp.
  Context (s : sg) (L : list lim_row) (junk : Z -> R * R) (n : nat).
  Hypothesis Ln : length L = n.
  Hypothesis HL : forall i r k, nth_error L i = Some r -> exists o, sg_get_limit s k (Z.of_nat i) = Ok o /\
      of_kind k r = match o with Some (a, b) => (Fin a, Fin b) | None => match k with LEff => (Fin (fst (junk (Z.of_nat i))), Fin (snd (junk (Z.of_nat i)))) | _ => (Fin 0, Fin 0) end end.
  Lemma point_ok : forall ids lims x, Forall2 (fun c l => sg_get_limit s LPos c = Ok l) ids lims ->
    (forall c, In c ids -> (0 <= c < Z.of_nat n)%Z) -> length x = length ids ->
    exists y, clamp_point L ids x = Ok y /\ length y = length lims /\
      forall i l, nth_error lims i = Some l -> match l with Some (a, b) => a <= b -> nearest_within a b (nth i x 0) (nth i y 0) | None => nth i y 0 = 0 end.
  Proof.
    intros ids lims x F. revert x. induction F as [|c l ids lims Hc F IH]; intros x B Lx; destruct x as [|a x]; try discriminate.
    - exists []. split; [reflexivity|]. split; [reflexivity|]. intros [|i] l E; discriminate.
    - destruct (IH x) as (y & Ey & Ly & Hy); [intros; apply B; now right|now injection Lx|].
      cbn [clamp_point]. assert (Bc := B c (or_introl eq_refl)). destruct (Z.ltb_spec c 0); [lia|].
      destruct (nth_error L (Z.to_nat c)) as [r|] eqn:Er; [|apply nth_error_None in Er; lia]. cbn [from bind].
      destruct (HL _ _ LPos Er) as (o & Ho & V). rewrite Z2Nat.id in Ho by lia. rewrite Hc in Ho. injection Ho as <-.
      cbn [of_kind] in V. rewrite V.
      destruct l as [[mn mx]|]; cbn [bind]; rewrite Ey; cbn [bind]; eexists; (split; [reflexivity|]); (split; [cbn; congruence|]); intros [|i] l' E; cbn in *; auto.
      + injection E as <-. apply fclamp_nearest.
      + apply Hy; exact E.
      + injection E as <-. apply fclamp_zero.
      + apply Hy; exact E.
  Qed.
  Lemma points_ok ids lims : Forall2 (fun c l => sg_get_limit s LPos c = Ok l) ids lims -> (forall c, In c ids -> (0 <= c < Z.of_nat n)%Z) ->
    forall xs, (forall x, In x xs -> length x = length ids) -> exists ys, clamp_points L ids xs = Ok ys /\
      Forall2 (fun x y => length y = length lims /\
        forall i l, nth_error lims i = Some l -> match l with Some (a, b) => a <= b -> nearest_within a b (nth i x 0) (nth i y 0) | None => nth i y 0 = 0 end) xs ys.
  Proof.
    intros F B. induction xs as [|x xs IH]; intros Hx; [exists []; auto|].
    destruct (point_ok ids lims x F B) as (y & Ey & Hy); [apply Hx; now left|]. destruct IH as (ys & Es & Hs); [intros; apply Hx; now right|].
    exists (y :: ys). cbn [clamp_points]. rewrite Ey. cbn [bind]. rewrite Es. cbn [bind]. auto.
  Qed.
End Clamp.

(** ** The path *)
Section Whole.
  Context (gesdd : nat -> nat -> (nat -> nat -> R) -> svdres) (M0 : mem) (junk : Z -> R * R).
  Context (h : list op) (s : sg) (root tip : string) (tz : Z) (ls : list string) (ss : ssg) (p : ik_parm) (q0 : list R).
  Hypothesis C : chain_of h s root tip tz ls ss.
  Let g := declared h.
  Let n := length (ss_configs ss).
  Hypothesis Nd : NoDup (map d_cfg (joint_decls g ls)).
  Hypothesis Cq : config_count s = Ok (length q0).
  Hypothesis Fr : ip_frame p = FRAME_NONE \/ ip_frame p = tz.
  Hypothesis S2 : 0 < wo_s2min (ip_wk p).
  Hypothesis Sv : svd_works gesdd s ss.
  Hypothesis Rg : ref_given p n.
  Context (ev : R -> res (QV * DX)) (X : R -> QV) (dX : R -> DX).
  Hypothesis Te : forall t, ev t = Ok (X t, dX t).

  Hypothesis Pn : (0 < n)%nat.

  Lemma path_unfold rel0 abs0 q D fuel : sg_tf s q0 (Z.to_nat (frame_count s)) = Ok (rel0, abs0) -> config_get (ss_configs ss) q0 = Ok q ->
    tjx_path gesdd M0 junk fuel ev D s ss p (Some q0) =
        do L <- ct_sg_limits s junk;
        do xs <- path_loop gesdd M0 ev s ss p tz q0 (Z.to_nat (frame_count s)) rel0 abs0 fuel D 0 (ip_dt p) (of_list q);
        do pts <- clamp_points L (ss_configs ss) (map (to_list n) (of_list q :: xs));
        Ok (0%Z, pts).
  Proof.
    intros T0 Eg. destruct (chain_ids h s root tip tz ls ss q0 C Nd Cq) as (_ & Ok1 & _).
    unfold tjx_path. assert (Nq : Nat.eqb (length q0) 0 = false).
        { apply Nat.eqb_neq. unfold n in Pn. destruct (ss_configs ss) as [|c r] eqn:Ec; [cbn in Pn; lia|]. specialize (Ok1 c (or_introl eq_refl)). lia. }
        rewrite Nq, Cq. cbn [bind]. rewrite Nat.eqb_refl. cbn [negb].
        assert (Ef : (if Z.eqb (ip_frame p) FRAME_NONE then do e <- from (ss_ees ss); from (hd_error e) else Ok (ip_frame p)) = Ok tz).
        { destruct (ch_built _ _ _ _ _ _ _ C) as (rz & jk & m & Zr & _ & Cc).
          destruct (c50_chain h s root tip rz tz ls jk (ch_ready _ _ _ _ _ _ _ C) (ch_forest _ _ _ _ _ _ _ C) Zr (ch_tip _ _ _ _ _ _ _ C) (ch_between _ _ _ _ _ _ _ C)) as (zs & cs & E & _).
          rewrite E in Cc. injection Cc as <-. cbn [ss_ees from bind hd_error].
          destruct (Z.eqb_spec (ip_frame p) FRAME_NONE); [reflexivity|]. destruct Fr as [Ff|Ff]; [contradiction|now rewrite Ff]. }
        rewrite Ef. cbn [bind]. rewrite T0, Eg. cbn [bind]. reflexivity. 
  Qed.
  Lemma c85_path : exists f x,
    (forall t q cfg, chain_at g s ls q0 q cfg -> tracking_rates g root tip ls gesdd p n cfg q (X t) (dX t) (f t q)) /\
    of_dim n f /\
    (forall i d, nth_error (joint_decls g ls) i = Some d -> x 0%nat i = config_of s q0 (d_cfg d)) /\
    (forall k, rk_step rk4_T rk4_b n f (INR k * ip_dt p) (ip_dt p) (x k) (x (S k))) /\
    forall D K fuel lims, last_step D (ip_dt p) K -> limits_seen g s ls lims ->
      ((K <= fuel)%nat -> exists pts, tjx_path gesdd M0 junk fuel ev D s ss p (Some q0) = Ok (0%Z, pts) /\ length pts = S K /\
        forall k y, nth_error pts k = Some y -> clamped lims (x k) y) /\
      ((fuel < K)%nat -> tjx_path gesdd M0 junk fuel ev D s ss p (Some q0) = Hang).
  Proof.
    destruct (c47_tf h s q0 (Z.to_nat (frame_count s)) (ch_ready _ _ _ _ _ _ _ C) (ch_forest _ _ _ _ _ _ _ C) (ch_proper _ _ _ _ _ _ _ C) Cq) as (rel0 & abs0 & T0 & _).
    destruct (chain_ids h s root tip tz ls ss q0 C Nd Cq) as (Ni & Ok1 & F2). fold g in F2.
    destruct (config_get_ok (ss_configs ss) q0 Ok1) as (q & Eg & Lq & Vq).
    assert (T : forall t v, exists y, path_sys gesdd M0 ev s ss p tz q0 (Z.to_nat (frame_count s)) rel0 abs0 t v = Ok y).
    { intros t v. destruct (sys_ok gesdd M0 h s root tip tz ls ss p q0 C Nd Cq S2 Sv Rg ev rel0 abs0 T0 t v (X t) (dX t) (Te t)) as (y & E & _). eauto. }
    set (f := the_rates gesdd M0 ev s ss p tz q0 (Z.to_nat (frame_count s)) rel0 abs0).
    set (x := iter_from gesdd M0 ev s ss p tz q0 (Z.to_nat (frame_count s)) rel0 abs0 0 (ip_dt p) (of_list q)).
    assert (Fd : of_dim n f) by apply sys_dim.
    exists f, x. split; [|split; [exact Fd|split; [|split]]].
    - intros t v cfg Hc. destruct (sys_ok gesdd M0 h s root tip tz ls ss p q0 C Nd Cq S2 Sv Rg ev rel0 abs0 T0 t v (X t) (dX t) (Te t)) as (y & E & H).
      unfold f, the_rates. rewrite E. now apply H.
    - intros i d Hd. unfold x, of_list. cbn [iter_from]. destruct (f2_nth _ _ _ F2 i d Hd) as (z & Hz & Cz & Pz).
      unfold config_of. rewrite Cz. specialize (Vq i z Hz). specialize (Ok1 z (nth_error_In _ _ Hz)).
      destruct (nth_error q0 (Z.to_nat z)) as [a|] eqn:Ea; [|apply nth_error_None in Ea; lia].
      transitivity a; [now apply nth_error_nth|symmetry; now apply nth_error_nth].
    - intros k. unfold x. cbn [iter_from]. rewrite Rplus_0_l. now apply rk4_step.
    - intros D K fuel lims [K1 [K2 K3]] HL.
      rewrite (path_unfold rel0 abs0 q D fuel T0 Eg). destruct (c85_sg_limits h s (length q0) (ch_ready _ _ _ _ _ _ _ C) Cq junk) as (L & EL & LL & VL). rewrite EL. cbn [bind].
      assert (E1 := loop_ok gesdd M0 ev s ss p tz q0 (Z.to_nat (frame_count s)) rel0 abs0 T D (ip_dt p) K 0 (of_list q) fuel K1).
      rewrite E1 by (try lra; intros j Hj; specialize (K3 j Hj); lra). clear E1. fold x.
      destruct (Nat.leb_spec K fuel) as [Le|Lt]; split; intros Hf; try lia; [|reflexivity].
      cbn [bind]. pose proof (chain_limits h s root tip tz ls ss lims C HL) as F.
      change (of_list q :: map x (seq 1 K)) with (map x (seq 0 (S K))).
      destruct (points_ok s L junk (length q0) LL VL (ss_configs ss) lims F Ok1 (map (to_list n) (map x (seq 0 (S K))))) as (ys & Ey & Fy).
      { intros v Hv. apply in_map_iff in Hv as (w & <- & _). apply to_list_len. }
      exists ys. split; [now rewrite Ey|]. split; [rewrite <- (f2_length _ _ _ Fy), !map_length; apply seq_length|].
      intros k y Hy. rewrite map_map in Fy.
      assert (Hk : (k < S K)%nat). { rewrite <- (seq_length (S K) 0), <- (map_length (fun a => to_list n (x a))), (f2_length _ _ _ Fy). apply nth_error_Some. congruence. }
      assert (Hx : nth_error (map (fun a => to_list n (x a)) (seq 0 (S K))) k = Some (to_list n (x k))).
      { rewrite nth_error_map, (nth_error_nth' (seq 0 (S K)) 0%nat) by (rewrite seq_length; exact Hk). cbn [option_map]. now rewrite seq_nth. }
      destruct (f2_nth _ _ _ Fy k _ Hx) as (y' & Hy' & Ly & Vy). rewrite Hy in Hy'. injection Hy' as <-.
      split; [exact Ly|]. intros i l Hl. specialize (Vy i l Hl).
      assert (Hi : (i < n)%nat). { unfold n. rewrite (f2_length _ _ _ F). apply nth_error_Some. congruence. }
      rewrite to_list_nth in Vy by exact Hi. exact Vy.
  Qed.
  Lemma c85_endless D fuel : ip_dt p <= 0 -> 0 < D -> tjx_path gesdd M0 junk fuel ev D s ss p (Some q0) = Hang.
  Proof.
    intros Hd HD.
    destruct (c47_tf h s q0 (Z.to_nat (frame_count s)) (ch_ready _ _ _ _ _ _ _ C) (ch_forest _ _ _ _ _ _ _ C) (ch_proper _ _ _ _ _ _ _ C) Cq) as (rel0 & abs0 & T0 & _).
    destruct (chain_ids h s root tip tz ls ss q0 C Nd Cq) as (_ & Ok1 & _).
    destruct (config_get_ok (ss_configs ss) q0 Ok1) as (q & Eg & _).
    rewrite (path_unfold rel0 abs0 q D fuel T0 Eg). destruct (c85_sg_limits h s (length q0) (ch_ready _ _ _ _ _ _ _ C) Cq junk) as (L & EL & _). rewrite EL. cbn [bind].
    rewrite loop_endless; [reflexivity| |exact Hd|exact HD].
    intros t v. destruct (sys_ok gesdd M0 h s root tip tz ls ss p q0 C Nd Cq S2 Sv Rg ev rel0 abs0 T0 t v (X t) (dX t) (Te t)) as (y & E & _). eauto.
  Qed.
End Whole.
