(** A single slider led along a straight line. *)
From Coq Require Import ZArith String List Bool Reals Lra Lia.
From Verif Require Import TrModel TfModel TfSpec TfProofs TfCalcProofs TfExpModel TfExpSpec TfExpProofs TfLogProofs TfInterpProofs SgModel SgSpec SgKinSpec SgInvProofs SgQueryProofs
  SgClaims1 SgClaims2 SgClaims3 SgExamples IkSpec IkModel IkObj IkPose MatModel MatSpec MatProofs LaModel LaSpec LaAlg RkModel RkSpec RkProofs
  WkSpec WkModel WkServo WkLoop WkRateModel WkRateSpec WkRate2 WkRate4 IkSolveModel IkSolveSpec IkSolve IkSolve3
  TrCartModel TrCartProofs TjxModel TjxSpec TjxProofs TjxPath TjxMore.
Import ListNotations.
Open Scope R_scope.

Definition h_one : list op := [pris "" "a" "qa" q1 v0; OLimit LPos "qa" (-10) 10; OInit]%string.
Definition one : sg := get h_one.
Lemma one_ready : ready h_one one. Proof. ready. Qed.
Lemma one_forest : forest (declared h_one).
Proof.
  split; [reflexivity|]. assert (A : rooted (declared h_one) "a") by (eapply rooted_top; reflexivity).
  intros n d G. unfold h_one in G. declt G; auto.
Qed.
Lemma one_proper : proper (declared h_one).
Proof. intros n d G. unfold h_one in G. declt G; (split; [exact unit_q1|discriminate]). Qed.
Lemma one_chain : exists ss, chain_of h_one one "" "a" 0 ["a"%string] ss /\ ss_frames ss = [0%Z] /\ ss_configs ss = [0%Z].
Proof.
  assert (I0 : id_of one "" FRAME_ROOT) by (split; [vm_compute; reflexivity|discriminate]).
  eexists (SgModel.mkSS _ _ _). split; [|split; reflexivity].
  constructor; auto using one_ready, one_forest, one_proper; [discriminate|split; [vm_compute; reflexivity|discriminate]| |].
  - left. change ["a"%string] with ([] ++ ["a"%string])%list. eapply path_step; [discriminate|discriminate|reflexivity|]; cbn [d_parent]. constructor.
  - exists FRAME_ROOT, (fun _ => 0%Z), 1%nat. split; [exact I0|]. split; [vm_compute; reflexivity|]. vm_compute. reflexivity.
Qed.
Definition one_svd : svdres := {| sU := delta; sS := fun l => match l with 0%nat => 1 | _ => 0 end; sVt := delta |}.
Lemma one_is_svd A : (forall i, (i < 6)%nat -> A i 0%nat = delta i 0) -> is_svd 6 1 A one_svd.
Proof.
  intros H. split; [|split; [|split; [|split]]].
  - intros i j Hi Hj. assert (j = 0%nat) as -> by lia. rewrite H by exact Hi. cbn [Nat.min bsum one_svd sU sS sVt]. unfold delta at 3. cbn [Nat.eqb]. ring.
  - intros k l Hk Hl. cbn [one_svd sU]. rewrite (bsum_ext 6 _ (fun i => delta i k * delta l i)) by (intros; f_equal; apply delta_sym). now rewrite bsum_delta, delta_sym by exact Hl.
  - intros k l Hk Hl. assert (k = 0%nat) as -> by lia. assert (l = 0%nat) as -> by lia. cbn [bsum one_svd sVt]. unfold delta. cbn [Nat.eqb]. ring.
  - intros [|l] Hl; cbn [one_svd sS]; lra.
  - intros [|k] [|l] Hk Hl; cbn [one_svd sS]; try lra; cbn in Hl; lia.
Qed.
Lemma one_located cfg p : located (declared h_one) cfg "a" p (plus3 p (mkV (cfg "qa"%string) 0 0)).
Proof.
  eapply loc_frame; [discriminate|reflexivity|]. apply loc_end; [reflexivity|]. destruct p as [a b c]. cbv -[IZR Rplus Rmult Ropp Rminus Rdiv Rinv]. generalize (cfg (String (Ascii.Ascii true false false false true true true false) (String (Ascii.Ascii true false false false false true true false) EmptyString))).
  intros r. f_equal; ring.
Qed.
Lemma one_works ss : ss_frames ss = [0%Z] -> ss_configs ss = [0%Z] -> svd_works (fun _ _ _ => one_svd) one ss.
Proof.
  intros Ef Ec q nf rel abs l Et EJ. rewrite Ec. cbn [length]. cbv zeta.
  assert (X : exists b, sg_tf one [b] 1 = Ok (rel, abs)).
  { unfold sg_tf, fk_run in *. destruct q as [|b [|c q]]; [vm_compute in Et; discriminate| |vm_compute in Et; discriminate].
    exists b. destruct nf as [|[|nf]]; [|exact Et|exact Et]. exfalso.
    change (Ok ([], []) = Ok (rel, abs)) in Et. injection Et as <- <-. unfold chain_jacobian in EJ. rewrite Ef in EJ. discriminate EJ. }
  destruct X as [b X]. 
  assert (Y : sg_tf one [b] 1 = Ok ([mkE q1 (mkV b 0 0)], [mkE q1 (mkV b 0 0)])) by calc.
  rewrite Y in X. injection X as <- <-.
  assert (Z : chain_jacobian one [mkE q1 (mkV b 0 0)] ss = Ok [(v0, ux)]).
  { unfold chain_jacobian. rewrite Ef, Ec. calc. }
  rewrite Z in EJ. injection EJ as <-. split; [|reflexivity].
  apply one_is_svd. intros i Hi. do 6 (destruct i as [|i]; [reflexivity|]); lia.
Qed.

(** the Jacobian of the slider *)
Lemma vderiv_unique f t a b : vderiv f t a -> vderiv f t b -> a = b.
Proof. intros (A1 & A2 & A3) (B1 & B2 & B3). destruct a, b. cbn in *. f_equal; eapply uniqueness_limite; eauto. Qed.
Lemma one_matrix cfg J : velocity_matrix (declared h_one) "" "a" ["a"%string] cfg J -> forall i, (i < 6)%nat -> J i 0%nat = delta i 0.
Proof.
  intros H. set (c := fun (u : R) (n : string) => cfg n + u).
  destruct (H c 0 (fun u p => plus3 p (mkV (cfg "qa"%string + u) 0 0)) (fun _ => 1)) as (v & w & Bv & E).
  - intros n. unfold c. ring.
  - now left.
  - intros u p. apply (one_located (c u)).
  - intros i d Hd. unfold c. eapply dpl_eq; [|apply dpl_plus; [apply dpl_const|apply derivable_pt_lim_id]]. ring.
  - assert (D : forall p, vderiv (fun u => plus3 p (mkV (cfg "qa"%string + u) 0 0)) 0 (mkV 1 0 0)).
    { intros [a b e]. unfold vderiv, plus3. cbn. repeat split.
      - eapply dpl_eq; [|apply dpl_plus; [apply dpl_const|apply dpl_plus; [apply dpl_const|apply derivable_pt_lim_id]]]. ring.
      - eapply dpl_eq; [|apply dpl_const]. ring.
      - eapply dpl_eq; [|apply dpl_const]. ring. }
    assert (K : forall p, plus3 v (xprod w (plus3 (plus3 p (mkV (cfg "qa"%string + 0) 0 0)) (times3 (-1) (plus3 zero3 (mkV (cfg "qa"%string + 0) 0 0))))) = mkV 1 0 0).
    { intros p. eapply vderiv_unique; [apply (Bv p)|apply D]. }
    assert (K0 := K zero3). assert (K1 := K (mkV 1 0 0)). assert (K2 := K (mkV 0 1 0)). clear K Bv D H.
    destruct v as [v1 v2 v3], w as [w1 w2 w3]. unfold plus3, xprod, times3, zero3 in *. cbn in K0, K1, K2.
    injection K0 as A1 A2 A3. injection K1 as B1 B2 B3. injection K2 as C1 C2 C3.
    intros i Hi. specialize (E i Hi). assert (Lj : length (joint_decls (declared h_one) ["a"%string]) = 1%nat) by reflexivity. rewrite Lj in E. unfold mulv in E. cbn [bsum] in E.
    rewrite Rmult_1_r, Rplus_0_l in E. rewrite <- E.
    destruct i as [|[|[|[|[|[|i]]]]]]; [..|lia]; unfold stacked, delta; cbn; lra.
Qed.
(** the rate of the slider *)
Lemma one_rate p cfg q x d y : ip_qref p = None -> 0 < wo_s2min (ip_wk p) <= 1 -> cfg "qa"%string = q 0%nat ->
  tracking_rates (declared h_one) "" "a" ["a"%string] (fun _ _ _ => one_svd) p 1 cfg q (mkE q1 (mkV x 0 0)) (mkDX (mkV d 0 0) (mkV 0 0 0)) y ->
  y 0%nat = d + wo_trans (ip_wk p) / 2 * (x - q 0%nat).
Proof.
  intros Hq Hs Hc (J & E & VJ & UE & LE & H). cbv zeta in H. rewrite Hq in H.
  rewrite (servo_shift _ _ E _ _ (mkV (x - q 0%nat) 0 0) UE) in H.
  - cbn [dxv dxw] in H. pose proof (one_matrix cfg J VJ) as HJ.
    assert (Rg : regular (ip_wk p) 1 one_svd).
    { left. split; [lra|]. intros [|l] Hl; [|cbn in Hl; lia]. right. cbn. rewrite <- sqrt_1 at 1. apply sqrt_le_1; lra. }
    pose proof (rf_meets _ _ _ _ _ _ H Rg) as M.
    assert (G : 1 * y 0%nat = d + wo_trans (ip_wk p) / 2 * (x - q 0%nat)); [|lra].
    transitivity (mulv 1 J y 0%nat); [unfold mulv; cbn [bsum]; rewrite HJ by lia; unfold delta; cbn [Nat.eqb]; ring|].
    rewrite M; [reflexivity| |lia].
    exists (fun _ => d + wo_trans (ip_wk p) / 2 * (x - q 0%nat)). intros i Hi. unfold mulv. cbn [bsum]. rewrite HJ by exact Hi.
    destruct i as [|[|[|[|[|[|i]]]]]]; [..|lia]; unfold stacked, delta, plus3, times3; cbn; ring.
  - exact unit_q1.
  - intros a. rewrite (located_fun _ _ _ _ _ _ (LE a) (one_located cfg a)). rewrite Hc. destruct a as [a1 a2 a3]. unfold point. rewrite place_rot by exact unit_q1.
    unfold plus3. tfc. cbv [q1]. cbn. f_equal; ring.
Qed.

(** ** From the origin to one unit along the slider *)
Definition line_0 : QV := mkE q1 v0.
Definition line_1 : QV := mkE q1 (mkV 1 0 0).
Lemma qslerp_same t : qslerp t q1 q1 = q1.
Proof.
  pose proof PI_RGT_0.
  assert (A : 0 = slerp_angle q1 q1).
  { apply (slerp_angle_of q1 q1 0 unit_q1 unit_q1); [lra|]. rewrite cos_0. replace (dot4 q1 q1) with 1 by (unfold dot4, q1; cbn; ring). rewrite Rabs_R1. reflexivity. }
  destruct (slerp_param q1 q1 unit_q1 unit_q1) as (_ & _ & _ & F). rewrite F, <- A. destruct (Rlt_dec 0 0); [lra|reflexivity].
Qed.
Lemma line_X t : 0 < t < 1 -> slerp_X line_0 line_1 t = mkE q1 (mkV t 0 0) /\ slerp_dX line_0 line_1 t = mkDX (mkV 1 0 0) (mkV 0 0 0).
Proof.
  intros H. unfold slerp_X, slerp_dX. destruct (Rle_dec t 0); [lra|]. destruct (Rle_dec 1 t); [lra|]. cbn [line_0 line_1 TfModel.eq ev]. split.
  - rewrite qslerp_same. f_equal. unfold plus3, times3, v0. cbn. f_equal; ring.
  - f_equal; [unfold plus3, times3, v0; cbn; f_equal; ring|].
    replace (qmulc q1 q1) with (mkQ 0 0 0 1) by (unfold q1; tfc; f_equal; ring).
    unfold qminimize. cbn [qw]. destruct (Rlt_dec 1 0); [lra|]. rewrite qln_v0 by lra. unfold times3. cbn. f_equal; ring.
Qed.
Lemma line_ends : slerp_X line_0 line_1 0 = mkE q1 (mkV 0 0 0) /\ slerp_dX line_0 line_1 0 = mkDX (mkV 0 0 0) (mkV 0 0 0) /\
  slerp_X line_0 line_1 1 = mkE q1 (mkV 1 0 0) /\ slerp_dX line_0 line_1 1 = mkDX (mkV 0 0 0) (mkV 0 0 0).
Proof.
  unfold slerp_X, slerp_dX. destruct (Rle_dec 0 0); [|lra]. destruct (Rle_dec 1 0); [lra|]. destruct (Rle_dec 1 1); [|lra]. repeat split.
Qed.
Lemma one_ids : config_count one = Ok 1%nat. Proof. vm_compute. reflexivity. Qed.
Lemma one_limits : limits_seen (declared h_one) one ["a"%string] [Some (-10, 10)].
Proof.
  unfold limits_seen. assert (D : map d_cfg (joint_decls (declared h_one) ["a"%string]) = ["qa"%string]) by reflexivity.
  destruct (joint_decls (declared h_one) ["a"%string]) as [|d1 [|d2 l]]; try discriminate D. injection D as D1.
  repeat constructor; rewrite D1; eexists; (split; [vm_compute; reflexivity|]); (split; [discriminate|]); vm_compute; reflexivity.
Qed.
Lemma one_nodup : NoDup (map d_cfg (joint_decls (declared h_one) ["a"%string])).
Proof. change (NoDup ["qa"%string]). repeat constructor. intros []. Qed.
Lemma one_path ss M0 junk fuel ev : chain_of h_one one "" "a" 0 ["a"%string] ss -> ss_frames ss = [0%Z] -> ss_configs ss = [0%Z] ->
  (forall t, ev t = Ok (slerp_X line_0 line_1 t, slerp_dX line_0 line_1 t)) -> (1 <= fuel)%nat ->
  tjx_path (fun _ _ _ => one_svd) M0 junk fuel ev 1 one ss parm_create (Some [0]) = Ok (0%Z, [[0]; [47 / 64]]).
Proof.
  intros C Ef Ec Te Hf. assert (Ln : length (ss_configs ss) = 1%nat) by now rewrite Ec.
  destruct (c85_path (fun _ _ _ => one_svd) M0 junk h_one one "" "a" 0 ["a"%string] ss parm_create [0] C one_nodup one_ids (or_introl eq_refl)) with (ev := ev) (X := slerp_X line_0 line_1) (dX := slerp_dX line_0 line_1)
    as (f & x & Hr & Hd & H0 & Hs & Hp); auto.
  { cbn. lra. }
  { now apply one_works. }
  { rewrite Ln. exact I. }
  { rewrite Ln. lia. }
  rewrite Ln in *.
  assert (F : forall t q a d, slerp_X line_0 line_1 t = mkE q1 (mkV a 0 0) -> slerp_dX line_0 line_1 t = mkDX (mkV d 0 0) (mkV 0 0 0) ->
    f t q 0%nat = d + 1 / 2 * (a - q 0%nat)).
  { intros t q a d Ex Ed. set (cfg := fun c => if String.eqb c "qa" then q 0%nat else config_of one [0] c).
    specialize (Hr t q cfg). rewrite Ex, Ed in Hr. apply (one_rate parm_create cfg q a d (f t q)); [reflexivity|cbn; lra|reflexivity|].
    apply Hr. split.
    - intros i d' Hd'. destruct i as [|[|i]]; [|discriminate|discriminate]. cbn in Hd'. injection Hd' as <-. reflexivity.
    - intros c Nc. unfold cfg. destruct (String.eqb_spec c "qa") as [->|]; [|reflexivity]. exfalso. apply Nc. now left. }
  assert (X0 : x 0%nat 0%nat = 0).
  { specialize (H0 0%nat). cbn in H0. rewrite (H0 _ eq_refl). reflexivity. }
  destruct line_ends as (L1 & L2 & L3 & L4).
  assert (X1 : x 1%nat 0%nat = 47 / 64).
  { destruct (Hs 0%nat) as (k & Hk & Hx). specialize (Hx 0%nat ltac:(lia)). cbv beta in Hx. rewrite Hx, X0. clear Hx.
    assert (K0 := Hk 0%nat ltac:(cbn; lia) 0%nat ltac:(lia)). assert (K1 := Hk 1%nat ltac:(cbn; lia) 0%nat ltac:(lia)).
    assert (K2 := Hk 2%nat ltac:(cbn; lia) 0%nat ltac:(lia)). assert (K3 := Hk 3%nat ltac:(cbn; lia) 0%nat ltac:(lia)). clear Hk.
    cbn [rk4_T rk4_b length nth fst snd bsum INR parm_create ip_dt] in *.
    replace (0 * 1 + 0 * 1) with 0 in K0 by ring. replace (0 * 1 + 1 / 2 * 1) with (1 / 2) in K1, K2 by field. replace (0 * 1 + 1 * 1) with 1 in K3 by ring.
    destruct (line_X (1 / 2) ltac:(lra)) as [L5 L6].
    rewrite (F 0 _ 0 0 L1 L2) in K0. rewrite (F _ _ (1 / 2) 1 L5 L6) in K1. rewrite (F _ _ (1 / 2) 1 L5 L6) in K2. rewrite (F 1 _ 1 0 L3 L4) in K3. rewrite X0 in *. lra. }
  destruct (Hp 1 1%nat fuel [Some (-10, 10)]) as [Ok1 _].
  { split; [lia|]. split; [cbn; lra|]. intros; lia. }
  { exact one_limits. }
  destruct (Ok1 Hf) as (pts & Ep & Lp & Vp). rewrite Ep. do 2 f_equal.
  destruct pts as [|y0 [|y1 [|y2 pts]]]; try discriminate Lp.
  destruct (Vp 0%nat y0 eq_refl) as [A1 A2]. destruct (Vp 1%nat y1 eq_refl) as [B1 B2].
  destruct y0 as [|a [|? ?]]; try discriminate A1. destruct y1 as [|b [|? ?]]; try discriminate B1.
  destruct (A2 0%nat _ eq_refl ltac:(lra)) as [_ A3]. destruct (B2 0%nat _ eq_refl ltac:(lra)) as [_ B3]. rewrite X0 in A3. rewrite X1 in B3. cbn [nth] in A3, B3.
  specialize (A3 0 ltac:(lra)). specialize (B3 (47 / 64) ltac:(lra)). rewrite Rminus_eq_0, Rabs_R0 in A3, B3.
  assert (Ab : forall u, Rabs u <= 0 -> u = 0) by (intros u Hu; unfold Rabs in Hu; destruct Rcase_abs; lra).
  apply Ab in A3, B3. repeat f_equal; lra.
Qed.
Lemma c85_end : exists h s root tip tz ls ss q0 gesdd e0 e1 l, chain_of h s root tip tz ls ss /\ svd_works gesdd s ss /\ unit_qutr e0 /\ unit_qutr e1 /\
  slerp_generate [e0; e1] = Some (l, 1) /\ (forall a, located (declared h) (config_of s q0) tip a (point e0 a)) /\
  forall M0 junk fuel x v d, (1 <= fuel)%nat -> exists last, 
    tjx_path gesdd M0 junk fuel (slerp_traj l x v d) 1 s ss parm_create (Some q0) = Ok (0%Z, [q0; last]) /\
    forall a b, located (declared h) (config_of s last) tip a b -> point e1 a = plus3 b (mkV (17 / 64) 0 0).
Proof.
  destruct one_chain as (ss & C & Ef & Ec). destruct (slerp_traj_run line_0 line_1) as (l & G & Tr).
  assert (P : forall z a, point (mkE q1 (mkV z 0 0)) a = plus3 a (mkV z 0 0)).
  { intros z [a1 a2 a3]. unfold point. rewrite place_rot by exact unit_q1. unfold plus3. tfc. cbv [q1]. cbn. f_equal; ring. }
  exists h_one, one, ""%string, "a"%string, 0%Z, ["a"%string], ss, [0], (fun _ _ _ => one_svd), line_0, line_1, l.
  split; [exact C|]. split; [now apply one_works|]. split; [exact unit_q1|]. split; [exact unit_q1|]. split; [exact G|]. split.
  - intros a. unfold line_0, v0. rewrite P. apply one_located.
  - intros M0 junk fuel x v d Hf. exists [47 / 64]. split; [apply one_path; auto|].
    intros a b L. rewrite (located_fun _ _ _ _ _ _ L (one_located _ a)). unfold line_1. rewrite P.
    change (config_of one [47 / 64] "qa") with (47 / 64). destruct a. unfold plus3. cbn. f_equal; field.
Qed.

(** ** The same slider without limits *)
Definition h_free : list op := [pris "" "a" "qa" q1 v0; OInit]%string.
Definition free : sg := get h_free.
Lemma free_forest : forest (declared h_free).
Proof.
  split; [reflexivity|]. assert (A : rooted (declared h_free) "a") by (eapply rooted_top; reflexivity).
  intros n d G. unfold h_free in G. declt G; auto.
Qed.
Lemma free_proper : proper (declared h_free).
Proof. intros n d G. unfold h_free in G. declt G; (split; [exact unit_q1|discriminate]). Qed.
Lemma free_chain : exists ss, chain_of h_free free "" "a" 0 ["a"%string] ss /\ ss_frames ss = [0%Z] /\ ss_configs ss = [0%Z].
Proof.
  assert (Rd : ready h_free free) by ready.
  assert (I0 : id_of free "" FRAME_ROOT) by (split; [vm_compute; reflexivity|discriminate]).
  eexists (SgModel.mkSS _ _ _). split; [|split; reflexivity].
  constructor; auto using free_forest, free_proper; [discriminate|split; [vm_compute; reflexivity|discriminate]| |].
  - left. change ["a"%string] with ([] ++ ["a"%string])%list. eapply path_step; [discriminate|discriminate|reflexivity|]; cbn [d_parent]. constructor.
  - exists FRAME_ROOT, (fun _ => 0%Z), 1%nat. split; [exact I0|]. split; [vm_compute; reflexivity|]. vm_compute. reflexivity.
Qed.
Lemma free_works ss : ss_frames ss = [0%Z] -> ss_configs ss = [0%Z] -> svd_works (fun _ _ _ => one_svd) free ss.
Proof.
  intros Ef Ec q nf rel abs l Et EJ. rewrite Ec. cbn [length]. cbv zeta.
  assert (X : exists b, sg_tf free [b] 1 = Ok (rel, abs)).
  { unfold sg_tf, fk_run in *. destruct q as [|b [|c q]]; [vm_compute in Et; discriminate| |vm_compute in Et; discriminate].
    exists b. destruct nf as [|[|nf]]; [|exact Et|exact Et]. exfalso.
    change (Ok ([], []) = Ok (rel, abs)) in Et. injection Et as <- <-. unfold chain_jacobian in EJ. rewrite Ef in EJ. discriminate EJ. }
  destruct X as [b X].
  assert (Y : sg_tf free [b] 1 = Ok ([mkE q1 (mkV b 0 0)], [mkE q1 (mkV b 0 0)])) by calc.
  rewrite Y in X. injection X as <- <-.
  assert (Z : chain_jacobian free [mkE q1 (mkV b 0 0)] ss = Ok [(v0, ux)]).
  { unfold chain_jacobian. rewrite Ef, Ec. calc. }
  rewrite Z in EJ. injection EJ as <-. split; [|reflexivity].
  apply one_is_svd. intros i Hi. do 6 (destruct i as [|i]; [reflexivity|]); lia.
Qed.
Lemma free_limits : limits_seen (declared h_free) free ["a"%string] [None].
Proof.
  unfold limits_seen. assert (D : map d_cfg (joint_decls (declared h_free) ["a"%string]) = ["qa"%string]) by reflexivity.
  destruct (joint_decls (declared h_free) ["a"%string]) as [|d1 [|d2 l]]; try discriminate D. injection D as D1.
  repeat constructor; rewrite D1; eexists; (split; [vm_compute; reflexivity|]); (split; [discriminate|]); vm_compute; reflexivity.
Qed.
Lemma c85_unlimited : exists h s root tip tz ls ss gesdd, chain_of h s root tip tz ls ss /\ svd_works gesdd s ss /\
  limits_seen (declared h) s ls [None] /\
  forall a M0 junk fuel ev X dX, (forall t, ev t = Ok (X t, dX t)) -> (1 <= fuel)%nat ->
    tjx_path gesdd M0 junk fuel ev 1 s ss parm_create (Some [a]) = Ok (0%Z, [[0]; [0]]).
Proof.
  destruct free_chain as (ss & C & Ef & Ec). assert (Ln : length (ss_configs ss) = 1%nat) by now rewrite Ec.
  exists h_free, free, ""%string, "a"%string, 0%Z, ["a"%string], ss, (fun _ _ _ => one_svd).
  split; [exact C|]. split; [now apply free_works|]. split; [exact free_limits|]. intros a M0 junk fuel ev X dX Te Hf.
  destruct (c85_path (fun _ _ _ => one_svd) M0 junk h_free free "" "a" 0 ["a"%string] ss parm_create [a] C) with (ev := ev) (X := X) (dX := dX)
    as (f & x & _ & _ & _ & _ & Hp); auto.
  { change (NoDup ["qa"%string]). repeat constructor. intros []. }
  { cbn. lra. }
  { now apply free_works. }
  { rewrite Ln. exact I. }
  { rewrite Ln. lia. }
  destruct (Hp 1 1%nat fuel [None]) as [Ok1 _].
  { split; [lia|]. split; [cbn; lra|]. intros; lia. }
  { exact free_limits. }
  destruct (Ok1 Hf) as (pts & Ep & Lp & Vp). rewrite Ep. do 2 f_equal.
  destruct pts as [|y0 [|y1 [|y2 pts]]]; try discriminate Lp.
  destruct (Vp 0%nat y0 eq_refl) as [A1 A2]. destruct (Vp 1%nat y1 eq_refl) as [B1 B2].
  destruct y0 as [|z0 [|? ?]]; try discriminate A1. destruct y1 as [|z1 [|? ?]]; try discriminate B1.
  specialize (A2 0%nat _ eq_refl). specialize (B2 0%nat _ eq_refl). cbn in A2, B2. subst. reflexivity.
Qed.
