(** Inverse kinematics solvers: claims about aa_rx_ik_solve. *)
From Coq Require Import ZArith String List Bool Reals Lia Lra.
From Verif Require Import TrModel TfModel TfSpec TfProofs TfRepProofs TfExpModel TfExpSpec TfCalcProofs SgModel SgSpec SgKinSpec
  SgClaims1 SgClaims2 SgClaims3 SgChainProofs RkModel IkModel IkProofs IkPose IkSpec IkObj WkModel WkRateModel IkSolveModel IkSolveSpec IkSolve.
Import ListNotations.
Open Scope R_scope.

Lemma solve_inv gesdd junk M0 nlopt fuel s c rows cols Er len rs r :
  ik_solve gesdd junk M0 nlopt fuel s c rows cols Er len rs = Ok r ->
  (so_code r = INVALID /\ so_q r = None /\ so_steps r = 0%nat) \/ (so_code r = 19%Z /\ so_q r = None /\ so_steps r = 0%nat /\ so_freed r = true) \/
  (len = length (ss_configs (ic_ss c)) /\ rows = 7%nat /\ cols = 1%nat /\ ip_algo (ic_parm c) <> LMA /\ so_freed r = true /\
   exists fr fs q, ic_frames c = fr :: fs /\ so_q r = Some q /\
     tries gesdd junk M0 s (ic_ss c) (ic_parm c) fr Er (ic_fk c) nlopt fuel rs (ic_seed c) 0 = Ok (q, so_steps r, so_code r)).
Proof.
  unfold ik_solve. destruct (Nat.eqb_spec (length (ss_configs (ic_ss c))) len) as [El|]; cbn [negb orb]; [|intros H; injection H as <-; now left].
  destruct (Nat.eqb_spec 7 rows) as [Er7|]; cbn [negb]; [|intros H; injection H as <-; now left].
  destruct (ic_frames c) as [|fr fs] eqn:F; cbn [hd_error from bind]; [discriminate|].
  destruct (sub_scatter _ _ _ _); cbn [bind]; try discriminate.
  destruct (Nat.eqb_spec 1 cols) as [E1|]; cbn [negb]; [|intros H; injection H as <-; now left].
  destruct (ip_algo (ic_parm c)) eqn:A.
  - destruct (tries _ _ _ _ _ _ _ _ _ _ _ _ _ _) as [[[q it] x]| | |] eqn:T; cbn [bind]; try discriminate.
    intros H. injection H as <-. right. right. repeat split; auto; try congruence. exists fr, fs, q. auto.
  - intros H. injection H as <-. right. left. auto.
  - destruct (tries _ _ _ _ _ _ _ _ _ _ _ _ _ _) as [[[q it] x]| | |] eqn:T; cbn [bind]; try discriminate.
    intros H. injection H as <-. right. right. repeat split; auto; try congruence. exists fr, fs, q. auto.
Qed.

Section Chain.
  Variables (h : list op) (s : sg) (root tip : string) (tz : Z) (ls : list string) (ss : ssg) (lims : list (option (R * R))).
  Hypothesis C : chain_of h s root tip tz ls ss.
  Hypothesis Ls : limits_seen (declared h) s ls lims.
  Hypothesis Od : ordered lims.
  Let g := declared h.
  Let Sn := chain_limits _ _ _ _ _ _ _ _ C Ls.

  (** a pose that passes the test is at the goal, and the other way round *)
  Lemma good_reaches p Er fk q cfg B : unit_qutr Er -> chain_config g ls cfg = q -> base_at g s cfg root B fk ->
    forall fk' E, obj_pose s ss tz q fk = Ok (fk', E) -> within p E Er <-> reaches g cfg tip Er (1 / 2) (ip_angle p) (ip_trans p).
  Proof.
    intros U <- Hb fk' E O. destruct (obj_pose_ok h s root tip tz ls ss C cfg B fk Hb) as (f & E0 & O0 & _ & Ue & L & _).
    fold g in O0. rewrite O0 in O. injection O as <- <-. now apply within_reaches.
  Qed.

  Lemma c83_solution gesdd junk M0 nlopt fuel c fs rows cols Er len rs r :
    ic_ss c = ss -> ic_frames c = tz :: fs -> unit_qutr Er ->
    (ip_algo (ic_parm c) = SQP -> keeps_bounds nlopt /\ in_limits lims (ic_seed c)) ->
    Forall (Forall (fun u => 0 <= u <= 1)) rs ->
    ik_solve gesdd junk M0 nlopt fuel s c rows cols Er len rs = Ok r ->
    forall q, so_q r = Some q ->
    in_limits lims q /\ (so_code r = 0%Z \/ so_code r = 3%Z) /\
    (so_steps r <= S (ip_max (ic_parm c)) + length rs)%nat /\
    forall cfg B, chain_config g ls cfg = q -> base_at g s cfg root B (ic_fk c) ->
      (so_code r = 0%Z -> reaches g cfg tip Er (1 / 2) (ip_angle (ic_parm c)) (ip_trans (ic_parm c))) /\
      (ip_algo (ic_parm c) = SQP -> reaches g cfg tip Er (1 / 2) (ip_angle (ic_parm c)) (ip_trans (ic_parm c)) -> so_code r = 0%Z).
  Proof.
    intros Es Ef U Hq Hr H q Eq. apply solve_inv in H as [(_ & N & _)|[(_ & N & _)|H]]; try congruence.
    destruct H as (El & E7 & E1 & Al & Fr & fr & fs' & q' & Ef' & Eq' & T). rewrite Ef in Ef'. injection Ef' as <- <-. assert (q' = q) as -> by congruence.
    rewrite Es in T. apply (tries_spec _ _ _ _ _ _ _ _ _ _ lims Sn Od) in T as (I & Cd & G & Q & P); [|exact Hr|intros A; apply (Hq A)|intros A; apply (Hq A)].
    split; [exact I|]. split; [exact Cd|]. split.
    - destruct (ip_algo (ic_parm c)); [destruct (P ltac:(discriminate)); lia|congruence|destruct (Q eq_refl); lia].
    - intros cfg B Hc Hb. split.
      + intros C0. destruct (G C0) as (_ & fk' & E & O & W). revert W. eapply good_reaches; eauto.
      + intros A Rc. apply (Q A). split; [exact I|].
        destruct (obj_pose_ok h s root tip tz ls ss C cfg B (ic_fk c) Hb) as (f & E0 & O0 & _).
        fold g in O0. rewrite Hc in O0. exists f, E0. split; [exact O0|]. revert Rc. eapply good_reaches; eauto.
  Qed.
  Lemma c83_tol_dq gesdd junk M0 nlopt fuel c fs rows cols Er len rs r :
    ic_ss c = ss -> ic_frames c = tz :: fs -> Forall (Forall (fun u => 0 <= u <= 1)) rs ->
    ip_algo (ic_parm c) = JPINV -> ip_dq (ic_parm c) <= 0 ->
    ik_solve gesdd junk M0 nlopt fuel s c rows cols Er len rs = Ok r -> so_code r <> 0%Z.
  Proof.
    intros Es Ef Hr A D H. apply solve_inv in H as [(-> & _)|[(-> & _)|H]]; [discriminate|discriminate|].
    destruct H as (_ & _ & _ & _ & _ & fr & fs' & q' & _ & _ & T). rewrite Es in T.
    apply (tries_spec _ _ _ _ _ _ _ _ _ _ lims Sn Od) in T as (_ & _ & _ & _ & P); [|exact Hr|congruence|congruence].
    intros C0. apply P in C0; [lra|congruence].
  Qed.
End Chain.

(** ** Sizes *)
Lemma c83_sizes gesdd junk M0 nlopt fuel s c rows cols Er len rs :
  (len <> length (ss_configs (ic_ss c)) \/ rows <> 7%nat ->
    ik_solve gesdd junk M0 nlopt fuel s c rows cols Er len rs = Ok (mkSol 16 None 0 true)) /\
  (forall r, cols <> 1%nat -> ik_solve gesdd junk M0 nlopt fuel s c rows cols Er len rs = Ok r -> so_code r = 16%Z /\ so_q r = None) /\
  (forall r, ip_algo (ic_parm c) = LMA -> ik_solve gesdd junk M0 nlopt fuel s c rows cols Er len rs = Ok r -> so_code r <> 0%Z /\ so_q r = None).
Proof.
  split; [|split].
  - intros H. unfold ik_solve. destruct (Nat.eqb_spec (length (ss_configs (ic_ss c))) len); cbn [negb orb]; [|reflexivity].
    destruct (Nat.eqb_spec 7 rows); cbn [negb]; [lia|reflexivity].
  - intros r N H. unfold ik_solve in H. destruct (negb _ || negb _); [injection H as <-; auto|].
    destruct (from _); cbn [bind] in H; try discriminate H. destruct (sub_scatter _ _ _ _); cbn [bind] in H; try discriminate H.
    destruct (Nat.eqb_spec 1 cols); [lia|]. cbn [negb] in H. injection H as <-. auto.
  - intros r A H. apply solve_inv in H as [(-> & -> & _)|[(-> & -> & _)|H]]; [split; [discriminate|reflexivity]..|]. tauto.
Qed.

