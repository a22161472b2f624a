(** Velocities and derivatives; Denavit-Hartenberg and axis-angle forms. *)

From Coq Require Import Reals Lra Psatz List Nsatz.
From Verif Require Import TfModel TfSpec TfProofs TfRotmatProofs TfRepProofs.
Open Scope R_scope.

(** ** Conversions between velocities and derivatives *)

Lemma qdiff2vel_qvel2diff q w : unitq q -> qdiff2vel q (qvel2diff q w) = w.
Proof.
  intros H. destruct q as [x y z s], w as [a b c]. tfc.
  f_equal.
  - transitivity (a * (x*x+y*y+z*z+s*s)); [field | rewrite H; ring].
  - transitivity (b * (x*x+y*y+z*z+s*s)); [field | rewrite H; ring].
  - transitivity (c * (x*x+y*y+z*z+s*s)); [field | rewrite H; ring].
Qed.
Lemma qvel2diff_qdiff2vel q dq : unitq q -> qdot q dq = 0 -> qvel2diff q (qdiff2vel q dq) = dq.
Proof.
  intros H D. destruct q as [x y z w], dq as [a b c d]. tfc. f_equal.
  - transitivity (a * (x*x+y*y+z*z+w*w) - x * (x*a + y*b + z*c + w*d)); [field | rewrite H, D; ring].
  - transitivity (b * (x*x+y*y+z*z+w*w) - y * (x*a + y*b + z*c + w*d)); [field | rewrite H, D; ring].
  - transitivity (c * (x*x+y*y+z*z+w*w) - z * (x*a + y*b + z*c + w*d)); [field | rewrite H, D; ring].
  - transitivity (d * (x*x+y*y+z*z+w*w) - w * (x*a + y*b + z*c + w*d)); [field | rewrite H, D; ring].
Qed.
Lemma qvel2diff_tangent q w : qdot q (qvel2diff q w) = 0.
Proof. tfring. Qed.
Lemma duqu_twist2vel_vel2twist d dx : duqu_twist2vel d (duqu_vel2twist d dx) = dx.
Proof. tfring. Qed.
Lemma dtrans_qutr2duqu e : unit_qutr e -> dtrans (qutr2duqu e) = ev e.
Proof.
  intros H. change (ev (duqu2qutr (qutr2duqu e)) = ev e). now rewrite duqu2qutr_qutr2duqu.
Qed.
Lemma duqu_diff2vel_aux e dx : unit_qutr e ->
  duqu_diff2vel (qutr2duqu e) (duqu_vel2diff (qutr2duqu e) dx) = dx.
Proof.
  intros H. unfold duqu_diff2vel, duqu_vel2diff, duqu_vel2twist.
  rewrite dtrans_qutr2duqu by exact H.
  destruct e as [[x y z s] [t1 t2 t3]], dx as [[v1 v2 v3] [w1 w2 w3]]. tfc.
  f_equal; f_equal.
  - transitivity (v1 * (x*x+y*y+z*z+s*s)); [field | rewrite H; ring].
  - transitivity (v2 * (x*x+y*y+z*z+s*s)); [field | rewrite H; ring].
  - transitivity (v3 * (x*x+y*y+z*z+s*s)); [field | rewrite H; ring].
  - transitivity (w1 * (x*x+y*y+z*z+s*s)); [field | rewrite H; ring].
  - transitivity (w2 * (x*x+y*y+z*z+s*s)); [field | rewrite H; ring].
  - transitivity (w3 * (x*x+y*y+z*z+s*s)); [field | rewrite H; ring].
Qed.
Lemma duqu_diff2vel_vel2diff d dx : unit_duqu d -> duqu_diff2vel d (duqu_vel2diff d dx) = dx.
Proof.
  intros H. rewrite <- (qutr2duqu_duqu2qutr d H). apply duqu_diff2vel_aux. now apply unit_duqu2qutr.
Qed.
Lemma qutr_diff2vel_vel2diff e dx : unit_qutr e -> qutr_diff2vel e (qutr_vel2diff e dx) = dx.
Proof.
  intros H. unfold qutr_diff2vel, qutr_vel2diff; cbn [eq ev].
  rewrite qdiff2vel_qvel2diff by exact H. now destruct dx.
Qed.
Lemma unskewsym_skew w : unskewsym (skew_sym w) = w.
Proof.
  unfold unskewsym. destruct w as [a b c]. tfc.
  replace (0 + 0 + 0 + 1) with 1 by ring. rewrite sqrt_1. f_equal; field.
Qed.
Lemma rotmat_diff2vel_vel2diff M w : proper_rotation M ->
  rotmat_diff2vel M (rotmat_vel2diff M w) = w.
Proof.
  intros H. unfold rotmat_diff2vel, rotmat_vel2diff.
  rewrite <- mmul_assoc, proper_rows, mmul_ident_r by exact H. apply unskewsym_skew.
Qed.
Lemma tfmat_diff2vel_vel2diff T dx : proper_tfmat T -> tfmat_diff2vel T (tfmat_vel2diff T dx) = dx.
Proof.
  intros H. unfold tfmat_diff2vel, tfmat_vel2diff; cbn [tR tv].
  rewrite rotmat_diff2vel_vel2diff by exact H. now destruct dx.
Qed.

(** ** Derivatives along motions *)

Lemma dpl_ext f g t d : (forall s, f s = g s) -> derivable_pt_lim f t d -> derivable_pt_lim g t d.
Proof.
  intros E H eps He. destruct (H eps He) as [del Hd]. exists del. intros h Hh Hl.
  rewrite <- !E. now apply Hd.
Qed.
Lemma dpl_eq f t d d' : d = d' -> derivable_pt_lim f t d -> derivable_pt_lim f t d'.
Proof. now intros ->. Qed.
Lemma dpl_const c t : derivable_pt_lim (fun _ => c) t 0.
Proof. exact (derivable_pt_lim_const c t). Qed.
Lemma dpl_id t : derivable_pt_lim (fun s => s) t 1.
Proof. exact (derivable_pt_lim_id t). Qed.
Lemma dpl_plus f g t a b : derivable_pt_lim f t a -> derivable_pt_lim g t b ->
  derivable_pt_lim (fun s => f s + g s) t (a + b).
Proof. exact (derivable_pt_lim_plus f g t a b). Qed.
Lemma dpl_minus f g t a b : derivable_pt_lim f t a -> derivable_pt_lim g t b ->
  derivable_pt_lim (fun s => f s - g s) t (a - b).
Proof. exact (derivable_pt_lim_minus f g t a b). Qed.
Lemma dpl_opp f t a : derivable_pt_lim f t a -> derivable_pt_lim (fun s => - f s) t (- a).
Proof. exact (derivable_pt_lim_opp f t a). Qed.
Lemma dpl_mult f g t a b : derivable_pt_lim f t a -> derivable_pt_lim g t b ->
  derivable_pt_lim (fun s => f s * g s) t (a * g t + f t * b).
Proof. exact (derivable_pt_lim_mult f g t a b). Qed.
Lemma dpl_uniq f t a b : derivable_pt_lim f t a -> derivable_pt_lim f t b -> a = b.
Proof. apply uniqueness_limite. Qed.

Ltac dpl := repeat first
  [ eassumption
  | apply dpl_plus | apply dpl_minus | apply dpl_opp | apply dpl_mult
  | apply dpl_const | apply dpl_id ].
Ltac dplring := eapply dpl_eq; [| dpl]; cbv beta; try ring.

Lemma vderiv_ext f g t d : (forall s, f s = g s) -> vderiv f t d -> vderiv g t d.
Proof.
  intros E (A & B & C). split; [|split]; (eapply dpl_ext; [|eassumption]; intros; cbn; now rewrite E).
Qed.
Lemma vderiv_eq f t d d' : d = d' -> vderiv f t d -> vderiv f t d'.
Proof. now intros ->. Qed.
Lemma vderiv_uniq f t a b : vderiv f t a -> vderiv f t b -> a = b.
Proof.
  intros (A & B & C) (A' & B' & C'). destruct a, b; cbn in *. f_equal; eapply dpl_uniq; eauto.
Qed.
Lemma vderiv_const c t : vderiv (fun _ => c) t zero3.
Proof. repeat split; apply dpl_const. Qed.
Lemma vderiv_plus f g t a b : vderiv f t a -> vderiv g t b ->
  vderiv (fun s => plus3 (f s) (g s)) t (plus3 a b).
Proof. intros (A & B & C) (A' & B' & C'). repeat split; cbn; now apply dpl_plus. Qed.

Lemma qrot_deriv q t dq p : qderiv q t dq ->
  vderiv (fun s => qrot (q s) p) t
    (let q0 := q t in
     let a := mkV ((qy q0 * vz p - qz q0 * vy p) + qw q0 * vx p)
               ((qz q0 * vx p - qx q0 * vz p) + qw q0 * vy p)
               ((qx q0 * vy p - qy q0 * vx p) + qw q0 * vz p) in
     let b := mkV ((qy dq * vz p - qz dq * vy p) + qw dq * vx p)
               ((qz dq * vx p - qx dq * vz p) + qw dq * vy p)
               ((qx dq * vy p - qy dq * vx p) + qw dq * vz p) in
     times3 2 (plus3 (xprod (vecpart dq) a) (xprod (vecpart q0) b))).
Proof.
  intros (A & B & C & D). destruct p as [p1 p2 p3]. repeat split;
  cbn -[Rmult Rplus Rminus]; unfold qrot; cbn -[Rmult Rplus Rminus];
  dplring.
Qed.

(** The velocity of a point of a rotating body. *)
Lemma qrot_vel q t w p : unitq (q t) -> qderiv q t (qvel2diff (q t) w) ->
  vderiv (fun s => qrot (q s) p) t (xprod w (qrot (q t) p)).
Proof.
  intros U H. eapply vderiv_eq; [|exact (qrot_deriv q t _ p H)].
  cbv zeta. clear H. revert U. generalize (q t). clear q t. intros q U.
  destruct q as [x y z s], p as [p1 p2 p3], w as [w1 w2 w3]. tfc.
  assert (E1 : w1 = 2 * (w1/2)) by field. assert (E2 : w2 = 2 * (w2/2)) by field.
  assert (E3 : w3 = 2 * (w3/2)) by field.
  revert E1 E2 E3. generalize (w1/2) (w2/2) (w3/2). intros h1 h2 h3 -> -> ->.
  f_equal.
  - match goal with |- ?l = ?r => cut (l - r = 0); [lra|] end. nsatz.
  - match goal with |- ?l = ?r => cut (l - r = 0); [lra|] end. nsatz.
  - match goal with |- ?l = ?r => cut (l - r = 0); [lra|] end. nsatz.
Qed.

Lemma qderiv_tangent q t dq : (forall s, unitq (q s)) -> qderiv q t dq -> qdot (q t) dq = 0.
Proof.
  intros U (A & B & C & D).
  assert (H : derivable_pt_lim (fun s => norm2 (q s)) t (2 * qdot (q t) dq)).
  { unfold norm2, qdot. dplring. }
  assert (H2 : derivable_pt_lim (fun s => norm2 (q s)) t 0).
  { eapply dpl_ext; [|apply (dpl_const 1)]. intros s. symmetry. apply U. }
  pose proof (dpl_uniq _ _ _ _ H H2). lra.
Qed.

Lemma qrot_zero q : qrot q zero3 = zero3.
Proof. tfring. Qed.

Lemma qutr_vel_ok e t dx : unit_qutr (e t) -> ederiv e t (qutr_vel2diff (e t) dx) ->
  body_velocity (fun s p => qutr_tf (e s) p) t (dxv dx) (dxw dx).
Proof.
  intros U [Hq Hv] p.
  eapply vderiv_ext; [intros s; symmetry; apply qutr_tf_eq|].
  eapply vderiv_eq; [|apply vderiv_plus; [exact Hv | apply (qrot_vel (fun s => eq (e s)) t (dxw dx)); assumption]].
  cbn [ev qutr_vel2diff]. rewrite !qutr_tf_eq, qrot_zero. f_equal. f_equal.
  generalize (ev (e t)) (qrot (eq (e t)) p). tfring.
Qed.
Lemma qutr_diff_ok e t de : (forall s, unit_qutr (e s)) -> ederiv e t de ->
  qutr_vel2diff (e t) (qutr_diff2vel (e t) de) = de.
Proof.
  intros U [Hq Hv]. unfold qutr_vel2diff, qutr_diff2vel; cbn [dxw dxv].
  rewrite qvel2diff_qdiff2vel.
  - now destruct de.
  - apply U.
  - now apply (qderiv_tangent (fun s => eq (e s))).
Qed.

(** Derivative of the dual quaternion of a moving quaternion-translation. *)
Lemma qutr2duqu_deriv e t de : (forall s, unit_qutr (e s)) -> ederiv e t de ->
  dderiv (fun s => qutr2duqu (e s)) t
    (duqu_vel2diff (qutr2duqu (e t)) (qutr_diff2vel (e t) de)).
Proof.
  intros U H. pose proof (qutr_diff_ok e t de U H) as E.
  set (dx := qutr_diff2vel (e t) de) in *. clearbody dx. subst de.
  destruct H as [(A1 & A2 & A3 & A4) (B1 & B2 & B3)].
  unfold duqu_vel2diff, duqu_vel2twist. rewrite dtrans_qutr2duqu by apply U.
  destruct dx as [[v1 v2 v3] [w1 w2 w3]].
  cbn [eq ev qutr_vel2diff dxv dxw vx vy vz qvel2diff qmul_vq vdivs qx qy qz qw] in A1, A2, A3, A4, B1, B2, B3.
  split.
  - repeat split; cbn [dreal qutr2duqu].
    + eapply dpl_eq; [|exact A1]. destruct (e t) as [[x y z s] [a b c]]. tfc. field.
    + eapply dpl_eq; [|exact A2]. destruct (e t) as [[x y z s] [a b c]]. tfc. field.
    + eapply dpl_eq; [|exact A3]. destruct (e t) as [[x y z s] [a b c]]. tfc. field.
    + eapply dpl_eq; [|exact A4]. destruct (e t) as [[x y z s] [a b c]]. tfc. field.
  - repeat split; cbn [ddual qutr2duqu qmul_vq vdivs vx vy vz qx qy qz qw vdot qv]; unfold Rdiv;
    (eapply dpl_eq; [|dpl]); cbv beta; destruct (e t) as [[x y z s] [a b c]]; tfc; field.
Qed.
Lemma duqu2qutr_deriv d t dd : dderiv d t dd ->
  ederiv (fun s => duqu2qutr (d s)) t
    (mkE (dreal dd) (vscale 2 (vadd (qmulc_v (ddual dd) (dreal (d t))) (qmulc_v (ddual (d t)) (dreal dd))))).
Proof.
  intros [(A1 & A2 & A3 & A4) (B1 & B2 & B3 & B4)]. split.
  - repeat split; assumption.
  - repeat split; cbn [ev duqu2qutr dtrans vscale vx vy vz qmulc_v vadd];
    (eapply dpl_eq; [|dpl]); cbv beta; ring.
Qed.
Lemma qderiv_uniq f t a b : qderiv f t a -> qderiv f t b -> a = b.
Proof.
  intros (A & B & C & D) (A' & B' & C' & D'). destruct a, b; cbn in *. f_equal; eapply dpl_uniq; eauto.
Qed.
Lemma dderiv_uniq f t a b : dderiv f t a -> dderiv f t b -> a = b.
Proof.
  intros [A B] [A' B']. destruct a, b; cbn in *. f_equal; eapply qderiv_uniq; eauto.
Qed.
Lemma qderiv_ext f g t d : (forall s, f s = g s) -> qderiv f t d -> qderiv g t d.
Proof.
  intros E (A & B & C & D). split; [|split; [|split]];
  (eapply dpl_ext; [|eassumption]; intros; cbn; now rewrite E).
Qed.
Lemma dderiv_ext f g t d : (forall s, f s = g s) -> dderiv f t d -> dderiv g t d.
Proof.
  intros E [A B]. split; (eapply qderiv_ext; [|eassumption]; intros; cbn; now rewrite E).
Qed.
Lemma duqu_diff_ok d t dd : (forall s, unit_duqu (d s)) -> dderiv d t dd ->
  duqu_vel2diff (d t) (duqu_diff2vel (d t) dd) = dd.
Proof.
  intros U H. pose proof (duqu2qutr_deriv d t dd H) as He.
  assert (Ue : forall s, unit_qutr (duqu2qutr (d s))) by (intros; now apply unit_duqu2qutr).
  pose proof (qutr2duqu_deriv _ _ _ Ue He) as H2. cbv beta in H2.
  rewrite (qutr2duqu_duqu2qutr _ (U t)) in H2.
  apply (dderiv_ext _ d) in H2; [|intros; now apply qutr2duqu_duqu2qutr].
  exact (dderiv_uniq _ _ _ _ H2 H).
Qed.
Lemma duqu_vel_ok d t dx : (forall s, unit_duqu (d s)) -> dderiv d t (duqu_vel2diff (d t) dx) ->
  body_velocity (fun s p => duqu_tf (d s) p) t (dxv dx) (dxw dx).
Proof.
  intros U H.
  assert (Ue : forall s, unit_qutr (duqu2qutr (d s))) by (intros; now apply unit_duqu2qutr).
  pose proof (duqu2qutr_deriv d t _ H) as He.
  pose proof (duqu_diff2vel_vel2diff (d t) dx (U t)) as E.
  assert (Hv : ederiv (fun s => duqu2qutr (d s)) t (qutr_vel2diff (duqu2qutr (d t)) dx)).
  { pose proof (qutr_diff_ok _ _ _ Ue He) as Q. cbv beta in Q. rewrite <- Q in He.
    unfold duqu_diff2vel in E.
    match type of He with ederiv _ _ (qutr_vel2diff _ ?D) => assert (ED : D = dx) by exact E; rewrite ED in He end.
    exact He. }
  pose proof (qutr_vel_ok _ t dx (Ue t) Hv) as B. intros p. specialize (B p). cbv beta in B.
  eapply vderiv_ext; [|eapply vderiv_eq; [|exact B]].
  - intros s. symmetry. apply duqu_tf_qutr. apply U.
  - rewrite !duqu_tf_qutr by apply U. reflexivity.
Qed.

(** Matrices. *)
Lemma mrot_deriv M t dM p : mderiv M t dM -> vderiv (fun s => mrot (M s) p) t (mrot dM p).
Proof.
  intros ((A1 & A2 & A3) & (B1 & B2 & B3) & (C1 & C2 & C3)). destruct p as [p1 p2 p3].
  cbn [col0 col1 col2 vx vy vz] in *.
  repeat split; cbn [mrot vx vy vz]; (eapply dpl_eq; [|dpl]); cbv beta; ring.
Qed.
Lemma mrot_skew w p : mrot (skew_sym w) p = xprod w p.
Proof. tfring. Qed.
Lemma tfmat_vel_ok T t dx : tderiv T t (tfmat_vel2diff (T t) dx) ->
  body_velocity (fun s p => tfmat_tf (T s) p) t (dxv dx) (dxw dx).
Proof.
  intros [HR Hv] p.
  eapply vderiv_ext; [intros s; symmetry; apply tfmat_tf_eq|].
  eapply vderiv_eq; [|apply vderiv_plus; [exact Hv | apply (mrot_deriv (fun s => tR (T s))); eassumption]].
  cbn [tv tR tfmat_vel2diff]. unfold rotmat_vel2diff. rewrite mrot_mul, mrot_skew, !tfmat_tf_eq.
  f_equal. f_equal. replace (mrot (tR (T t)) zero3) with zero3 by tfring.
  generalize (tv (T t)) (mrot (tR (T t)) p). tfring.
Qed.
Lemma skew_from_derivative M t dM : (forall s, proper_rotation (M s)) -> mderiv M t dM ->
  let K := mmul dM (mtrans (M t)) in
  skew_sym (unskewsym K) = K.
Proof.
  intros P H K.
  assert (S : m00 K = 0 /\ m11 K = 0 /\ m22 K = 0 /\ m01 K = - m10 K /\ m02 K = - m20 K /\ m12 K = - m21 K).
  { pose proof (fun s => proper_rows (M s) (P s)) as R.
    destruct H as ((A1 & A2 & A3) & (B1 & B2 & B3) & (C1 & C2 & C3)).
    cbn [col0 col1 col2 vx vy vz] in *.
    assert (Z : forall f c d, (forall s, f (mmul (M s) (mtrans (M s))) = c) -> f ident3 = c ->
       derivable_pt_lim (fun s => f (mmul (M s) (mtrans (M s)))) t d -> d = 0).
    { intros f c d E _ D. eapply dpl_uniq; [exact D|].
      eapply dpl_ext; [|apply (dpl_const c)]. intros; now rewrite E. }
    assert (Z' : forall f d, derivable_pt_lim (fun s => f (mmul (M s) (mtrans (M s)))) t d -> d = 0).
    { intros f d. apply (Z f (f ident3)); [|reflexivity]. intros s. now rewrite R. }
    unfold K. clear K Z R P.
    pose proof (fun d => Z' m00 d) as Z00. pose proof (fun d => Z' m11 d) as Z11.
    pose proof (fun d => Z' m22 d) as Z22. pose proof (fun d => Z' m01 d) as Z01.
    pose proof (fun d => Z' m02 d) as Z02. pose proof (fun d => Z' m12 d) as Z12.
    cbn [mmul mtrans m00 m10 m20 m01 m11 m21 m02 m12 m22] in *.
    assert (D00 := Z00 _ ltac:(dpl)). assert (D11 := Z11 _ ltac:(dpl)). assert (D22 := Z22 _ ltac:(dpl)).
    assert (D01 := Z01 _ ltac:(dpl)). assert (D02 := Z02 _ ltac:(dpl)). assert (D12 := Z12 _ ltac:(dpl)).
    cbv beta in *.
    repeat split; lra. }
  destruct S as (S1 & S2 & S3 & S4 & S5 & S6). clearbody K.
  unfold unskewsym. rewrite S1, S2, S3. replace (0+0+0+1) with 1 by ring. rewrite sqrt_1.
  destruct K as [k00 k10 k20 k01 k11 k21 k02 k12 k22]. tfc. f_equal; lra.
Qed.
Lemma rotmat_diff_ok M t dM : (forall s, proper_rotation (M s)) -> mderiv M t dM ->
  rotmat_vel2diff (M t) (rotmat_diff2vel (M t) dM) = dM.
Proof.
  intros P H. unfold rotmat_vel2diff, rotmat_diff2vel.
  rewrite (skew_from_derivative M t dM P H), <- mmul_assoc, proper_cols by apply P.
  apply mmul_ident_r.
Qed.
Lemma tfmat_diff_ok T t dT : (forall s, proper_tfmat (T s)) -> tderiv T t dT ->
  tfmat_vel2diff (T t) (tfmat_diff2vel (T t) dT) = dT.
Proof.
  intros P [HR Hv]. unfold tfmat_vel2diff, tfmat_diff2vel; cbn [dxw dxv].
  rewrite (rotmat_diff_ok (fun s => tR (T s)) t (tR dT) P HR). now destruct dT.
Qed.

(** ** Denavit-Hartenberg *)

Lemma double_angle x : cos x = cos (x/2) * cos (x/2) - sin (x/2) * sin (x/2)
  /\ sin x = 2 * sin (x/2) * cos (x/2)
  /\ sin (x/2) * sin (x/2) + cos (x/2) * cos (x/2) = 1.
Proof.
  assert (E : x = 2 * (x/2)) by field. split; [|split].
  - rewrite E at 1. apply cos_2a.
  - rewrite E at 1. apply sin_2a.
  - generalize (sin2_cos2 (x/2)). unfold Rsqr. auto.
Qed.
Lemma dhprox_tfmat alpha a d phi p :
  tfmat_tf (dhprox2tfmat alpha a d phi) p = dh_proximal alpha a d phi p.
Proof. destruct p. unfold dhprox2tfmat, dh_proximal, rot_x, rot_z, trans_x, trans_z. tfc. f_equal; ring. Qed.
Lemma dhdist_tfmat alpha a d phi p :
  tfmat_tf (dhdist2tfmat alpha a d phi) p = dh_distal alpha a d phi p.
Proof. destruct p. unfold dhdist2tfmat, dh_distal, rot_x, rot_z, trans_x, trans_z. tfc. f_equal; ring. Qed.

Ltac dhstart alpha phi :=
  destruct (double_angle alpha) as (ca & sa & oa); destruct (double_angle phi) as (cp & sp & op);
  rewrite ?ca, ?sa, ?cp, ?sp; clear ca sa cp sp; revert oa op;
  generalize (sin (alpha/2)) (cos (alpha/2)) (sin (phi/2)) (cos (phi/2)); intros SA CA SP CP oa op.

Lemma dhprox_qutr_unit alpha a d phi : unit_qutr (dhprox2qutr alpha a d phi).
Proof.
  unfold dhprox2qutr. dhstart alpha phi. tfc.
  transitivity ((SA*SA+CA*CA)*(SP*SP+CP*CP)); [ring | rewrite oa, op; ring].
Qed.
Lemma dhdist_qutr_unit alpha a d phi : unit_qutr (dhdist2qutr alpha a d phi).
Proof.
  unfold dhdist2qutr. dhstart alpha phi. tfc.
  transitivity ((SA*SA+CA*CA)*(SP*SP+CP*CP)); [ring | rewrite oa, op; ring].
Qed.
Lemma dhprox_qutr_tfmat alpha a d phi :
  qutr2tfmat (dhprox2qutr alpha a d phi) = dhprox2tfmat alpha a d phi.
Proof.
  unfold dhprox2qutr, dhprox2tfmat. dhstart alpha phi. tfc.
  assert (E1 : SA*SA = 1 - CA*CA) by lra. assert (E2 : SP*SP = 1 - CP*CP) by lra.
  f_equal; f_equal; nsatz.
Qed.
Lemma dhdist_qutr_tfmat alpha a d phi :
  qutr2tfmat (dhdist2qutr alpha a d phi) = dhdist2tfmat alpha a d phi.
Proof.
  unfold dhdist2qutr, dhdist2tfmat. dhstart alpha phi. tfc.
  assert (E1 : SA*SA = 1 - CA*CA) by lra. assert (E2 : SP*SP = 1 - CP*CP) by lra.
  f_equal; f_equal; nsatz.
Qed.
Lemma dhprox_duqu alpha a d phi :
  qutr2duqu (dhprox2qutr alpha a d phi) = dhprox2duqu alpha a d phi.
Proof.
  unfold dhprox2qutr, dhprox2duqu. dhstart alpha phi. tfc.
  assert (E1 : SA*SA = 1 - CA*CA) by lra. assert (E2 : SP*SP = 1 - CP*CP) by lra.
  assert (A : a = 2 * (a/2)) by field. assert (D : d = 2 * (d/2)) by field.
  unfold Rdiv in *. revert A D. generalize (a * / 2) (d * / 2). intros a2 d2 -> ->.
  assert (Hh : 2 * /2 = 1) by field. revert Hh. generalize (/2). intros hf Hh.
  f_equal; f_equal; nsatz.
Qed.
Lemma dhdist_duqu alpha a d phi :
  qutr2duqu (dhdist2qutr alpha a d phi) = dhdist2duqu alpha a d phi.
Proof.
  unfold dhdist2qutr, dhdist2duqu. dhstart alpha phi. tfc.
  assert (E1 : SA*SA = 1 - CA*CA) by lra. assert (E2 : SP*SP = 1 - CP*CP) by lra.
  assert (A : a = 2 * (a/2)) by field. assert (D : d = 2 * (d/2)) by field.
  unfold Rdiv in *. revert A D. generalize (a * / 2) (d * / 2). intros a2 d2 -> ->.
  assert (Hh : 2 * /2 = 1) by field. revert Hh. generalize (/2). intros hf Hh.
  f_equal; f_equal; nsatz.
Qed.

(** ** Axis-angle *)

Lemma axang_rot_rodrigues a p : axang_rot a p = rodrigues (axis a) (angle a) p.
Proof. unfold axang_rot, rodrigues. tfring. Qed.
Lemma axang2rotmat_rodrigues a p : unit3 (axis a) ->
  mrot (axang2rotmat a) p = rodrigues (axis a) (angle a) p.
Proof.
  intros H. destruct a as [[x y z] t], p as [a b c]. unfold axang2rotmat, rodrigues. tfc.
  generalize (sin t) (cos t). intros S C. f_equal; nsatz.
Qed.
Lemma axang2quat_unit a : unit3 (axis a) -> unitq (axang2quat a).
Proof.
  intros H. unfold axang2quat. destruct a as [[x y z] t]. tfc.
  pose proof (sin2_cos2 (t/2)) as T. unfold Rsqr in T.
  revert T. generalize (sin (t/2)) (cos (t/2)). intros S C T.
  transitivity (S*S*(x*x+y*y+z*z) + C*C); [ring|]. rewrite H. lra.
Qed.
Lemma axang2rotmat2_eq a : unit3 (axis a) -> axang2rotmat2 a = axang2rotmat a.
Proof.
  intros H. unfold axang2rotmat2, axang2rotmat, axang2quat. destruct a as [[x y z] t].
  cbn [angle axis]. destruct (double_angle t) as (ct & st & ot). rewrite ct, st. clear ct st.
  revert ot. generalize (sin (t/2)) (cos (t/2)). intros S C ot. tfc.
  assert (E : S*S = 1 - C*C) by lra.
  f_equal; nsatz.
Qed.
Lemma xangle_quat t : quat2rotmat (xangle2quat t) = xangle2rotmat t.
Proof.
  unfold xangle2quat, xangle2rotmat. destruct (double_angle t) as (ct & st & ot). rewrite ct, st. clear ct st.
  revert ot. generalize (sin (t/2)) (cos (t/2)). intros S C ot. tfc. f_equal; nsatz.
Qed.
Lemma yangle_quat t : quat2rotmat (yangle2quat t) = yangle2rotmat t.
Proof.
  unfold yangle2quat, yangle2rotmat. destruct (double_angle t) as (ct & st & ot). rewrite ct, st. clear ct st.
  revert ot. generalize (sin (t/2)) (cos (t/2)). intros S C ot. tfc. f_equal; nsatz.
Qed.
Lemma zangle_quat t : quat2rotmat (zangle2quat t) = zangle2rotmat t.
Proof.
  unfold zangle2quat, zangle2rotmat. destruct (double_angle t) as (ct & st & ot). rewrite ct, st. clear ct st.
  revert ot. generalize (sin (t/2)) (cos (t/2)). intros S C ot. tfc. f_equal; nsatz.
Qed.
Lemma xangle_rot t p : mrot (xangle2rotmat t) p = rot_x t p.
Proof. unfold xangle2rotmat, rot_x. tfring. Qed.
Lemma yangle_rot t p : mrot (yangle2rotmat t) p = rot_y t p.
Proof. unfold yangle2rotmat, rot_y. tfring. Qed.
Lemma zangle_rot t p : mrot (zangle2rotmat t) p = rot_z t p.
Proof. unfold zangle2rotmat, rot_z. tfring. Qed.
Lemma axang_permute_rot a k p : axang_rot (axang_permute a k) p = axang_rot a p.
Proof.
  unfold axang_permute, axang_rot; cbn [axis angle].
  assert (E : cos (angle a + IZR k * 2 * PI) = cos (angle a) /\ sin (angle a + IZR k * 2 * PI) = sin (angle a)).
  { assert (P : forall n x, cos (x + INR n * 2 * PI) = cos x /\ sin (x + INR n * 2 * PI) = sin x).
    { intros n x. split.
      - replace (INR n * 2 * PI) with (2 * INR n * PI) by ring. apply cos_period.
      - replace (INR n * 2 * PI) with (2 * INR n * PI) by ring. apply sin_period. }
    destruct (Z_le_dec 0 k) as [Hk|Hk].
    - replace (IZR k) with (INR (Z.to_nat k)); [apply P|].
      rewrite INR_IZR_INZ, Z2Nat.id by assumption. reflexivity.
    - destruct (P (Z.to_nat (- k)) (angle a + IZR k * 2 * PI)) as [P1 P2].
      rewrite INR_IZR_INZ, Z2Nat.id in P1, P2 by lia. rewrite opp_IZR in P1, P2.
      replace (angle a + IZR k * 2 * PI + - IZR k * 2 * PI) with (angle a) in P1, P2 by ring.
      now split. }
  destruct E as [E1 E2]. now rewrite E1, E2.
Qed.
