(** Planar transforms: lemmas. *)
From Coq Require Import Reals Lra Psatz Nsatz.
From Verif Require Import AtanModel AtanProofs PlanarModel PlanarSpec.
Open Scope R_scope.

Ltac pl := cbv beta iota zeta delta [fst snd re im r0 r1 r2 r3 tr t4 t5 cmplx_mul cmplx_neg crot rotmatp_rot cconj rotmatp_inv2 cmul
  rotmatp_mul cpexp cmplx2rotmatp angle2cmplx angle2rotmatp rotmatp2cmplx cv_tf tfmatp_tf cv2tfmatp tfmatp2cv
  cv_mul tfmatp_mul cv_inv tfmatp_inv2 turn shift] in *.
Ltac pld := repeat match goal with
  | c : C2 |- _ => destruct c as [? ?] | c : R4 |- _ => destruct c as [? ? ? ?] | c : T6 |- _ => destruct c as [? ? ?] end.

Lemma cos2sin2 t : cos t * cos t + sin t * sin t = 1.
Proof. pose proof (sin2_cos2 t). unfold Rsqr in *. lra. Qed.

(** Every representation of a rotation turns points by one angle. *)
Lemma crot_turn t p : crot (angle2cmplx t) p = turn t p.
Proof. pld. pl. f_equal; ring. Qed.
Lemma rotmatp_turn t p : rotmatp_rot (angle2rotmatp t) p = turn t p.
Proof. pld. pl. f_equal; ring. Qed.
Lemma unitc_angle c : unitc c -> c = angle2cmplx (cmplx2angle c) /\ - PI < cmplx2angle c <= PI.
Proof.
  unfold unitc, cmplx2angle, culn. intros H. split; [|apply atan2_bound].
  destruct (atan2_polar (re c) (im c) 1) as [A B]; [lra|lra|]. rewrite Rmult_1_l in A, B.
  destruct c as [a b]. pl. unfold angle2cmplx, cpexp. now rewrite A, B.
Qed.
Lemma angle_roundtrip t : - PI < t <= PI -> cmplx2angle (angle2cmplx t) = t.
Proof. intros H. unfold cmplx2angle, culn. pl. now apply atan2_sincos. Qed.
Lemma proper2_form M : proper2 M -> r3 M = r0 M /\ r2 M = - r1 M /\ r0 M * r0 M + r1 M * r1 M = 1.
Proof.
  unfold proper2. intros (A & B & C & D). destruct M as [a b c d]. pl.
  assert (E : (d - a) * (d - a) + (c + b) * (c + b) = 0) by nra.
  destruct (Rplus_sqr_eq_0 (d - a) (c + b)) as [E1 E2]; [exact E|]. repeat split; lra.
Qed.
Lemma rotmatp_cmplx M : proper2 M -> cmplx2rotmatp (rotmatp2cmplx M) = M /\ unitc (rotmatp2cmplx M).
Proof.
  intros H. destruct (proper2_form M H) as (A & B & C). destruct M as [a b c d]. unfold unitc. pl. subst.
  split; [f_equal; field | transitivity (a*a+b*b); [field|exact C]].
Qed.
Lemma cmplx_rotmatp c : rotmatp2cmplx (cmplx2rotmatp c) = c.
Proof. pld. pl. f_equal; field. Qed.
Lemma cmplx2rotmatp_proper c : unitc c -> proper2 (cmplx2rotmatp c).
Proof. unfold unitc, proper2. pld. pl. intros. repeat split; lra. Qed.
Lemma rotmatp2angle_ok M : proper2 M ->
  angle2rotmatp (rotmatp2angle M) = M /\ - PI < rotmatp2angle M <= PI.
Proof.
  intros H. destruct (rotmatp_cmplx M H) as [E U].
  destruct (unitc_angle _ U) as [F B]. split; [|exact B].
  unfold angle2rotmatp, rotmatp2angle. rewrite <- F. exact E.
Qed.
Lemma angle2rotmatp_roundtrip t : - PI < t <= PI -> rotmatp2angle (angle2rotmatp t) = t.
Proof. intros H. unfold rotmatp2angle, angle2rotmatp. rewrite cmplx_rotmatp. now apply angle_roundtrip. Qed.
(** Composition. *)
Lemma cmul_angle s t : cmul (angle2cmplx s) (angle2cmplx t) = angle2cmplx (s + t).
Proof. unfold angle2cmplx, cpexp. rewrite cos_plus, sin_plus. pl. f_equal; ring. Qed.
Lemma rotmatp_mul_angle s t : rotmatp_mul (angle2rotmatp s) (angle2rotmatp t) = angle2rotmatp (s + t).
Proof. unfold angle2rotmatp, angle2cmplx, cpexp. rewrite cos_plus, sin_plus. pl. f_equal; ring. Qed.
Lemma cmul_conj c : unitc c -> cmul c (cconj c) = mkC 1 0 /\ cmul (cconj c) c = mkC 1 0.
Proof. unfold unitc. pld. pl. intros. split; f_equal; lra. Qed.
Lemma rotmatp_inv_ok M : proper2 M ->
  rotmatp_mul M (rotmatp_inv2 M) = mkR4 1 0 0 1 /\ rotmatp_mul (rotmatp_inv2 M) M = mkR4 1 0 0 1.
Proof.
  intros H. destruct (proper2_form M H) as (A & B & C). destruct M as [a b c d]. pl. subst.
  split; f_equal; lra.
Qed.
Lemma cv_mul_acts c1 v1 c2 v2 p :
  cv_tf (fst (cv_mul c1 v1 c2 v2)) (snd (cv_mul c1 v1 c2 v2)) p = cv_tf c1 v1 (cv_tf c2 v2 p).
Proof. pld. pl. f_equal; ring. Qed.
Lemma tfmatp_mul_acts A B p : tfmatp_tf (tfmatp_mul A B) p = tfmatp_tf A (tfmatp_tf B p).
Proof. pld. pl. f_equal; ring. Qed.
Lemma cv_tf_turn t v p : cv_tf (angle2cmplx t) v p = shift v (turn t p).
Proof. pld. pl. f_equal; ring. Qed.
Lemma tfmatp_tf_cv c v p : tfmatp_tf (cv2tfmatp c v) p = cv_tf c v p.
Proof. pld. pl. f_equal; ring. Qed.
Lemma tfmatp_cv_roundtrip T : proper2 (tr T) ->
  cv2tfmatp (fst (tfmatp2cv T)) (snd (tfmatp2cv T)) = T.
Proof.
  intros H. destruct (rotmatp_cmplx _ H) as [E _]. destruct T as [M x y]. unfold cv2tfmatp, tfmatp2cv.
  cbn [fst snd tr t4 t5 re im] in *. now rewrite E.
Qed.
Lemma cv_tfmatp_roundtrip c v : tfmatp2cv (cv2tfmatp c v) = (c, v).
Proof. pld. pl. f_equal; f_equal; field. Qed.
Lemma cv_inv_acts c v p : unitc c ->
  cv_tf c v (cv_tf (fst (cv_inv c v)) (snd (cv_inv c v)) p) = p /\
  cv_tf (fst (cv_inv c v)) (snd (cv_inv c v)) (cv_tf c v p) = p.
Proof.
  unfold unitc. destruct c as [a b], v as [x y], p as [u w]. pl. intros H. split; f_equal; nsatz.
Qed.
Lemma tfmatp_inv_acts T p : proper2 (tr T) ->
  tfmatp_tf T (tfmatp_tf (tfmatp_inv2 T) p) = p /\ tfmatp_tf (tfmatp_inv2 T) (tfmatp_tf T p) = p.
Proof.
  intros H. destruct (proper2_form _ H) as (A & B & C). destruct T as [[a b c d] x y], p as [u w]. pl. subst.
  split; f_equal; nsatz.
Qed.
Lemma cv_mul_assoc c1 v1 c2 v2 c3 v3 :
  let m a b := cv_mul (fst a) (snd a) (fst b) (snd b) in
  m (c1, v1) (m (c2, v2) (c3, v3)) = m (m (c1, v1) (c2, v2)) (c3, v3).
Proof. pld. pl. f_equal; f_equal; ring. Qed.
Lemma tfmatp_mul_assoc A B C : tfmatp_mul A (tfmatp_mul B C) = tfmatp_mul (tfmatp_mul A B) C.
Proof. pld. pl. f_equal; [f_equal|..]; ring. Qed.
