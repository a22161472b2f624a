(** Planar transforms: C31. *)
From Coq Require Import Reals Lra.
From Verif Require Import PlanarModel PlanarSpec PlanarProofs.
Open Scope R_scope.

(** C31: the complex number and the matrix of an angle both turn points by it. *)
Theorem C31_rotation_is_turn : forall t p,
  crot (angle2cmplx t) p = turn t p /\ rotmatp_rot (angle2rotmatp t) p = turn t p.
Proof. exact (fun t p => conj (crot_turn t p) (rotmatp_turn t p)). Qed.
Print Assumptions C31_rotation_is_turn.

(** C31: every unit complex number and every proper 2x2 rotation comes from the angle
    the library extracts, which lies in (-pi, pi]; and angles in that range round trip. *)
Theorem C31_angle_of_rotation : forall c M, unitc c -> proper2 M ->
  (angle2cmplx (cmplx2angle c) = c /\ - PI < cmplx2angle c <= PI) /\
  (angle2rotmatp (rotmatp2angle M) = M /\ - PI < rotmatp2angle M <= PI).
Proof.
  exact (fun c M C P => conj (conj (eq_sym (proj1 (unitc_angle c C))) (proj2 (unitc_angle c C))) (rotmatp2angle_ok M P)).
Qed.
Print Assumptions C31_angle_of_rotation.

Theorem C31_angle_roundtrip : forall t, - PI < t <= PI ->
  cmplx2angle (angle2cmplx t) = t /\ rotmatp2angle (angle2rotmatp t) = t.
Proof. exact (fun t H => conj (angle_roundtrip t H) (angle2rotmatp_roundtrip t H)). Qed.
Print Assumptions C31_angle_roundtrip.

(** C31: complex and matrix forms convert into each other. *)
Theorem C31_cmplx_rotmat_conversion : forall c M, unitc c -> proper2 M ->
  (rotmatp2cmplx (cmplx2rotmatp c) = c /\ proper2 (cmplx2rotmatp c)) /\
  (cmplx2rotmatp (rotmatp2cmplx M) = M /\ unitc (rotmatp2cmplx M)).
Proof.
  exact (fun c M C P => conj (conj (cmplx_rotmatp c) (cmplx2rotmatp_proper c C)) (rotmatp_cmplx M P)).
Qed.
Print Assumptions C31_cmplx_rotmat_conversion.

(** C31: products add angles; conjugate and transpose are inverses. *)
Theorem C31_rotation_products : forall s t,
  cmul (angle2cmplx s) (angle2cmplx t) = angle2cmplx (s + t) /\
  rotmatp_mul (angle2rotmatp s) (angle2rotmatp t) = angle2rotmatp (s + t).
Proof. exact (fun s t => conj (cmul_angle s t) (rotmatp_mul_angle s t)). Qed.
Print Assumptions C31_rotation_products.

Theorem C31_rotation_inverses : forall c M, unitc c -> proper2 M ->
  (cmul c (cconj c) = mkC 1 0 /\ cmul (cconj c) c = mkC 1 0) /\
  (rotmatp_mul M (rotmatp_inv2 M) = mkR4 1 0 0 1 /\ rotmatp_mul (rotmatp_inv2 M) M = mkR4 1 0 0 1).
Proof. exact (fun c M C P => conj (cmul_conj c C) (rotmatp_inv_ok M P)). Qed.
Print Assumptions C31_rotation_inverses.

(** C31: transforms turn then shift; products compose; both forms agree. *)
Theorem C31_transform_acts : forall t v p c1 v1 c2 v2 A B,
  cv_tf (angle2cmplx t) v p = shift v (turn t p) /\
  tfmatp_tf (cv2tfmatp c1 v1) p = cv_tf c1 v1 p /\
  cv_tf (fst (cv_mul c1 v1 c2 v2)) (snd (cv_mul c1 v1 c2 v2)) p = cv_tf c1 v1 (cv_tf c2 v2 p) /\
  tfmatp_tf (tfmatp_mul A B) p = tfmatp_tf A (tfmatp_tf B p).
Proof.
  exact (fun t v p c1 v1 c2 v2 A B => conj (cv_tf_turn t v p) (conj (tfmatp_tf_cv c1 v1 p)
    (conj (cv_mul_acts c1 v1 c2 v2 p) (tfmatp_mul_acts A B p)))).
Qed.
Print Assumptions C31_transform_acts.

Theorem C31_transform_conversion : forall T c v, proper2 (tr T) ->
  cv2tfmatp (fst (tfmatp2cv T)) (snd (tfmatp2cv T)) = T /\ tfmatp2cv (cv2tfmatp c v) = (c, v).
Proof. exact (fun T c v P => conj (tfmatp_cv_roundtrip T P) (cv_tfmatp_roundtrip c v)). Qed.
Print Assumptions C31_transform_conversion.

Theorem C31_transform_inverses : forall c v T p, unitc c -> proper2 (tr T) ->
  (cv_tf c v (cv_tf (fst (cv_inv c v)) (snd (cv_inv c v)) p) = p /\
   cv_tf (fst (cv_inv c v)) (snd (cv_inv c v)) (cv_tf c v p) = p) /\
  (tfmatp_tf T (tfmatp_tf (tfmatp_inv2 T) p) = p /\ tfmatp_tf (tfmatp_inv2 T) (tfmatp_tf T p) = p).
Proof. exact (fun c v T p C P => conj (cv_inv_acts c v p C) (tfmatp_inv_acts T p P)). Qed.
Print Assumptions C31_transform_inverses.

Theorem C31_transform_associative : forall A B C c1 v1 c2 v2 c3 v3,
  tfmatp_mul A (tfmatp_mul B C) = tfmatp_mul (tfmatp_mul A B) C /\
  let m a b := cv_mul (fst a) (snd a) (fst b) (snd b) in
  m (c1, v1) (m (c2, v2) (c3, v3)) = m (m (c1, v1) (c2, v2)) (c3, v3).
Proof.
  exact (fun A B C c1 v1 c2 v2 c3 v3 => conj (tfmatp_mul_assoc A B C) (cv_mul_assoc c1 v1 c2 v2 c3 v3)).
Qed.
Print Assumptions C31_transform_associative.

Example C31_nonvacuous : unitc (mkC (-3/5) (4/5)) /\ proper2 (mkR4 (-3/5) (4/5) (-4/5) (-3/5)).
Proof. unfold unitc, proper2. cbn [re im r0 r1 r2 r3]. repeat split; lra. Qed.
