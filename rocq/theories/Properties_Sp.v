(** C++ transform objects: C98 (spatial) and C99 (planar). *)
From Coq Require Import Reals Lra.
From Verif Require Import TfModel TfSpec TfExpSpec TfRepProofs TfFrameProofs PlanarModel PlanarSpec PlanarProofs SpModel SpSpec SpProofs.
Open Scope R_scope.

(** C98: a Quat or RotMat made from any kind of rotation is that rotation: it is unit
    (proper) and takes every point where the argument does. *)
Theorem C98_rotations : forall s p, rotates s ->
  (unitq (Quat s) /\ turns s p (quat_rotate (Quat s) p)) /\
  (proper_rotation (RotMat s) /\ turns s p (rotmat_point (RotMat s) p)).
Proof. exact (fun s p H => conj (quat_ok s p H) (rotmat_ok s p H)). Qed.
Print Assumptions C98_rotations.

(** C98: AxisAngle of components scales the axis to unit length, if it is not zero. *)
Theorem C98_axis_angle_components : forall x y z t, mkV x y z <> zero3 ->
  exists a, axang_xyz x y z t = Some a /\ unit3 (axis a) /\ angle a = t /\
    exists n, 0 < n /\ times3 n (axis a) = mkV x y z.
Proof. exact axang_xyz_ok. Qed.
Print Assumptions C98_axis_angle_components.

(** C98: AxisAngle of a unit quaternion, of a rotation matrix and of a rotation vector keep
    the rotation: converting back gives the same quaternion, matrix or vector. *)
Theorem C98_axis_angle_conversions : forall q p k t v, unitq q -> unit3 k ->
  t = 0 \/ / 2 ^ 13 <= t <= PI -> v = zero3 \/ / 2 ^ 12 <= len3 v ->
  (Quat (RAxang (axang_quat q)) = q /\
   turns (RQuat q) p (rotmat_point (RotMat (RAxang (axang_quat q))) p) /\ 0 <= angle (axang_quat q) <= 2 * PI) /\
  (let M := RotMat (RAxang (mkA k t)) in RotMat (RAxang (axang_rotmat M)) = M) /\
  (angle (axang_rotvec v) = len3 v /\ times3 (angle (axang_rotvec v)) (axis (axang_rotvec v)) = v /\
   (v <> zero3 -> unit3 (axis (axang_rotvec v)))).
Proof.
  exact (fun q p k t v U K T V => conj (axang_quat_ok q p U) (conj (axang_rotmat_ok k t K T) (axang_rotvec_ok v V))).
Qed.
Print Assumptions C98_axis_angle_conversions.

(** C98: but AxisAngle, and Quat::from_axang, of an axis array and an angle take the axis as
    it is: for an axis that is not of unit length the quaternion is never unit, unless the
    angle is a multiple of a full turn. *)
Theorem C98_axis_array_refuted : forall k t, dot k k <> 1 -> sin (t / 2) <> 0 ->
  ~ unitq (Quat (RAxang (axang_axis k t))) /\ ~ unitq (quat_axis k t).
Proof. exact axang_axis_bad. Qed.
Print Assumptions C98_axis_array_refuted.

(** C98: QuatTran and TfMat made from any kind of transform they accept, other than QuatTran
    of a matrix, are that transform. *)
Theorem C98_transforms : forall s p, transforms s ->
  ((forall T, s <> TMat T) ->
   exists e, QuatTran s = Done e /\ unit_qutr e /\ moves s p (quattran_transform e p)) /\
  (forall T, TfMat s = Some T -> proper_tfmat T /\ moves s p (tfmat_transform T p)).
Proof. exact (fun s p H => conj (quattran_ok s p H) (fun T => tfmat_ok s p T H)). Qed.
Print Assumptions C98_transforms.

(** C98: QuatTran of a transformation matrix writes a dual quaternion, eight doubles, into
    the seven of the object, for every matrix. *)
Theorem C98_quattran_of_matrix_refuted : forall T, QuatTran (TMat T) = Undef.
Proof. exact quattran_mat. Qed.
Print Assumptions C98_quattran_of_matrix_refuted.

(** C98: no DualQuat can be made, in any way, nor conjugated: every such call recurses for
    ever through the default constructor, whatever the depth of the stack. *)
Theorem C98_dualquat_refuted : forall depth c, DualQuat depth c = Forever.
Proof. exact dualquat_forever. Qed.
Print Assumptions C98_dualquat_refuted.

(** C98: the product of two objects is the motion of the second followed by that of the
    first, and stays unit; QuatTran's conj undoes the motion. *)
Theorem C98_products : forall a b A B e f S T x y p,
  unitq a -> unitq b -> proper_rotation A -> proper_rotation B -> unit_qutr e -> unit_qutr f ->
  proper_tfmat S -> proper_tfmat T -> unit_duqu x -> unit_duqu y ->
  (unitq (mul_quat a b) /\ quat_rotate (mul_quat a b) p = quat_rotate a (quat_rotate b p)) /\
  (proper_rotation (mul_rotmat A B) /\ rotmat_point (mul_rotmat A B) p = rotmat_point A (rotmat_point B p)) /\
  (unit_qutr (mul_qutr e f) /\
   quattran_transform (mul_qutr e f) p = quattran_transform e (quattran_transform f p)) /\
  (proper_tfmat (mul_tfmat S T) /\ tfmat_transform (mul_tfmat S T) p = tfmat_transform S (tfmat_transform T p)) /\
  (unit_duqu (mul_duqu x y) /\ duqu_tf (mul_duqu x y) p = duqu_tf x (duqu_tf y p)) /\
  (quattran_transform (quattran_conj e) (quattran_transform e p) = p /\
   quattran_transform e (quattran_transform (quattran_conj e) p) = p).
Proof.
  intros a b A B e f S T x y p Ua Ub PA PB Ue Uf PS PT Ux Uy.
  destruct (products_act a b A B p) as (Q & M & N).
  split; [now apply Q|]. split; [split; [now apply M|exact N]|].
  split; [split; [now apply qutr_mul_unit|now apply qutr_mul_acts]|].
  split; [split; [now apply tfmat_mul_proper|now apply tfmat_mul_acts]|].
  split; [split; [now apply unit_duqu_mul|now apply duqu_mul_acts]|].
  destruct (qutr_conj_acts e p Ue) as [L R]. exact (conj R L).
Qed.
Print Assumptions C98_products.

(** C98: storage order: RotMat of nine components takes them row by row, the translation
    parts are the images of the origin, and the Eigen matrices act like the objects. *)
Theorem C98_layout :
  (forall r11 r12 r13 r21 r22 r23 r31 r32 r33 x y z,
    rotmat_point (rotmat_rows r11 r12 r13 r21 r22 r23 r31 r32 r33) (vec_xyz x y z) =
    mkV (r11 * x + r12 * y + r13 * z) (r21 * x + r22 * y + r23 * z) (r31 * x + r32 * y + r33 * z)) /\
  (forall T s, unit_duqu s -> vec_tfmat T = tfmat_transform T zero3 /\ vec_duqu s = duqu_tf s zero3) /\
  (forall M p, mkV (eigen_row (conv_rotmat M) 0 p) (eigen_row (conv_rotmat M) 1 p) (eigen_row (conv_rotmat M) 2 p)
    = rotmat_point M p) /\
  (forall T p, let E := conv_tfmat T in
    mkV (eigen_row E 0 p + E 0%nat 3%nat) (eigen_row E 1 p + E 1%nat 3%nat) (eigen_row E 2 p + E 2%nat 3%nat)
    = tfmat_transform T p) /\
  (forall e p, let E := conv_qutr e in
    mkV (eigen_row E 0 p + E 0%nat 3%nat) (eigen_row E 1 p + E 1%nat 3%nat) (eigen_row E 2 p + E 2%nat 3%nat)
    = quattran_transform e p).
Proof.
  split; [exact rows_act|]. split; [exact origin_parts|].
  split; [exact (fun M p => proj1 (eigen_ok M ident_qutr p))|].
  split; [exact (fun T p => proj2 (proj2 (eigen_ok ident3 ident_qutr p)) T)|].
  exact (fun e p => proj1 (proj2 (eigen_ok ident3 e p))).
Qed.
Print Assumptions C98_layout.

(** Each kind of argument has legal values; a third-of-a-turn matrix, and an axis twice too long *)
Example C98_nonvacuous :
  rotates (RQuat (mkQ (3/5) 0 0 (4/5))) /\ rotates (RMat (mkM 0 1 0 0 0 1 1 0 0)) /\
  rotates (RAxang (mkA (mkV 0 (3/5) (4/5)) 2)) /\
  transforms (TDuqu (mkD (mkQ (3/5) 0 0 (4/5)) (mkQ (4/5) 1 1 (-3/5)))) /\
  dot (mkV 0 0 2) (mkV 0 0 2) <> 1 /\ sin (PI / 2) <> 0.
Proof.
  cbn. unfold unitq, norm2, proper_rotation, unit3, unit_duqu, unitq, norm2, col0, col1, col2, xprod, dot; cbn.
  repeat split; try lra. rewrite sin_PI2. lra.
Qed.

(** C99: Cmplx and RotMatP made from a complex number, an angle, an AngleP or a matrix are
    that rotation (and RotMatP() is the identity); AngleP of a rotation is its angle. *)
Theorem C99_rotations : forall s p, protates s ->
  (s <> PNone -> exists c, Cmplx s = Done c /\ unitc c /\ pturns s p (pmul_cv c p)) /\
  (exists M, RotMatP s = Done M /\ proper2 M /\ pturns s p (pmul_rv M p)).
Proof. exact (fun s p H => conj (cmplx_ok s p H) (rotmatp_ok s p H)). Qed.
Print Assumptions C99_rotations.

Theorem C99_angles : forall t c M p, unitc c -> proper2 M ->
  anglep_get (anglep_of t) = Done t /\
  (exists a, anglep_get (anglep_cmplx c) = Done a /\ anglep_get (anglep_std c) = Done a /\
     - PI < a <= PI /\ turn a p = pmul_cv c p) /\
  (exists a, anglep_get (anglep_rotmat M) = Done a /\ - PI < a <= PI /\ turn a p = pmul_rv M p).
Proof. exact anglep_ok. Qed.
Print Assumptions C99_angles.

(** C99: CmplxTran and TfMatP likewise, with products and inverses. *)
Theorem C99_transforms : forall s p, ptransforms s ->
  (exists e, CmplxTran s = Done e /\ unitc (fst e) /\ pmoves s p (pmul_ep e p)) /\
  (exists T, TfMatP s = Done T /\ proper2 (tr T) /\ pmoves s p (pmul_tp T p)).
Proof. exact (fun s p H => conj (cmplxtran_ok s p H) (tfmatp_ok s p H)). Qed.
Print Assumptions C99_transforms.

Theorem C99_products : forall c A B e f S T p, unitc c -> proper2 A -> unitc (fst e) -> proper2 (tr S) ->
  pmul_rv (pmul_rr A B) p = pmul_rv A (pmul_rv B p) /\
  pmul_ep (pmul_ee e f) p = pmul_ep e (pmul_ep f p) /\
  pmul_tp (pmul_tt S T) p = pmul_tp S (pmul_tp T p) /\
  pmul_cv (cmplx_conj c) (pmul_cv c p) = p /\
  pmul_rv (rotmatp_inverse A) (pmul_rv A p) = p /\
  pmul_ep (cmplxtran_inv e) (pmul_ep e p) = p /\
  pmul_tp (tfmatp_inverse S) (pmul_tp S p) = p.
Proof.
  intros c A B [e v] f S T p Uc PA Ue PS. destruct (planar_products A B (e, v) f p) as [P Q].
  split; [exact P|]. split; [exact Q|]. split; [apply PlanarProofs.tfmatp_mul_acts|].
  split; [now apply cmplx_undo|]. split; [now apply rotmatp_undo|].
  split; [now apply cv_inv_acts|now apply PlanarProofs.tfmatp_inv_acts].
Qed.
Print Assumptions C99_products.

(** C99: AngleP(), documented as the zero rotation, leaves the angle without a value: reading
    it, and every rotation or transform made from it, is undefined. *)
Theorem C99_zero_angle_refuted :
  anglep_get anglep_none = Undef /\ Cmplx (PAngleP anglep_none) = Undef /\
  RotMatP (PAngleP anglep_none) = Undef /\
  forall v, CmplxTran (QRot (PAngleP anglep_none) v) = Undef /\ TfMatP (QRot (PAngleP anglep_none) v) = Undef.
Proof. exact anglep_none_bad. Qed.
Print Assumptions C99_zero_angle_refuted.

(** C99: unlike the other default constructors, Cmplx() is not the identity rotation: it
    sends every point to the origin (its documentation says so; Cmplx::ident() is 1). *)
Theorem C99_default_cmplx : forall p,
  (exists c, Cmplx PNone = Done c /\ ~ unitc c /\ pmul_cv c p = mkC 0 0) /\
  unitc cmplx_ident /\ pmul_cv cmplx_ident p = p.
Proof. exact (fun p => conj (cmplx_none_bad p) (conj unitc_one (one_crot p))). Qed.
Print Assumptions C99_default_cmplx.

Example C99_nonvacuous : protates (PCmplx (mkC (-3/5) (4/5))) /\ protates (PAngleP (anglep_of 1)) /\
  ptransforms (QMat (mkT6 (mkR4 (-3/5) (4/5) (-4/5) (-3/5)) 1 2)).
Proof. cbn. unfold unitc, proper2; cbn. repeat split; try lra. discriminate. Qed.
