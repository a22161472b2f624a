(** Spatial transforms: C19, C20, C21, C22, C25, C28, C30, C60. *)
From Coq Require Import Reals ZArith List Lra.
From Verif Require Import TfModel TfSpec TfProofs TfRotmatProofs TfRepProofs TfCalcProofs TfFrameProofs.
Open Scope R_scope.

(** * C19: quaternions *)

(** C19: the product is the textbook one; it is associative with the identity
    quaternion as unit; norms multiply. *)
Theorem C19_qmul_monoid : forall a b c,
  qmul a b = hamilton a b /\
  qmul a (qmul b c) = qmul (qmul a b) c /\
  qmul (mkQ 0 0 0 1) a = a /\ qmul a (mkQ 0 0 0 1) = a /\
  norm2 (qmul a b) = norm2 a * norm2 b /\ qnorm (qmul a b) = qnorm a * qnorm b.
Proof.
  exact (fun a b c => conj (qmul_hamilton a b) (conj (qmul_assoc a b c) (conj (qmul_ident_l a)
   (conj (qmul_ident_r a) (conj (norm2_mul a b) (qnorm_mul a b)))))).
Qed.
Print Assumptions C19_qmul_monoid.

(** C19: aa_tf_qinv inverts every nonzero quaternion, aa_tf_qconj every unit one. *)
Theorem C19_qinv_inverse : forall a, norm2 a <> 0 ->
  qmul a (qinv a) = mkQ 0 0 0 1 /\ qmul (qinv a) a = mkQ 0 0 0 1.
Proof. exact (fun a H => conj (qinv_r a H) (qinv_l a H)). Qed.
Print Assumptions C19_qinv_inverse.

Theorem C19_qconj_inverse : forall a, unitq a ->
  qmul a (qconj a) = mkQ 0 0 0 1 /\ qmul (qconj a) a = mkQ 0 0 0 1.
Proof. exact qmul_conj_unit. Qed.
Print Assumptions C19_qconj_inverse.

(** C19: rotating by a unit quaternion is the rotation v -> q v q*, keeps dot and
    cross products, and rotating by a product is rotating twice.  The two
    implementations (aa_tf_qrot, aa_tf_qrot1) agree, and q and -q rotate alike. *)
Theorem C19_qrot_rotation : forall q, unitq q ->
  rotation_map (qrot q) /\
  forall p, pure (qrot q p) = hamilton (hamilton q (pure p)) (conjugate q).
Proof. exact (fun q H => conj (qrot_rotation q H) (fun p => qrot_sandwich q p H)). Qed.
Print Assumptions C19_qrot_rotation.

Theorem C19_qrot_mul : forall a b p, unitq a -> unitq b ->
  qrot (qmul a b) p = qrot a (qrot b p).
Proof. exact qrot_mul. Qed.
Print Assumptions C19_qrot_mul.

Theorem C19_qrot_variants : forall q p, qrot1 q p = qrot q p /\ qrot (qneg q) p = qrot q p.
Proof. exact (fun q p => conj (qrot1_qrot q p) (qrot_neg q p)). Qed.
Print Assumptions C19_qrot_variants.

(** C19: the fused products and the matrix forms of multiplication. *)
Theorem C19_fused_products : forall a b c v,
  qcmul a b = hamilton (conjugate a) b /\ qmulc a b = hamilton a (conjugate b) /\
  qmulc_v a b = vecpart (hamilton a (conjugate b)) /\
  qmul_vq v b = hamilton (pure v) b /\ qmul_qv a v = hamilton a (pure v) /\
  qmul_a a b c = qadd c (hamilton a b) /\
  m44_app (qmatrix_l a) b = hamilton a b /\ m44_app (qmatrix_r a) b = hamilton b a.
Proof.
  exact (fun a b c v => conj (qcmul_eq a b) (conj (qmulc_eq a b) (conj (qmulc_v_eq a b)
   (conj (qmul_vq_eq v b) (conj (qmul_qv_eq a v) (conj (qmul_a_eq a b c)
   (conj (qmatrix_l_eq a b) (qmatrix_r_eq a b)))))))).
Qed.
Print Assumptions C19_fused_products.

(** C19: normalising gives a unit quaternion and does nothing to one; the
    normalising product is the product on unit quaternions; the minimal form has a
    non-negative scalar part and rotates alike. *)
Theorem C19_normalize : forall q, norm2 q <> 0 ->
  unitq (qnormalize q) /\ (unitq q -> qnormalize q = q) /\
  forall p, unitq p -> unitq q -> qmulnorm p q = qmul p q.
Proof.
  exact (fun q H => conj (qnormalize_unit q H) (conj (qnormalize_id q) (fun p P Q => qmulnorm_unit p q P Q))).
Qed.
Print Assumptions C19_normalize.

Theorem C19_minimize : forall q,
  (qminimize q = q /\ 0 <= qw q) \/ (qminimize q = qneg q /\ qw q < 0).
Proof. exact qminimize_cases. Qed.
Print Assumptions C19_minimize.

Example C19_nonvacuous : unitq (mkQ (3/5) 0 0 (4/5)) /\ norm2 (mkQ 1 2 3 4) = 30 /\
  qrot (mkQ (3/5) 0 0 (4/5)) (mkV 0 1 0) = mkV 0 (7/25) (24/25).
Proof. split; [|split]. - tfc; field. - tfc; ring. - tfc; f_equal; field. Qed.

(** * C20: representations agree *)

(** C20: every representation acts as a rigid motion, and multiplying
    representations composes the motions. *)
Theorem C20_qutr_mul_acts : forall a b, unit_qutr a -> unit_qutr b ->
  rigid_motion (qutr_tf a) /\ unit_qutr (qutr_mul a b) /\
  forall p, qutr_tf (qutr_mul a b) p = qutr_tf a (qutr_tf b p).
Proof.
  exact (fun a b A B => conj (qutr_rigid a A) (conj (qutr_mul_unit a b A B)
    (fun p => qutr_mul_acts a b p A B))).
Qed.
Print Assumptions C20_qutr_mul_acts.

Theorem C20_duqu_mul_acts : forall a b, unit_duqu a -> unit_duqu b ->
  rigid_motion (duqu_tf a) /\ unit_duqu (dmul a b) /\
  forall p, duqu_tf (dmul a b) p = duqu_tf a (duqu_tf b p).
Proof.
  exact (fun a b A B => conj (duqu_rigid a A) (conj (unit_duqu_mul a b A B)
    (fun p => duqu_mul_acts a b p A B))).
Qed.
Print Assumptions C20_duqu_mul_acts.

Theorem C20_tfmat_mul_acts : forall a b, proper_tfmat a -> proper_tfmat b ->
  rigid_motion (tfmat_tf a) /\ proper_tfmat (tfmat_mul a b) /\
  forall p, tfmat_tf (tfmat_mul a b) p = tfmat_tf a (tfmat_tf b p).
Proof.
  exact (fun a b A B => conj (tfmat_rigid a A) (conj (tfmat_mul_proper a b A B)
    (fun p => tfmat_mul_acts a b p))).
Qed.
Print Assumptions C20_tfmat_mul_acts.

(** C20: every conversion keeps the motion... *)
Theorem C20_conversions_keep_motion : forall e d T p,
  unit_qutr e -> unit_duqu d -> proper_tfmat T ->
  duqu_tf (qutr2duqu e) p = qutr_tf e p /\ tfmat_tf (qutr2tfmat e) p = qutr_tf e p /\
  qutr_tf (duqu2qutr d) p = duqu_tf d p /\ tfmat_tf (duqu2tfmat d) p = duqu_tf d p /\
  qutr_tf (tfmat2qutr T) p = tfmat_tf T p /\ duqu_tf (tfmat2duqu T) p = tfmat_tf T p.
Proof.
  exact (fun e d T p E D P => conj (duqu_tf_of_qutr e p E) (conj (qutr2tfmat_tf e p)
   (conj (eq_sym (duqu_tf_qutr d p (proj1 D))) (conj (duqu2tfmat_tf d p (proj1 D))
   (conj (tfmat2qutr_tf T p P) (tfmat2duqu_tf T p P)))))).
Qed.
Print Assumptions C20_conversions_keep_motion.

(** ... stays on unit transforms, and is invertible (the quaternion of a matrix is
    determined up to sign, see C21). *)
Theorem C20_conversions_invertible : forall e d T,
  unit_qutr e -> unit_duqu d -> proper_tfmat T ->
  (unit_duqu (qutr2duqu e) /\ duqu2qutr (qutr2duqu e) = e) /\
  (unit_qutr (duqu2qutr d) /\ qutr2duqu (duqu2qutr d) = d) /\
  (unit_qutr (tfmat2qutr T) /\ qutr2tfmat (tfmat2qutr T) = T) /\
  (unit_duqu (tfmat2duqu T) /\ duqu2tfmat (tfmat2duqu T) = T) /\
  proper_tfmat (qutr2tfmat e).
Proof.
  exact (fun e d T E D P => conj (conj (unit_qutr2duqu e E) (duqu2qutr_qutr2duqu e E))
   (conj (conj (unit_duqu2qutr d D) (qutr2duqu_duqu2qutr d D))
   (conj (conj (tfmat2qutr_unit T P) (qutr2tfmat_tfmat2qutr T P))
   (conj (conj (tfmat2duqu_unit T P) (duqu2tfmat_tfmat2duqu T P)) (qutr2tfmat_proper e E))))).
Qed.
Print Assumptions C20_conversions_invertible.

(** C20: conversions commute with multiplication and inversion. *)
Theorem C20_conversions_commute_mul : forall a b s t,
  unit_qutr a -> unit_qutr b -> unit_duqu s -> unit_duqu t ->
  qutr2duqu (qutr_mul a b) = dmul (qutr2duqu a) (qutr2duqu b) /\
  qutr2tfmat (qutr_mul a b) = tfmat_mul (qutr2tfmat a) (qutr2tfmat b) /\
  duqu2qutr (dmul s t) = qutr_mul (duqu2qutr s) (duqu2qutr t) /\
  duqu2tfmat (dmul s t) = tfmat_mul (duqu2tfmat s) (duqu2tfmat t).
Proof.
  exact (fun a b s t A B S T => conj (qutr2duqu_mul a b A B) (conj (qutr2tfmat_mul a b A B)
   (conj (duqu2qutr_mul s t S T) (duqu2tfmat_mul s t S T)))).
Qed.
Print Assumptions C20_conversions_commute_mul.

Theorem C20_conversions_commute_inverse : forall a s, unit_qutr a -> unit_duqu s ->
  qutr2duqu (qutr_conj a) = dconj (qutr2duqu a) /\
  qutr2tfmat (qutr_conj a) = tfmat_inv (qutr2tfmat a) /\
  duqu2qutr (dconj s) = qutr_conj (duqu2qutr s) /\
  duqu2tfmat (dconj s) = tfmat_inv (duqu2tfmat s).
Proof.
  exact (fun a s A S => conj (qutr2duqu_conj a A) (conj (qutr2tfmat_conj a)
   (conj (duqu2qutr_conj s S) (duqu2tfmat_conj s S)))).
Qed.
Print Assumptions C20_conversions_commute_inverse.

(** C20: the variadic aa_tf_v9mul and aa_tf_v12chain compose all their arguments, in
    order, for any number of them. *)
Theorem C20_variadic_chain : forall T1 T2 l p,
  tfmat_tf (v12chain T1 T2 l) p = tfmat_tf T1 (tfmat_tf T2 (fold_right tfmat_tf p l)).
Proof. exact v12chain_acts. Qed.
Print Assumptions C20_variadic_chain.

Example C20_nonvacuous : unit_qutr (mkE (mkQ (3/5) 0 0 (4/5)) (mkV 1 2 3)) /\
  unit_duqu (mkD (mkQ (3/5) 0 0 (4/5)) (mkQ (4/5) 1 1 (-3/5))) /\
  proper_tfmat (mkT (mkM 0 1 0 (-1) 0 0 0 0 1) (mkV 1 2 3)).
Proof. split; [|split]. - tfc; field. - split; tfc; field. - unfold proper_tfmat, proper_rotation; tfc; repeat split; ring. Qed.

(** * C21: rotation matrices and quaternions *)

Theorem C21_quat2rotmat_proper : forall q, unitq q ->
  proper_rotation (quat2rotmat q) /\ forall p, mrot (quat2rotmat q) p = qrot q p.
Proof. exact (fun q H => conj (quat2rotmat_proper q H) (fun p => eq_sym (qrot_mrot q p))). Qed.
Print Assumptions C21_quat2rotmat_proper.

(** C21: in every branch. *)
Theorem C21_rotmat2quat_right_inverse : forall M, proper_rotation M ->
  unitq (rotmat2quat M) /\ quat2rotmat (rotmat2quat M) = M.
Proof. exact rotmat2quat_ok. Qed.
Print Assumptions C21_rotmat2quat_right_inverse.

Theorem C21_rotmat2quat_left_inverse_up_to_sign : forall q, unitq q ->
  rotmat2quat (quat2rotmat q) = q \/ rotmat2quat (quat2rotmat q) = qneg q.
Proof. exact rotmat2quat_quat2rotmat. Qed.
Print Assumptions C21_rotmat2quat_left_inverse_up_to_sign.

(** C21: the quaternion chosen is the one of the shorter rotation. *)
Theorem C21_rotmat2quat_minimal : forall M, proper_rotation M -> 0 <= qw (rotmat2quat M).
Proof. exact rotmat2quat_w_nonneg. Qed.
Print Assumptions C21_rotmat2quat_minimal.

(** Half turns about x, y, z take the three branches other than the w one. *)
Example C21_nonvacuous : proper_rotation (mkM 1 0 0 0 (-1) 0 0 0 (-1)) /\
  proper_rotation (mkM (-1) 0 0 0 1 0 0 0 (-1)) /\ proper_rotation (mkM (-1) 0 0 0 (-1) 0 0 0 1).
Proof. unfold proper_rotation; tfc; repeat split; ring. Qed.

(** * C22: inverses and relative transforms *)

Theorem C22_inverse_both_sides : forall e d T, unit_qutr e -> unit_duqu d -> proper_tfmat T ->
  (qutr_mul e (qutr_conj e) = ident_qutr /\ qutr_mul (qutr_conj e) e = ident_qutr) /\
  (dmul d (dconj d) = ident_duqu /\ dmul (dconj d) d = ident_duqu) /\
  (tfmat_mul T (tfmat_inv T) = ident_tfmat /\ tfmat_mul (tfmat_inv T) T = ident_tfmat).
Proof.
  exact (fun e d T E D P => conj (conj (qutr_conj_r e E) (qutr_conj_l e E))
   (conj (conj (dconj_r d D) (dconj_l d D)) (conj (tfmat_inv_r T P) (tfmat_inv_l T P)))).
Qed.
Print Assumptions C22_inverse_both_sides.

(** C22, as motions: undoing a transform brings every point back. *)
Theorem C22_inverse_undoes_motion : forall e d T p, unit_qutr e -> unit_duqu d -> proper_tfmat T ->
  (qutr_tf e (qutr_tf (qutr_conj e) p) = p /\ qutr_tf (qutr_conj e) (qutr_tf e p) = p) /\
  (duqu_tf d (duqu_tf (dconj d) p) = p /\ duqu_tf (dconj d) (duqu_tf d p) = p) /\
  (tfmat_tf T (tfmat_tf (tfmat_inv T) p) = p /\ tfmat_tf (tfmat_inv T) (tfmat_tf T p) = p).
Proof.
  exact (fun e d T p E D P => conj (qutr_conj_acts e p E) (conj (dconj_acts d p D) (tfmat_inv_acts T p P))).
Qed.
Print Assumptions C22_inverse_undoes_motion.

(** C22: *_cmul(a,b) is the pose of b relative to a; *_mulc(a,b) is the motion taking b
    to a; aa_tf_93rel / aa_tf_12rel give T1^-1 T2. *)
Theorem C22_relative_qutr : forall a b p, unit_qutr a -> unit_qutr b ->
  qutr_tf a (qutr_tf (qutr_cmul a b) p) = qutr_tf b p /\
  qutr_tf (qutr_mulc a b) (qutr_tf b p) = qutr_tf a p.
Proof. exact (fun a b p A B => conj (qutr_cmul_acts a b p A B) (qutr_mulc_acts a b p A B)). Qed.
Print Assumptions C22_relative_qutr.

Theorem C22_relative_duqu : forall a b p, unit_duqu a -> unit_duqu b ->
  duqu_tf a (duqu_tf (dcmul a b) p) = duqu_tf b p /\
  duqu_tf (dmulc a b) (duqu_tf b p) = duqu_tf a p.
Proof. exact (fun a b p A B => conj (dcmul_acts a b p A B) (dmulc_acts a b p A B)). Qed.
Print Assumptions C22_relative_duqu.

Theorem C22_relative_tfmat : forall a b p, proper_tfmat a ->
  tfmat_tf a (tfmat_tf (tfmat_rel a b) p) = tfmat_tf b p.
Proof. exact tfmat_rel_acts. Qed.
Print Assumptions C22_relative_tfmat.

(** C22: relative rotations. *)
Theorem C22_relative_rotation : forall q1 q2 R1 R2, norm2 q2 <> 0 -> proper_rotation R2 ->
  qmul (qrel q1 q2) q2 = q1 /\ mmul (rotmat_rel R1 R2) R2 = R1.
Proof. exact (fun q1 q2 R1 R2 H P => conj (qrel_spec q1 q2 H) (rotmat_rel_spec R1 R2 P)). Qed.
Print Assumptions C22_relative_rotation.

Example C22_nonvacuous : let e := mkE (mkQ (3/5) 0 0 (4/5)) (mkV 1 2 3) in
  unit_qutr e /\ qutr_conj e <> e.
Proof. split. - tfc; field. - intros H. apply (f_equal (fun x => qx (eq x))) in H. cbn in H. lra. Qed.

(** * C25: velocities and derivatives *)

(** C25: velocity to derivative and back. *)
Theorem C25_velocity_roundtrip : forall q e d M T w dx,
  unitq q -> unit_qutr e -> unit_duqu d -> proper_rotation M -> proper_tfmat T ->
  qdiff2vel q (qvel2diff q w) = w /\
  qutr_diff2vel e (qutr_vel2diff e dx) = dx /\
  duqu_diff2vel d (duqu_vel2diff d dx) = dx /\
  rotmat_diff2vel M (rotmat_vel2diff M w) = w /\
  tfmat_diff2vel T (tfmat_vel2diff T dx) = dx /\
  duqu_twist2vel d (duqu_vel2twist d dx) = dx.
Proof.
  exact (fun q e d M T w dx Q E D P S => conj (qdiff2vel_qvel2diff q w Q)
   (conj (qutr_diff2vel_vel2diff e dx E) (conj (duqu_diff2vel_vel2diff d dx D)
   (conj (rotmat_diff2vel_vel2diff M w P) (conj (tfmat_diff2vel_vel2diff T dx S)
   (duqu_twist2vel_vel2twist d dx)))))).
Qed.
Print Assumptions C25_velocity_roundtrip.

(** C25: if a moving pose has the derivative computed from a velocity, every point of
    the moving body has that velocity: v + w x (offset). *)
Theorem C25_qutr_true_velocity : forall e t dx, unit_qutr (e t) ->
  ederiv e t (qutr_vel2diff (e t) dx) ->
  body_velocity (fun s p => qutr_tf (e s) p) t (dxv dx) (dxw dx).
Proof. exact qutr_vel_ok. Qed.
Print Assumptions C25_qutr_true_velocity.

Theorem C25_duqu_true_velocity : forall d t dx, (forall s, unit_duqu (d s)) ->
  dderiv d t (duqu_vel2diff (d t) dx) ->
  body_velocity (fun s p => duqu_tf (d s) p) t (dxv dx) (dxw dx).
Proof. exact duqu_vel_ok. Qed.
Print Assumptions C25_duqu_true_velocity.

Theorem C25_tfmat_true_velocity : forall T t dx,
  tderiv T t (tfmat_vel2diff (T t) dx) ->
  body_velocity (fun s p => tfmat_tf (T s) p) t (dxv dx) (dxw dx).
Proof. exact tfmat_vel_ok. Qed.
Print Assumptions C25_tfmat_true_velocity.

(** C25: conversely, the true derivative of any moving unit pose is recovered from the
    velocity computed from it (so that velocity is the body's, by the three above). *)
Theorem C25_qutr_derivative_roundtrip : forall e t de, (forall s, unit_qutr (e s)) ->
  ederiv e t de -> qutr_vel2diff (e t) (qutr_diff2vel (e t) de) = de.
Proof. exact qutr_diff_ok. Qed.
Print Assumptions C25_qutr_derivative_roundtrip.

Theorem C25_duqu_derivative_roundtrip : forall d t dd, (forall s, unit_duqu (d s)) ->
  dderiv d t dd -> duqu_vel2diff (d t) (duqu_diff2vel (d t) dd) = dd.
Proof. exact duqu_diff_ok. Qed.
Print Assumptions C25_duqu_derivative_roundtrip.

Theorem C25_tfmat_derivative_roundtrip : forall T t dT, (forall s, proper_tfmat (T s)) ->
  tderiv T t dT -> tfmat_vel2diff (T t) (tfmat_diff2vel (T t) dT) = dT.
Proof. exact tfmat_diff_ok. Qed.
Print Assumptions C25_tfmat_derivative_roundtrip.

(** A body turning about z at rate 2 while sliding along x: the hypotheses of the
    theorems above are met. *)
Example C25_nonvacuous : let e := fun s => mkE (mkQ 0 0 (sin s) (cos s)) (mkV s 0 0) in
  (forall s, unit_qutr (e s)) /\
  forall t, ederiv e t (qutr_vel2diff (e t) (mkDX (mkV 1 0 0) (mkV 0 0 2))).
Proof.
  intros e. split.
  - intros s. unfold e. tfc. pose proof (sin2_cos2 s) as H. unfold Rsqr in H. lra.
  - intros t. unfold e. split; repeat split; tfc.
    + eapply dpl_eq; [|apply dpl_const]. field.
    + eapply dpl_eq; [|apply dpl_const]. field.
    + eapply dpl_eq; [|apply derivable_pt_lim_sin]. field.
    + eapply dpl_eq; [|apply derivable_pt_lim_cos]. field.
    + apply dpl_id.
    + apply dpl_const.
    + apply dpl_const.
Qed.

(** * C28: Denavit-Hartenberg *)

Theorem C28_dh_proximal : forall alpha a d phi p,
  tfmat_tf (dhprox2tfmat alpha a d phi) p = dh_proximal alpha a d phi p /\
  unit_qutr (dhprox2qutr alpha a d phi) /\
  qutr2tfmat (dhprox2qutr alpha a d phi) = dhprox2tfmat alpha a d phi /\
  qutr2duqu (dhprox2qutr alpha a d phi) = dhprox2duqu alpha a d phi.
Proof.
  exact (fun alpha a d phi p => conj (dhprox_tfmat alpha a d phi p) (conj (dhprox_qutr_unit alpha a d phi)
   (conj (dhprox_qutr_tfmat alpha a d phi) (dhprox_duqu alpha a d phi)))).
Qed.
Print Assumptions C28_dh_proximal.

Theorem C28_dh_distal : forall alpha a d phi p,
  tfmat_tf (dhdist2tfmat alpha a d phi) p = dh_distal alpha a d phi p /\
  unit_qutr (dhdist2qutr alpha a d phi) /\
  qutr2tfmat (dhdist2qutr alpha a d phi) = dhdist2tfmat alpha a d phi /\
  qutr2duqu (dhdist2qutr alpha a d phi) = dhdist2duqu alpha a d phi.
Proof.
  exact (fun alpha a d phi p => conj (dhdist_tfmat alpha a d phi p) (conj (dhdist_qutr_unit alpha a d phi)
   (conj (dhdist_qutr_tfmat alpha a d phi) (dhdist_duqu alpha a d phi)))).
Qed.
Print Assumptions C28_dh_distal.

Example C28_nonvacuous : dh_proximal 0 1 2 (PI/2) (mkV 1 0 0) = mkV 1 1 2.
Proof.
  unfold dh_proximal, rot_x, rot_z, trans_x, trans_z.
  cbn [vx vy vz]. rewrite cos_PI2, sin_PI2, cos_0, sin_0. f_equal; ring.
Qed.

(** * C60: frames built from axes *)

(** C60: from two perpendicular axes. *)
Theorem C60_rotmat_from_axes : forall a b, nonzero3 a -> nonzero3 b -> dot a b = 0 ->
  (proper_rotation (rotmat_xy a b) /\ times3 (sqrt (dot a a)) (col0 (rotmat_xy a b)) = a /\
     times3 (sqrt (dot b b)) (col1 (rotmat_xy a b)) = b) /\
  (proper_rotation (rotmat_yz a b) /\ times3 (sqrt (dot a a)) (col1 (rotmat_yz a b)) = a /\
     times3 (sqrt (dot b b)) (col2 (rotmat_yz a b)) = b) /\
  (proper_rotation (rotmat_zx a b) /\ times3 (sqrt (dot a a)) (col2 (rotmat_zx a b)) = a /\
     times3 (sqrt (dot b b)) (col0 (rotmat_zx a b)) = b).
Proof.
  exact (fun a b A B H => conj (rotmat_xy_ok a b A B H) (conj (rotmat_yz_ok a b A B H) (rotmat_zx_ok a b A B H))).
Qed.
Print Assumptions C60_rotmat_from_axes.

(** C60: look-at: a proper rotation whose -z axis points from the eye to the target,
    whose x axis is perpendicular to the up direction and whose y axis has a positive
    component along it; the frame's origin is the eye; both forms agree. *)
Theorem C60_mzlook : forall eye target up,
  nonzero3 (xprod up (plus3 eye (times3 (-1) target))) ->
  let M := rotmat_mzlook eye target up in
  proper_rotation M /\
  (exists k, 0 < k /\ times3 (-1) (col2 M) = times3 k (plus3 target (times3 (-1) eye))) /\
  dot (col0 M) up = 0 /\ 0 < dot (col1 M) up.
Proof. exact mzlook_ok. Qed.
Print Assumptions C60_mzlook.

Theorem C60_mzlook_origin : forall eye target up p,
  nonzero3 (xprod up (plus3 eye (times3 (-1) target))) ->
  tfmat_tf (tfmat_mzlook eye target up) zero3 = eye /\
  qutr_tf (qutr_mzlook eye target up) p = tfmat_tf (tfmat_mzlook eye target up) p.
Proof.
  exact (fun eye target up p H => conj (tfmat_mzlook_ok eye target up) (qutr_mzlook_ok eye target up p H)).
Qed.
Print Assumptions C60_mzlook_origin.

(** C60: renormalising any matrix whose first two columns are independent gives a proper
    rotation with the same x direction, the same xy plane and y side; and leaves a
    proper rotation unchanged. *)
Theorem C60_rotmat_normalize : forall M, nonzero3 (xprod (col0 M) (col1 M)) ->
  let N := rotmat_normalize M in
  proper_rotation N /\
  times3 (sqrt (dot (col0 M) (col0 M))) (col0 N) = col0 M /\
  dot (col2 N) (col1 M) = 0 /\ 0 < dot (col1 N) (col1 M).
Proof. exact rotmat_normalize_ok. Qed.
Print Assumptions C60_rotmat_normalize.

Theorem C60_rotmat_normalize_idempotent : forall M, proper_rotation M -> rotmat_normalize M = M.
Proof. exact rotmat_normalize_id. Qed.
Print Assumptions C60_rotmat_normalize_idempotent.

(** C60: orthogonal projection onto a direction. *)
Theorem C60_projection : forall a b, nonzero3 b ->
  (exists k, proj a b = times3 k b) /\ dot (proj_orth a b) b = 0 /\
  plus3 (proj a b) (proj_orth a b) = a.
Proof. exact proj_ok. Qed.
Print Assumptions C60_projection.

Example C60_nonvacuous : nonzero3 (xprod (mkV 0 0 1) (plus3 (mkV 1 2 3) (times3 (-1) (mkV 4 4 4)))) /\
  nonzero3 (xprod (col0 (mkM 1 2 0 0 3 1 7 7 7)) (col1 (mkM 1 2 0 0 3 1 7 7 7))).
Proof. unfold nonzero3. tfc. split; lra. Qed.
