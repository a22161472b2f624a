(** Vectorised kernels: C32. *)
From Coq Require Import Reals.
From Verif Require Import TfModel TfSpec VecModel VecProofs.
Open Scope R_scope.

(** C32: the vector kernels compute the same as the scalar functions, whatever the
    unset fourth lanes contain. *)
Theorem C32_tfmul_is_composition : forall j A B, vecm_tfmul j A B = tfmat_mul A B.
Proof. exact vec_tfmul_ok. Qed.
Print Assumptions C32_tfmul_is_composition.

Theorem C32_kernels : forall j1 j2 a b p q s t v,
  vecm_cross j1 j2 a b = xprod a b /\ vecm_qconj p = conjugate p /\
  vecm_qmul p q = hamilton p q /\ vecm_qrot j1 q v = qrot q v /\
  vecm_duqu_mul s t = dmul s t.
Proof.
  exact (fun j1 j2 a b p q s t v => conj (vec_cross_ok j1 j2 a b) (conj (vec_qconj_ok p)
   (conj (vec_qmul_ok p q) (conj (vec_qrot_ok j1 q v) (vec_duqu_mul_ok s t))))).
Qed.
Print Assumptions C32_kernels.

Theorem C32_inline_kernels : forall j1 j2 a b p s x y,
  vec_dot x y = qx x * qx y + qy x * qy y + qz x * qz y + qw x * qw y /\
  st3 (vec_qv_tf (eq a) (ld3 j1 (ev a)) (ld3 j2 p)) = qutr_tf (mkE (eq a) (ev a)) p /\
  (let r := vec_qv_mul (eq a) (ld3 j1 (ev a)) (eq b) (ld3 j2 (ev b)) in
   mkE (fst r) (st3 (snd r)) = qutr_mul a b) /\
  st3 (vec_duqu_trans (dreal s) (ddual s)) = dtrans s.
Proof.
  exact (fun j1 j2 a b p s x y => conj (vec_dot_ok x y) (conj (vec_qv_tf_ok j1 j2 (eq a) (ev a) p)
   (conj (vec_qv_mul_ok j1 j2 a b) (vec_duqu_trans_ok s)))).
Qed.
Print Assumptions C32_inline_kernels.

(** C32: the 2-lane variant gets the first two rows right for all inputs... *)
Theorem C32_tfmul_2d_two_rows : forall A B,
  let U := vecm_tfmul_2d A B in let V := tfmat_mul A B in
  m00 (tR U) = m00 (tR V) /\ m01 (tR U) = m01 (tR V) /\ m02 (tR U) = m02 (tR V) /\ vx (tv U) = vx (tv V) /\
  m10 (tR U) = m10 (tR V) /\ m11 (tR U) = m11 (tR V) /\ m12 (tR U) = m12 (tR V) /\ vy (tv U) = vy (tv V).
Proof. exact tfmul_2d_rows. Qed.
Print Assumptions C32_tfmul_2d_two_rows.

(** ... and the third wrong, already on the identity. *)
Theorem C32_tfmul_2d_refuted : proper_tfmat ident_tfmat /\
  vecm_tfmul_2d ident_tfmat ident_tfmat <> tfmat_mul ident_tfmat ident_tfmat.
Proof. exact tfmul_2d_bad. Qed.
Print Assumptions C32_tfmul_2d_refuted.

(** C32: aa_vec_vqmul has a wrong scalar part (its vector part is right), and
    aa_vec_qv2duqu_dual is not the dual part of the pose. *)
Theorem C32_vqmul_vector_part : forall v q j,
  let r := vec_vqmul (ld3 j v) q in let s := hamilton (pure v) q in
  qx r = qx s /\ qy r = qy s /\ qz r = qz s.
Proof. exact vqmul_ok_3. Qed.
Print Assumptions C32_vqmul_vector_part.

Theorem C32_vqmul_scalar_refuted : exists v q, forall j,
  vec_vqmul (ld3 j v) q <> hamilton (pure v) q.
Proof. exact vqmul_bad. Qed.
Print Assumptions C32_vqmul_scalar_refuted.

Theorem C32_qv2duqu_dual_refuted : exists e, unit_qutr e /\ forall j,
  vec_qv2duqu_dual (eq e) (ld3 j (ev e)) <> ddual (qutr2duqu e).
Proof. exact qv2duqu_dual_bad. Qed.
Print Assumptions C32_qv2duqu_dual_refuted.

Example C32_nonvacuous : vecm_qmul (mkQ 1 2 3 4) (mkQ 5 6 7 8) = mkQ 24 48 48 (-6).
Proof. vc. f_equal; ring. Qed.
