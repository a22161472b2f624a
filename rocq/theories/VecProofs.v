(** Vectorised kernels: lemmas. *)
From Coq Require Import Reals Lra.
From Verif Require Import TfModel TfSpec TfProofs TfRepProofs VecModel.
Open Scope R_scope.

Ltac vc := tfd; cbv [lane shuffle lmul ladd lsub lscale set3 ld3 st3 vec_dot vec_cross vec_qconj
  vec_qmul vec_vqmul vec_qrot vec_qv_tf vec_qv_mul vec_rotmat_tf vec_tfmat_tf vecm_cross vecm_qconj vecm_qmul
  vecm_qrot vecm_tfmul vecm_tfmul_2d vecm_duqu_mul vec_duqu_trans vec_qv2duqu_dual qx qy qz qw vx vy vz
  dreal ddual eq ev tR tv m00 m01 m02 m10 m11 m12 m20 m21 m22 mkqv qdivs ident_tfmat fst snd]; tfc.
Ltac vring := vc; tfeq; ring.

Lemma vec_cross_ok j1 j2 a b : vecm_cross j1 j2 a b = xprod a b.
Proof. vring. Qed.
Lemma vec_qconj_ok q : vecm_qconj q = conjugate q.
Proof. vring. Qed.
Lemma vec_qmul_ok a b : vecm_qmul a b = hamilton a b.
Proof. vring. Qed.
Lemma vec_qrot_ok j q v : vecm_qrot j q v = qrot q v.
Proof. vring. Qed.
Lemma vec_tfmul_ok j A B : vecm_tfmul j A B = tfmat_mul A B.
Proof. vring. Qed.
Lemma vec_duqu_mul_ok a b : vecm_duqu_mul a b = dmul a b.
Proof. vring. Qed.
Lemma vec_dot_ok a b : vec_dot a b = qdot a b.
Proof. vring. Qed.
Lemma vec_qv_tf_ok j1 j2 q v p : st3 (vec_qv_tf q (ld3 j1 v) (ld3 j2 p)) = qutr_tf (mkE q v) p.
Proof. vring. Qed.
Lemma vec_qv_mul_ok j1 j2 a b : let r := vec_qv_mul (eq a) (ld3 j1 (ev a)) (eq b) (ld3 j2 (ev b)) in
  mkE (fst r) (st3 (snd r)) = qutr_mul a b.
Proof. cbn [fst snd vec_qv_mul]. vring. Qed.
Lemma vec_duqu_trans_ok s : st3 (vec_duqu_trans (dreal s) (ddual s)) = dtrans s.
Proof. vring. Qed.
Lemma tfmul_2d_rows A B :
  let U := vecm_tfmul_2d A B in let V := tfmat_mul A B in
  m00 (tR U) = m00 (tR V) /\ m01 (tR U) = m01 (tR V) /\ m02 (tR U) = m02 (tR V) /\ vx (tv U) = vx (tv V) /\
  m10 (tR U) = m10 (tR V) /\ m11 (tR U) = m11 (tR V) /\ m12 (tR U) = m12 (tR V) /\ vy (tv U) = vy (tv V).
Proof. vc. repeat split; ring. Qed.
Lemma tfmul_2d_bad : proper_tfmat ident_tfmat /\ vecm_tfmul_2d ident_tfmat ident_tfmat <> tfmat_mul ident_tfmat ident_tfmat.
Proof.
  split.
  - unfold proper_tfmat, proper_rotation. tfc. repeat split; ring.
  - intros H. apply (f_equal (fun T => m22 (tR T))) in H. revert H. unfold ident_tfmat. vc. lra.
Qed.
Lemma vqmul_ok_3 v q j : let r := vec_vqmul (ld3 j v) q in let s := hamilton (pure v) q in
  qx r = qx s /\ qy r = qy s /\ qz r = qz s.
Proof. vc. repeat split; ring. Qed.
Lemma vqmul_bad : exists v q, forall j, vec_vqmul (ld3 j v) q <> hamilton (pure v) q.
Proof.
  exists (mkV 0 1 0), (mkQ 0 1 0 0). intros j H. apply (f_equal qw) in H. revert H. vc. lra.
Qed.
Lemma qv2duqu_dual_bad : exists e, unit_qutr e /\ forall j,
  vec_qv2duqu_dual (eq e) (ld3 j (ev e)) <> ddual (qutr2duqu e).
Proof.
  exists (mkE (mkQ 0 0 0 1) (mkV 1 0 0)). split; [unfold unit_qutr; tfc; ring|]. intros j H.
  apply (f_equal qx) in H. revert H. vc. lra.
Qed.
