(** Proofs that the three transform representations agree. *)

From Coq Require Import Reals Lra Psatz List Nsatz.
From Verif Require Import TfModel TfSpec TfProofs TfRotmatProofs.
Open Scope R_scope.

(** ** Quaternion-translation *)

Lemma qutr_tf_eq e p : qutr_tf e p = plus3 (ev e) (qrot (eq e) p).
Proof. tfring. Qed.
Lemma qutr_mul_acts a b p : unit_qutr a -> unit_qutr b ->
  qutr_tf (qutr_mul a b) p = qutr_tf a (qutr_tf b p).
Proof.
  intros Ha Hb. rewrite !qutr_tf_eq. unfold qutr_mul; cbn [ev eq].
  rewrite (qrot_mul _ _ _ Ha Hb).
  rewrite (rm_add _ (qrot_rotation _ Ha)).
  change (tf_qv (eq a) (ev a) (ev b)) with (qutr_tf a (ev b)). rewrite qutr_tf_eq.
  generalize (qrot (eq a) (ev b)) (qrot (eq a) (qrot (eq b) p)). tfring.
Qed.
Lemma qutr_mul_unit a b : unit_qutr a -> unit_qutr b -> unit_qutr (qutr_mul a b).
Proof. apply unitq_mul. Qed.
Lemma qutr_conj_unit a : unit_qutr a -> unit_qutr (qutr_conj a).
Proof. apply unitq_conj. Qed.
Lemma qutr_rigid e : unit_qutr e -> rigid_motion (qutr_tf e).
Proof.
  intros H. exists (qrot (eq e)), (ev e). split.
  - now apply qrot_rotation.
  - apply qutr_tf_eq.
Qed.
Lemma qutr_mul_assoc a b c : unit_qutr a -> unit_qutr b ->
  qutr_mul a (qutr_mul b c) = qutr_mul (qutr_mul a b) c.
Proof.
  intros Ha Hb. unfold qutr_mul at 1 3. f_equal.
  - cbn [eq qutr_mul]. apply qmul_assoc.
  - change (qutr_tf a (qutr_tf b (ev c)) = qutr_tf (qutr_mul a b) (ev c)).
    symmetry. now apply qutr_mul_acts.
Qed.
Lemma qmul_conj_unit a : unitq a -> qmul a (qconj a) = qident /\ qmul (qconj a) a = qident.
Proof. intros H. rewrite qmul_conj_r, qmul_conj_l, H. split; reflexivity. Qed.
Lemma qrot_conj_l q p : unitq q -> qrot (qconj q) (qrot q p) = p.
Proof.
  intros H. rewrite <- qrot_mul; auto using unitq_conj.
  rewrite (proj2 (qmul_conj_unit q H)). apply qrot_ident.
Qed.
Lemma qrot_conj_r q p : unitq q -> qrot q (qrot (qconj q) p) = p.
Proof.
  intros H. rewrite <- qrot_mul; auto using unitq_conj.
  rewrite (proj1 (qmul_conj_unit q H)). apply qrot_ident.
Qed.
Lemma qrot_neg_arg q p : qrot q (vneg p) = vneg (qrot q p).
Proof. tfring. Qed.
Lemma plus_vneg p : plus3 p (vneg p) = zero3.
Proof. tfring. Qed.
Lemma vneg_plus p : plus3 (vneg p) p = zero3.
Proof. tfring. Qed.
Lemma qutr_conj_r a : unit_qutr a -> qutr_mul a (qutr_conj a) = ident_qutr.
Proof.
  intros H. unfold qutr_mul, ident_qutr. f_equal.
  - apply qmul_conj_unit. exact H.
  - change (qutr_tf a (ev (qutr_conj a)) = zero3). rewrite qutr_tf_eq.
    unfold qutr_conj; cbn [ev]. rewrite qrot_neg_arg, qrot_conj_r by exact H. apply plus_vneg.
Qed.
Lemma qutr_conj_l a : unit_qutr a -> qutr_mul (qutr_conj a) a = ident_qutr.
Proof.
  intros H. unfold qutr_mul, ident_qutr. f_equal.
  - apply qmul_conj_unit. exact H.
  - change (qutr_tf (qutr_conj a) (ev a) = zero3). rewrite qutr_tf_eq.
    unfold qutr_conj; cbn [ev eq]. apply vneg_plus.
Qed.
Lemma qutr_mul_ident_r a : qutr_mul a ident_qutr = a.
Proof. tfring. Qed.
Lemma qutr_mul_ident_l a : qutr_mul ident_qutr a = a.
Proof. tfring. Qed.
Lemma qutr_mulnorm_unit a b : unit_qutr a -> unit_qutr b -> qutr_mulnorm a b = qutr_mul a b.
Proof. intros. unfold qutr_mulnorm, qutr_mul. now rewrite qmulnorm_unit. Qed.

(** ** Dual quaternions *)

Lemma dmul_assoc a b c : dmul a (dmul b c) = dmul (dmul a b) c.
Proof. tfring. Qed.
Lemma dmul_ident_l a : dmul ident_duqu a = a.
Proof. tfring. Qed.
Lemma dmul_ident_r a : dmul a ident_duqu = a.
Proof. tfring. Qed.
Lemma dconj_mul a b : dconj (dmul a b) = dmul (dconj b) (dconj a).
Proof. tfring. Qed.
Lemma unit_duqu_mul a b : unit_duqu a -> unit_duqu b -> unit_duqu (dmul a b).
Proof.
  intros [Ua Ha] [Ub Hb]. split; [now apply unitq_mul|].
  assert (E : qdot (dreal (dmul a b)) (ddual (dmul a b))
     = norm2 (dreal a) * qdot (dreal b) (ddual b) + norm2 (dreal b) * qdot (dreal a) (ddual a))
    by tfring.
  unfold qdot in E. rewrite E, Ha, Hb. ring.
Qed.
Lemma unit_duqu_conj a : unit_duqu a -> unit_duqu (dconj a).
Proof. intros [Ua Ha]. tfd; tfc. split; lra. Qed.
Lemma dconj_r a : unit_duqu a -> dmul a (dconj a) = ident_duqu.
Proof. intros [Ua Ha]. tfd; tfc. f_equal; f_equal; lra. Qed.
Lemma dconj_l a : unit_duqu a -> dmul (dconj a) a = ident_duqu.
Proof. intros [Ua Ha]. tfd; tfc. f_equal; f_equal; lra. Qed.

Lemma unit_qutr2duqu e : unit_qutr e -> unit_duqu (qutr2duqu e).
Proof. intros H; tfd; tfc. split; [lra|field]. Qed.
Lemma unit_duqu2qutr s : unit_duqu s -> unit_qutr (duqu2qutr s).
Proof. intros [H _]. exact H. Qed.
Lemma duqu2qutr_qutr2duqu e : unit_qutr e -> duqu2qutr (qutr2duqu e) = e.
Proof.
  intros H. destruct e as [[x y z w] [a b c]]. tfc. f_equal. f_equal.
  - transitivity (a * (x*x+y*y+z*z+w*w)); [field | rewrite H; ring].
  - transitivity (b * (x*x+y*y+z*z+w*w)); [field | rewrite H; ring].
  - transitivity (c * (x*x+y*y+z*z+w*w)); [field | rewrite H; ring].
Qed.
Lemma qutr2duqu_duqu2qutr s : unit_duqu s -> qutr2duqu (duqu2qutr s) = s.
Proof.
  intros [H D]. destruct s as [[x y z w] [a b c d]]. tfc. f_equal. f_equal.
  - transitivity (a * (x*x+y*y+z*z+w*w) - x * (x*a + y*b + z*c + w*d)); [field | rewrite H, D; ring].
  - transitivity (b * (x*x+y*y+z*z+w*w) - y * (x*a + y*b + z*c + w*d)); [field | rewrite H, D; ring].
  - transitivity (c * (x*x+y*y+z*z+w*w) - z * (x*a + y*b + z*c + w*d)); [field | rewrite H, D; ring].
  - transitivity (d * (x*x+y*y+z*z+w*w) - w * (x*a + y*b + z*c + w*d)); [field | rewrite H, D; ring].
Qed.
Lemma duqu_tf_qutr s p : unitq (dreal s) -> duqu_tf s p = qutr_tf (duqu2qutr s) p.
Proof.
  intros H. destruct s as [[x y z w] [a b c d]], p as [p1 p2 p3]. tfc.
  f_equal.
  - match goal with |- ?l = ?r => transitivity (l + p1 * (1 - (x*x+y*y+z*z+w*w))) end;
      [rewrite H; ring | ring].
  - match goal with |- ?l = ?r => transitivity (l + p2 * (1 - (x*x+y*y+z*z+w*w))) end;
      [rewrite H; ring | ring].
  - match goal with |- ?l = ?r => transitivity (l + p3 * (1 - (x*x+y*y+z*z+w*w))) end;
      [rewrite H; ring | ring].
Qed.

Lemma qrot_slide q p : unitq q -> qmul (pure (qrot q p)) q = qmul q (pure p).
Proof.
  intros H. rewrite qrot_sandwich by exact H. rewrite !qmul_hamilton, <- hamilton_assoc.
  replace (hamilton (conjugate q) q) with qident
    by (rewrite <- qmul_hamilton; symmetry; apply (qmul_conj_unit q H)).
  rewrite <- qmul_hamilton. apply qmul_ident_r.
Qed.
Lemma qutr2duqu_alt e : qutr2duqu e = mkD (eq e) (qscal (qmul (pure (ev e)) (eq e)) (/2)).
Proof. tfring. Qed.
Lemma qutr2duqu_mul a b : unit_qutr a -> unit_qutr b ->
  qutr2duqu (qutr_mul a b) = dmul (qutr2duqu a) (qutr2duqu b).
Proof.
  intros Ha Hb. rewrite !qutr2duqu_alt. unfold dmul; cbn [dreal ddual]. f_equal.
  cbn [eq ev qutr_mul].
  change (tf_qv (eq a) (ev a) (ev b)) with (qutr_tf a (ev b)). rewrite qutr_tf_eq.
  replace (pure (plus3 (ev a) (qrot (eq a) (ev b)))) with
     (qadd (pure (ev a)) (pure (qrot (eq a) (ev b)))) by (generalize (qrot (eq a) (ev b)); tfring).
  transitivity (qadd (qscal (qmul (pure (ev a)) (qmul (eq a) (eq b))) (/2))
                     (qscal (qmul (qmul (pure (qrot (eq a) (ev b))) (eq a)) (eq b)) (/2))).
  - generalize (qrot (eq a) (ev b)). tfring.
  - rewrite (qrot_slide _ _ Ha). tfring.
Qed.
Lemma qutr2duqu_conj a : unit_qutr a -> qutr2duqu (qutr_conj a) = dconj (qutr2duqu a).
Proof.
  intros Ha. rewrite !qutr2duqu_alt. unfold dconj; cbn [dreal ddual eq ev qutr_conj]. f_equal.
  replace (pure (vneg (qrot (qconj (eq a)) (ev a)))) with
    (qneg (pure (qrot (qconj (eq a)) (ev a)))) by (generalize (qrot (qconj (eq a)) (ev a)); tfring).
  transitivity (qneg (qscal (qmul (pure (qrot (qconj (eq a)) (ev a))) (qconj (eq a))) (/2))).
  - generalize (qrot (qconj (eq a)) (ev a)). tfring.
  - rewrite qrot_slide by (apply unitq_conj; exact Ha). tfring.
Qed.
Lemma duqu_tf_of_qutr e p : unit_qutr e -> duqu_tf (qutr2duqu e) p = qutr_tf e p.
Proof.
  intros H. rewrite duqu_tf_qutr by exact H. now rewrite duqu2qutr_qutr2duqu.
Qed.
Lemma duqu2qutr_mul a b : unit_duqu a -> unit_duqu b ->
  duqu2qutr (dmul a b) = qutr_mul (duqu2qutr a) (duqu2qutr b).
Proof.
  intros Ha Hb.
  rewrite <- (qutr2duqu_duqu2qutr a Ha) at 1. rewrite <- (qutr2duqu_duqu2qutr b Hb) at 1.
  rewrite <- qutr2duqu_mul by (apply unit_duqu2qutr; assumption).
  apply duqu2qutr_qutr2duqu. apply qutr_mul_unit; now apply unit_duqu2qutr.
Qed.
Lemma duqu2qutr_conj a : unit_duqu a -> duqu2qutr (dconj a) = qutr_conj (duqu2qutr a).
Proof.
  intros Ha. rewrite <- (qutr2duqu_duqu2qutr a Ha) at 1.
  rewrite <- qutr2duqu_conj by (now apply unit_duqu2qutr).
  apply duqu2qutr_qutr2duqu. apply qutr_conj_unit; now apply unit_duqu2qutr.
Qed.
Lemma duqu_mul_acts a b p : unit_duqu a -> unit_duqu b ->
  duqu_tf (dmul a b) p = duqu_tf a (duqu_tf b p).
Proof.
  intros Ha Hb. rewrite duqu_tf_qutr by (now apply unit_duqu_mul).
  rewrite duqu2qutr_mul by assumption.
  rewrite qutr_mul_acts by (now apply unit_duqu2qutr).
  rewrite <- !duqu_tf_qutr by (apply Ha || apply Hb). reflexivity.
Qed.
Lemma duqu_rigid s : unit_duqu s -> rigid_motion (duqu_tf s).
Proof.
  intros H. destruct (qutr_rigid _ (unit_duqu2qutr s H)) as (g & t & Hg & Ht).
  exists g, t. split; [exact Hg|]. intros p. rewrite duqu_tf_qutr by apply H. apply Ht.
Qed.
Lemma duqu_matrix_l_eq a b : duqu_matrix_l_app a b = dmul a b.
Proof. tfring. Qed.
Lemma duqu_matrix_r_eq a b : duqu_matrix_r_app a b = dmul b a.
Proof. tfring. Qed.
Lemma xyz2duqu_tf x y z p : duqu_tf (xyz2duqu x y z) p = plus3 (mkV x y z) p.
Proof. tfring. Qed.
Lemma dnormalize_id s : unit_duqu s -> dnormalize s = s.
Proof.
  intros [H _]. unfold dnormalize. rewrite qnorm_eq, H, sqrt_1. tfring.
Qed.
Lemma dminimize_tf s p : duqu_tf (dminimize s) p = duqu_tf s p.
Proof. unfold dminimize. destruct (Rlt_dec _ _); [tfring | reflexivity]. Qed.

(** ** Matrices *)

Lemma tfmat_tf_eq T p : tfmat_tf T p = plus3 (tv T) (mrot (tR T) p).
Proof. tfring. Qed.
Lemma tfmat_mul_acts A B p : tfmat_tf (tfmat_mul A B) p = tfmat_tf A (tfmat_tf B p).
Proof. tfring. Qed.
Lemma tfmat_mul_assoc A B C : tfmat_mul A (tfmat_mul B C) = tfmat_mul (tfmat_mul A B) C.
Proof. tfring. Qed.
Lemma tfmat_mul_ident_l A : tfmat_mul ident_tfmat A = A.
Proof. tfring. Qed.
Lemma tfmat_mul_ident_r A : tfmat_mul A ident_tfmat = A.
Proof. tfring. Qed.
Lemma tfmat_rigid T : proper_tfmat T -> rigid_motion (tfmat_tf T).
Proof.
  intros H. exists (mrot (tR T)), (tv T). split; [now apply mrot_rotation|]. apply tfmat_tf_eq.
Qed.
Lemma mrot_ident p : mrot ident3 p = p.
Proof. tfring. Qed.
Lemma mrot_vneg M p : mrot M (vneg p) = vneg (mrot M p).
Proof. tfring. Qed.
Lemma tfmat_inv_r T : proper_tfmat T -> tfmat_mul T (tfmat_inv T) = ident_tfmat.
Proof.
  intros H. unfold tfmat_mul, ident_tfmat. f_equal.
  - apply proper_rows. exact H.
  - rewrite tfmat_tf_eq. cbn [tv tfmat_inv].
    rewrite <- mrot_mul, proper_rows, mrot_ident by exact H. apply plus_vneg.
Qed.
Lemma tfmat_inv_l T : proper_tfmat T -> tfmat_mul (tfmat_inv T) T = ident_tfmat.
Proof.
  intros H. unfold tfmat_mul, ident_tfmat. f_equal.
  - apply proper_cols. exact H.
  - rewrite tfmat_tf_eq. cbn [tv tR tfmat_inv]. rewrite mrot_vneg. apply vneg_plus.
Qed.
Lemma tfmat_inv_proper T : proper_tfmat T -> proper_tfmat (tfmat_inv T).
Proof. apply proper_trans. Qed.
Lemma tfmat_mul_proper A B : proper_tfmat A -> proper_tfmat B -> proper_tfmat (tfmat_mul A B).
Proof. apply proper_mul. Qed.
Lemma tfmat_rel_spec T1 T2 : proper_tfmat T1 -> tfmat_mul T1 (tfmat_rel T1 T2) = T2.
Proof.
  intros H. unfold tfmat_rel. rewrite tfmat_mul_assoc, tfmat_inv_r by exact H.
  apply tfmat_mul_ident_l.
Qed.
Lemma rotmat_rel_spec R1 R2 : proper_rotation R2 -> mmul (rotmat_rel R1 R2) R2 = R1.
Proof.
  intros H. unfold rotmat_rel. rewrite <- mmul_assoc, proper_cols by exact H. apply mmul_ident_r.
Qed.

(** ** Between representations *)

Lemma qutr2tfmat_tf e p : tfmat_tf (qutr2tfmat e) p = qutr_tf e p.
Proof. tfring. Qed.
Lemma qutr2tfmat_proper e : unit_qutr e -> proper_tfmat (qutr2tfmat e).
Proof. intros H. apply quat2rotmat_proper. exact H. Qed.
Lemma qutr2tfmat_mul a b : unit_qutr a -> unit_qutr b ->
  qutr2tfmat (qutr_mul a b) = tfmat_mul (qutr2tfmat a) (qutr2tfmat b).
Proof.
  intros Ha Hb. unfold qutr2tfmat at 1, tfmat_mul. f_equal.
  - now apply quat2rotmat_mul.
  - cbn [ev qutr_mul]. rewrite qutr2tfmat_tf. reflexivity.
Qed.
Lemma qutr2tfmat_conj a : qutr2tfmat (qutr_conj a) = tfmat_inv (qutr2tfmat a).
Proof. tfring. Qed.
Lemma duqu2tfmat_eq s : duqu2tfmat s = qutr2tfmat (duqu2qutr s).
Proof. reflexivity. Qed.
Lemma duqu2tfmat_tf s p : unitq (dreal s) -> tfmat_tf (duqu2tfmat s) p = duqu_tf s p.
Proof. intros H. rewrite duqu2tfmat_eq, qutr2tfmat_tf. symmetry. now apply duqu_tf_qutr. Qed.
Lemma duqu2tfmat_mul a b : unit_duqu a -> unit_duqu b ->
  duqu2tfmat (dmul a b) = tfmat_mul (duqu2tfmat a) (duqu2tfmat b).
Proof.
  intros Ha Hb. rewrite !duqu2tfmat_eq, duqu2qutr_mul by assumption.
  apply qutr2tfmat_mul; now apply unit_duqu2qutr.
Qed.
Lemma duqu2tfmat_conj a : unit_duqu a -> duqu2tfmat (dconj a) = tfmat_inv (duqu2tfmat a).
Proof.
  intros Ha. rewrite !duqu2tfmat_eq, duqu2qutr_conj by assumption. apply qutr2tfmat_conj.
Qed.
Lemma tfmat2qutr_unit T : proper_tfmat T -> unit_qutr (tfmat2qutr T).
Proof. intros H. apply rotmat2quat_ok. exact H. Qed.
Lemma qutr2tfmat_tfmat2qutr T : proper_tfmat T -> qutr2tfmat (tfmat2qutr T) = T.
Proof.
  intros H. unfold qutr2tfmat, tfmat2qutr; cbn [eq ev].
  rewrite (proj2 (rotmat2quat_ok _ H)). now destruct T.
Qed.
Lemma tfmat2qutr_tf T p : proper_tfmat T -> qutr_tf (tfmat2qutr T) p = tfmat_tf T p.
Proof.
  intros H. rewrite <- qutr2tfmat_tf, qutr2tfmat_tfmat2qutr by exact H. reflexivity.
Qed.
Lemma tfmat2duqu_unit T : proper_tfmat T -> unit_duqu (tfmat2duqu T).
Proof. intros H. apply unit_qutr2duqu. now apply tfmat2qutr_unit. Qed.
Lemma tfmat2duqu_tf T p : proper_tfmat T -> duqu_tf (tfmat2duqu T) p = tfmat_tf T p.
Proof.
  intros H. unfold tfmat2duqu. change (mkE (rotmat2quat (tR T)) (tv T)) with (tfmat2qutr T).
  rewrite duqu_tf_of_qutr by (now apply tfmat2qutr_unit). now apply tfmat2qutr_tf.
Qed.
Lemma duqu2tfmat_tfmat2duqu T : proper_tfmat T -> duqu2tfmat (tfmat2duqu T) = T.
Proof.
  intros H. rewrite duqu2tfmat_eq. unfold tfmat2duqu.
  change (mkE (rotmat2quat (tR T)) (tv T)) with (tfmat2qutr T).
  rewrite duqu2qutr_qutr2duqu by (now apply tfmat2qutr_unit). now apply qutr2tfmat_tfmat2qutr.
Qed.

(** ** Variadic products *)

Lemma v9mul_spec R1 R2 l : v9mul R1 R2 l = fold_left mmul (R2 :: l) R1.
Proof.
  unfold v9mul; cbn [fold_left]. generalize (mmul R1 R2). clear.
  induction l as [|a l IH]; intros M; cbn; [reflexivity | apply IH].
Qed.
Lemma v12chain_acts T1 T2 l p :
  tfmat_tf (v12chain T1 T2 l) p = tfmat_tf T1 (tfmat_tf T2 (fold_right tfmat_tf p l)).
Proof.
  unfold v12chain. rewrite <- tfmat_mul_acts. generalize (tfmat_mul T1 T2). clear.
  induction l as [|a l IH]; intros M; cbn; [reflexivity|].
  rewrite IH, tfmat_mul_acts. reflexivity.
Qed.
