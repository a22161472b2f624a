(** Frames built from axes; compositions with inverses: lemmas. *)
From Coq Require Import Reals Lra Psatz Nsatz.
From Verif Require Import TfModel TfSpec TfProofs TfRotmatProofs TfRepProofs TfCalcProofs.
Open Scope R_scope.

Lemma qutr_cmul_acts a b p : unit_qutr a -> unit_qutr b ->
  qutr_tf a (qutr_tf (qutr_cmul a b) p) = qutr_tf b p.
Proof.
  intros A B. unfold qutr_cmul. rewrite <- qutr_mul_acts.
  - rewrite qutr_mul_assoc, qutr_conj_r, qutr_mul_ident_l; auto. now apply qutr_conj_unit.
  - assumption.
  - apply qutr_mul_unit; [now apply qutr_conj_unit|assumption].
Qed.
Lemma qutr_mulc_acts a b p : unit_qutr a -> unit_qutr b ->
  qutr_tf (qutr_mulc a b) (qutr_tf b p) = qutr_tf a p.
Proof.
  intros A B. unfold qutr_mulc. rewrite <- qutr_mul_acts.
  - rewrite <- qutr_mul_assoc, qutr_conj_l, qutr_mul_ident_r; auto. now apply qutr_conj_unit.
  - apply qutr_mul_unit; [assumption|now apply qutr_conj_unit].
  - assumption.
Qed.
Lemma dcmul_acts a b p : unit_duqu a -> unit_duqu b ->
  duqu_tf a (duqu_tf (dcmul a b) p) = duqu_tf b p.
Proof.
  intros A B. unfold dcmul. rewrite <- duqu_mul_acts.
  - now rewrite dmul_assoc, dconj_r, dmul_ident_l.
  - assumption.
  - apply unit_duqu_mul; [now apply unit_duqu_conj|assumption].
Qed.
Lemma dmulc_acts a b p : unit_duqu a -> unit_duqu b ->
  duqu_tf (dmulc a b) (duqu_tf b p) = duqu_tf a p.
Proof.
  intros A B. unfold dmulc. rewrite <- duqu_mul_acts.
  - now rewrite <- dmul_assoc, dconj_l, dmul_ident_r.
  - apply unit_duqu_mul; [assumption|now apply unit_duqu_conj].
  - assumption.
Qed.
Lemma tfmat_rel_acts a b p : proper_tfmat a ->
  tfmat_tf a (tfmat_tf (tfmat_rel a b) p) = tfmat_tf b p.
Proof. intros A. now rewrite <- tfmat_mul_acts, tfmat_rel_spec. Qed.
Lemma qutr_conj_acts a p : unit_qutr a ->
  qutr_tf a (qutr_tf (qutr_conj a) p) = p /\ qutr_tf (qutr_conj a) (qutr_tf a p) = p.
Proof.
  intros A. pose proof (qutr_conj_unit a A).
  rewrite <- !qutr_mul_acts, qutr_conj_r, qutr_conj_l by assumption.
  assert (E : qutr_tf ident_qutr p = p) by (destruct p; tfc; f_equal; ring). now rewrite E.
Qed.
Lemma dconj_acts a p : unit_duqu a ->
  duqu_tf a (duqu_tf (dconj a) p) = p /\ duqu_tf (dconj a) (duqu_tf a p) = p.
Proof.
  intros A. pose proof (unit_duqu_conj a A).
  rewrite <- !duqu_mul_acts, dconj_r, dconj_l by assumption.
  assert (E : duqu_tf ident_duqu p = p) by (destruct p; tfc; f_equal; ring). now rewrite E.
Qed.
Lemma tfmat_inv_acts a p : proper_tfmat a ->
  tfmat_tf a (tfmat_tf (tfmat_inv a) p) = p /\ tfmat_tf (tfmat_inv a) (tfmat_tf a p) = p.
Proof.
  intros A. rewrite <- !tfmat_mul_acts, tfmat_inv_r, tfmat_inv_l by assumption.
  assert (E : tfmat_tf ident_tfmat p = p) by (destruct p; tfc; f_equal; ring). now rewrite E.
Qed.

(** ** Frames from axes *)

Lemma vdot_dot a b : vdot a b = dot a b.
Proof. reflexivity. Qed.
Lemma dot_nonneg a : 0 <= dot a a.
Proof. unfold dot. nra. Qed.
Lemma vnorm_pos a : nonzero3 a -> 0 < vnorm a.
Proof.
  intros H. unfold vnorm. apply sqrt_lt_R0. pose proof (dot_nonneg a). unfold nonzero3 in H.
  rewrite vdot_dot. lra.
Qed.
Lemma vnorm_sq a : vnorm a * vnorm a = dot a a.
Proof. unfold vnorm. rewrite vdot_dot. apply sqrt_sqrt, dot_nonneg. Qed.
Lemma dot_divs a b k l : k <> 0 -> l <> 0 -> dot (vdivs a k) (vdivs b l) = dot a b / (k * l).
Proof. intros. destruct a, b. tfc. field. auto. Qed.
Lemma vnormalize_unit a : nonzero3 a -> unit3 (vnormalize a).
Proof.
  intros H. pose proof (vnorm_pos a H). unfold unit3, vnormalize.
  rewrite dot_divs, vnorm_sq by lra. field. exact H.
Qed.
Lemma vnormalize_scale a : nonzero3 a -> times3 (vnorm a) (vnormalize a) = a.
Proof.
  intros H. pose proof (vnorm_pos a H). unfold vnormalize. revert H0. generalize (vnorm a). intros n Hn.
  destruct a as [a1 a2 a3]. tfc. f_equal; field; lra.
Qed.
Lemma vnormalize_dot0 a b : nonzero3 a -> nonzero3 b -> dot a b = 0 -> dot (vnormalize a) (vnormalize b) = 0.
Proof.
  intros A B H. pose proof (vnorm_pos a A). pose proof (vnorm_pos b B). unfold vnormalize.
  rewrite dot_divs, H by lra. unfold Rdiv. ring.
Qed.
Lemma mcols_proper a b : unit3 a -> unit3 b -> dot a b = 0 -> proper_rotation (mcols a b (cross a b)).
Proof.
  unfold unit3, proper_rotation. intros A B C. destruct a as [a1 a2 a3], b as [b1 b2 b3]. tfc.
  repeat split; try nsatz.
Qed.
Lemma cross_rot a b : unit3 a -> unit3 b -> dot a b = 0 ->
  mcols a b (cross a b) = mcols (cross b (cross a b)) b (cross a b)
  /\ mcols a b (cross a b) = mcols a (cross (cross a b) a) (cross a b).
Proof.
  unfold unit3. intros A B C. destruct a as [a1 a2 a3], b as [b1 b2 b3]. tfc.
  split; f_equal; nsatz.
Qed.
Lemma unit_cross a b : unit3 a -> unit3 b -> dot a b = 0 ->
  unit3 (cross a b) /\ dot a (cross a b) = 0 /\ dot b (cross a b) = 0.
Proof.
  unfold unit3. intros A B C. destruct a as [a1 a2 a3], b as [b1 b2 b3]. tfc.
  repeat split; nsatz.
Qed.
Lemma mcols_proper_yz b c : unit3 b -> unit3 c -> dot b c = 0 -> proper_rotation (mcols (cross b c) b c).
Proof.
  unfold unit3, proper_rotation. intros A B C. destruct b as [a1 a2 a3], c as [b1 b2 b3]. tfc.
  repeat split; try nsatz.
Qed.
Lemma mcols_proper_zx c a : unit3 c -> unit3 a -> dot c a = 0 -> proper_rotation (mcols a (cross c a) c).
Proof.
  unfold unit3, proper_rotation. intros A B C. destruct c as [a1 a2 a3], a as [b1 b2 b3]. tfc.
  repeat split; try nsatz.
Qed.
Lemma rotmat_xy_ok x y : nonzero3 x -> nonzero3 y -> dot x y = 0 ->
  proper_rotation (rotmat_xy x y) /\
  times3 (sqrt (dot x x)) (col0 (rotmat_xy x y)) = x /\ times3 (sqrt (dot y y)) (col1 (rotmat_xy x y)) = y.
Proof.
  intros X Y H. split.
  - apply mcols_proper; [now apply vnormalize_unit | now apply vnormalize_unit | now apply vnormalize_dot0].
  - split; [apply (vnormalize_scale x X) | apply (vnormalize_scale y Y)].
Qed.
Lemma rotmat_yz_ok y z : nonzero3 y -> nonzero3 z -> dot y z = 0 ->
  proper_rotation (rotmat_yz y z) /\
  times3 (sqrt (dot y y)) (col1 (rotmat_yz y z)) = y /\ times3 (sqrt (dot z z)) (col2 (rotmat_yz y z)) = z.
Proof.
  intros X Y H. split.
  - apply mcols_proper_yz; [now apply vnormalize_unit | now apply vnormalize_unit | now apply vnormalize_dot0].
  - split; [apply (vnormalize_scale y X) | apply (vnormalize_scale z Y)].
Qed.
Lemma rotmat_zx_ok z x : nonzero3 z -> nonzero3 x -> dot z x = 0 ->
  proper_rotation (rotmat_zx z x) /\
  times3 (sqrt (dot z z)) (col2 (rotmat_zx z x)) = z /\ times3 (sqrt (dot x x)) (col0 (rotmat_zx z x)) = x.
Proof.
  intros X Y H. split.
  - apply mcols_proper_zx; [now apply vnormalize_unit | now apply vnormalize_unit | now apply vnormalize_dot0].
  - split; [apply (vnormalize_scale z X) | apply (vnormalize_scale x Y)].
Qed.
Lemma vnormalize_cross a b : nonzero3 a -> nonzero3 b -> dot a b = 0 ->
  vnormalize (cross a b) = cross (vnormalize a) (vnormalize b).
Proof.
  intros A B H. pose proof (vnorm_pos a A). pose proof (vnorm_pos b B).
  assert (N : vnorm (cross a b) = vnorm a * vnorm b).
  { unfold vnorm. rewrite <- sqrt_mult by apply dot_nonneg. f_equal.
    destruct a as [a1 a2 a3], b as [b1 b2 b3]. revert H. tfc. intros H. nsatz. }
  unfold vnormalize. rewrite N. revert H0 H1. generalize (vnorm a) (vnorm b). intros m n Hm Hn.
  destruct a as [a1 a2 a3], b as [b1 b2 b3]. tfc. f_equal; field; lra.
Qed.
Lemma nonzero_cross_pos a b : nonzero3 (cross a b) -> nonzero3 a /\ nonzero3 b.
Proof.
  unfold nonzero3. intros H. split; intros E; apply H.
  - assert (Z : vx a = 0 /\ vy a = 0 /\ vz a = 0) by (apply sumsq0; exact E).
    destruct a as [a1 a2 a3], b as [b1 b2 b3]. cbn [vx vy vz] in Z. destruct Z as (-> & -> & ->). tfc. ring.
  - assert (Z : vx b = 0 /\ vy b = 0 /\ vz b = 0) by (apply sumsq0; exact E).
    destruct a as [a1 a2 a3], b as [b1 b2 b3]. cbn [vx vy vz] in Z. destruct Z as (-> & -> & ->). tfc. ring.
Qed.

Lemma dot_normalize_l a b : nonzero3 a -> dot a b = 0 -> dot (vnormalize a) b = 0.
Proof.
  intros A H. pose proof (vnorm_pos a A). unfold vnormalize. revert H0. generalize (vnorm a). intros n Hn.
  revert H. destruct a as [a1 a2 a3], b as [b1 b2 b3]. tfc. intros E.
  transitivity ((a1*b1+a2*b2+a3*b3)/n); [field; lra|]. rewrite E. field. lra.
Qed.

(** Look-at: -z axis toward the target, x horizontal, y up. *)
Lemma mzlook_ok eye target up :
  nonzero3 (xprod up (plus3 eye (times3 (-1) target))) ->
  let M := rotmat_mzlook eye target up in
  proper_rotation M /\
  (exists k, 0 < k /\ times3 (-1) (col2 M) = times3 k (plus3 target (times3 (-1) eye))) /\
  dot (col0 M) up = 0 /\ 0 < dot (col1 M) up.
Proof.
  intros H M. unfold M, rotmat_mzlook.
  set (z := mkV _ _ _). change (xprod up (plus3 eye (times3 (-1) target))) with
   (cross up (plus3 eye (times3 (-1) target))) in H.
  replace (plus3 eye (times3 (-1) target)) with z in H by (unfold z; destruct eye, target; tfc; f_equal; ring).
  set (x := cross up z) in *.
  assert (Hxz : dot z x = 0) by (unfold x; destruct z, up; tfc; ring).
  assert (Hxu : dot x up = 0) by (unfold x; destruct z, up; tfc; ring).
  destruct (nonzero_cross_pos _ _ H) as [Hu Hz].
  pose proof (vnorm_pos _ H) as Nx. pose proof (vnorm_pos _ Hz) as Nz.
  rewrite vnormalize_cross by assumption.
  split; [|split; [|split]].
  - apply mcols_proper_zx; [now apply vnormalize_unit | now apply vnormalize_unit | now apply vnormalize_dot0].
  - exists (/ vnorm z). split; [now apply Rinv_0_lt_compat|].
    change (col2 (mcols (vnormalize x) (cross (vnormalize z) (vnormalize x)) (vnormalize z))) with (vnormalize z).
    unfold vnormalize. revert Nz. generalize (vnorm z). intros n Hn. clearbody x. clear -Hn.
    subst z. destruct target as [t1 t2 t3], eye as [e1 e2 e3]. tfc.
    assert (Hn' : n <> 0) by lra. f_equal; field; exact Hn'.
  - change (col0 (mcols (vnormalize x) (cross (vnormalize z) (vnormalize x)) (vnormalize z))) with (vnormalize x).
    now apply dot_normalize_l.
  - change (col1 (mcols (vnormalize x) (cross (vnormalize z) (vnormalize x)) (vnormalize z)))
      with (cross (vnormalize z) (vnormalize x)).
    assert (E : dot (cross (vnormalize z) (vnormalize x)) up = dot x x / (vnorm z * vnorm x)).
    { unfold vnormalize. revert Nx Nz. generalize (vnorm x) (vnorm z). intros n m Hn Hm.
      unfold x. destruct z as [z1 z2 z3], up as [u1 u2 u3]. tfc. field. lra. }
    rewrite E. apply Rdiv_lt_0_compat.
    + pose proof (dot_nonneg x). unfold nonzero3 in H. lra.
    + now apply Rmult_lt_0_compat.
Qed.
Lemma tfmat_mzlook_ok eye target up :
  tfmat_tf (tfmat_mzlook eye target up) zero3 = eye.
Proof. unfold tfmat_mzlook. generalize (rotmat_mzlook eye target up). destruct eye. intros M. destruct M. tfc. f_equal; ring. Qed.
Lemma qutr_mzlook_ok eye target up p :
  nonzero3 (xprod up (plus3 eye (times3 (-1) target))) ->
  qutr_tf (qutr_mzlook eye target up) p = tfmat_tf (tfmat_mzlook eye target up) p.
Proof.
  intros H. destruct (mzlook_ok eye target up H) as [P _].
  apply (tfmat2qutr_tf (tfmat_mzlook eye target up)). exact P.
Qed.

(** Gram-Schmidt renormalisation. *)
Lemma cross_perp_l a b : dot (cross a b) a = 0.
Proof. destruct a, b. tfc. ring. Qed.
Lemma cross_perp_r a b : dot (cross a b) b = 0.
Proof. destruct a, b. tfc. ring. Qed.
Lemma dot_comm a b : dot a b = dot b a.
Proof. destruct a, b. tfc. ring. Qed.
Lemma lagrange a b : dot (cross a b) (cross a b) = dot a a * dot b b - dot a b * dot a b.
Proof. destruct a, b. tfc. ring. Qed.
Lemma nonzero_normalize a : nonzero3 a -> nonzero3 (vnormalize a).
Proof. intros H. pose proof (vnormalize_unit a H). unfold nonzero3, unit3 in *. lra. Qed.
Lemma proj_ok a b : nonzero3 b ->
  (exists k, proj a b = times3 k b) /\ dot (proj_orth a b) b = 0 /\ plus3 (proj a b) (proj_orth a b) = a.
Proof.
  intros H. unfold proj_orth, proj. split; [|split].
  - exists (vdot a b / vdot b b). destruct a, b. tfc. f_equal; ring.
  - unfold nonzero3 in H. destruct a as [a1 a2 a3], b as [b1 b2 b3]. revert H. tfc. intros H. field. exact H.
  - generalize (vscale (vdot a b / vdot b b) b). destruct a. intros c; destruct c. tfc. f_equal; ring.
Qed.

Lemma unit_nonzero a : unit3 a -> nonzero3 a.
Proof. unfold unit3, nonzero3. intros ->. lra. Qed.
Lemma vnormalize_id a : unit3 a -> vnormalize a = a.
Proof.
  intros H. unfold vnormalize, vnorm. rewrite vdot_dot, H, sqrt_1. destruct a. tfc. f_equal; field.
Qed.
Lemma rotmat_normalize_ok M : nonzero3 (xprod (col0 M) (col1 M)) ->
  let N := rotmat_normalize M in
  proper_rotation N /\
  times3 (sqrt (dot (col0 M) (col0 M))) (col0 N) = col0 M /\
  dot (col2 N) (col1 M) = 0 /\ 0 < dot (col1 N) (col1 M).
Proof.
  intros H N. unfold N, rotmat_normalize. fold (col0 M) (col1 M).
  change (mcol0 M) with (col0 M). change (mcol1 M) with (col1 M).
  set (a := col0 M) in *. set (b := col1 M) in *. change (xprod a b) with (cross a b) in H.
  destruct (nonzero_cross_pos _ _ H) as [Ha Hb].
  set (c1 := vnormalize (cross a b)).
  assert (Uc : unit3 c1) by now apply vnormalize_unit.
  assert (Cca : dot c1 a = 0) by (apply dot_normalize_l; [assumption|apply cross_perp_l]).
  assert (Ccb : dot c1 b = 0) by (apply dot_normalize_l; [assumption|apply cross_perp_r]).
  assert (Eb : vnormalize (cross c1 a) = cross c1 (vnormalize a)).
  { rewrite vnormalize_cross by (auto using unit_nonzero). now rewrite (vnormalize_id c1). }
  rewrite Eb. set (a0 := vnormalize a).
  assert (Ua : unit3 a0) by now apply vnormalize_unit.
  assert (Ca0 : dot c1 a0 = 0) by (rewrite dot_comm; apply dot_normalize_l; [assumption|now rewrite dot_comm]).
  assert (Ea : vnormalize (cross (cross c1 a0) c1) = a0).
  { rewrite vnormalize_id.
    - revert Uc Ua Ca0. clearbody c1 a0. unfold unit3. destruct c1 as [x y z], a0 as [u v w]. tfc. intros.
      f_equal; nsatz.
    - revert Uc Ua Ca0. clearbody c1 a0. unfold unit3. destruct c1 as [x y z], a0 as [u v w]. tfc. intros. nsatz. }
  rewrite Ea. split; [|split; [|split]].
  - now apply mcols_proper_zx.
  - change (col0 (mcols a0 (cross c1 a0) c1)) with a0. apply (vnormalize_scale a Ha).
  - exact Ccb.
  - change (col1 (mcols a0 (cross c1 a0) c1)) with (cross c1 a0).
    pose proof (vnorm_pos a Ha) as Na. pose proof (vnorm_pos _ H) as Nc.
    assert (E : dot (cross c1 a0) b = dot (cross a b) (cross a b) / (vnorm a * vnorm (cross a b))).
    { unfold c1, a0, vnormalize. revert Na Nc. generalize (vnorm a) (vnorm (cross a b)). intros m n Hm Hn.
      clear -a b Hm Hn. clearbody a b. destruct a as [x y z], b as [u v w]. tfc. field. lra. }
    rewrite E. apply Rdiv_lt_0_compat; [|now apply Rmult_lt_0_compat].
    pose proof (dot_nonneg (cross a b)). unfold nonzero3 in H. lra.
Qed.
Lemma rotmat_normalize_id M : proper_rotation M -> rotmat_normalize M = M.
Proof.
  intros P. pose proof P as (A & B & C & D & E & F & G).
  assert (N : rotmat_normalize M = mcols (col0 M) (col1 M) (cross (col0 M) (col1 M))).
  { unfold rotmat_normalize. change (mcol0 M) with (col0 M). change (mcol1 M) with (col1 M).
    revert A B D. generalize (col0 M) (col1 M). intros a b A B D.
    destruct (unit_cross a b A B D) as (U & Ua & Ub).
    rewrite (vnormalize_id _ U).
    assert (Eb : cross (cross a b) a = b).
    { revert A B D. unfold unit3. destruct a as [x y z], b as [u v w]. tfc. intros. f_equal; nsatz. }
    rewrite Eb, (vnormalize_id b B).
    assert (Ea : cross b (cross a b) = a).
    { revert A B D. unfold unit3. destruct a as [x y z], b as [u v w]. tfc. intros. f_equal; nsatz. }
    now rewrite Ea, (vnormalize_id a A). }
  rewrite N. pose proof (proper_cofactors M P) as (_ & _ & _ & _ & _ & _ & E1 & E2 & E3).
  clear -E1 E2 E3. destruct M as [a d g b e h c f i].
  cbn [mcols col0 col1 cross vx vy vz m00 m10 m20 m01 m11 m21 m02 m12 m22] in *.
  rewrite E1, E2, E3. tfc. f_equal; ring.
Qed.
