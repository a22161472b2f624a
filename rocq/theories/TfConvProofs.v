(** Lemmas for vecs2quat, axis-angle, rotation-vector and Euler conversions. *)
From Coq Require Import Reals Lra Nsatz ZArith.
From Verif Require Import TfModel TfSpec TfProofs TfRotmatProofs TfRepProofs TfCalcProofs.
From Verif Require Import AtanModel AtanProofs TfExpModel TfExpSpec SeriesProofs TfExpProofs TfLogProofs.
From Verif Require Import TfScrewProofs TfLnProofs.
Open Scope R_scope.

Lemma sqe_pos : 0 < sqrt eps.
Proof. rewrite sqrt_eps. apply Rinv_0_lt_compat, pow2_pos. Qed.

(** ** Rotation taking one vector to another *)
Lemma lagrange u v : dot (xprod u v) (xprod u v) = dot u u * dot v v - dot u v * dot u v.
Proof. destruct u, v; unfold dot, xprod; cbn. ring. Qed.
Lemma nuv_len u v : sqrt (vdot u u * vdot v v) = len3 u * len3 v.
Proof. unfold len3. rewrite sqrt_mult by apply dot_nonneg. reflexivity. Qed.

Lemma vecs_general u v : 0 < len3 u -> 0 < len3 v ->
  sqrt eps * (len3 u * len3 v) <= dot (xprod u v) (xprod u v) ->
  unitq (vecs2quat u v) /\ times3 (len3 v) (qrot (vecs2quat u v) u) = times3 (len3 u) v.
Proof.
  intros Hu Hv H. unfold vecs2quat. rewrite nuv_len.
  change (vdot (cross u v) (cross u v)) with (dot (xprod u v) (xprod u v)). change (vdot u v) with (dot u v).
  set (n := len3 u * len3 v) in *. assert (Pn : 0 < n) by (apply Rmult_lt_0_compat; assumption).
  assert (SE : 0 < sqrt eps) by apply sqe_pos.
  destruct (Rlt_dec _ _) as [L|_].
  { exfalso. apply (Rmult_lt_compat_r n) in L; [|exact Pn]. unfold Rdiv in L.
    rewrite Rmult_assoc, Rinv_l, Rmult_1_r in L by lra. lra. }
  set (cc := dot (xprod u v) (xprod u v)) in *.
  assert (LG : cc = n * n - dot u v * dot u v).
  { unfold cc. rewrite lagrange. unfold n. rewrite <- (len3_sq u), <- (len3_sq v). ring. }
  assert (Pc : 0 < cc) by nra.
  assert (Pd : 0 < n + dot u v).
  { destruct (Rlt_dec 0 (n + dot u v)) as [|G]; [assumption|]. exfalso. nra. }
  set (q := mkqv (cross u v) (dot u v + n)).
  assert (N : norm2 q = 2 * n * (n + dot u v)).
  { unfold q. replace (norm2 _) with (cc + (dot u v + n) * (dot u v + n)); [rewrite LG; ring|].
    unfold cc, norm2, mkqv, cross, dot, xprod; cbn. ring. }
  assert (NP : 0 < norm2 q) by (rewrite N; apply Rmult_lt_0_compat; lra).
  split. { apply qnormalize_unit; lra. }
  unfold qnormalize. rewrite qnorm_eq. set (m := sqrt (norm2 q)).
  assert (M2 : m * m = 2 * n * (n + dot u v)) by (unfold m; rewrite sqrt_sqrt, N by lra; reflexivity).
  assert (MP : 0 < m) by (apply sqrt_lt_R0; exact NP). clearbody m.
  assert (IV : m * / m = 1) by (apply Rinv_r; lra).
  assert (J : n * / n = 1) by (apply Rinv_r; lra).
  assert (J2 : 2 * n * (n + dot u v) * (/ m * / m) = 1) by (rewrite <- M2; transitivity ((m * / m) * (m * / m)); [ring|rewrite IV; ring]).
  assert (K1 : len3 u * len3 u = dot u u) by apply len3_sq.
  assert (K2 : len3 v * len3 v = dot v v) by apply len3_sq.
  assert (G : forall w1 : R, qrot (qdivs q m) u = plus3 (times3 (1 - 2 * (n + dot u v) * (/ m * / m) * dot u v - 2 * cc * (/ m * / m)) u)
     (times3 (2 * (n + dot u v) * (/ m * / m) * dot u u) v)).
  { intros _. unfold q, cc, Rdiv. clear. unfold qdivs, Rdiv. generalize (/ m). intros i. destruct u as [u1 u2 u3], v as [v1 v2 v3].
    unfold dot, xprod, plus3, times3; tfc. f_equal; ring. }
  rewrite (G 0). clear G.
  assert (A : 2 * (n + dot u v) * (/ m * / m) = / n).
  { apply (Rmult_eq_reg_l n); [|lra]. rewrite J, <- J2. ring. }
  assert (B : 1 - 2 * (n + dot u v) * (/ m * / m) * dot u v - 2 * cc * (/ m * / m) = 0).
  { rewrite LG. replace (2 * (n * n - dot u v * dot u v) * (/ m * / m)) with ((2 * (n + dot u v) * (/ m * / m)) * (n - dot u v)) by ring.
    rewrite A. replace (1 - / n * dot u v - / n * (n - dot u v)) with (1 - n * / n) by ring. rewrite J. ring. }
  rewrite B, A. rewrite <- K1.
  assert (C : len3 v * (/ n * (len3 u * len3 u)) = len3 u).
  { transitivity (n * / n * len3 u); [unfold n; ring|rewrite J; ring]. }
  clear - C. revert C. generalize (len3 u) (len3 v) (/ n). intros a b i C. destruct u as [u1 u2 u3], v as [v1 v2 v3]; unfold plus3, times3; cbn [vx vy vz]. f_equal; [transitivity (b * (i * (a * a)) * v1)|transitivity (b * (i * (a * a)) * v2)|transitivity (b * (i * (a * a)) * v3)]; (ring || (rewrite C; ring)).
Qed.

Definition aux_axis (u : V3) : V3 :=
  if Rgt_dec (Rabs (vx u)) (Rabs (vy u)) then (if Rgt_dec (Rabs (vy u)) (Rabs (vz u)) then mkV 0 0 1 else mkV 0 1 0)
  else (if Rgt_dec (Rabs (vx u)) (Rabs (vz u)) then mkV 0 0 1 else mkV 1 0 0).
Lemma aux_axis_ok u : 0 < len3 u -> 0 < dot (xprod u (aux_axis u)) (xprod u (aux_axis u)).
Proof.
  intros H. assert (D : 0 < dot u u) by (rewrite <- len3_sq; nra). destruct u as [x y z]. unfold dot in D; cbn in D.
  assert (SQ : forall a b, Rabs a <= Rabs b -> a * a <= b * b).
  { intros a b L.
    replace (a * a) with (Rabs a * Rabs a) by (unfold Rabs; destruct (Rcase_abs a); ring).
    replace (b * b) with (Rabs b * Rabs b) by (unfold Rabs; destruct (Rcase_abs b); ring).
    pose proof (Rabs_pos a). apply Rmult_le_compat; lra. }
  unfold aux_axis; cbn [vx vy vz].
  destruct (Rgt_dec (Rabs x) (Rabs y)) as [A|A]; [destruct (Rgt_dec (Rabs y) (Rabs z)) as [B|B]|destruct (Rgt_dec (Rabs x) (Rabs z)) as [B|B]];
    unfold dot, xprod; cbn [vx vy vz].
  - pose proof (SQ y x ltac:(lra)). pose proof (SQ z y ltac:(lra)). nra.
  - pose proof (SQ y x ltac:(lra)). pose proof (SQ y z ltac:(lra)). nra.
  - pose proof (SQ x y ltac:(lra)). pose proof (SQ z x ltac:(lra)). nra.
  - pose proof (SQ x y ltac:(lra)). pose proof (SQ x z ltac:(lra)). nra.
Qed.

(** Exactly parallel or antiparallel vectors. *)
Lemma vecs_parallel u k : 0 < len3 u -> k <> 0 -> let v := times3 k u in
  unitq (vecs2quat u v) /\ times3 (len3 v) (qrot (vecs2quat u v) u) = times3 (len3 u) v.
Proof.
  intros Hu Hk v. pose proof (aux_axis_ok u Hu) as AO. pose proof PI_RGT_0 as PP.
  assert (D : dot u u = len3 u * len3 u) by (symmetry; apply len3_sq).
  assert (LV : len3 v = Rabs k * len3 u) by apply len3_times.
  unfold vecs2quat. fold (aux_axis u).
  replace (vdot (cross u v) (cross u v)) with 0 by (unfold v; destruct u; unfold vdot, cross, times3; cbn; ring).
  replace (vdot u v) with (k * dot u u) by (unfold v; destruct u; unfold vdot, dot, times3; cbn; ring).
  assert (SE : 0 < sqrt eps) by apply sqe_pos.
  destruct (Rlt_dec _ _) as [_|N]; [|unfold Rdiv in N; rewrite Rmult_0_l in N; lra].
  destruct (Rgt_dec (k * dot u u) 0) as [G|G].
  - assert (KP : 0 < k) by nra.
    assert (T : atan2 0 (k * dot u u) = 0).
    { pose proof (atan2_pol 0 (k * dot u u) G ltac:(lra)) as A. now rewrite sin_0, cos_0, Rmult_0_r, Rmult_1_r in A. }
    rewrite T. replace (0 / 2) with 0 by field. rewrite sin_0, cos_0.
    replace (mkQ _ _ _ 1) with qident by (unfold Rdiv, qident; f_equal; ring).
    split; [apply unitq_ident|]. rewrite qrot_ident, LV, Rabs_right by lra.
    unfold v; destruct u; unfold times3; cbn; f_equal; ring.
  - assert (DP : 0 < dot u u) by (rewrite D; nra). assert (KN : k < 0) by nra.
    assert (T : atan2 0 (k * dot u u) = PI).
    { pose proof (atan2_pol PI (- (k * dot u u)) ltac:(nra) ltac:(lra)) as A.
      rewrite sin_PI, cos_PI, Rmult_0_r in A. replace (- (k * dot u u) * -1) with (k * dot u u) in A by ring. exact A. }
    rewrite T, sin_PI2, cos_PI2. set (a := vadd _ _).
    assert (AE : a = times3 (1 - k) (xprod u (aux_axis u))).
    { unfold a, v. generalize (aux_axis u). intros w. destruct u, w; unfold times3, xprod; tfc; f_equal; ring. }
    assert (AD : 0 < vdot a a).
    { rewrite AE. replace (vdot _ _) with ((1 - k) * (1 - k) * dot (xprod u (aux_axis u)) (xprod u (aux_axis u))).
      - apply Rmult_lt_0_compat; [nra|exact AO].
      - generalize (xprod u (aux_axis u)). intros w. destruct w; unfold vdot, dot, times3; cbn; ring. }
    assert (AP : dot a u = 0). { rewrite AE. generalize (aux_axis u). intros w. destruct u, w; unfold dot, times3, xprod; cbn; ring. }
    clearbody a. destruct (sqrt_pos_sq _ AD) as [SP SS]. set (m := sqrt (vdot a a)) in *. clearbody m.
    assert (IV : m * / m = 1) by (apply Rinv_r; lra).
    unfold Rdiv. rewrite Rmult_1_l. split.
    + unfold unitq, norm2; cbn [qx qy qz qw]. transitivity (vdot a a * (/ m * / m)); [unfold vdot; ring|].
      rewrite <- SS. transitivity ((m * / m) * (m * / m)); [ring|rewrite IV; ring].
    + rewrite LV, Rabs_left by exact KN.
      assert (R1 : qrot (mkQ (vx a * / m) (vy a * / m) (vz a * / m) 0) u = times3 (-1) u).
      { assert (E1 : vdot a a * (/ m * / m) = 1).
        { rewrite <- SS. transitivity ((m * / m) * (m * / m)); [ring|rewrite IV; ring]. }
        clear - E1 AP. revert E1. generalize (/ m). intros i E1. destruct a as [a1 a2 a3], u as [u1 u2 u3].
        unfold times3. unfold dot in AP; cbn in AP. tfc. unfold vdot in E1; cbn in E1. f_equal; nsatz. }
      rewrite R1. unfold v. destruct u; unfold times3; cbn; f_equal; ring.
Qed.

(** Nearly parallel unit vectors. *)
Lemma vecs_small_bad t : 0 < t -> t < / 2 ^ 13 ->
  let u := mkV 1 0 0 in let v := mkV (cos t) (sin t) 0 in
  vy (qrot (vecs2quat u v) u) < sin t / 2.
Proof.
  intros P B u v. pose proof small13'. pose proof PI_RGT_0. pose proof (sin2_cos2 t) as SC. unfold Rsqr in SC.
  pose proof PI2_3_2.
  assert (S0 : 0 < sin t) by (apply sin_gt_0; lra). assert (C0 : 0 < cos t) by (apply cos_gt_0; lra).
  assert (ST : sin t < t) by (apply sin_lt_x; exact P).
  assert (SE : sqrt eps = / 2 ^ 13 * / 2 ^ 13).
  { rewrite <- sqrt_sqrt_eps. symmetry. apply sqrt_sqrt, sqrt_pos. }
  unfold vecs2quat.
  replace (vdot (cross u v) (cross u v)) with (sin t * sin t) by (unfold u, v, vdot, cross; cbn; ring).
  replace (vdot u v) with (cos t) by (unfold u, v, vdot; cbn; ring).
  replace (vdot u u * vdot v v) with 1 by (unfold u, v, vdot; cbn; lra). rewrite sqrt_1.
  destruct (Rlt_dec _ _) as [_|N]. 2:{ exfalso. apply N. rewrite SE. unfold Rdiv. rewrite Rinv_1, Rmult_1_r.
    apply Rmult_le_0_lt_compat; lra. }
  cbn [u vx vy vz]. rewrite Rabs_R1, Rabs_R0. destruct (Rgt_dec 1 0); [|lra]. destruct (Rgt_dec 0 0); [lra|].
  destruct (Rgt_dec (cos t) 0); [|lra].
  set (th := atan2 _ _).
  replace (vadd _ _) with (mkV 0 0 (1 + cos t)) by (unfold v, vadd, cross; cbn; f_equal; ring).
  assert (SQ : sqrt (vdot (mkV 0 0 (1 + cos t)) (mkV 0 0 (1 + cos t))) = 1 + cos t).
  { unfold vdot; cbn [vx vy vz]. replace (0 * 0 + 0 * 0 + (1 + cos t) * (1 + cos t)) with ((1 + cos t) * (1 + cos t)) by ring.
    apply sqrt_square; lra. }
  rewrite SQ. cbn [vx vy vz].
  replace ((1 + cos t) * (sin (th / 2) / (1 + cos t))) with (sin (th / 2)) by (field; lra).
  replace (vy (qrot _ _)) with (sin th).
  2:{ destruct (double_angle th) as (_ & E & _). rewrite E. unfold u. tfc. ring. }
  set (rr := sqrt (cos t * cos t + sin t * sin t * (sin t * sin t))).
  assert (RP : 0 < cos t * cos t + sin t * sin t * (sin t * sin t)) by nra.
  destruct (sqrt_pos_sq _ RP) as [R0 R2]. fold rr in R0, R2.
  destruct (atan2_polar (cos t) (sin t * sin t) rr R0 (eq_sym R2)) as [_ A2]. fold th in A2.
  assert (CT : 1 / 2 < cos t) by nra.
  assert (RT : 1 / 2 < rr) by nra.
  assert (sin th * rr = sin t * sin t) by (rewrite <- A2; ring). nra.
Qed.

(** ** Euler angles *)
Lemma axis_rotmat_ok a t p : mrot (axis_rotmat a t) p = axis_rot a t p.
Proof. destruct a; [apply xangle_rot|apply yangle_rot|apply zangle_rot]. Qed.
Lemma axis_quat_ok a t : quat2rotmat (axis_quat a t) = axis_rotmat a t.
Proof. destruct a; [apply xangle_quat|apply yangle_quat|apply zangle_quat]. Qed.
Lemma axis_quat_unit a t : unitq (axis_quat a t).
Proof.
  pose proof (sin2_cos2 (t / 2)) as Q. unfold Rsqr in Q.
  destruct a; unfold unitq, norm2; cbn; lra.
Qed.
Lemma euler2rotmat_ok a1 a2 a3 e1 e2 e3 p :
  mrot (euler2rotmat a1 a2 a3 e1 e2 e3) p = axis_rot a1 e1 (axis_rot a2 e2 (axis_rot a3 e3 p)).
Proof. unfold euler2rotmat. now rewrite !mrot_mul, !axis_rotmat_ok. Qed.
Lemma euler2quat_ok a1 a2 a3 e1 e2 e3 :
  unitq (euler2quat a1 a2 a3 e1 e2 e3) /\
  quat2rotmat (euler2quat a1 a2 a3 e1 e2 e3) = euler2rotmat a1 a2 a3 e1 e2 e3.
Proof.
  pose proof (axis_quat_unit a1 e1) as U1. pose proof (axis_quat_unit a2 e2) as U2. pose proof (axis_quat_unit a3 e3) as U3.
  pose proof (unitq_mul _ _ U1 U2) as U12. pose proof (unitq_mul _ _ U12 U3) as U.
  unfold euler2quat. rewrite qnormalize_id by exact U. split; [exact U|].
  rewrite !quat2rotmat_mul, !axis_quat_ok by assumption. reflexivity.
Qed.
Lemma euler_quat_rot a1 a2 a3 e1 e2 e3 p :
  qrot (euler2quat a1 a2 a3 e1 e2 e3) p = axis_rot a1 e1 (axis_rot a2 e2 (axis_rot a3 e3 p)).
Proof. rewrite qrot_mrot, (proj2 (euler2quat_ok _ _ _ _ _ _)). apply euler2rotmat_ok. Qed.

Lemma eulerzyx_angles M : proper_rotation M -> 0 < m00 M * m00 M + m10 M * m10 M ->
  let r := sqrt (m00 M * m00 M + m10 M * m10 M) in
  let b := atan2 (- m20 M) r in
  let a := atan2 (m10 M) (m00 M) in let g := atan2 (m21 M) (m22 M) in
  rotmat2eulerzyx M = (a, b, g) /\ 0 < r /\ r * r = m00 M * m00 M + m10 M * m10 M /\ cos b = r /\ sin b = - m20 M /\ r * cos a = m00 M /\ r * sin a = m10 M /\ r * cos g = m22 M /\ r * sin g = m21 M.
Proof.
  intros H G r b a g. destruct (sqrt_pos_sq _ G) as [R0 R2]. fold r in R0, R2.
  pose proof (proper_rows M H) as RW.
  destruct H as (D0 & D1 & D2 & D01 & D02 & D12 & _).
  destruct M as [a00 a10 a20 a01 a11 a21 a02 a12 a22].
  apply (f_equal m22) in RW. unfold dot, col0, col1, col2 in *. cbn [m00 m10 m20 m01 m11 m21 m02 m12 m22 vx vy vz] in *.
  assert (RW' : a20 * a20 + a21 * a21 + a22 * a22 = 1) by (etransitivity; [|exact RW]; tfc; ring). clear RW.
  destruct (atan2_polar r (- a20) 1 ltac:(lra) ltac:(nra)) as [CB SB]. fold b in CB, SB. rewrite Rmult_1_l in CB, SB.
  destruct (atan2_polar a00 a10 r R0 ltac:(lra)) as [CA SA]. fold a in CA, SA.
  destruct (atan2_polar a22 a21 r R0 ltac:(lra)) as [CG SG]. fold g in CG, SG.
  repeat split; try assumption.
  unfold rotmat2eulerzyx. cbn [m00 m10 m20 m01 m11 m21 m02 m12 m22]. fold r. fold b. rewrite CB.
  assert (0 < / r) by (apply Rinv_0_lt_compat; exact R0).
  unfold Rdiv. rewrite !(Rmult_comm _ (/ r)), !atan2_scale by assumption. reflexivity.
Qed.
Lemma eulerzyx_ok M a b g : proper_rotation M -> 0 < m00 M * m00 M + m10 M * m10 M ->
  rotmat2eulerzyx M = (a, b, g) -> euler2rotmat AxZ AxY AxX a b g = M.
Proof.
  intros H G E. destruct (eulerzyx_angles M H G) as (E' & R0 & R2 & CB & SB & CA & SA & CG & SG).
  rewrite E in E'. injection E' as E1 E2 E3. rewrite <- E1 in CA, SA. rewrite <- E2 in CB, SB. rewrite <- E3 in CG, SG.
  clear E E1 E2 E3. set (r := sqrt _) in *. clearbody r. clear G.
  pose proof (proper_cofactors M H) as CF.
  destruct H as (D0 & D1 & D2 & D01 & D02 & D12 & _).
  destruct M as [a00 a10 a20 a01 a11 a21 a02 a12 a22].
  unfold dot, col0, col1, col2 in *. cbn [m00 m10 m20 m01 m11 m21 m02 m12 m22 vx vy vz] in *.
  unfold euler2rotmat, axis_rotmat, xangle2rotmat, yangle2rotmat, zangle2rotmat. tfc.
  rewrite CB, SB. pose proof (sin2_cos2 a) as QA. pose proof (sin2_cos2 g) as QG. unfold Rsqr in QA, QG.
  revert CA SA CG SG QA QG. generalize (sin a) (cos a) (sin g) (cos g). intros sa ca sg cg CA SA CG SG QA QG.
  assert (I : r * / r = 1) by (apply Rinv_r; lra). clear R0. revert I. generalize (/ r). intros i I.
  clear CB SB a b g.
  assert (ca = i * a00) by (rewrite <- CA; transitivity (r * i * ca); [rewrite I; ring|ring]).
  assert (sa = i * a10) by (rewrite <- SA; transitivity (r * i * sa); [rewrite I; ring|ring]).
  assert (cg = i * a22) by (rewrite <- CG; transitivity (r * i * cg); [rewrite I; ring|ring]).
  assert (sg = i * a21) by (rewrite <- SG; transitivity (r * i * sg); [rewrite I; ring|ring]).
  destruct CF as (F1 & F2 & F3 & F4 & F5 & F6 & F7 & F8 & F9).
  assert (J : i * i * (a00 * a00 + a10 * a10) = 1) by (rewrite <- R2; transitivity ((r * i) * (r * i)); [ring|rewrite I; ring]).
  assert (X : forall x y, (a00 * a00 + a10 * a10) * x = y -> i * i * y = x).
  { intros x y E. rewrite <- E. transitivity (i * i * (a00 * a00 + a10 * a10) * x); [ring|rewrite J; ring]. }
  f_equal.
  - transitivity (r * ca); [ring|exact CA].
  - transitivity (r * sa); [ring|exact SA].
  - ring.
  - transitivity (i * i * (- (a00 * a20 * a21) - a10 * a22)); [subst ca sa sg cg; ring|]. apply X. nsatz.
  - transitivity (i * i * (- (a10 * a20 * a21) + a00 * a22)); [subst ca sa sg cg; ring|]. apply X. nsatz.
  - transitivity (r * sg); [ring|exact SG].
  - transitivity (i * i * (- (a00 * a20 * a22) + a10 * a21)); [subst ca sa sg cg; ring|]. apply X. nsatz.
  - transitivity (i * i * (- (a10 * a20 * a22) - a00 * a21)); [subst ca sa sg cg; ring|]. apply X. nsatz.
  - transitivity (r * cg); [ring|exact CG].
Qed.

Lemma quat2eulerzyx_ok q : norm2 q <> 0 ->
  let M := quat2rotmat (qnormalize q) in
  0 < m00 M * m00 M + m10 M * m10 M ->
  quat2eulerzyx q = rotmat2eulerzyx M.
Proof.
  intros N M G. pose proof (qnormalize_unit q N) as U. pose proof (quat2rotmat_proper _ U) as P. fold M in P.
  destruct (eulerzyx_angles M P G) as (E & R0 & R2 & CB & SB & CA & SA & CG & SG). rewrite E.
  set (r := sqrt _) in *. set (b := atan2 (- m20 M) r) in *.
  unfold quat2eulerzyx. unfold qnormalize, qdivs in U, M.
  set (x := qx q / qnorm q) in *. set (y := qy q / qnorm q) in *. set (z := qz q / qnorm q) in *. set (w := qw q / qnorm q) in *.
  unfold unitq, norm2 in U; cbn in U.
  assert (M00 : m00 M = 1 - 2 * (y * y + z * z)) by (unfold M; tfc; lra).
  assert (M10 : m10 M = 2 * (w * z + x * y)) by (unfold M; tfc; lra).
  assert (M20 : - m20 M = 2 * (w * y - x * z)) by (unfold M; tfc; lra).
  assert (M21 : m21 M = 2 * (w * x + y * z)) by (unfold M; tfc; lra).
  assert (M22 : m22 M = 1 - 2 * (x * x + y * y)) by (unfold M; tfc; lra).
  rewrite <- M00, <- M10, <- M20, <- M21, <- M22. f_equal. f_equal.
  pose proof (atan2_bound (- m20 M) r) as BB. fold b in BB. pose proof PI_RGT_0.
  assert (BB2 : - (PI / 2) < b < PI / 2).
  { split.
    - destruct (Rlt_dec (- (PI / 2)) b) as [|L]; [assumption|]. exfalso.
      assert (cos (- b) <= 0) by (apply cos_le_0; lra). rewrite cos_neg in *. lra.
    - destruct (Rlt_dec b (PI / 2)) as [|L]; [assumption|]. exfalso.
      assert (cos b <= 0) by (apply cos_le_0; lra). lra. }
  rewrite <- SB. apply asin_sin. lra.
Qed.

(** ** Axis-angle and rotation-vector conversions *)
Lemma axang_of_quat q : unitq q -> axang2quat (quat2axang q) = q.
Proof.
  intros U. unfold quat2axang, axang2quat. cbn [axis angle]. change (vnorm (qv q)) with (len3 (qv q)).
  change (sqrt (vdot (qv q) (qv q))) with (len3 (qv q)). replace (2 * atan2 (len3 (qv q)) (qw q) / 2) with (qphi q) by (unfold qphi; field).
  pose proof (unit_len4 q U) as L. destruct (polar q ltac:(lra)) as (C & S & B). fold (qphi q) in C, S.
  rewrite L, Rmult_1_l in C, S.
  destruct (Rgt_dec (len3 (qv q)) 0) as [G|G].
  - rewrite C, S. transitivity (mkqv (qv q) (qw q)); [|apply mkqv_vec]. f_equal.
    revert G. generalize (len3 (qv q)) (qv q). intros l v G. destruct v; unfold vdivs, vscale; cbn. f_equal; field; lra.
  - pose proof (len3_nonneg (qv q)). rewrite C. transitivity (mkqv (qv q) (qw q)); [|apply mkqv_vec]. f_equal.
    rewrite (len3_zero (qv q)) by lra. unfold vscale, zero3; cbn. f_equal; ring.
Qed.
Lemma quat_of_axang k t : unit3 k -> 0 < t < 2 * PI -> quat2axang (axang2quat (mkA k t)) = mkA k t.
Proof.
  intros U T. pose proof PI_RGT_0. assert (S0 : 0 < sin (t / 2)) by (apply sin_gt_0; lra).
  unfold axang2quat. cbn [axis angle].
  change (vscale (sin (t / 2)) k) with (times3 (sin (t / 2)) k).
  unfold quat2axang.
  change (vnorm (qv (mkqv (times3 (sin (t / 2)) k) (cos (t / 2))))) with (len3 (qv (mkqv (times3 (sin (t / 2)) k) (cos (t / 2))))).
  change (sqrt (vdot (qv (mkqv (times3 (sin (t / 2)) k) (cos (t / 2)))) (qv (mkqv (times3 (sin (t / 2)) k) (cos (t / 2))))))
    with (len3 (qv (mkqv (times3 (sin (t / 2)) k) (cos (t / 2))))).
  rewrite len3_mkqv by (assumption || lra). cbn [mkqv qw]. rewrite atan2_sincos by lra.
  destruct (Rgt_dec _ _); [|lra]. f_equal; [|field].
  destruct k; unfold vdivs, qv, mkqv, times3; cbn. f_equal; field; lra.
Qed.
Lemma rotvec2quat_qpexp v : rotvec2quat v = qpexp (times3 (1 / 2) v).
Proof.
  unfold rotvec2quat, qpexp. replace (vdot (times3 (1 / 2) v) (times3 (1 / 2) v)) with (vdot v v / 4).
  - destruct (sinccos2 _). f_equal. destruct v; unfold vscale, times3; cbn; f_equal; field.
  - destruct v; unfold vdot, times3; cbn; field.
Qed.
Lemma quat2rotvec_qln q : unitq q -> quat2rotvec q = times3 2 (vecpart (qln q)) /\ qw (qln q) = 0.
Proof.
  intros U. rewrite qln_unfold, (unit_len4 q U), ln_1. split; [|reflexivity].
  unfold quat2rotvec. rewrite sqrt_sqrt_eps. change (sqrt (vdot (qv q) (qv q))) with (len3 (qv q)). fold (qphi q).
  unfold vecpart, mkqv; cbn [qx qy qz qw]. destruct (Rlt_dec _ _); unfold vscale, times3; cbn [vx vy vz]; f_equal; unfold Rdiv; try rewrite Rinv_1; ring.
Qed.
Lemma rotvec_of_quat q : unitq q -> rotvec2quat (quat2rotvec q) = qexp (qln q).
Proof.
  intros U. destruct (quat2rotvec_qln q U) as [E W]. rewrite rotvec2quat_qpexp, E, qexp_qpexp, W, exp_0.
  replace (times3 (1 / 2) (times3 2 (vecpart (qln q)))) with (qv (qln q)).
  - generalize (qpexp (qv (qln q))). intros p. destruct p; unfold qscal; cbn. f_equal; ring.
  - destruct (qln q); unfold times3, vecpart, qv; cbn. f_equal; field.
Qed.
Lemma rotvec2axang_ok v : tf_eps <= len3 v ->
  angle (rotvec2axang v) = len3 v /\ unit3 (axis (rotvec2axang v)) /\ times3 (angle (rotvec2axang v)) (axis (rotvec2axang v)) = v.
Proof.
  intros H. pose proof tf_eps_pos. unfold rotvec2axang. change (sqrt (vdot v v)) with (len3 v).
  assert (E : vdot v v = len3 v * len3 v) by (rewrite len3_sq; reflexivity).
  destruct (Rlt_dec _ _) as [L|_]; [exfalso; rewrite E in L; nra|]. cbn [axis angle]. split; [reflexivity|].
  assert (P : 0 < len3 v) by lra. split.
  - unfold unit3. replace (dot _ _) with (vdot v v / (len3 v * len3 v)); [rewrite E; field; lra|].
    generalize (len3 v) P. intros l Hl. destruct v; unfold vdot, dot, vdivs; cbn. field; lra.
  - generalize (len3 v) P. intros l Hl. destruct v; unfold times3, vdivs; cbn. f_equal; field; lra.
Qed.
Lemma axang2rotvec_ok k t : unit3 k -> tf_eps <= t -> rotvec2axang (axang2rotvec (mkA k t)) = mkA k t.
Proof.
  intros U H. pose proof tf_eps_pos. unfold axang2rotvec. cbn [axis angle]. change (vscale t k) with (times3 t k).
  assert (L : len3 (times3 t k) = t) by (rewrite len3_times, (len3_unit k U), Rabs_right by lra; ring).
  destruct (rotvec2axang_ok (times3 t k) ltac:(lra)) as (A & _ & B). rewrite A, L in B.
  destruct (rotvec2axang (times3 t k)) as [k' t']. cbn in *. subst t'. rewrite L. f_equal.
  destruct k, k'. unfold times3 in B; cbn in B. injection B as B1 B2 B3.
  f_equal; apply (Rmult_eq_reg_l t); lra.
Qed.
Lemma rotvec_permute_rot v k p : tf_eps <= len3 v -> tf_eps <= len3 v + IZR k * 2 * PI ->
  axang_rot (rotvec2axang (rotvec_permute v k)) p = axang_rot (rotvec2axang v) p.
Proof.
  intros H1 H2. destruct (rotvec2axang_ok v H1) as (A & U & _). unfold rotvec_permute.
  replace (axang_permute (rotvec2axang v) k) with (mkA (axis (rotvec2axang v)) (len3 v + IZR k * 2 * PI)).
  - rewrite axang2rotvec_ok by assumption. rewrite <- A.
    change (mkA (axis (rotvec2axang v)) (angle (rotvec2axang v) + IZR k * 2 * PI)) with (axang_permute (rotvec2axang v) k).
    apply axang_permute_rot.
  - unfold axang_permute. rewrite A. reflexivity.
Qed.
Lemma rotmat2axang_ok k t : unit3 k -> / 2 ^ 13 <= t <= PI ->
  axang2rotmat (rotmat2axang (axang2rotmat (mkA k t))) = axang2rotmat (mkA k t).
Proof.
  intros U T. unfold rotmat2axang. pose proof PI2_1.
  assert (TE : tf_eps <= / 2 ^ 13) by (unfold tf_eps; simpl; lra).
  destruct (rotmat_lnv_axang k t U T) as [->|[_ ->]].
  - change (times3 t k) with (axang2rotvec (mkA k t)). rewrite axang2rotvec_ok by (assumption || lra). reflexivity.
  - change (times3 (2 * PI - t) (times3 (-1) k)) with (axang2rotvec (mkA (times3 (-1) k) (2 * PI - t))).
    pose proof small13'. rewrite axang2rotvec_ok; [apply axang_flip|now apply unit3_neg|lra].
Qed.

(** ** Integrating a rotational velocity *)
Lemma qpexp_qutr w : qpexp w = eq (qutr_expv (mkDX zero3 w)).
Proof.
  unfold qpexp, qutr_expv, sinccos2. cbn [dxw dxv]. destruct (Rlt_dec _ _); reflexivity.
Qed.
Lemma qsvel_qutr q w dt : qsvel q w dt = eq (qutr_svel (mkE q zero3) (mkDX zero3 w) dt).
Proof.
  unfold qsvel, qutr_svel. rewrite qpexp_qutr.
  replace (vdivs (mkV (vx w * dt) (vy w * dt) (vz w * dt)) 2) with (mkV (vx w * (dt / 2)) (vy w * (dt / 2)) (vz w * (dt / 2)))
    by (unfold vdivs; cbn; f_equal; field).
  cbv beta iota zeta delta [qv_vel2twist]. cbn [ev dxw dxv].
  cbv beta iota zeta delta [qutr_mul]. cbn [eq]. f_equal.
  unfold qutr_expv. cbn [dxw dxv vx vy vz]. destruct (Rlt_dec _ _); reflexivity.
Qed.
Lemma qsvel_ok q w dt F : unitq q -> screw_flow zero3 w F -> off_series (/ 2 ^ 13) (times3 (dt / 2) w) ->
  forall p, qrot (qsvel q w dt) p = F dt (qrot q p).
Proof.
  intros U H O p. rewrite qsvel_qutr.
  assert (H' : screw_flow (plus3 zero3 (times3 (-1) (xprod w (ev (mkE q zero3))))) w F).
  { replace (plus3 _ _) with zero3; [exact H|]. destruct w; unfold plus3, times3, xprod, zero3; cbn. f_equal; ring. }
  pose proof (qutr_svel_ok (mkE q zero3) zero3 w dt F U H' O) as G.
  assert (FZ : F dt zero3 = zero3).
  { destruct H as [H0 H1]. assert (S : screw_flow zero3 w F) by (split; assumption).
    destruct (direction w) as (k & Uk & E). destruct (Req_dec (len3 w) 0) as [Z|Z].
    - rewrite (len3_zero w Z) in S. rewrite (flow_unique _ _ _ _ S (flow_0_ok zero3)). unfold flow_0, plus3, times3, zero3; cbn. f_equal; ring.
    - rewrite E in S. rewrite (flow_unique _ _ _ _ S (flow_k_ok k (len3 w) zero3 Uk Z)).
      destruct k; unfold flow_k, rodrigues, plus3, times3, xprod, dot, zero3; cbn. f_equal; field; exact Z. }
  pose proof (G zero3) as G0. pose proof (G p) as Gp. rewrite !qutr_tf_eq in *. cbn [eq ev] in *.
  rewrite !qrot_zero in G0.
  assert (Z3 : forall a, plus3 zero3 a = a) by (intros [a b c]; unfold plus3, zero3; cbn; f_equal; ring).
  rewrite Z3 in G0, Gp. rewrite FZ in G0.
  assert (E0 : ev (qutr_svel (mkE q zero3) (mkDX zero3 w) dt) = zero3).
  { etransitivity; [|exact G0]. generalize (ev (qutr_svel (mkE q zero3) (mkDX zero3 w) dt)). intros [a b c]; unfold plus3, zero3; cbn. f_equal; ring. }
  rewrite E0, Z3 in Gp. exact Gp.
Qed.
Lemma qsdiff_ok q w dt : unitq q -> qsdiff q (qvel2diff q w) dt = qsvel q w dt.
Proof.
  intros U. pose proof (qdiff2vel_qvel2diff q w U) as E. unfold qsdiff, qsvel. f_equal. f_equal.
  unfold qdiff2vel in E. revert E. generalize (qmulc_v (qvel2diff q w) q). intros [a b c] <-. unfold vdivs, vscale; cbn. f_equal; field.
Qed.

(** ** Combined statements *)
Lemma unit_x : unit3 (mkV 1 0 0).
Proof. unfold unit3, dot; cbn; ring. Qed.
Lemma unit_cs t : unit3 (mkV (cos t) (sin t) 0).
Proof. pose proof (sin2_cos2 t) as Q. unfold Rsqr in Q. unfold unit3, dot; cbn; lra. Qed.
Lemma axang_forms k t p : unit3 k ->
  axang_rot (mkA k t) p = rodrigues k t p /\
  mrot (axang2rotmat (mkA k t)) p = rodrigues k t p /\
  axang2rotmat2 (mkA k t) = axang2rotmat (mkA k t) /\
  unitq (axang2quat (mkA k t)) /\ quat2rotmat (axang2quat (mkA k t)) = axang2rotmat (mkA k t) /\
  qrot (axang2quat (mkA k t)) p = rodrigues k t p.
Proof.
  intros U. pose proof (axang2rotmat2_eq (mkA k t) U) as E.
  split; [apply axang_rot_rodrigues|]. split; [now apply axang2rotmat_rodrigues|]. split; [exact E|].
  split; [now apply axang2quat_unit|]. split; [exact E|].
  rewrite qrot_mrot. unfold axang2rotmat2 in E. rewrite E. now apply axang2rotmat_rodrigues.
Qed.
Lemma quat_eulerzyx_rot q a b g : unitq q ->
  let M := quat2rotmat q in 0 < m00 M * m00 M + m10 M * m10 M -> quat2eulerzyx q = (a, b, g) ->
  forall p, axis_rot AxZ a (axis_rot AxY b (axis_rot AxX g p)) = qrot q p.
Proof.
  intros U M G E p. assert (N : norm2 q <> 0) by (rewrite U; lra).
  rewrite quat2eulerzyx_ok in E; rewrite ?(qnormalize_id q U) in *; auto.
  rewrite <- euler2rotmat_ok, (eulerzyx_ok M a b g (quat2rotmat_proper q U) G E). symmetry. apply qrot_mrot.
Qed.
Lemma unit_not_neg q : unitq q -> q <> mkQ 0 0 0 (-1) -> vecpart q <> zero3 \/ 0 < qw q.
Proof.
  intros U N. destruct (Rlt_dec 0 (qw q)) as [P|P]; [now right|left].
  intros Z. apply N. destruct q as [x y z w]. unfold vecpart, zero3 in Z; cbn in *. injection Z as -> -> ->.
  unfold unitq, norm2 in U; cbn in U. f_equal. nra.
Qed.
Lemma rotvec_round_trip q : unitq q -> q <> mkQ 0 0 0 (-1) ->
  (0 < len3 (vecpart q) -> / 2 ^ 13 <= atan2 (len3 (vecpart q)) (qw q) -> rotvec2quat (quat2rotvec q) = q) /\
  qnear (/ 2 ^ 78) (rotvec2quat (quat2rotvec q)) q.
Proof.
  intros U N. rewrite rotvec_of_quat by exact U. split; [apply qexp_qln_exact|].
  pose proof (qexp_qln_near q (unit_not_neg q U N)) as H. rewrite (unit_len4 q U), Rmult_1_l in H. exact H.
Qed.
Lemma matrix_log_rt k t : unit3 k -> t = 0 \/ / 2 ^ 13 <= t <= PI ->
  let M := axang2rotmat (mkA k t) in
  rotmat_expv (rotmat_lnv M) = M /\ (t <> 0 -> axang2rotmat (rotmat2axang M) = M).
Proof.
  intros U [->|T] M.
  - split; [|lra]. unfold M. rewrite axang_zero, rotmat_lnv_ident. apply rotmat_expv_zero.
  - split; [now apply rotmat_exp_ln|]. intros _. now apply rotmat2axang_ok.
Qed.
Lemma qutr_exp_ln_all e : unit_qutr e ->
  (vecpart (eq e) = zero3 /\ qw (eq e) = 1) \/
  (0 < len3 (vecpart (eq e)) /\ / 2 ^ 13 <= atan2 (len3 (vecpart (eq e))) (qw (eq e))) ->
  qutr_expv (qutr_lnv e) = e.
Proof.
  intros U [[Z W]|[P A]]; [|now apply qutr_exp_ln].
  destruct e as [[x y z w] v]. unfold vecpart, zero3 in Z; cbn in *. injection Z as -> -> ->. subst w.
  apply qutr_exp_ln_ident.
Qed.
Lemma duqu_exp_ln_all s : unit_duqu s ->
  (vecpart (dreal s) = zero3 /\ qw (dreal s) = 1) \/
  (0 < len3 (vecpart (dreal s)) /\ / 2 ^ 26 <= atan2 (len3 (vecpart (dreal s))) (qw (dreal s))) ->
  duqu_exp (duqu_ln s) = s.
Proof.
  intros U [[Z W]|[P A]]; [|now apply duqu_exp_ln].
  destruct s as [[x y z w] [dx dy dz dw]]. unfold vecpart, zero3 in Z; cbn in *. injection Z as -> -> ->. subst w.
  destruct U as [_ D]; cbn in D. assert (dw = 0) by lra. subst dw.
  apply (duqu_exp_ln_ident (mkV dx dy dz)).
Qed.
Lemma tfmat_exp_ln_all k t v : unit3 k -> t = 0 \/ / 2 ^ 13 <= t <= PI ->
  tfmat_expv (tfmat_lnv (mkT (axang2rotmat (mkA k t)) v)) = mkT (axang2rotmat (mkA k t)) v.
Proof.
  intros U [->|T]; [|now apply tfmat_exp_ln].
  rewrite axang_zero, tfmat_lnv_ident. apply tfmat_expv_ident.
Qed.
