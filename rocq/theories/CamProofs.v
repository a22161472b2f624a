(** The viewer shows what the camera pose and the perspective say, and events
    move the camera as meant. *)
From Coq Require Import Reals Lra Psatz ZArith List Bool.
From Verif Require Import TfModel TfSpec TfProofs TfRotmatProofs TfRepProofs TfFrameProofs TfConvProofs CamModel CamSpec.
Import ListNotations.
Open Scope R_scope.

(** ** Matrices *)
Lemma glmat_tf T p : m44_app (tfmat2glmat T) (mkqv p 1) = mkqv (tfmat_tf T p) 1.
Proof. destruct T as [[] []], p. unfold tfmat2glmat. tfc. f_equal; ring. Qed.

Lemma m44_mul_app A B q : m44_app (m44_mul A B) q = m44_app A (m44_app B q).
Proof.
  destruct A as [[] [] [] []], B as [[] [] [] []], q. unfold m44_mul. tfc. f_equal; ring.
Qed.

Lemma draw_model E s p : m44_app (fst (draw_matrices E s)) (mkqv p 1) = mkqv (qutr_tf E (times3 s p)) 1.
Proof.
  rewrite <- qutr2tfmat_tf. unfold draw_matrices, qutr2glmat, tfmat2glmat. cbn [fst c0 c1 c2 c3 qx qy qz qw].
  generalize (qutr2tfmat E). intros [[] []]. destruct p. tfc. f_equal; ring.
Qed.

Lemma draw_normal E s n : mrot (snd (draw_matrices E s)) n = qrot (TfModel.eq E) n.
Proof.
  rewrite qrot_mrot. unfold draw_matrices, qutr2glmat, tfmat2glmat, qutr2tfmat. cbn [snd c0 c1 c2 c3 qx qy qz qw tR].
  reflexivity.
Qed.

Lemma view_matrix E p : unit_qutr E ->
  m44_app (tfmat2glmat (tfmat_inv (qutr2tfmat E))) (mkqv (qutr_tf E p) 1) = mkqv p 1.
Proof.
  intros U. rewrite glmat_tf, <- qutr2tfmat_tf. f_equal.
  apply tfmat_inv_acts. now apply qutr2tfmat_proper.
Qed.

Lemma perspective_app f a n z p : m44_app (mat_perspective f a n z) (mkqv p 1) =
  mkQ (vx p / (a * tan (f / 2))) (vy p / tan (f / 2))
      (((z + n) * - vz p - 2 * z * n) / (z - n)) (- vz p).
Proof. destruct p. unfold mat_perspective. tfc. generalize (tan (f / 2)). intros t. unfold Rdiv. f_equal; ring. Qed.

Lemma tan_half_pos f : 0 < f < PI -> 0 < tan (f / 2).
Proof. intros H. apply tan_gt_0; lra. Qed.

Lemma abs_le a b : Rabs a <= b <-> - b <= a <= b.
Proof. split; [intros H; unfold Rabs in H; destruct (Rcase_abs a); lra|intros H; apply Rabs_le; exact H]. Qed.

Lemma div_between x k w : 0 < k -> (- w <= x / k <= w <-> - (w * k) <= x <= w * k).
Proof.
  intros K. assert (E : x = x / k * k) by (field; lra).
  split; intros [A B].
  - apply (Rmult_le_compat_r k) in A; [|lra]. apply (Rmult_le_compat_r k) in B; [|lra]. lra.
  - split; apply (Rmult_le_reg_r k); lra.
Qed.

Lemma clip_iff f a n z p : 0 < f < PI -> 0 < a -> 0 < n < z ->
  (clipped_in (m44_app (mat_perspective f a n z) (mkqv p 1)) <-> in_view f a n z p).
Proof.
  intros F A N. rewrite perspective_app. pose proof (tan_half_pos f F) as T.
  unfold clipped_in, in_view. cbn [qx qy qz qw]. set (t := tan (f / 2)) in *. clearbody t.
  assert (AT : 0 < a * t) by (apply Rmult_lt_0_compat; lra).
  rewrite !abs_le, (div_between _ (a * t)), (div_between _ t), (div_between _ (z - n)) by lra.
  set (d := - vz p). clearbody d.
  assert (Z1 : - (d * (z - n)) <= (z + n) * d - 2 * z * n <-> n <= d).
  { split; intros H.
    - apply (Rmult_le_reg_l (2 * z)); lra.
    - apply (Rmult_le_compat_l (2 * z)) in H; lra. }
  assert (Z2 : (z + n) * d - 2 * z * n <= d * (z - n) <-> d <= z).
  { split; intros H.
    - apply (Rmult_le_reg_l (2 * n)); lra.
    - apply (Rmult_le_compat_l (2 * n)) in H; lra. }
  replace (a * (d * t)) with (d * (a * t)) by ring. tauto.
Qed.

Lemma depth_order f a n z p q : 0 < n < z -> n <= - vz p -> n <= - vz q ->
  (depth (m44_app (mat_perspective f a n z) (mkqv p 1)) < depth (m44_app (mat_perspective f a n z) (mkqv q 1))
   <-> - vz p < - vz q).
Proof.
  intros N P Q. rewrite !perspective_app. unfold depth. cbn [qz qw].
  set (d := - vz p) in *. set (e := - vz q) in *. clearbody d e.
  assert (E : forall u, 0 < u -> ((z + n) * u - 2 * z * n) / (z - n) / u = (z + n) / (z - n) - 2 * z * n / (z - n) * / u).
  { intros u U. field. lra. }
  rewrite !E by lra. set (k := 2 * z * n / (z - n)).
  assert (K : 0 < k). { unfold k. apply Rdiv_lt_0_compat; [|lra]. apply Rmult_lt_0_compat; lra. }
  split; intros H.
  - apply Rnot_le_lt. intros L. assert (/ d <= / e) by (apply Rinv_le_contravar; lra).
    apply (Rmult_le_compat_l k) in H0; lra.
  - assert (/ e < / d) by (apply Rinv_lt_contravar; [apply Rmult_lt_0_compat; lra|lra]).
    apply (Rmult_lt_compat_l k) in H0; lra.
Qed.

(** ** Moves *)
Lemma E_ident_eq : E_ident = ident_qutr. Proof. reflexivity. Qed.
Lemma trans_unit x y z : unit_qutr (trans x y z). Proof. apply unitq_ident. Qed.
Lemma trans_tf x y z p : qutr_tf (trans x y z) p = plus3 (mkV x y z) p.
Proof. rewrite qutr_tf_eq. cbn [trans TfModel.eq ev]. now rewrite qrot_ident. Qed.

Lemma unit_vertical : unit3 vertical. Proof. unfold unit3, vertical, dot. cbn. ring. Qed.

Lemma right_col E : right_of (qutr_tf E) = mcol0 (quat2rotmat (TfModel.eq E)).
Proof.
  unfold right_of. rewrite !qutr_tf_eq, !qrot_mrot. destruct (quat2rotmat _), (ev E). tfc. f_equal; ring.
Qed.
Lemma right_unit E : unit_qutr E -> unit3 (right_of (qutr_tf E)).
Proof.
  intros U. rewrite right_col. pose proof (quat2rotmat_proper _ U) as P. destruct P as (P & _). exact P.
Qed.

Lemma scroll_unit x y M : unit3 (mcol0 M) -> unit_qutr (scroll x y M).
Proof.
  intros U. unfold scroll, unit_qutr. cbn [TfModel.eq]. apply unitq_mul.
  - apply (axang_forms vertical y zero3 unit_vertical).
  - now apply (axang_forms (mcol0 M) x zero3 U).
Qed.
Lemma scroll_tf x y M p : unit3 (mcol0 M) ->
  qutr_tf (scroll x y M) p = rodrigues vertical y (rodrigues (mcol0 M) x p).
Proof.
  intros U. rewrite qutr_tf_eq. unfold scroll. cbn [TfModel.eq ev].
  destruct (axang_forms vertical y (rodrigues (mcol0 M) x p) unit_vertical) as (_ & _ & _ & U1 & _ & R1).
  destruct (axang_forms (mcol0 M) x p U) as (_ & _ & _ & U2 & _ & R2).
  change (mkV 0 0 1) with vertical. rewrite qrot_mul, R2, R1 by assumption.
  destruct (rodrigues vertical y _). tfc. f_equal; ring.
Qed.

Lemma rodrigues_0 k p : rodrigues k 0 p = p.
Proof. unfold rodrigues. rewrite cos_0, sin_0. destruct k, p. tfc. f_equal; ring. Qed.

(** ** The state against the specification *)
Record sim (G : cam) (v : view) : Prop := {
  sm_unit : unit_qutr (world_E_cam G);
  sm_hunit : unit_qutr (world_E_camhome G);
  sm_place : forall p, qutr_tf (world_E_cam G) p = place v p;
  sm_home : forall p, qutr_tf (world_E_camhome G) p = home v p;
  sm_f : fovy G = v_fovy v; sm_a : aspect G = v_aspect v;
  sm_n : znear G = v_near v; sm_z : zfar G = v_far v;
  sm_view : cam_M_world G = tfmat2glmat (tfmat_inv (qutr2tfmat (world_E_cam G)));
  sm_persp : perspective G = mat_perspective (fovy G) (aspect G) (znear G) (zfar G);
  sm_eye : world_v_cam G = ev (world_E_cam G);
  sm_mouse : (mouse_x G, mouse_y G) = pointer v;
  sm_step : scroll_ratio G = step_size /\ angle_ratio G = step_size }.

Lemma eye_ev E : qutr_tf E zero3 = ev E.
Proof. rewrite qutr_tf_eq. destruct (TfModel.eq E), (ev E). tfc. f_equal; ring. Qed.

Lemma right_ext P Q : (forall p, P p = Q p) -> right_of P = right_of Q.
Proof. intros H. unfold right_of. now rewrite !H. Qed.

(** The common tail of the events that move the camera *)
Lemma update_sim G v pre post (P : pose) x y :
  sim G v -> unit_qutr pre -> unit_qutr post ->
  (forall p, qutr_tf pre (place v (qutr_tf post p)) = P p) ->
  mouse_x G = x -> mouse_y G = y ->
  sim (fst (update_tf G pre post)) (mkView P (home v) (v_fovy v) (v_aspect v) (v_near v) (v_far v) (x, y)).
Proof.
  intros S U1 U2 HP Mx My. destruct S. cbn [update_tf fst]. unfold set_camera.
  assert (U : unit_qutr (qutr_mul (qutr_mul pre (world_E_cam G)) post)).
  { apply qutr_mul_unit; [apply qutr_mul_unit|]; assumption. }
  constructor; cbn; try assumption; try reflexivity; try (now subst).
  intros p. rewrite !qutr_mul_acts by (try apply qutr_mul_unit; assumption).
  rewrite sm_place0. apply HP.
Qed.

Lemma still_sim G v : sim G v ->
  sim G (mkView (place v) (home v) (v_fovy v) (v_aspect v) (v_near v) (v_far v) (pointer v)).
Proof. intros S. destruct v. exact S. Qed.

Lemma mouse_sim G v x y : sim G v ->
  sim (set_mouse G x y) (mkView (place v) (home v) (v_fovy v) (v_aspect v) (v_near v) (v_far v) (x, y)).
Proof. intros []. constructor; cbn; assumption || reflexivity. Qed.

Lemma aspect_sim G v a : sim G v ->
  sim (set_aspect G a) (mkView (place v) (home v) (v_fovy v) a (v_near v) (v_far v) (pointer v)).
Proof. intros []. constructor; cbn; try assumption; reflexivity. Qed.

Lemma home_sim G v : sim G v ->
  sim (home_camera G) (mkView (home v) (home v) (v_fovy v) (v_aspect v) (v_near v) (v_far v) (pointer v)).
Proof. intros []. constructor; cbn; try assumption; reflexivity. Qed.

Lemma orbit_case G v x y x' y' : sim G v -> x = x' -> y = y' ->
  sim (fst (update_tf G (scroll x y (quat2rotmat (TfModel.eq (world_E_cam G)))) E_ident))
      (mkView (after (home v) (place v) (Orbit x' y')) (home v) (v_fovy v) (v_aspect v) (v_near v) (v_far v)
              (pointer v)).
Proof.
  intros S <- <-. rewrite <- (sm_mouse _ _ S). pose proof (right_unit _ (sm_unit _ _ S)) as U. rewrite right_col in U.
  apply update_sim; try reflexivity; [exact S|now apply scroll_unit|apply trans_unit|].
  intros p. rewrite scroll_tf by exact U. cbn [after]. rewrite <- right_col, (right_ext _ _ (sm_place _ _ S)).
  unfold E_ident. rewrite trans_tf. do 3 f_equal. destruct p. tfc. f_equal; ring.
Qed.

Lemma shift_case G v x y z d : sim G v -> mkV x y z = d ->
  sim (fst (update_tf G E_ident (trans x y z)))
      (mkView (after (home v) (place v) (Shift d)) (home v) (v_fovy v) (v_aspect v) (v_near v) (v_far v)
              (pointer v)).
Proof.
  intros S <-. rewrite <- (sm_mouse _ _ S). apply update_sim; try reflexivity; [exact S|apply trans_unit|apply trans_unit|].
  intros p. unfold E_ident. rewrite !trans_tf. cbn [after]. destruct (place v _). tfc. f_equal; ring.
Qed.

Lemma roll_case G v t : sim G v ->
  sim (fst (update_tf G E_ident (mkE (zangle2quat t) (mkV 0 0 0))))
      (mkView (after (home v) (place v) (Roll t)) (home v) (v_fovy v) (v_aspect v) (v_near v) (v_far v)
              (pointer v)).
Proof.
  intros S. rewrite <- (sm_mouse _ _ S).
  assert (Q : zangle2quat t = axang2quat (mkA vertical t)).
  { unfold zangle2quat, axang2quat, vertical. cbn [axis angle]. unfold mkqv, vscale. cbn [vx vy vz]. f_equal; ring. }
  destruct (axang_forms vertical t zero3 unit_vertical) as (_ & _ & _ & U & _).
  apply update_sim; try reflexivity; [exact S|apply trans_unit|unfold unit_qutr; cbn; rewrite Q; exact U|].
  intros p. cbn [after]. unfold E_ident. rewrite trans_tf.
  rewrite (qutr_tf_eq (mkE _ _)). cbn [TfModel.eq ev]. rewrite Q.
  destruct (axang_forms vertical t p unit_vertical) as (_ & _ & _ & _ & _ & ->).
  change (mkV 0 0 1) with vertical. generalize (rodrigues vertical t p). intros q.
  replace (plus3 (mkV 0 0 0) q) with q by (destruct q; tfc; f_equal; ring).
  destruct (place v q). tfc. f_equal; ring.
Qed.

Lemma still_case G v : sim G v ->
  sim (fst (update_tf G E_ident E_ident))
      (mkView (place v) (home v) (v_fovy v) (v_aspect v) (v_near v) (v_far v) (pointer v)).
Proof.
  intros S. rewrite <- (sm_mouse _ _ S). apply update_sim; try reflexivity; [exact S|apply trans_unit|apply trans_unit|].
  intros p. unfold E_ident. rewrite !trans_tf.
  replace (plus3 (mkV 0 0 0) p) with p by (destruct p; tfc; f_equal; ring).
  destruct (place v p). tfc. f_equal; ring.
Qed.

Lemma event_sim G v i e : sim G v -> sim (fst (scroll_event G i e)) (next v (Event i e)).
Proof.
  intros S. pose proof (sm_step _ _ S) as (Sr & Ar). pose proof (sm_mouse _ _ S) as Mo.
  unfold next. rewrite <- Mo. cbn [fst snd]. unfold scroll_event. cbv zeta. rewrite Sr, Ar.
  destruct e as [|w h| |k| |x y l r|y|]; cbn [intended after next_pointer].
  - cbn [fst]. rewrite Mo. now apply still_sim.
  - cbn [fst]. rewrite Mo. now apply aspect_sim.
  - cbn [fst]. rewrite Mo. now apply still_sim.
  - rewrite Mo. destruct k; try (destruct (kctrl i)); cbn [fst];
      try (now apply still_sim);
      try (apply orbit_case; [exact S|ring|ring]);
      try (apply shift_case; [exact S|f_equal; ring]).
    all: exact (still_case _ _ (home_sim _ _ S)).
  - cbn [fst]. now apply mouse_sim.
  - pose proof (mouse_sim _ _ x y S) as S'. destruct l; [|destruct r].
    + change (world_E_cam G) with (world_E_cam (set_mouse G x y)).
      apply (orbit_case _ _ _ _ _ _ S'); field.
    + apply (shift_case _ _ _ _ _ _ S'). f_equal; field.
    + exact S'.
  - rewrite Mo. destruct (mleft i), (kctrl i), (kshift i), (kalt i); cbn [andb orb negb];
      first [ apply roll_case; exact S
            | apply orbit_case; [exact S|reflexivity|reflexivity]
            | apply shift_case; [exact S|f_equal; ring]
            | apply still_case; exact S ].
  - cbn [fst]. rewrite Mo. now apply still_sim.
Qed.

Lemma call_sim G v c : sim G v -> match c with SetCamera E | SetHome E => unit_qutr E | _ => True end ->
  sim (cam_call G c) (next v c).
Proof.
  intros S H. destruct c as [E|E| |f a n z|a|i e].
  - destruct S; constructor; cbn; try assumption; reflexivity.
  - destruct S; constructor; cbn; try assumption; reflexivity.
  - now apply home_sim.
  - destruct S; constructor; cbn; try assumption; reflexivity.
  - now apply aspect_sim.
  - now apply event_sim.
Qed.

Lemma run_sim h : forall G v, sim G v -> poses_ok h -> sim (cam_run G h) (fold_left next h v).
Proof.
  induction h as [|c h IH]; intros G v S P; cbn; [exact S|]. apply IH.
  - apply call_sim; [exact S|]. apply P. now left.
  - intros c' H. apply P. now right.
Qed.

Lemma first_tf p : qutr_tf (qutr_mzlook (mkV 2 2 2) (mkV 0 0 0) (mkV 0 0 1)) p = first_pose p.
Proof.
  rewrite qutr_mzlook_ok by (unfold nonzero3, xprod, plus3, times3, dot; cbn; lra).
  unfold first_pose, tfmat_mzlook, rotmat_mzlook, tfmat_tf. cbn [tR tv].
  assert (S2 : sqrt 8 = 2 * sqrt 2).
  { replace 8 with (Rsqr 2 * 2) by (unfold Rsqr; ring). rewrite sqrt_mult by (unfold Rsqr; lra). rewrite sqrt_Rsqr by lra. reflexivity. }
  assert (S6 : sqrt 96 = 4 * sqrt 6).
  { replace 96 with (Rsqr 4 * 6) by (unfold Rsqr; ring). rewrite sqrt_mult by (unfold Rsqr; lra). rewrite sqrt_Rsqr by lra. reflexivity. }
  assert (S3 : sqrt 12 = 2 * sqrt 3).
  { replace 12 with (Rsqr 2 * 3) by (unfold Rsqr; ring). rewrite sqrt_mult by (unfold Rsqr; lra). rewrite sqrt_Rsqr by lra. reflexivity. }
  pose proof (sqrt_lt_R0 2 ltac:(lra)). pose proof (sqrt_lt_R0 3 ltac:(lra)). pose proof (sqrt_lt_R0 6 ltac:(lra)).
  unfold vnormalize, vnorm. unfold cross, vdivs, vdot, mcols, plus3, times3. cbn [vx vy vz m00 m01 m02 m10 m11 m12 m20 m21 m22].
  match goal with |- context [sqrt ?a] => replace (sqrt a) with (2 * sqrt 2) by (rewrite <- S2; f_equal; ring) end.
  match goal with |- context [sqrt ?a] => lazymatch a with 2 => fail | _ => idtac end; replace (sqrt a) with (4 * sqrt 6) by (rewrite <- S6; f_equal; ring) end.
  match goal with |- context [sqrt ?a] => lazymatch a with 2 => fail | 6 => fail | _ => idtac end; replace (sqrt a) with (2 * sqrt 3) by (rewrite <- S3; f_equal; ring) end.
  f_equal; field; lra.
Qed.

Lemma first_unit : unit_qutr (qutr_mzlook (mkV 2 2 2) (mkV 0 0 0) (mkV 0 0 1)).
Proof.
  unfold unit_qutr, qutr_mzlook. cbn [TfModel.eq]. apply rotmat2quat_ok. apply mzlook_ok.
  unfold nonzero3, xprod, plus3, times3, dot; cbn; lra.
Qed.

Lemma create_sim E : unit_qutr E -> (forall p, qutr_tf E p = first_pose p) ->
  sim (set_perspective (home_camera (set_camera_home globals_zero E)) (PI / 4) (1 / 1) (5 / 100) 100) first_view.
Proof.
  intros U T. constructor;
    cbn [set_perspective set_aspect home_camera set_camera set_camera_home globals_zero first_view
         world_E_cam world_E_camhome fovy aspect znear zfar cam_M_world perspective world_v_cam mouse_x mouse_y
         scroll_ratio angle_ratio place home v_fovy v_aspect v_near v_far pointer].
  - exact U.
  - exact U.
  - exact T.
  - exact T.
  - reflexivity.
  - lra.
  - reflexivity.
  - reflexivity.
  - reflexivity.
  - reflexivity.
  - reflexivity.
  - reflexivity.
  - split; reflexivity.
Qed.

Lemma first_sim : sim globals_create first_view.
Proof. unfold globals_create. apply create_sim; [exact first_unit|exact first_tf]. Qed.

Lemma seen_sim h : poses_ok h -> sim (cam_run globals_create h) (seen h).
Proof. intros P. apply run_sim; [exact first_sim|exact P]. Qed.
