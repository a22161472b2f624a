(** What a user of the viewer relies on, from the simulation. *)
From Coq Require Import Reals Lra Psatz ZArith List Bool.
From Verif Require Import TfModel TfSpec TfProofs TfRotmatProofs TfRepProofs TfFrameProofs TfConvProofs CamModel CamSpec CamProofs.
Import ListNotations.
Open Scope R_scope.

Lemma clip_place h p : poses_ok h ->
  clip_of (cam_run globals_create h) (place (seen h) p) =
  m44_app (mat_perspective (v_fovy (seen h)) (v_aspect (seen h)) (v_near (seen h)) (v_far (seen h))) (mkqv p 1).
Proof.
  intros P. destruct (seen_sim h P). set (G := cam_run globals_create h) in *.
  unfold clip_of, camera_matrix. rewrite m44_mul_app, <- sm_place, sm_view, view_matrix by exact sm_unit.
  now rewrite sm_persp, sm_f, sm_a, sm_n, sm_z.
Qed.

Lemma place_onto h q : poses_ok h -> exists p, place (seen h) p = q.
Proof.
  intros P. destruct (seen_sim h P). set (G := cam_run globals_create h) in *.
  exists (qutr_tf (qutr_conj (world_E_cam G)) q). rewrite <- sm_place. apply qutr_conj_acts. exact sm_unit.
Qed.

Lemma visible_iff h q : poses_ok h ->
  let v := seen h in 0 < v_fovy v < PI -> 0 < v_aspect v -> 0 < v_near v < v_far v ->
  exists p, place v p = q /\
   (clipped_in (clip_of (cam_run globals_create h) q) <-> in_view (v_fovy v) (v_aspect v) (v_near v) (v_far v) p).
Proof.
  intros P v F A N. destruct (place_onto h q P) as (p & E). exists p. split; [exact E|].
  rewrite <- E, clip_place by exact P. now apply clip_iff.
Qed.

Lemma nearer h p q : poses_ok h -> let v := seen h in 0 < v_near v < v_far v ->
  v_near v <= - vz p -> v_near v <= - vz q ->
  (depth (clip_of (cam_run globals_create h) (place v p)) < depth (clip_of (cam_run globals_create h) (place v q))
   <-> - vz p < - vz q).
Proof. intros P v N A B. unfold v in *. rewrite !clip_place by exact P. now apply depth_order. Qed.

Lemma eye_shader h : poses_ok h -> world_v_cam (cam_run globals_create h) = eye_of (place (seen h)).
Proof.
  intros P. destruct (seen_sim h P). rewrite sm_eye. unfold eye_of. rewrite <- sm_place. symmetry. apply eye_ev.
Qed.

Lemma drawn_at G E s p n : unit_qutr E ->
  m44_app (camera_matrix G) (m44_app (fst (draw_matrices E s)) (mkqv p 1)) = clip_of G (qutr_tf E (times3 s p)) /\
  mrot (snd (draw_matrices E s)) n = plus3 (qutr_tf E n) (times3 (-1) (qutr_tf E zero3)) /\
  dot (mrot (snd (draw_matrices E s)) n) (mrot (snd (draw_matrices E s)) n) = dot n n.
Proof.
  intros U. rewrite draw_model, draw_normal. split; [reflexivity|]. split.
  - rewrite eye_ev, qutr_tf_eq. generalize (qrot (TfModel.eq E) n) (ev E). intros [] []. tfc. f_equal; ring.
  - now apply qrot_dot.
Qed.

(** ** Moves *)
Lemma rod_linear k t a b : plus3 (rodrigues k t a) (times3 (-1) (rodrigues k t b)) = rodrigues k t (plus3 a (times3 (-1) b)).
Proof. unfold rodrigues. generalize (cos t) (sin t). intros c s. destruct k, a, b. tfc. f_equal; ring. Qed.
Lemma rod_axis k t : unit3 k -> rodrigues k t k = k.
Proof.
  intros U. unfold rodrigues. replace (dot k k) with 1 by (symmetry; exact U).
  generalize (cos t) (sin t). intros c s. clear U. destruct k. tfc. f_equal; ring.
Qed.
Lemma rod_zero k t : rodrigues k t zero3 = zero3.
Proof. unfold rodrigues. generalize (cos t) (sin t). intros c s. destruct k. tfc. f_equal; ring. Qed.
Lemma rod_vertical t p : vz (rodrigues vertical t p) = vz p.
Proof. unfold rodrigues, vertical. generalize (cos t) (sin t). intros c s. destruct p. tfc. ring. Qed.

Definition rigid_pose (P : pose) : Prop := exists E, unit_qutr E /\ forall p, qutr_tf E p = P p.

Lemma right_shift P d : rigid_pose P -> right_of (fun p => P (plus3 d p)) = right_of P.
Proof.
  intros (E & _ & H). unfold right_of. rewrite <- !H, !qutr_tf_eq, !qrot_mrot.
  destruct (quat2rotmat _), (ev E), d. tfc. f_equal; ring.
Qed.

Lemma level_after home P m : rigid_pose P -> level home -> level P ->
  (forall t, m <> Roll t) -> level (after home P m).
Proof.
  intros Q H L N. destruct m as [|x y|d|t|]; cbn [after]; try assumption.
  - unfold level. unfold right_of at 1. rewrite rod_linear, rod_vertical, rod_linear.
    change (plus3 (P (mkV 1 0 0)) (times3 (-1) (P zero3))) with (right_of P).
    rewrite rod_axis; [exact L|]. destruct Q as (E & U & T). rewrite <- (right_ext _ _ T). now apply right_unit.
  - unfold level. now rewrite right_shift.
  - now destruct (N t).
Qed.

Lemma first_level : level first_pose.
Proof. unfold level, right_of, first_pose. tfc. ring. Qed.

Lemma place_rigid h : poses_ok h -> rigid_pose (place (seen h)).
Proof. intros P. destruct (seen_sim h P). eexists. split; [exact sm_unit|exact sm_place]. Qed.

Lemma level_kept h : poses_ok h -> no_roll h -> level (place (seen h)) /\ level (home (seen h)).
Proof.
  induction h as [|c h IH] using rev_ind; intros P N.
  - split; exact first_level.
  - assert (P' : poses_ok h) by (intros c' H; apply P; apply in_or_app; now left).
    assert (N' : no_roll h) by (intros c' H; apply N; apply in_or_app; now left).
    destruct (IH P' N') as (L & H). pose proof (place_rigid h P') as Q.
    specialize (N c ltac:(apply in_or_app; right; now left)).
    unfold seen in *. rewrite fold_left_app. cbn [fold_left]. set (v := fold_left next h first_view) in *.
    destruct c as [E|E| |f a n z|a|i e]; cbn [next place home]; try (split; assumption).
    split; [|exact H]. apply level_after; try assumption. intros t.
    destruct e as [|w0 h0| |k| |x y l r|y|]; cbn [intended]; try discriminate.
    + destruct k; try (destruct (kctrl i)); discriminate.
    + destruct l, r; discriminate.
    + destruct N as (N1 & N2). rewrite N1. destruct (kctrl i), (kshift i), (kalt i); cbn in N2; discriminate.
Qed.

(** Orbiting keeps the world origin where the camera sees it *)
Lemma orbit_origin home P x y p : P p = zero3 -> after home P (Orbit x y) p = zero3.
Proof. intros H. cbn [after]. now rewrite H, !rod_zero. Qed.
Lemma rod_dot k t p : unit3 k -> dot (rodrigues k t p) (rodrigues k t p) = dot p p.
Proof.
  intros U. destruct (axang_forms k t p U) as (_ & _ & _ & Q & _ & <-). now apply qrot_dot.
Qed.
Lemma orbit_distance home P x y : rigid_pose P ->
  dot (eye_of (after home P (Orbit x y))) (eye_of (after home P (Orbit x y))) = dot (eye_of P) (eye_of P).
Proof.
  intros (E & U & T). unfold eye_of. cbn [after]. rewrite !rod_dot; try reflexivity; [|apply unit_vertical].
  rewrite <- (right_ext _ _ T). now apply right_unit.
Qed.

Lemma drag_from path : forall v xn yn p,
  place (fold_left next (right_drag (path ++ [(xn, yn)])) v) p =
  place v (plus3 (mkV (- (step_size * IZR (xn - fst (pointer v)) / 10)) (step_size * IZR (yn - snd (pointer v)) / 10) 0) p) /\
  pointer (fold_left next (right_drag (path ++ [(xn, yn)])) v) = (xn, yn).
Proof.
  induction path as [|(x, y) path IH]; intros v xn yn p.
  - cbn. split; reflexivity.
  - cbn [app right_drag map fold_left]. change (map _ (path ++ [(xn, yn)])) with (right_drag (path ++ [(xn, yn)])).
    destruct (IH (next v (Event (mkIn false false false 0 0 false) (Motion (fst (x, y)) (snd (x, y)) false true))) xn yn p) as (-> & ->).
    split; [|reflexivity]. cbn [next place pointer intended after next_pointer fst snd]. f_equal.
    rewrite !minus_IZR. destruct p. tfc. f_equal; field.
Qed.

Lemma drag_path h path xn yn p :
  place (seen (h ++ right_drag (path ++ [(xn, yn)]))) p =
  place (seen h) (plus3 (mkV (- (step_size * IZR (xn - fst (pointer (seen h))) / 10))
                             (step_size * IZR (yn - snd (pointer (seen h))) / 10) 0) p).
Proof. unfold seen. rewrite fold_left_app. apply drag_from. Qed.

Lemma redraw_flag G i e : snd (scroll_event G i e) = redraws e.
Proof.
  destruct e as [|w h| |k| |x y l r|y|]; try reflexivity.
  - destruct k; try reflexivity; cbn; destruct (kctrl i); reflexivity.
  - destruct l, r; reflexivity.
  - cbn. destruct (mleft i), (kctrl i), (kshift i), (kalt i); reflexivity.
Qed.

Lemma tan_pi8 : 0 < tan (PI / 4 / 2).
Proof. apply tan_half_pos. pose proof PI_RGT_0. lra. Qed.

Lemma resize_hidden : exists i w h q,
  (0 < w)%Z /\ (0 < h)%Z /\
  snd (scroll_event globals_create i (WinResized w h)) = false /\
  clipped_in (clip_of globals_create q) /\
  ~ clipped_in (clip_of (fst (scroll_event globals_create i (WinResized w h))) q).
Proof.
  pose (i := mkIn false false false 0 0 false). pose (t := tan (PI / 4 / 2)).
  pose proof tan_pi8 as T. fold t in T. pose proof PI_RGT_0.
  pose (p := mkV (3 / 4 * t) 0 (-1)).
  exists i, 1%Z, 2%Z, (place (seen []) p). split; [lia|]. split; [lia|]. split; [reflexivity|].
  assert (P0 : poses_ok []) by (intros c []).
  assert (P1 : poses_ok [Event i (WinResized 1 2)]) by (intros c [<-|[]]; exact I).
  split.
  - change globals_create with (cam_run globals_create []). rewrite clip_place by exact P0.
    cbn [seen fold_left first_view v_fovy v_aspect v_near v_far].
    apply clip_iff; [lra|lra|lra|]. unfold in_view, p. cbn [vx vy vz]. fold t.
    rewrite !abs_le. repeat split; lra.
  - change (fst (scroll_event globals_create i (WinResized 1 2))) with (cam_run globals_create [Event i (WinResized 1 2)]).
    change (place (seen []) p) with (place (seen [Event i (WinResized 1 2)]) p). rewrite clip_place by exact P1.
    cbn [seen fold_left first_view v_fovy v_aspect v_near v_far next].
    rewrite clip_iff by lra. unfold in_view, p. cbn [vx vy vz]. fold t. rewrite !abs_le. lra.
Qed.
