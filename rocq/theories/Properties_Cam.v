(** C118 frame mask, C119 what the viewer shows, C120 camera control. *)
From Coq Require Import Reals Lra ZArith List Bool Lia.
From Verif Require Import TfModel TfSpec TfProofs CamModel CamSpec CamMask CamProofs CamClaims.
Import ListNotations.

(** C118: as long as the calls stay inside the memory, a frame is hidden exactly
    when the last request about it since the last unmask_all said so. *)
Theorem C118_masked : forall h m i,
  (forall j v, In (Mask j v) h -> (0 <= j)%Z) -> fm_run fm_none h = Some m -> (0 <= i)%Z ->
  is_masked m i = Some (Z.b2z (hidden_by h i false)).
Proof. exact mask_meaning. Qed.
Print Assumptions C118_masked.

(** C118: exactly which histories stay inside the memory: those where no frame
    number reaches the capacity fixed by the first one. *)
Theorem C118_defined_iff : forall h, (forall j v, In (Mask j v) h -> (0 <= j)%Z) ->
  (fm_run fm_none h <> None <-> within None h).
Proof. exact mask_defined. Qed.
Print Assumptions C118_defined_iff.

(** C118 refuted as wished (any frames may be masked in any order): masking
    frame 0 and then frame 32 writes past the end of the mask. *)
Theorem C118_any_frames_refuted : exists h,
  h = [Mask 0 true; Mask 32 true] /\ fm_run fm_none h = None.
Proof. exists [Mask 0 true; Mask 32 true]. split; reflexivity. Qed.
Print Assumptions C118_any_frames_refuted.

Example C118_nonvacuous : exists h m,
  fm_run fm_none h = Some m /\ is_masked m 3 = Some 1%Z /\ is_masked m 4 = Some 0%Z /\ is_masked m 31 = Some 1%Z.
Proof.
  exists [Mask 40 true; UnmaskAll; Mask 3 true; Mask 4 true; Mask 31 true; Mask 4 false].
  eexists. split; [reflexivity|]. repeat split.
Qed.

Open Scope R_scope.

(** C119: after any calls and events, a point of the world is kept by OpenGL's
    clipping exactly when, in the camera's coordinates, it lies between the near
    and far planes and within the field of view and aspect. *)
Theorem C119_visible : forall h q, poses_ok h ->
  let v := seen h in 0 < v_fovy v < PI -> 0 < v_aspect v -> 0 < v_near v < v_far v ->
  exists p, place v p = q /\
   (clipped_in (clip_of (cam_run globals_create h) q) <-> in_view (v_fovy v) (v_aspect v) (v_near v) (v_far v) p).
Proof. exact visible_iff. Qed.
Print Assumptions C119_visible.

(** C119: of two points beyond the near plane, the nearer one has the smaller depth. *)
Theorem C119_nearer : forall h p q, poses_ok h -> let v := seen h in 0 < v_near v < v_far v ->
  v_near v <= - vz p -> v_near v <= - vz q ->
  (depth (clip_of (cam_run globals_create h) (place v p)) < depth (clip_of (cam_run globals_create h) (place v q))
   <-> - vz p < - vz q).
Proof. exact nearer. Qed.
Print Assumptions C119_nearer.

(** C119: the eye position used for lighting is the camera's; geometry is drawn
    scaled, at its pose; normals are turned with it and keep their length. *)
Theorem C119_drawn : forall h E s p n, poses_ok h -> unit_qutr E ->
  let G := cam_run globals_create h in
  world_v_cam G = eye_of (place (seen h)) /\
  m44_app (camera_matrix G) (m44_app (fst (draw_matrices E s)) (mkqv p 1)) = clip_of G (qutr_tf E (times3 s p)) /\
  mrot (snd (draw_matrices E s)) n = plus3 (qutr_tf E n) (times3 (-1) (qutr_tf E zero3)) /\
  dot (mrot (snd (draw_matrices E s)) n) (mrot (snd (draw_matrices E s)) n) = dot n n.
Proof. exact (fun h E s p n P U => conj (eye_shader h P) (drawn_at (cam_run globals_create h) E s p n U)). Qed.
Print Assumptions C119_drawn.

(** At the start the origin is in view; moving the camera away leaves it out. *)
Example C119_nonvacuous :
  clipped_in (clip_of globals_create (mkV 0 0 0)) /\
  ~ clipped_in (clip_of (cam_run globals_create [SetCamera (mkE qident (mkV 0 0 (-1)))]) (mkV 0 0 0)).
Proof.
  pose proof PI_RGT_0. pose proof tan_pi8. pose proof (sqrt_lt_R0 3 ltac:(lra)) as Q.
  assert (S3 : sqrt 3 * sqrt 3 = 3) by (apply sqrt_sqrt; lra).
  split.
  - change globals_create with (cam_run globals_create []).
    replace (mkV 0 0 0) with (place (seen []) (mkV 0 0 (- (2 * sqrt 3)))).
    + rewrite clip_place by (intros c []). cbn [seen fold_left first_view v_fovy v_aspect v_near v_far].
      apply clip_iff; [lra|lra|lra|]. unfold in_view. cbn [vx vy vz]. rewrite !abs_le.
      assert (1 < sqrt 3 < 2) by (split; nra).
      assert (0 < - - (2 * sqrt 3) * tan (PI / 4 / 2)) by (apply Rmult_lt_0_compat; lra). repeat split; lra.
    + cbn [seen fold_left first_view place]. unfold first_pose. tfc.
      pose proof (sqrt_lt_R0 2 ltac:(lra)). pose proof (sqrt_lt_R0 6 ltac:(lra)). f_equal; field; lra.
  - set (h := [SetCamera _]). assert (P : poses_ok h) by (intros c [<-|[]]; apply unitq_ident).
    replace (mkV 0 0 0) with (place (seen h) (mkV 0 0 1)).
    + rewrite clip_place by exact P. cbn [h seen fold_left next first_view v_fovy v_aspect v_near v_far].
      rewrite clip_iff by lra. unfold in_view. cbn [vx vy vz]. lra.
    + cbn [h seen fold_left next place]. tfc. f_equal; ring.
Qed.

(** C120: after any calls and events the camera's pose, as a map of points, is the
    one the events mean ([seen] composes the intended moves). *)
Theorem C120_moves : forall h p, poses_ok h ->
  qutr_tf (world_E_cam (cam_run globals_create h)) p = place (seen h) p /\
  unit_qutr (world_E_cam (cam_run globals_create h)).
Proof. exact (fun h p P => conj (sm_place _ _ (seen_sim h P) p) (sm_unit _ _ (seen_sim h P))). Qed.
Print Assumptions C120_moves.

(** C120: the horizon stays level unless the user rolls the camera. *)
Theorem C120_level : forall h, poses_ok h -> no_roll h -> level (place (seen h)) /\ level (home (seen h)).
Proof. exact level_kept. Qed.
Print Assumptions C120_level.

(** C120: orbiting leaves the world origin where it is on the screen and the
    camera as far from it as before. *)
Theorem C120_orbit : forall h x y p, poses_ok h ->
  let P := place (seen h) in let P' := after (home (seen h)) P (Orbit x y) in
  (P p = zero3 -> P' p = zero3) /\ dot (eye_of P') (eye_of P') = dot (eye_of P) (eye_of P).
Proof.
  exact (fun h x y p P => conj (orbit_origin _ _ x y p) (orbit_distance _ _ x y (place_rigid h P))).
Qed.
Print Assumptions C120_orbit.

(** C120: a right button drag shifts the camera by where the pointer ends, whatever
    way it takes. *)
Theorem C120_drag : forall h path xn yn p,
  place (seen (h ++ right_drag (path ++ [(xn, yn)]))) p =
  place (seen h) (plus3 (mkV (- (step_size * IZR (xn - fst (pointer (seen h))) / 10))
                             (step_size * IZR (yn - snd (pointer (seen h))) / 10) 0) p).
Proof. exact drag_path. Qed.
Print Assumptions C120_drag.

(** C120: which events ask for a new picture. *)
Theorem C120_redraw : forall G i e, snd (scroll_event G i e) = redraws e.
Proof. exact redraw_flag. Qed.
Print Assumptions C120_redraw.

(** C120 refuted as wished (every event that changes the picture asks for a new
    one): a resize changes what is in view and does not. *)
Theorem C120_resize_refuted : exists i w h q,
  (0 < w)%Z /\ (0 < h)%Z /\
  snd (scroll_event globals_create i (WinResized w h)) = false /\
  clipped_in (clip_of globals_create q) /\
  ~ clipped_in (clip_of (fst (scroll_event globals_create i (WinResized w h))) q).
Proof. exact resize_hidden. Qed.
Print Assumptions C120_resize_refuted.

Example C120_nonvacuous : exists h, poses_ok h /\ no_roll h /\
  place (seen h) zero3 <> place (seen []) zero3 /\ level (place (seen h)).
Proof.
  pose (i := mkIn false false false 0 0 false).
  exists [Event i (KeyDown KP_8); Event i (KeyDown KHOME); Event i (Motion 7 9 true false); Event i (KeyDown KHOME); Event i (KeyDown KP_PLUS)].
  assert (P : poses_ok [Event i (KeyDown KP_8); Event i (KeyDown KHOME); Event i (Motion 7 9 true false); Event i (KeyDown KHOME); Event i (KeyDown KP_PLUS)])
    by (intros c Hc; repeat (destruct Hc as [<-|Hc]; [exact I|]); destruct Hc).
  assert (N : no_roll [Event i (KeyDown KP_8); Event i (KeyDown KHOME); Event i (Motion 7 9 true false); Event i (KeyDown KHOME); Event i (KeyDown KP_PLUS)])
    by (intros c Hc; repeat (destruct Hc as [<-|Hc]; [exact I|]); destruct Hc).
  split; [exact P|]. split; [exact N|]. split; [|exact (proj1 (level_kept _ P N))].
  change (first_pose (plus3 (mkV 0 0 (- step_size)) zero3) <> first_pose zero3).
  intros E. apply (f_equal vx) in E. unfold first_pose, step_size in E. tfc.
  pose proof (sqrt_lt_R0 3 ltac:(lra)) as Q. assert (0 < 1 / sqrt 3) by (apply Rdiv_lt_0_compat; lra). lra.
Qed.
