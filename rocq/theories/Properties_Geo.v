(** Geometry objects, meshes, their options and the scene graphs that hold them. *)
From Coq Require Import ZArith List Bool Reals Lra.
From Verif Require Import GeoModel GeoSpec GeoClaims.
Import ListNotations.
Open Scope Z_scope.

(** * C105: options *)
Theorem C105_options_read_back : forall l, let o := opt_run l opt_new in
  get_color_red o = last_set set_red l (5/10)%R /\
  get_color_green o = last_set set_green l (5/10)%R /\
  get_color_blue o = last_set set_blue l (5/10)%R /\
  get_alpha o = last_set set_alpha l 1%R /\
  get_specular_red o = last_set set_spec_red l 0%R /\
  get_scale o = last_set set_scale l 1%R /\
  get_no_shadow o = truth (last_set set_no_shadow l 0) /\
  get_visual o = truth (last_set set_visual l 1) /\
  get_collision o = truth (last_set set_collision l 1).
Proof. exact options_read_back. Qed.
Print Assumptions C105_options_read_back.

(** Green and blue of the specular colour come back exchanged, always ... *)
Theorem C105_specular_exchanged : forall l, let o := opt_run l opt_new in
  get_specular_green o = last_set set_spec_blue l 0%R /\ get_specular_blue o = last_set set_spec_green l 0%R.
Proof. exact specular_swapped. Qed.
Print Assumptions C105_specular_exchanged.

(** ... so they are not what was set. *)
Theorem C105_specular_refuted : exists l, let o := opt_run l opt_new in
  get_specular_green o <> last_set set_spec_green l 0%R /\ get_specular_blue o <> last_set set_spec_blue l 0%R.
Proof. exact specular_not_read_back. Qed.
Print Assumptions C105_specular_refuted.

Example C105_nonvacuous :
  let l := [SetColor 1 2 3; SetVisual 0; SetColor 4 5 6; SetCollision (-7)]%R in
  get_color_green (opt_run l opt_new) = 6%R /\ get_visual (opt_run l opt_new) = 0 /\ get_collision (opt_run l opt_new) = 1.
Proof. cbn. auto. Qed.

(** * C106: objects live exactly as long as they are referred to *)
Theorem C106_lifetimes : forall h a, meaning h a -> exists s, run start h = Ok s /\ agrees s a.
Proof. exact lifetimes. Qed.
Print Assumptions C106_lifetimes.

Theorem C106_nothing_left : forall h a s, meaning h a -> all_released a -> run start h = Ok s ->
  (forall g c, nth_error (geoms s) g = Some c -> g_live c = false) /\
  (forall m c, nth_error (meshes s) m = Some c -> m_live c = false).
Proof. exact nothing_left. Qed.
Print Assumptions C106_nothing_left.

(** Copying the geometry of a frame onto the same frame. *)
Theorem C106_copy_onto_itself_refuted : exists h a, meaning h a /\ run start (h ++ [CopyFrameGeom 0 7 7]) = Ub.
Proof. exact self_copy_ub. Qed.
Print Assumptions C106_copy_onto_itself_refuted.

(** a mesh shown by two geometry objects, one in a copied graph, everything released *)
Definition C106_history : list op :=
  [OptNew; MeshNew; GeomNew 0 (Mesh 0); GeomModify 0 0; MeshDestroy 0; SgNew false true; AddFrame 0 3; AddFrame 0 4;
   Attach 0 3 0; CopyFrameGeom 0 3 4; SgInit 0 true; SgCopy 0 true false; AddFrame 0 3; SgDestroy 0; GeomDestroy 1].
Example C106_nonvacuous : exists a, meaning C106_history a /\
  cnt (refs_g a) 0 = 2 /\ cnt (refs_g a) 1 = 0 /\ refs_m a 0 = 1 /\
  (exists a', meaning (C106_history ++ [SgDestroy 1; OptDestroy 0]) a' /\ all_released a').
Proof.
  eexists. split; [apply efold_start; reflexivity|]. repeat split; try reflexivity.
  eexists. split; [apply efold_start; reflexivity|]. repeat split.
  intros k [<-|[<-|[]]]; reflexivity.
Qed.

(** * C107: after the initialisation passes every geometry has its object *)
Theorem C107_collision_pass : forall h k a, meaning (h ++ [ClInit k]) a ->
  exists s, run start (h ++ [ClInit k]) = Ok s /\
  forall ag x, a_graph a k = Some ag -> In x (concat (map snd (a_frames ag))) -> has_cl s x.
Proof. exact cl_complete. Qed.
Print Assumptions C107_collision_pass.

Theorem C107_gl_pass : forall h k a, meaning (h ++ [GlInit k]) a ->
  exists s, run start (h ++ [GlInit k]) = Ok s /\
  forall ag x, a_graph a k = Some ag -> In x (concat (map snd (a_frames ag))) -> has_gl s x.
Proof. exact gl_complete. Qed.
Print Assumptions C107_gl_pass.

(** A cone asked to take part in collision checking gets no collision object. *)
Theorem C107_cone_refuted : exists h a s, meaning h a /\ run start h = Ok s /\
  exists c, nth_error (geoms s) 0 = Some c /\ In 0%nat (refs_g a) /\ collis (g_opt c) = true /\ g_cl c = false.
Proof.
  exists [OptNew; GeomNew 0 (Cone 1 1 0)%R; SgNew true true; AddFrame 0 3; Attach 0 3 0; SgInit 0 true; ClInit 0].
  eexists. eexists. split; [apply efold_start; reflexivity|]. split; [reflexivity|].
  eexists. split; [reflexivity|]. repeat split. now left.
Qed.
Print Assumptions C107_cone_refuted.

(** the passes run again after more geometry was attached, with a flag that started clear *)
Example C107_nonvacuous : exists a s,
  meaning ([OptNew; GeomNew 0 (Sphere 1%R); GeomNew 0 (Box 1 2 3)%R; SgNew false false; AddFrame 0 3; Attach 0 3 0; SgInit 0 true; ClInit 0;
            Attach 0 3 1; SgCopy 0 false false] ++ [ClInit 1]) a /\
  run start ([OptNew; GeomNew 0 (Sphere 1%R); GeomNew 0 (Box 1 2 3)%R; SgNew false false; AddFrame 0 3; Attach 0 3 0; SgInit 0 true; ClInit 0;
            Attach 0 3 1; SgCopy 0 false false] ++ [ClInit 1]) = Ok s /\ map g_cl (geoms s) = [true; true].
Proof.
  eexists. eexists. split; [apply efold_start; reflexivity|]. split; reflexivity.
Qed.
