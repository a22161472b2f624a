(** Properties of collision and distance checking. *)
From Coq Require Import ZArith String List Bool Reals Arith Lia Lra.
From Verif Require Import TfModel TfSpec SgModel SgSpec ClModel ClSpec ClAllowProofs SgExamples FcModel FcSpec FcGeom FcCheck FcAllow FcDist FcExamples.
Import ListNotations.
Open Scope R_scope.

(** * C93: collision objects occupy the shapes they stand for *)

(** Every object stands for a collision geometry of its frame and covers the points the geometry covers; every collision geometry of a supported shape has such an object. *)
Theorem C93_objects : forall gs l f,
  Forall good_geom gs -> (forall z i, In (z, i) l -> (i < length gs)%nat) ->
  (forall z i, In (z, i) l -> exists E, f z = Ok E /\ unit_qutr E) ->
  exists gs' os ps, init_geoms l gs = Ok gs' /\ create_objs gs' l = Ok os /\ place_all f os = Ok ps /\
  (forall p, In p ps -> exists g E, body gs l (p_id p) g /\ f (p_id p) = Ok E /\ (plain g -> forall x, occupied p x <-> drawn g E x)) /\
  (forall z g E, body gs l z g -> f z = Ok E -> exists p, In p ps /\ p_id p = z /\ (plain g -> forall x, occupied p x <-> drawn g E x)).
Proof. exact c93_objects. Qed.
Print Assumptions C93_objects.

(** violated: a cylinder with a scale other than one is placed as if it were not scaled: it misses points that are drawn and covers points that are not *)
Theorem C93_scaled_cylinder_refuted : forall k h r E z g,
  0 < k -> k <> 1 -> 0 < h -> 0 <= r -> unit_qutr E -> g_coll g = true -> g_scale g = k ->
  g_shape g = SCyl h r -> g_cl g = None ->
  exists g' o p x y, init_geom g = Ok g' /\ create_objs [g'] [(z, 0%nat)] = Ok [o] /\ place_obj (fun _ => Ok E) o = Ok p /\
  drawn g E x /\ ~ occupied p x /\ occupied p y /\ ~ drawn g E y.
Proof. exact c93_cylinder. Qed.
Print Assumptions C93_scaled_cylinder_refuted.

(** violated: cones, grids and tori get no object *)
Theorem C93_unsupported_refuted : forall g, ~ supported (g_shape g) -> g_cl g = None ->
  exists g', init_geom g = Ok g' /\ forall z, create_objs [g'] [(z, 0%nat)] = Ok [].
Proof. exact c93_unsupported. Qed.
Print Assumptions C93_unsupported_refuted.

Example C93_nonvacuous : Forall good_geom ex_gs /\ Forall plain ex_gs /\
  (forall z i, In (z, i) ex_l -> (i < length ex_gs)%nat /\ exists E, ex_f z = Ok E /\ unit_qutr E) /\
  (exists g1 g2 E1 E2 x, body ex_gs ex_l 0 g1 /\ body ex_gs ex_l 1 g2 /\ ex_f 0 = Ok E1 /\ ex_f 1 = Ok E2 /\ drawn g1 E1 x /\ drawn g2 E2 x) /\
  ~ supported (SCone 1 1 0) /\ in_shape (SCone 1 1 0) (mkV 0 0 0).
Proof.
  destruct ex_good as [A B]. split; [exact A|]. split; [exact B|]. split; [intros z i K; now apply ex_frames|]. split; [exact ex_share|].
  split; [cbn; tauto|]. cbn. split; [lra|]. exists 1. lra.
Qed.

(** * C94: collision checks *)

(** Whatever order the pairs come in, the check says yes exactly if two different frames that are not allowed to collide touch, and a set that is given grows by exactly those pairs. *)
Theorem C94_check : forall hit n al os f ps vs,
  (forall x y, hit x y = hit y x) -> made n al -> (forall o, In o os -> valid n (o_id o)) ->
  place_all f os = Ok ps -> visits hit ps vs ->
  (exists b, cl_check hit al os f vs None = Ok (b, None) /\ (b = true <-> exists a b, forbidden hit al ps a b)) /\
  forall c, made n c -> exists b c', cl_check hit al os f vs (Some c) = Ok (b, Some c') /\ made n c' /\
    (b = true <-> exists a b, forbidden hit al ps a b) /\
    forall k l, valid n k -> valid n l -> (cl_get c' k l = Ok true <-> cl_get c k l = Ok true \/ forbidden hit al ps k l).
Proof. exact c94_check. Qed.
Print Assumptions C94_check.

(** With an exact narrow phase: exactly if two geometries on frames that are not allowed to collide share a point. *)
Theorem C94_exact : forall hit n al gs l f,
  exact_hit hit -> made n al -> Forall good_geom gs -> Forall plain gs ->
  (forall z i, In (z, i) l -> valid n z /\ (i < length gs)%nat /\ exists E, f z = Ok E /\ unit_qutr E) ->
  exists gs' os ps, init_geoms l gs = Ok gs' /\ create_objs gs' l = Ok os /\ place_all f os = Ok ps /\
  forall vs, visits hit ps vs -> exists b, cl_check hit al os f vs None = Ok (b, None) /\
  (b = true <-> exists z1 z2 g1 g2 E1 E2 x, z1 <> z2 /\ cl_get al z1 z2 = Ok false /\
     body gs l z1 g1 /\ body gs l z2 g2 /\ f z1 = Ok E1 /\ f z2 = Ok E2 /\ drawn g1 E1 x /\ drawn g2 E2 x).
Proof. exact c94_exact. Qed.
Print Assumptions C94_exact.

(** aa_rx_sg_get_collision adds exactly the pairs that collide and are not allowed in the graph. *)
Theorem C94_get_collision : forall hit k gs TF al l os ps vs set,
  (forall x y, hit x y = hit y x) ->
  let n := length (s_frames (k_sg k)) in
  cl_allowed k = Ok al -> made n al -> map_geom (k_sg k) = Ok l -> (forall z i, In (z, i) l -> valid n z) ->
  create_objs gs l = Ok os -> place_all (tf_array TF 7) os = Ok ps -> visits hit ps vs -> made n set ->
  exists set', get_collision hit k gs TF vs set = Ok set' /\ made n set' /\
    forall a b, valid n a -> valid n b -> (cl_get set' a b = Ok true <-> cl_get set a b = Ok true \/ forbidden hit al ps a b).
Proof. exact c94_get. Qed.
Print Assumptions C94_get_collision.

(** aa_rx_sg_allow_config, after any history: once the collision data are made again, the pairs allowed are the earlier ones and those colliding at the configuration, and no check at that configuration reports a collision. *)
Theorem C94_allow_config : forall hit h1 o h2 k gs TF,
  (forall x y, hit x y = hit y x) ->
  (match o with OAllow _ _ _ | OGeom _ _ => True | _ => False end) -> ~ In CInit h2 ->
  let h := h1 ++ CSg o :: h2 in
  crun clsg_create (h ++ [CInit]) = Ok k -> s_dirty (k_sg k) = false -> named (declared (sg_calls h)) -> kept (sg_calls h) ->
  (forall l z i, map_geom (k_sg k) = Ok l -> In (z, i) l -> (i < length gs)%nat) ->
  (7 * length (s_frames (k_sg k)) <= length TF)%nat ->
  exists al l os ps, cl_allowed k = Ok al /\ map_geom (k_sg k) = Ok l /\ create_objs gs l = Ok os /\ place_all (tf_array TF 7) os = Ok ps /\
  forall vs, visits hit ps vs -> exists k' k'' al', allow_config hit k gs TF vs = Ok k' /\ cl_init k' = Ok k'' /\
    cl_allowed k'' = Ok al' /\ map_geom (k_sg k'') = Ok l /\
    (forall a b, valid (length (s_frames (k_sg k))) a -> valid (length (s_frames (k_sg k))) b ->
       (cl_get al' a b = Ok true <-> cl_get al a b = Ok true \/ forbidden hit al ps a b)) /\
    forall vs', visits hit ps vs' -> cl_check hit al' os (tf_array TF 7) vs' None = Ok (false, None).
Proof. exact c94_allow. Qed.
Print Assumptions C94_allow_config.

Example C94_nonvacuous : (exists hit, exact_hit hit /\ forall x y, hit x y = hit y x) /\ made 3 (cl_create 3) /\
  (forall z i, In (z, i) ex_l -> valid 3 z) /\ (forall hit ps, exists vs, visits hit ps vs) /\
  (exists k, crun clsg_create (h_two ++ [CInit]) = Ok k /\ s_dirty (k_sg k) = false /\
   named (declared (sg_calls h_two)) /\ kept (sg_calls h_two) /\ map_geom (k_sg k) = Ok [(0%Z, 0%nat); (1%Z, 1%nat)] /\ length (s_frames (k_sg k)) = 2%nat).
Proof.
  split; [exists a_hit; split; [apply a_hit_exact|apply exact_sym, a_hit_exact]|]. split; [constructor|].
  split; [intros z i K; now apply (ex_frames z i)|]. split; [intros hit ps; exists (all_pairs (length ps)); apply all_visited|exact two_scene].
Qed.

(** * C95: separation distances *)

(** After a check over any earlier table: the result says whether two frames that are not allowed to collide touch; the entry of two frames is the smallest separation of their objects, with points that belong to a pair of objects of that separation, in the order of the frames asked for; it is DBL_MAX if there is nothing to compare. *)
Theorem C95_distances : forall near contacts n al objs TF ps vs d,
  made n al -> (forall o, In o objs -> valid n (o_id o)) ->
  place_all (tf_fk TF) objs = Ok ps -> visits_all (length ps) vs -> dist_made n d ->
  exists c d', dist_check near contacts al objs TF vs d = Ok (c, d') /\
  (c = true <-> exists a b x y, a <> b /\ cl_get al a b = Ok false /\ facing ps a b x y /\ fst (fst (near x y)) <= 0) /\
  (forall a, valid n a -> get_dist d' a a = Ok 0) /\
  forall a b, valid n a -> valid n b -> a <> b -> exists m, get_dist d' a b = Ok m /\ m <= dbl_max /\
    (cl_get al a b = Ok true -> m = dbl_max) /\
    (cl_get al a b = Ok false -> forall x y s p q, facing ps a b x y -> separation near contacts x y s p q -> m <= s) /\
    (m < dbl_max -> exists x y p q, facing ps a b x y /\ separation near contacts x y m p q /\
       get_points d' (Z.max a b) (Z.min a b) = Ok (m, p, q) /\ get_points d' (Z.min a b) (Z.max a b) = Ok (m, q, p)).
Proof. exact c95_check. Qed.
Print Assumptions C95_distances.

(** Distances and points do not depend on the order of the frames, the points change places. *)
Theorem C95_symmetric : forall n d a b, dist_made n d -> valid n a -> valid n b ->
  exists m p q, get_dist d a b = Ok m /\ get_dist d b a = Ok m /\ get_points d a b = Ok (m, p, q) /\ (a <> b -> get_points d b a = Ok (m, q, p)).
Proof. exact get_total. Qed.
Print Assumptions C95_symmetric.

(** aa_rx_cl_dist_get_min_dist returns the smallest distance of a frame to another one, with a frame and points where it is attained. *)
Theorem C95_min_dist : forall n d z, dist_made n d -> valid n z ->
  exists m best, get_min_dist d z = Ok (m, best) /\ m <= dbl_max /\
  (forall w x, valid n w -> w <> z -> get_dist d z w = Ok x -> m <= x) /\
  match best with
  | Some (w, p, q) => valid n w /\ w <> z /\ get_points d z w = Ok (m, p, q)
  | None => m = dbl_max
  end.
Proof. exact c95_min. Qed.
Print Assumptions C95_min_dist.

Example C95_nonvacuous :
  let os := [mkO 0 (FSphere 1) (SSphere 1); mkO 1 (FSphere 1) (SSphere 1)] in
  let TF := [mkE (mkQ 0 0 0 1) (mkV 0 0 0); mkE (mkQ 0 0 0 1) (mkV 3 0 0)] in
  let ps := [ball 0 0 1; ball 1 3 1] in
  let near (a b : placed) := (1, mkV 2 0 0, mkV 1 0 0) in
  made 2 (cl_create 2) /\ (forall o, In o os -> valid 2 (o_id o)) /\ place_all (tf_fk TF) os = Ok ps /\ visits_all (length ps) (all_pairs (length ps)) /\
  dist_made 2 (dist_create 2) /\ cl_get (cl_create 2) 0 1 = Ok false /\ facing ps 0 1 (ball 1 3 1) (ball 0 0 1) /\
  separation near (fun _ _ => []) (ball 1 3 1) (ball 0 0 1) 1 (mkV 2 0 0) (mkV 1 0 0) /\
  separation (fun _ _ => (- (1), mkV 0 0 0, mkV 0 0 0)) (fun _ _ => [(1, mkV 1 0 0, mkV 1 0 0); (2, mkV 0 0 0, mkV 1 0 0)]) (ball 1 3 1) (ball 0 0 1) (- (2)) (mkV 0 0 0) (mkV 2 0 0).
Proof.
  cbn zeta. split; [constructor|]. split; [intros o [<-|[<-|[]]]; unfold valid; cbn; lia|]. split; [reflexivity|]. split; [apply all_visits|].
  split; [constructor|]. split; [reflexivity|]. split; [repeat split; cbn; auto|]. split; [left; repeat split; lra|].
  right. split; [lra|]. split; [lra|]. split; [intros dp ps nr [[= <- _ _]|[[= <- _ _]|[]]]; lra|].
  right. exists (mkV 1 0 0). split; [right; left; f_equal; f_equal; lra|]. unfold vadd, vscale; cbn. f_equal; ring.
Qed.
