(** Scene graphs, kinematics, sub-graphs, collision sets and motion plans: C44-C57,
    C63-C65.  The vocabulary is in SgSpec, SgKinSpec and ClSpec. *)
From Coq Require Import ZArith String List Bool Reals.
From Verif Require Import TfModel TfSpec TfProofs SgModel SgSpec SgKinSpec SgClaims1 SgClaims2 SgClaims3 SgJacProofs
  ClModel ClSpec ClProofs ClAllowProofs SgCopyProofs SgExamples.
Import ListNotations.
Open Scope Z_scope.

(** C44: initialisation succeeds on every forest, after any history of calls. *)
Theorem C44_init_succeeds :
  forall h s,
  run sg_create h = Ok s -> forest (declared h) ->
  exists s', sg_init s = Ok (0, s') /\ ready (h ++ [OInit]) s'.
Proof. exact c44_init. Qed.
Print Assumptions C44_init_succeeds.

(** C44: a frame whose parent is missing is reported and the graph is left as it was. *)
Theorem C44_missing_parent_reported :
  forall h s,
  run sg_create h = Ok s -> orphan (declared h) -> sg_init s = Ok (INVALID_FRAME, s).
Proof. exact c44_orphan. Qed.
Print Assumptions C44_missing_parent_reported.

(** C44: ids are exactly 0..n-1, and ids and names are inverse. *)
Theorem C44_ids_and_names :
  forall h s,
  ready h s -> named (declared h) ->
  (forall i, 0 <= i < frame_count s ->
     exists n d, declared h n = Some d /\ frame_name s i = Ok n /\ frame_id s n = Ok i) /\
  (forall n d, declared h n = Some d ->
     exists i, 0 <= i < frame_count s /\ frame_id s n = Ok i /\ frame_name s i = Ok n /\
               frame_type s i = Ok (d_type d)) /\
  (forall n, n <> ""%string -> declared h n = None -> frame_id s n = Ok FRAME_NONE).
Proof. exact c44_ids. Qed.
Print Assumptions C44_ids_and_names.

(** C44: a frame's parent id is that of its declared parent, and smaller than its own. *)
Theorem C44_parents_come_first :
  forall h s,
  ready h s -> forest (declared h) ->
  forall n d i, declared h n = Some d -> frame_id s n = Ok i ->
  (d_parent d = ""%string /\ frame_parent s i = Ok FRAME_ROOT) \/
  (exists p, frame_id s (d_parent d) = Ok p /\ frame_parent s i = Ok p /\ 0 <= p < i).
Proof. exact c44_parent. Qed.
Print Assumptions C44_parents_come_first.

(** C44: violated for a frame with the empty name: initialisation succeeds but a valid id has no frame. *)
Theorem C44_unnamed_frame_refuted :
  exists h s i, ready h s /\ 0 <= i < frame_count s /\ frame_type s i = UB.
Proof. exact c44_unnamed_refuted. Qed.
Print Assumptions C44_unnamed_frame_refuted.

Example C44_nonvacuous : ready h_arm arm /\ forest (declared h_arm) /\ frame_count arm = 5 /\
  frame_name arm 1 = Ok "elbow"%string /\ orphan (declared [fixed "b" "a" q1 v0]).
Proof.
  split; [exact arm_ready|]. split; [exact arm_forest|]. split; [vm_compute; reflexivity|]. split; [vm_compute; reflexivity|].
  exists "a"%string. eexists. split; [reflexivity|]. split; [discriminate|reflexivity].
Qed.


(** C45: violated: with a cycle of two or more frames initialisation reports success, some frame has no parent id, and forward kinematics over the whole graph indexes an array with it. *)
Theorem C45_cycle_accepted_refuted :
  forall h s,
  run sg_create h = Ok s -> named (declared h) -> ~ orphan (declared h) ->
  cyclic (declared h) -> ~ self_parent (declared h) ->
  exists s', sg_init s = Ok (0, s') /\
    (exists n d i, declared h n = Some d /\ d_parent d <> ""%string /\
       frame_id s' n = Ok i /\ frame_parent s' i = Ok FRAME_NONE) /\
    (forall q n_tf, config_count s' = Ok (length q) -> frame_count s' <= Z.of_nat n_tf ->
       sg_tf s' q n_tf = UB).
Proof. exact c45_cycle. Qed.
Print Assumptions C45_cycle_accepted_refuted.

(** C45: a frame that is its own parent makes initialisation abort. *)
Theorem C45_self_loop_aborts :
  forall h s,
  run sg_create h = Ok s -> ~ orphan (declared h) -> self_parent (declared h) -> sg_init s = Abort.
Proof. exact c45_self. Qed.
Print Assumptions C45_self_loop_aborts.

Example C45_nonvacuous : run sg_create h_loop = Ok (get h_loop) /\ named (declared h_loop) /\ ~ orphan (declared h_loop) /\
  cyclic (declared h_loop) /\ ~ self_parent (declared h_loop).
Proof. exact (conj loop_run (conj loop_named (conj loop_no_orphan (conj loop_cyclic loop_not_self)))). Qed.


(** C46: variables are numbered 0..m-1, numbers and names are inverse, and a joint uses the variable it was declared with. *)
Theorem C46_configs_numbered :
  forall h s,
  ready h s -> named (declared h) -> (exists n d, declared h n = Some d) ->
  exists m, config_count s = Ok m /\
  (forall i, (i < m)%nat -> exists c, uses_config (declared h) c /\
     config_name s (Z.of_nat i) = Ok c /\ config_id s c = Ok (Z.of_nat i)) /\
  (forall c, uses_config (declared h) c -> exists i, (i < m)%nat /\
     config_id s c = Ok (Z.of_nat i) /\ config_name s (Z.of_nat i) = Ok c) /\
  (forall c, ~ uses_config (declared h) c -> config_id s c = Ok CONFIG_NONE) /\
  (forall n d i, declared h n = Some d -> frame_id s n = Ok i ->
     frame_config s i = if is_joint (d_type d) then config_id s (d_cfg d) else Ok CONFIG_NONE).
Proof. exact c46. Qed.
Print Assumptions C46_configs_numbered.

(** C46: violated at the boundary: the first number beyond the last variable reads outside the table of names. *)
Theorem C46_config_name_range_refuted :
  exists h s i, ready h s /\ config_count s = Ok i /\ config_name s (Z.of_nat i) = UB.
Proof. exact c46_name_refuted. Qed.
Print Assumptions C46_config_name_range_refuted.

(** C46: violated for a graph that never had a frame: the number of variables is uninitialised. *)
Theorem C46_config_count_refuted :
  exists h s, ready h s /\ config_count s = UB.
Proof. exact c46_count_refuted. Qed.
Print Assumptions C46_config_count_refuted.

Example C46_nonvacuous : ready h_arm arm /\ config_count arm = Ok 3%nat /\ config_name arm 1 = Ok "q2"%string.
Proof. split; [exact arm_ready|]. split; vm_compute; reflexivity. Qed.


(** C47: for every frame the absolute transform maps coordinates in the frame to coordinates in the root along the path of the frame, and relative transforms are those declared. *)
Theorem C47_tf :
  forall h s q n_tf,
  ready h s -> forest (declared h) -> proper (declared h) -> config_count s = Ok (length q) ->
  exists rel abs, sg_tf s q n_tf = Ok (rel, abs) /\
    length rel = Nat.min n_tf (Z.to_nat (frame_count s)) /\
    length abs = Nat.min n_tf (Z.to_nat (frame_count s)) /\
    (forall n d i E, declared h n = Some d -> frame_no s n i -> nth_error rel i = Some E ->
       forall p, place (TfModel.eq E) (ev E) p = rel_motion d (config_of s q) p) /\
    (forall n i E, frame_no s n i -> nth_error abs i = Some E ->
       unitq (TfModel.eq E) /\
       forall p, located (declared h) (config_of s q) n p (place (TfModel.eq E) (ev E) p)).
Proof. exact c47_tf. Qed.
Print Assumptions C47_tf.

(** C47: the same for aa_rx_fk_all with a contiguous configuration. *)
Theorem C47_fk_all :
  forall h s v abs0,
  ready h s -> forest (declared h) -> proper (declared h) ->
  config_count s = Ok (dv_len v) -> fits v -> dv_inc v = 1%nat ->
  Z.of_nat (length abs0) = frame_count s ->
  exists abs, fk_all s v abs0 = Ok abs /\ Z.of_nat (length abs) = frame_count s /\
    forall n i E, frame_no s n i -> nth_error abs i = Some E ->
      unitq (TfModel.eq E) /\
      forall p, located (declared h) (config_view s v) n p (place (TfModel.eq E) (ev E) p).
Proof. exact c47_fk_all. Qed.
Print Assumptions C47_fk_all.

(** C47: violated by aa_rx_fk_all for a configuration vector with stride 2. *)
Theorem C47_fk_all_strided_refuted :
  exists h s v abs0 abs n i E p x,
  ready h s /\ forest (declared h) /\ proper (declared h) /\ config_count s = Ok (dv_len v) /\ fits v /\
  Z.of_nat (length abs0) = frame_count s /\ fk_all s v abs0 = Ok abs /\
  frame_no s n i /\ nth_error abs i = Some E /\
  located (declared h) (config_view s v) n p x /\ x <> place (TfModel.eq E) (ev E) p.
Proof. exact c47_strided_refuted. Qed.
Print Assumptions C47_fk_all_strided_refuted.

Example C47_nonvacuous : ready h_arm arm /\ forest (declared h_arm) /\ proper (declared h_arm) /\
  config_count arm = Ok (length (arm_q 1)) /\ frame_no arm "tool" 4.
Proof.
  split; [exact arm_ready|]. split; [exact arm_forest|]. split; [exact arm_proper|]. split; [exact (arm_count 1)|].
  vm_compute. reflexivity.
Qed.


(** C48: updating from the transforms of q0 gives exactly the transforms of q. *)
Theorem C48_update_equals_recompute :
  forall h s q0 q n_tf rel0 abs0,
  ready h s -> forest (declared h) ->
  config_count s = Ok (length q0) -> config_count s = Ok (length q) ->
  sg_tf s q0 n_tf = Ok (rel0, abs0) ->
  sg_tf_update s q0 q n_tf rel0 abs0 = sg_tf s q n_tf.
Proof. exact c48. Qed.
Print Assumptions C48_update_equals_recompute.

Example C48_nonvacuous : exists rel abs, sg_tf arm (arm_q 1) 5 = Ok (rel, abs) /\ length abs = 5%nat.
Proof.
  destruct (c47_tf h_arm arm (arm_q 1) 5 arm_ready arm_forest arm_proper (arm_count 1)) as (rel & abs & E & _ & L & _).
  exists rel, abs. split; [exact E|]. rewrite L. vm_compute. reflexivity.
Qed.


(** C49: matrices agree with quaternions when nothing was re-parented and every prismatic axis is fixed by its frame rotation. *)
Theorem C49_matrix_agrees :
  forall h s q n_tf,
  ready h s -> forest (declared h) -> proper (declared h) -> no_reparent h ->
  (forall n d, declared h n = Some d -> d_type d = Prismatic -> place (d_q d) zero3 (d_axis d) = d_axis d) ->
  config_count s = Ok (length q) ->
  exists rel abs mrel mabs, sg_tf s q n_tf = Ok (rel, abs) /\ sg_tfmat s q n_tf = Ok (mrel, mabs) /\
    length mrel = length rel /\ length mabs = length abs /\
    forall i, (forall E T, nth_error rel i = Some E -> nth_error mrel i = Some T ->
                forall p, mat_place T p = place (TfModel.eq E) (ev E) p) /\
              (forall E T, nth_error abs i = Some E -> nth_error mabs i = Some T ->
                forall p, mat_place T p = place (TfModel.eq E) (ev E) p).
Proof. exact c49_tfmat. Qed.
Print Assumptions C49_matrix_agrees.

(** C49: dual quaternions agree when nothing was re-parented and there is no prismatic joint. *)
Theorem C49_dual_quaternion_agrees :
  forall h s q n_tf old,
  ready h s -> forest (declared h) -> proper (declared h) -> no_reparent h ->
  (forall n d, declared h n = Some d -> d_type d <> Prismatic) ->
  config_count s = Ok (length q) ->
  exists rel abs drel dabs, sg_tf s q n_tf = Ok (rel, abs) /\ sg_duqu s q n_tf old = Ok (drel, dabs) /\
    length drel = length rel /\ length dabs = length abs /\
    forall i, (forall E S, nth_error rel i = Some E -> nth_error drel i = Some S ->
                forall p, dq_place S p = place (TfModel.eq E) (ev E) p) /\
              (forall E S, nth_error abs i = Some E -> nth_error dabs i = Some S ->
                forall p, dq_place S p = place (TfModel.eq E) (ev E) p).
Proof. exact c49_duqu. Qed.
Print Assumptions C49_dual_quaternion_agrees.

(** C49: violated by a prismatic joint with a rotated frame. *)
Theorem C49_prismatic_matrix_refuted :
  exists h s q E T rel mrel,
  ready h s /\ forest (declared h) /\ proper (declared h) /\ no_reparent h /\ config_count s = Ok (length q) /\
  sg_tf s q 1 = Ok (rel, [E]) /\ sg_tfmat s q 1 = Ok (mrel, [T]) /\
  mat_place T v0 <> place (TfModel.eq E) (ev E) v0.
Proof. exact c49_prismatic_matrix_refuted. Qed.
Print Assumptions C49_prismatic_matrix_refuted.

(** C49: violated by every prismatic joint: the dual quaternion is whatever the output held before. *)
Theorem C49_prismatic_dual_quaternion_refuted :
  exists h s q,
  ready h s /\ forest (declared h) /\ proper (declared h) /\ no_reparent h /\ config_count s = Ok (length q) /\
  forall old, sg_duqu s q 1 old = Ok ([old O], [old O]).
Proof. exact c49_prismatic_duqu_refuted. Qed.
Print Assumptions C49_prismatic_dual_quaternion_refuted.

(** C49: violated after re-parenting: only the quaternion form has the new pose. *)
Theorem C49_reparent_refuted :
  exists h s E T D rel mrel drel,
  ready h s /\ forest (declared h) /\ proper (declared h) /\
  sg_tf s [] 1 = Ok (rel, [E]) /\ sg_tfmat s [] 1 = Ok (mrel, [T]) /\ (forall old, sg_duqu s [] 1 old = Ok (drel, [D])) /\
  place (TfModel.eq E) (ev E) (mkV 1 0 0) = mkV (-1) 0 0 /\
  mat_place T (mkV 1 0 0) = mkV 1 0 0 /\ dq_place D (mkV 1 0 0) = mkV 1 0 0.
Proof. exact c49_reparent_refuted. Qed.
Print Assumptions C49_reparent_refuted.

(** C49: a matrix of twelve numbers is written past its end for every fixed frame. *)
Theorem C49_overrun_refuted :
  forall f out, length out = 12%nat -> fixed_tfmat_rel_mem f out = UB.
Proof. exact c49_overrun_refuted. Qed.
Print Assumptions C49_overrun_refuted.

Example C49_nonvacuous : ready h_arm arm /\ no_reparent h_arm /\
  forall n d, declared h_arm n = Some d -> d_type d = Prismatic -> place (d_q d) zero3 (d_axis d) = d_axis d.
Proof.
  split; [exact arm_ready|]. split; [unfold h_arm; no_rep|]. intros n d G T. declt G; try discriminate T.
  cbv -[IZR Rplus Rmult Ropp Rminus Rdiv Rinv]. f_equal; ring.
Qed.


(** C50: in a forest every pair of frames has a list of frames between them. *)
Theorem C50_frames_between_exist :
  forall g root tip,
  forest g -> (tip = ""%string \/ g tip <> None) -> exists ls, between g root tip ls.
Proof. exact c50_exists. Qed.
Print Assumptions C50_frames_between_exist.

(** C50: the chain lists these frames in order from root to tip, with the variables of its joints. *)
Theorem C50_chain_lists_path :
  forall h s root tip rz tz ls junk,
  ready h s -> forest (declared h) ->
  id_of s root rz -> id_of s tip tz -> between (declared h) root tip ls ->
  exists zs cs, chain_create s rz tz junk = Ok (mkSS zs cs (Some [tz])) /\
    Forall2 (id_of s) ls zs /\
    Forall2 (fun d c => config_id s (d_cfg d) = Ok c /\ 0 <= c) (joint_decls (declared h) ls) cs.
Proof. exact c50_chain. Qed.
Print Assumptions C50_chain_lists_path.

(** C50: forward kinematics of the chain gives the poses of its frames and leaves the others alone. *)
Theorem C50_chain_kinematics :
  forall h s root tip rz tz ls junk ss cfg v abs0 n,
  ready h s -> forest (declared h) -> proper (declared h) ->
  config_count s = Ok n ->
  id_of s root rz -> id_of s tip tz -> between (declared h) root tip ls -> chain_create s rz tz junk = Ok ss ->
  dv_len v = length (ss_configs ss) ->
  (forall j d, nth_error (joint_decls (declared h) ls) j = Some d -> dv_get v j = Some (cfg (d_cfg d))) ->
  Z.of_nat (length abs0) = frame_count s ->
  posed_at (declared h) s cfg abs0 root ->
  exists abs, fk_sub s ss v abs0 = Ok abs /\ Z.of_nat (length abs) = frame_count s /\
    (forall m, In m ls -> posed_at (declared h) s cfg abs m) /\
    (forall m i, ~ In m ls -> frame_no s m i -> nth_error abs i = nth_error abs0 i).
Proof. exact c50_fk. Qed.
Print Assumptions C50_chain_kinematics.

Example C50_nonvacuous : ready h_arm arm /\ id_of arm "base" 0 /\ id_of arm "tool" 4 /\
  between (declared h_arm) "base" "tool" arm_path /\ posed_at (declared h_arm) arm (arm_cfg 1) (arm_abs 1) "base" /\
  length (joint_decls (declared h_arm) arm_path) = 3%nat.
Proof.
  split; [exact arm_ready|]. split; [exact (proj1 arm_ids)|]. split; [exact (proj2 (proj2 (proj2 (proj2 arm_ids))))|].
  split; [left; exact arm_is_path|]. split; [|reflexivity].
  apply (arm_posed 1 "base" 0); [vm_compute; reflexivity|auto with arith].
Qed.


(** C51: violated for all graphs, roots and tips: the list of frames is always empty. *)
Theorem C51_multiple_chains_always_empty_refuted :
  forall h s root rz tips tzs,
  ready h s -> forest (declared h) -> id_of s root rz -> Forall2 (id_of s) tips tzs ->
  multiple_chain_create s rz tzs = Ok (mkSS [] [] None).
Proof. exact c51_always. Qed.
Print Assumptions C51_multiple_chains_always_empty_refuted.

(** C51: a chain of four frames, and the list is empty. *)
Theorem C51_nonempty_path_refuted :
  exists h s rz tz ls, ready h s /\ forest (declared h) /\ id_of s "base" rz /\ id_of s "tool" tz /\
  path (declared h) "base" "tool" ls /\ ls <> [] /\ multiple_chain_create s rz [tz] = Ok (mkSS [] [] None).
Proof. exact c51_refuted. Qed.
Print Assumptions C51_nonempty_path_refuted.

(** C52: the Jacobian times the velocities of the joints is the velocity of the tip, and the twist Jacobian gives the corresponding twist, for every motion of the configuration, when the root of the chain does not move. *)
Theorem C52_jacobian_is_derivative :
  forall h s root tip rz tz ls junk ss abs cfg dcfg t pos posr,
  ready h s -> forest (declared h) -> proper (declared h) ->
  id_of s root rz -> id_of s tip tz -> ls <> [] ->
  (path (declared h) root tip ls /\ (forall u p, located (declared h) (cfg u) root p (posr p)) \/
   path (declared h) ""%string tip ls /\ ~ In root ls) ->
  chain_create s rz tz junk = Ok ss ->
  (forall d, In d (joint_decls (declared h) ls) -> derivable_pt_lim (fun u => cfg u (d_cfg d)) t (dcfg (d_cfg d))) ->
  (forall m, In m ls -> posed_at (declared h) s (cfg t) abs m) ->
  (forall u p, located (declared h) (cfg u) tip p (pos u p)) ->
  exists J K v w,
    chain_jacobian s abs ss = Ok J /\ jac_twist s abs ss = Ok K /\
    col_sum J (map (fun d => dcfg (d_cfg d)) (joint_decls (declared h) ls)) = (w, v) /\
    col_sum K (map (fun d => dcfg (d_cfg d)) (joint_decls (declared h) ls)) = (w, plus3 v (xprod (pos t zero3) w)) /\
    body_velocity pos t v w.
Proof. exact c52. Qed.
Print Assumptions C52_jacobian_is_derivative.

(** C52: violated for a chain from a frame to itself: the last element of an empty list is read. *)
Theorem C52_root_equals_tip_refuted :
  forall s z junk abs, frame_count s <> 0 ->
  exists ss, chain_create s z z junk = Ok ss /\ chain_jacobian s abs ss = UB.
Proof. exact c52_same_refuted. Qed.
Print Assumptions C52_root_equals_tip_refuted.

Example C52_nonvacuous : forall t, exists ss,
  chain_create arm 0 4 (fun _ => 0) = Ok ss /\
  path (declared h_arm) "base" "tool" arm_path /\
  (forall u p, located (declared h_arm) (arm_cfg u) "base" p (place qz (mkV 0 0 2) p)) /\
  (forall d, In d (joint_decls (declared h_arm) arm_path) -> derivable_pt_lim (fun u => arm_cfg u (d_cfg d)) t 1%R) /\
  (forall m, In m arm_path -> posed_at (declared h_arm) arm (arm_cfg t) (arm_abs t) m) /\
  (forall u p, located (declared h_arm) (arm_cfg u) "tool" p (arm_pos 4 u p)).
Proof.
  intros t. destruct arm_ids as (I0 & _ & _ & _ & I4).
  destruct (c50_chain h_arm arm "base" "tool" 0 4 arm_path (fun _ => 0) arm_ready arm_forest I0 I4 (or_introl arm_is_path)) as (zs & cs & E & _).
  eexists. split; [exact E|]. split; [exact arm_is_path|]. split; [exact arm_base|]. split; [intros d; apply arm_moves|].
  split; [|intros u p; apply arm_located; [vm_compute; reflexivity|auto with arith]].
  intros m [<-|[<-|[<-|[<-|[]]]]]; [apply (arm_posed t _ 1)|apply (arm_posed t _ 2)|apply (arm_posed t _ 3)|apply (arm_posed t _ 4)];
    try (vm_compute; reflexivity); auto with arith.
Qed.


(** C53: writing a subset replaces exactly these variables. *)
Theorem C53_set_replaces :
  forall A (ids : list Z) (sub all : list A), NoDup ids -> ids_ok ids all -> (length ids <= length sub)%nat ->
    exists all', config_set ids sub all = Ok all' /\ replaced ids sub all all'.
Proof. exact @config_set_ok. Qed.
Print Assumptions C53_set_replaces.

(** C53: reading a subset gives these variables in order. *)
Theorem C53_get_reads :
  forall A (ids : list Z) (all : list A), ids_ok ids all ->
    exists sub, config_get ids all = Ok sub /\ length sub = length ids /\
      forall k z, nth_error ids k = Some z -> nth_error sub k = nth_error all (Z.to_nat z).
Proof. exact @config_get_ok. Qed.
Print Assumptions C53_get_reads.

(** C53: reading back what was written. *)
Theorem C53_get_after_set :
  forall A ids (sub all all' : list A), NoDup ids -> ids_ok ids all -> length sub = length ids ->
    config_set ids sub all = Ok all' -> config_get ids all' = Ok sub.
Proof. exact @c53_get_set. Qed.
Print Assumptions C53_get_after_set.

(** C53: expanding a path writes every point and keeps the other variables at the start values. *)
Theorem C53_expand_path :
  forall A ids start (sub all : list (list A)) n, NoDup ids ->
    length all = length sub -> (forall x, In x sub -> length x = length ids) -> (forall a, In a all -> length a = n) ->
    (match start with Some q => length q = n | None => True end) ->
    (forall z, In z ids -> 0 <= z < Z.of_nat n) ->
    exists out, expand_path ids start sub all = Ok out /\ length out = length sub /\
      forall k x a, nth_error sub k = Some x -> nth_error all k = Some a ->
        exists o, nth_error out k = Some o /\
          replaced ids x (match start with Some q => q | None => a end) o.
Proof. exact @c53_expand. Qed.
Print Assumptions C53_expand_path.

(** C53: scattering a strided vector. *)
Theorem C53_scatter :
  forall v,
  forall ids k all, NoDup ids -> ids_ok ids all -> (forall j, (j < length ids)%nat -> dv_get v (k + j) <> None) ->
  exists all', scatter ids v k all = Ok all' /\ length all' = length all /\
    (forall j z, nth_error ids j = Some z -> nth_error all' (Z.to_nat z) = Some (dv_get v (k + j))) /\
    (forall i, ~ In (Z.of_nat i) ids -> nth_error all' i = nth_error all i).
Proof. exact scatter_all. Qed.
Print Assumptions C53_scatter.

(** C53: gathering from a strided vector. *)
Theorem C53_gather :
  forall v n,
  forall ids, (forall z, In z ids -> 0 <= z < Z.of_nat n) -> (forall i, (i < n)%nat -> dv_get v i <> None) ->
  exists sub, gather ids v = Ok sub /\ length sub = length ids /\
    forall k z, nth_error ids k = Some z -> nth_error sub k = dv_get v (Z.to_nat z).
Proof. exact gather_ok. Qed.
Print Assumptions C53_gather.

(** C53: the variables of a chain are valid, and distinct when its joints use distinct variables. *)
Theorem C53_chain_ids_valid :
  forall h s root tip rz tz ls junk ss n,
  ready h s -> forest (declared h) -> config_count s = Ok n ->
  id_of s root rz -> id_of s tip tz -> between (declared h) root tip ls -> chain_create s rz tz junk = Ok ss ->
  (forall z, In z (ss_configs ss) -> 0 <= z < Z.of_nat n) /\
  (NoDup (map d_cfg (joint_decls (declared h) ls)) -> NoDup (ss_configs ss)).
Proof. exact c53_chain_ids. Qed.
Print Assumptions C53_chain_ids_valid.

Example C53_nonvacuous : ids_ok [2; 0] [1; 2; 3] /\ NoDup [2; 0] /\ config_set [2; 0] [7; 8] [1; 2; 3] = Ok [8; 2; 7].
Proof.
  split; [intros z [<-|[<-|[]]]; cbn; split; (discriminate || reflexivity)|]. split; [|reflexivity].
  constructor; [intros [H|[]]; discriminate H|]. constructor; [intros []|constructor].
Qed.


(** C54: a limit of a variable that had some limit when the graph was indexed reads back the last value set, before or after. *)
Theorem C54_limit_set_before_init :
  forall h1 h2 s0 s1 s k c i,
  run sg_create h1 = Ok s0 -> s_dirty s0 = true -> sg_init s0 = Ok (0, s1) -> run s1 h2 = Ok s ->
  forallb (fun o => negb (edits o)) h2 = true ->
  (exists k0, limit_of h1 k0 c <> None) ->
  config_id s c = Ok i -> i <> CONFIG_NONE ->
  sg_get_limit s k i = Ok (limit_of (h1 ++ OInit :: h2) k c).
Proof. exact c54_set. Qed.
Print Assumptions C54_limit_set_before_init.

(** C54: in every case the value read is the last one set, or "no limit". *)
Theorem C54_limit_never_wrong :
  forall h s k c i,
  ready h s -> config_id s c = Ok i -> i <> CONFIG_NONE ->
  sg_get_limit s k i = Ok (limit_of h k c) \/ sg_get_limit s k i = Ok None.
Proof. exact c54_sound. Qed.
Print Assumptions C54_limit_never_wrong.

(** C54: the centre of a limited variable is the midpoint. *)
Theorem C54_center :
  forall s k a b,
  sg_get_limit s LPos k = Ok (Some (a, b)) -> sg_config_center s k = Ok ((a + b) / 2)%R.
Proof. exact c54_center. Qed.
Print Assumptions C54_center.

(** C54: violated: a limit first set after initialisation is not returned. *)
Theorem C54_limit_set_after_init_refuted :
  exists h s c i, ready h s /\ config_id s c = Ok i /\ i <> CONFIG_NONE /\
  limit_of h LPos c = Some (-1, 1)%R /\ sg_get_limit s LPos i = Ok None.
Proof. exact c54_late_refuted. Qed.
Print Assumptions C54_limit_set_after_init_refuted.

Example C54_nonvacuous : config_id arm "q1" = Ok 0 /\ limit_of h_arm LPos "q1" = Some (-1, 1)%R /\
  sg_get_limit arm LPos 0 = Ok (limit_of h_arm LPos "q1").
Proof. split; [vm_compute; reflexivity|]. split; [reflexivity|]. vm_compute. reflexivity. Qed.


(** C55: a copy has the same frames, ids, variables, kinematics, limits, geometry and allowed pairs. *)
Theorem C55_copy :
  forall h s,
  ready h s -> named (declared h) -> (exists n x, declared h n = Some x) -> kept h ->
  exists d, sg_copy s = Ok d /\ s_dirty d = false /\
    frame_count d = frame_count s /\ config_count d = config_count s /\
    (forall n, frame_id d n = frame_id s n) /\
    (forall i, frame_name d i = frame_name s i /\ frame_type d i = frame_type s i /\ frame_parent d i = frame_parent s i /\
               frame_config d i = frame_config s i /\ frame_axis d i = frame_axis s i) /\
    (forall c, config_id d c = config_id s c) /\ (forall i, config_name d i = config_name s i) /\
    (forall q n, sg_tf d q n = sg_tf s q n) /\
    (no_reparent h -> forall q n, sg_tfmat d q n = sg_tfmat s q n /\ forall old, sg_duqu d q n old = sg_duqu s q n old) /\
    (forall k c i, config_id s c = Ok i -> i <> CONFIG_NONE -> sg_get_limit d k i = Ok (limit_of h k c)) /\
    map_geom d = map_geom s /\
    exists k c, cl_init (mkCS d (Some true) []) = Ok k /\ cl_allowed k = Ok c /\
      forall i j ni nj, frame_no s ni i -> frame_no s nj j -> cl_get c (Z.of_nat i) (Z.of_nat j) = Ok (allowed_of h ni nj).
Proof. exact c55. Qed.
Print Assumptions C55_copy.

(** C55: violated: mass and inertia are not copied. *)
Theorem C55_inertial_lost_refuted :
  exists h s d, ready h s /\ forest (declared h) /\ kept h /\ sg_copy s = Ok d /\
  frame_inertial s 0 = Ok (Some (1%R, I3)) /\ frame_inertial d 0 = Ok None.
Proof. exact c55_inertial_refuted. Qed.
Print Assumptions C55_inertial_lost_refuted.

(** C55: violated: copying uses a dangling pointer after a frame with an allowed pair was removed. *)
Theorem C55_copy_after_remove_refuted :
  exists h s, ready h s /\ forest (declared h) /\ (exists n d, declared h n = Some d) /\ sg_copy s = UB.
Proof. exact c55_dangling_refuted. Qed.
Print Assumptions C55_copy_after_remove_refuted.

(** C55: violated: the copy of a graph whose frames were all removed has an uninitialised variable count. *)
Theorem C55_copy_of_emptied_refuted :
  exists h s d, ready h s /\ sg_copy s = Ok d /\ config_count s = Ok O /\ config_count d = UB.
Proof. exact c55_empty_refuted. Qed.
Print Assumptions C55_copy_of_emptied_refuted.

Example C55_nonvacuous : ready h_arm arm /\ named (declared h_arm) /\ (exists n x, declared h_arm n = Some x) /\ kept h_arm.
Proof.
  split; [exact arm_ready|]. split; [reflexivity|]. split; [exists "base"%string; eexists; reflexivity|]. exact arm_kept.
Qed.


(** C56: membership is symmetric. *)
Theorem C56_symmetric :
  forall n c i j,
  made n c -> valid n i -> valid n j -> exists b, cl_get c i j = Ok b /\ cl_get c j i = Ok b.
Proof. exact c56_sym. Qed.
Print Assumptions C56_symmetric.

(** C56: numbers outside the frames are rejected. *)
Theorem C56_out_of_range :
  forall n c i j x,
  made n c -> ~ (valid n i /\ valid n j) -> cl_get c i j = Abort /\ cl_set c i j x = Abort.
Proof. exact c56_range. Qed.
Print Assumptions C56_out_of_range.

(** C56: setting changes one unordered pair. *)
Theorem C56_set :
  forall n c i j x,
  made n c -> valid n i -> valid n j ->
  exists c', cl_set c i j x = Ok c' /\ forall k l, valid n k -> valid n l ->
    (same_pair i j k l -> cl_get c' k l = Ok x) /\ (~ same_pair i j k l -> cl_get c' k l = cl_get c k l).
Proof. exact c56_set. Qed.
Print Assumptions C56_set.

(** C56: clearing removes all pairs. *)
Theorem C56_clear :
  forall n c,
  made n c -> exists c', cl_clear c = Ok c' /\ forall i j, valid n i -> valid n j -> cl_get c' i j = Ok false.
Proof. exact c56_clear. Qed.
Print Assumptions C56_clear.

(** C56: filling copies. *)
Theorem C56_fill :
  forall n c d,
  made n c -> made n d -> forall i j, cl_get (cl_fill c d) i j = cl_get d i j.
Proof. exact c56_fill. Qed.
Print Assumptions C56_fill.

(** C56: merging gives the union, for pairs of distinct frames. *)
Theorem C56_merge :
  forall n c d,
  made n c -> made n d -> exists c', cl_merge c d = Ok c' /\
  forall i j, valid n i -> valid n j ->
    cl_get c' i j = if i =? j then cl_get c i j else bind (cl_get c i j) (fun a => bind (cl_get d i j) (fun b => Ok (a || b))).
Proof. exact c56_merge. Qed.
Print Assumptions C56_merge.

(** C56: a new set is empty. *)
Theorem C56_create_empty :
  forall n i j,
  valid n i -> valid n j -> cl_get (cl_create n) i j = Ok false.
Proof. exact create_get. Qed.
Print Assumptions C56_create_empty.

(** C56: filling from a set over another number of frames is accepted and gives wrong members. *)
Theorem C56_fill_other_size_refuted :
  exists c d i j, made 3 c /\ made 2 d /\ valid 2 i /\ valid 2 j /\
  cl_get d i j = Ok true /\ cl_get (cl_fill c d) i j = Ok false.
Proof. exact c56_fill_refuted. Qed.
Print Assumptions C56_fill_other_size_refuted.

Example C56_nonvacuous : exists c, made 3 c /\ cl_get c 2 0 = Ok true /\ cl_get c 1 0 = Ok false.
Proof.
  exists (mkC 3 (set_at (repeat false 9) 6 true)). split; [|split; reflexivity].
  apply made_set with (c := cl_create 3) (i := 0) (j := 2) (x := true); [constructor|reflexivity].
Qed.


(** C57: appending succeeds. *)
Theorem C57_append_succeeds :
  forall l,
  (forall g m n src, In (g, m, n, src) l -> (m * n <= length src)%nat) -> forall p, exists p', append_all p l = Ok p'.
Proof. exact c57_total. Qed.
Print Assumptions C57_append_succeeds.

(** C57: the plans come back in order, with their graph and points; the point count is the sum; beyond the end there is none. *)
Theorem C57_sequence :
  forall l p,
  append_all mp_create l = Ok p ->
  mp_count p = length l /\
  mp_points p = fold_right (fun '(g, m, n, src) a => (n + a)%nat) 0%nat l /\
  (forall i g m n src, nth_error l i = Some (g, m, n, src) -> mp_elt p i = Ok (Some g, n, Some (firstn (m * n) src))) /\
  (forall i, (length l <= i)%nat -> mp_elt p i = Ok (None, 0%nat, None)).
Proof. exact c57. Qed.
Print Assumptions C57_sequence.

Example C57_nonvacuous : exists p, append_all mp_create [(7, 1, 2, [1; 2]%R); (8, 2, 1, [3; 4]%R)]%nat = Ok p /\ mp_points p = 3%nat.
Proof. eexists. split; reflexivity. Qed.


(** C63: violated: with an axis of length 2 the pose of the joint stretches distances, so it is no rotation by any angle. *)
Theorem C63_nonunit_axis_refuted :
  exists h s x E p, ready h s /\ forest (declared h) /\
  (forall n d, declared h n = Some d -> unitq (d_q d)) /\
  sg_tf s [x] 1 = Ok ([E], [E]) /\
  dot (place (TfModel.eq E) (ev E) p) (place (TfModel.eq E) (ev E) p) <> dot p p.
Proof. exact c63_nonunit_refuted. Qed.
Print Assumptions C63_nonunit_axis_refuted.

(** C64: if the collision data are made after the last change of geometry or allowed pairs, the set made from them has exactly the pairs allowed last. *)
Theorem C64_allowed_set :
  forall h1 o h2 k,
  (match o with OAllow _ _ _ | OGeom _ _ => True | _ => False end) -> ~ In CInit h2 ->
  let h := sg_calls (h1 ++ CSg o :: h2) in
  crun clsg_create (h1 ++ CSg o :: h2) = Ok k -> s_dirty (k_sg k) = false -> named (declared h) -> kept h ->
  exists k' c, cl_init k = Ok k' /\ k_sg k' = k_sg k /\ cl_allowed k' = Ok c /\
    forall i j ni nj, frame_no (k_sg k) ni i -> frame_no (k_sg k) nj j -> cl_get c (Z.of_nat i) (Z.of_nat j) = Ok (allowed_of h ni nj).
Proof. exact c64. Qed.
Print Assumptions C64_allowed_set.

(** C64: violated when frames are added afterwards: the numbers kept are not updated, the allowed pair is lost and another pair is allowed. *)
Theorem C64_stale_refuted :
  exists h k c ni nj mi mj i j i' j', crun clsg_create h = Ok k /\ s_dirty (k_sg k) = false /\
  kept (sg_calls h) /\ cl_init k = Ok k /\ cl_allowed k = Ok c /\
  frame_no (k_sg k) ni i /\ frame_no (k_sg k) nj j /\ allowed_of (sg_calls h) ni nj = true /\ cl_get c (Z.of_nat i) (Z.of_nat j) = Ok false /\
  frame_no (k_sg k) mi i' /\ frame_no (k_sg k) mj j' /\ allowed_of (sg_calls h) mi mj = false /\ cl_get c (Z.of_nat i') (Z.of_nat j') = Ok true.
Proof. exact c64_stale_refuted. Qed.
Print Assumptions C64_stale_refuted.

(** C64: violated when an allowed frame is removed: a dangling pointer is followed. *)
Theorem C64_dangling_refuted :
  exists h, named (declared (sg_calls h)) /\ is_ok (run sg_create (sg_calls h)) = true /\ crun clsg_create (h ++ [CInit]) = UB.
Proof. exact c64_dangling_refuted. Qed.
Print Assumptions C64_dangling_refuted.

(** C64: violated for graphs without geometry and allowed pairs: an uninitialised flag is tested. *)
Theorem C64_uninitialised_refuted :
  exists h s, ready h s /\ forest (declared h) /\ crun clsg_create (map CSg h ++ [CInit]) = UB.
Proof. exact c64_uninitialised_refuted. Qed.
Print Assumptions C64_uninitialised_refuted.

Example C64_nonvacuous : exists k, crun clsg_create (map CSg h_arm) = Ok k /\ s_dirty (k_sg k) = false /\
  named (declared (sg_calls (map CSg h_arm))) /\ allowed_of (sg_calls (map CSg h_arm)) "slide" "wrist" = true.
Proof.
  exists (kget (map CSg h_arm)). split; [apply kget_by; vm_compute; reflexivity|]. split; [vm_compute; reflexivity|]. split; reflexivity.
Qed.


(** C65: both functions return the pose of one frame in another, the root included. *)
Theorem C65_relative_pose :
  forall h s cfg abs a b ia ib,
  ready h s -> named (declared h) -> poses (declared h) cfg s abs ->
  frame_id s a = Ok ia -> frame_id s b = Ok ib -> ia <> FRAME_NONE -> ib <> FRAME_NONE ->
  exists E, sg_rel_tf s ia ib abs = Ok E /\ fk_get_rel abs ia ib = Ok E /\ unitq (TfModel.eq E) /\
    forall p x, located (declared h) cfg b p x -> located (declared h) cfg a (place (TfModel.eq E) (ev E) p) x.
Proof. exact c65. Qed.
Print Assumptions C65_relative_pose.

(** C65: the check of aa_rx_fk_get_abs_qutr is off by one: with the frame count as id it reads beyond the array; all valid ids work. *)
Theorem C65_get_abs_bound_refuted :
  forall h s abs,
  ready h s -> Z.of_nat (length abs) = frame_count s ->
  fk_get_abs s abs (frame_count s) = UB /\
  forall i, 0 <= i < frame_count s -> exists E, fk_get_abs s abs i = Ok E /\ nth_error abs (Z.to_nat i) = Some E.
Proof. exact c65_bound. Qed.
Print Assumptions C65_get_abs_bound_refuted.
