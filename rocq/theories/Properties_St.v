(** Properties of robot states and point lists (C86). *)
From Coq Require Import List Reals Arith.
Import ListNotations.
From Verif Require Import StModel StSpec StProofs StList StExamples.
Open Scope nat_scope.

(** A new state has its own array for every member, of the documented sizes except for the
    frames; positions, velocities and accelerations are zero, everything else was never
    stored.  Nothing that existed before changes. *)
Theorem C86_alloc : forall H n_q n_tf H' s, state_alloc H n_q n_tf = (H', s) ->
  grew H H' /\ made_between H H' s /\ separate s /\
  shows H' s (mkV n_q n_tf (fun k => Some (match k with
    | Pq | Pdq | Pddq => repeat (Some 0%R) n_q
    | _ => repeat None (size_of n_q n_tf k) end))).
Proof. exact c86_alloc. Qed.
Print Assumptions C86_alloc.

(** The arrays of the frames are too small: storing one pose for every frame in them is out
    of range, for every positive number of frames. *)
Theorem C86_alloc_frames_refuted : forall H n_q n_tf H' s k a v, 0 < n_tf ->
  state_alloc H n_q n_tf = (H', s) -> k = Pabs \/ k = Prel -> c_ptr s k = Some a -> length v = 7 * n_tf ->
  put_cells H' a v = Undef.
Proof. exact c86_frames. Qed.
Print Assumptions C86_alloc_frames_refuted.

(** Two new states cannot be compared: their poses were never stored. *)
Theorem C86_alloc_compare_refuted : forall H n_q n_tf H1 s H2 t,
  state_alloc H n_q n_tf = (H1, s) -> state_alloc H1 n_q n_tf = (H2, t) -> state_eqb H2 s t = Undef.
Proof. exact c86_new_compare. Qed.
Print Assumptions C86_alloc_compare_refuted.

(** A copy has the contents of its source in new arrays of its own: null members stay null,
    nothing that existed changes, and whatever is written later to other memory - the
    source included - the copy keeps its contents. *)
Theorem C86_clone : forall H s V, shows H s V ->
  exists H' s', state_clone H s = Ok (H', s') /\ grew H H' /\ made_between H H' s' /\ separate s' /\
    shows H' s' V /\ shows H' s V /\
    forall H2, agree_on (length H) (length H') H' H2 -> shows H2 s' V.
Proof. exact c86_clone. Qed.
Print Assumptions C86_clone.

(** Comparing answers whether the sizes agree and the positions, velocities, accelerations and
    poses are present in both and within 1/1000, or absent from both. *)
Theorem C86_compare : forall H s t V W, shows H s V -> shows H t W -> stored V -> stored W ->
  exists r, state_eqb H s t = Ok r /\ (r = true <-> near V W).
Proof. exact c86_eq. Qed.
Print Assumptions C86_compare.

(** It is reflexive and symmetric, *)
Theorem C86_near : (forall V, stored V -> near V V) /\ (forall V W, near V W -> near W V).
Proof. exact (conj near_refl near_sym). Qed.
Print Assumptions C86_near.

(** but not transitive. *)
Theorem C86_transitive_refuted : exists H s t u,
  state_eqb H s t = Ok true /\ state_eqb H t u = Ok true /\ state_eqb H s u = Ok false.
Proof. exact c86_not_transitive. Qed.
Print Assumptions C86_transitive_refuted.

(** Setting the pose stores the seven numbers and changes nothing else of the state. *)
Theorem C86_set_pose : forall H s V E cs, shows H s V -> separate s -> v_arr V PX = Some cs -> length E = 7 ->
  exists H', set_qutr H s E = Ok H' /\
    shows H' s (mkV (v_nq V) (v_ntf V) (fun k => match k with PX => Some (map Some E) | _ => v_arr V k end)).
Proof. exact c86_set_qutr. Qed.
Print Assumptions C86_set_pose.

(** Printing a state without efforts shows every array that is given, once, with its own
    numbers. *)
Theorem C86_print : forall H s V vals, shows H s V -> printable V vals -> state_dump H s = Ok (lines vals).
Proof. exact c86_dump. Qed.
Print Assumptions C86_print.

(** The line of the efforts always shows the accelerations instead; *)
Theorem C86_print_efforts_refuted : forall H s V vals ddq, shows H s V -> 0 < v_nq V ->
  (forall k, compared k -> v_arr V k = option_map (map Some) (vals k)) -> v_arr V Peff <> None ->
  vals Pddq = Some ddq -> exists l, state_dump H s = Ok l /\ forall v, In (Peff, v) l <-> v = ddq.
Proof. exact c86_dump_eff. Qed.
Print Assumptions C86_print_efforts_refuted.

(** a state with efforts but no accelerations, or without joints but with a position array,
    cannot be printed at all. *)
Theorem C86_print_fails_refuted :
  (forall H s V, shows H s V -> v_arr V Peff <> None -> v_arr V Pddq = None -> state_dump H s = Undef) /\
  (forall H s V, shows H s V -> v_nq V = 0 -> v_arr V Pq <> None -> state_dump H s = Undef).
Proof. exact (conj c86_dump_eff_only c86_dump_empty). Qed.
Print Assumptions C86_print_fails_refuted.

(** After any history of a point list - states added at either end, the caller's memory
    changed in between - the list holds exactly the points that were not alike to the point at
    their end, with the contents they had when they were added; following the next links from
    the front, or the prev links from the back, meets them all in order; and no further call
    can fail. *)
Theorem C86_point_list : forall e H L, history e H L ->
  exists l, added e l /\ contents H L l /\ pts_size L = length l /\
    links n_next (pl_nodes L) (front (pl_list L)) (pl_list L) /\
    links n_prev (pl_nodes L) (back (pl_list L)) (rev (pl_list L)) /\
    forall s V, shows H s V -> stored V ->
      (exists H' L', pts_add H L s = Ok (H', L') /\ grew H H') /\
      (exists H' L', pts_add_front H L s = Ok (H', L') /\ grew H H').
Proof. exact c86_history. Qed.
Print Assumptions C86_point_list.

(** What a history leaves is determined by it. *)
Theorem C86_determined : forall e l, added e l -> forall l', added e l' -> l = l'.
Proof. exact c86_one_answer. Qed.
Print Assumptions C86_determined.

(** Neighbours in the list are never alike, every point that was given is alike to one that
    was kept, and points added at the back are kept in their order, the first one always. *)
Theorem C86_kept : forall e l, added e l ->
  (forall pre W V suf, l = pre ++ W :: V :: suf -> ~ near W V) /\
  (forall d V, In (d, V) e -> exists W, In W l /\ (W = V \/ near W V)) /\
  ((forall d V, In (d, V) e -> d = Back) -> subsequence l (map snd e) /\ hd_error l = hd_error (map snd e)).
Proof. exact (fun e l A => conj (c86_apart e l A) (conj (c86_covered e l A) (c86_order e l A))). Qed.
Print Assumptions C86_kept.

(** The start and final states are the first and the last point. *)
Theorem C86_ends : forall H L V r, contents H L (V :: r) ->
  (exists s, start_state L = Ok s /\ shows H s V) /\ (exists s, final_state L = Ok s /\ shows H s (last (V :: r) V)).
Proof. exact c86_ends. Qed.
Print Assumptions C86_ends.

(** Adding a configuration or a pose is adding the state that has only it. *)
Theorem C86_add_joints : forall e H L n q v, history e H L -> cells_at H q (map Some v) -> length v = n ->
  exists H' L', pts_add_q H L n q = Ok (H', L') /\ history (e ++ [(Back, joints v)]) H' L'.
Proof. exact c86_add_q. Qed.
Print Assumptions C86_add_joints.
Theorem C86_add_pose : forall e H L a E, history e H L -> cells_at H a (map Some E) -> length E = 7 ->
  exists H' L', pts_add_qutr H L a = Ok (H', L') /\ history (e ++ [(Back, pose E)]) H' L'.
Proof. exact c86_add_qutr. Qed.
Print Assumptions C86_add_pose.

(** A state that differs from the last point only in its efforts, by however much, is lost. *)
Theorem C86_efforts_lost_refuted : forall H L x e e' s t H' L' H2,
  history [] H L -> shows H s (q_eff x e) -> pts_add H L s = Ok (H', L') ->
  length H' <= length H2 -> (forall i, owned L' i -> nth_error H2 i = nth_error H' i) ->
  shows H2 t (q_eff x e') -> pts_add H2 L' t = Ok (H2, L') /\
  exists p, final_state L' = Ok p /\ shows H2 p (q_eff x e).
Proof. exact c86_efforts_lost. Qed.
Print Assumptions C86_efforts_lost_refuted.

(** Printing a list prints its points in order and ends. *)
Theorem C86_print_list : forall e H L l vals fuel, history e H L -> added e l -> Forall2 printable l vals ->
  length l <= fuel -> pts_dump H L fuel = Ok (map lines vals).
Proof. exact c86_dump_list. Qed.
Print Assumptions C86_print_list.

(** The point list of a joint path has the rows of the path added in order, and keeps none of
    the path's memory. *)
Theorem C86_path_list : forall H n_q n_path path v fuel,
  cells_at H path (map Some v) -> length v = n_q * n_path -> 0 < n_q -> n_path <= fuel ->
  exists H' L, rx_pt_list fuel H n_q n_path path = Ok (H', L) /\ grew H H' /\
    history (map (fun i => (Back, row n_q v i)) (seq 0 n_path)) H' L /\
    forall i, owned L i -> length H <= i.
Proof. exact c86_path. Qed.
Print Assumptions C86_path_list.

(** Four way points for two joints, the third within 1/1000 of the second: three are kept. *)
Example C86_nonvacuous :
  (exists H' L, rx_pt_list 4 h4 2 4 (0, 0) = Ok (H', L) /\
     contents H' L [row 2 v4 0; row 2 v4 1; row 2 v4 3] /\ pts_size L = 3) /\
  added (map (fun i => (Back, row 2 v4 i)) (seq 0 4)) [row 2 v4 0; row 2 v4 1; row 2 v4 3].
Proof. exact (conj c86_example v4_added). Qed.
