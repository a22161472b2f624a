(** What a user of the scene graph relies on, in terms of the calls made. *)
From Coq Require Import ZArith String List Bool Reals.
From Verif Require Import TfModel TfSpec SgModel.
Import ListNotations.
Open Scope Z_scope.

(** ** The graph a sequence of calls declares *)

(** A declared frame: kind, parent ("" for the root), configuration variable, offset, axis,
    and the rotation and translation to the parent. *)
Record decl := mkDecl {
  d_type : ftype; d_parent : string; d_cfg : string; d_off : R; d_axis : V3;
  d_q : Q4; d_v : V3 }.
Definition graph := string -> option decl.
Definition upd (g : graph) (n : string) (d : option decl) : graph :=
  fun m => if String.eqb m n then d else g m.

(** Adding replaces a frame of the same name; a joint without a configuration name
    uses its own name; re-parenting replaces parent and pose. *)
Definition declare (g : graph) (o : op) : graph :=
  match o with
  | OAdd t p n (Some q) (Some v) c off ax =>
      upd g n (Some (mkDecl t p (match c with Some c => c | None => n end) off ax q v))
  | ORm n => upd g n None
  | OReparent p n E =>
      match g n with
      | Some d => upd g n (Some (mkDecl (d_type d) p (d_cfg d) (d_off d) (d_axis d)
                                        (TfModel.eq E) (ev E)))
      | None => g
      end
  | _ => g
  end.
Definition declared (h : list op) : graph := fold_left declare h (fun _ => None).

(** The frame's ancestors end at the root. *)
Inductive rooted (g : graph) : string -> Prop :=
| rooted_top n d : g n = Some d -> d_parent d = ""%string -> rooted g n
| rooted_child n d : g n = Some d -> d_parent d <> ""%string -> rooted g (d_parent d) -> rooted g n.
(** Every frame has a name, and its ancestors end at the root. *)
Definition named (g : graph) : Prop := g ""%string = None.
Definition forest (g : graph) : Prop := named g /\ forall n d, g n = Some d -> rooted g n.
(** Some frame's parent does not exist. *)
Definition orphan (g : graph) : Prop :=
  exists n d, g n = Some d /\ d_parent d <> ""%string /\ g (d_parent d) = None.
(** [above g a n]: a is a proper ancestor of n. *)
Inductive above (g : graph) (a : string) : string -> Prop :=
| above_parent n d : g n = Some d -> d_parent d = a -> a <> ""%string -> above g a n
| above_step n d : g n = Some d -> d_parent d <> ""%string -> above g a (d_parent d) -> above g a n.
Definition cyclic (g : graph) : Prop := exists n, above g n n.
Definition self_parent (g : graph) : Prop :=
  exists n d, n <> ""%string /\ g n = Some d /\ d_parent d = n.

(** Variables used by joints. *)
Definition uses_config (g : graph) (c : string) : Prop :=
  exists n d, g n = Some d /\ is_joint (d_type d) = true /\ d_cfg d = c.

(** Proper input: unit quaternions, and unit axes for revolute joints. *)
Definition proper_decl (d : decl) : Prop :=
  unitq (d_q d) /\ (d_type d = Revolute -> unit3 (d_axis d)).
Definition proper (g : graph) : Prop := forall n d, g n = Some d -> proper_decl d.

(** ** Where things are *)

(** Rotation by q then translation by v. *)
Definition place (q : Q4) (v p : V3) : V3 :=
  plus3 v (vecpart (hamilton (hamilton q (pure p)) (conjugate q))).
(** A revolute joint turns about its axis, a prismatic joint slides along it. *)
Definition joint_motion (t : ftype) (ax : V3) (x : R) (p : V3) : V3 :=
  match t with
  | Fixed => p
  | Revolute => rodrigues ax x p
  | Prismatic => plus3 (times3 x ax) p
  end.
Definition rel_motion (d : decl) (cfg : string -> R) (p : V3) : V3 :=
  place (d_q d) (d_v d) (joint_motion (d_type d) (d_axis d) (cfg (d_cfg d) + d_off d)%R p).
(** [located g cfg n p x]: with configuration [cfg], the point with coordinates [p] in
    frame [n] has coordinates [x] in the root frame. *)
Inductive located (g : graph) (cfg : string -> R) : string -> V3 -> V3 -> Prop :=
| loc_root p : located g cfg ""%string p p
| loc_frame n d p x :
    n <> ""%string -> g n = Some d ->
    located g cfg (d_parent d) (rel_motion d cfg p) x -> located g cfg n p x.

(** The configuration vector read through the names of the variables. *)
Definition config_of (s : sg) (q : list R) (c : string) : R :=
  match config_id s c with Ok i => nth (Z.to_nat i) q 0%R | _ => 0%R end.

(** [s] is what the calls [h] on a new scene graph produce, and its indices are
    up to date (aa_rx_sg_init succeeded after the last edit). *)
Definition ready (h : list op) (s : sg) : Prop :=
  run sg_create h = Ok s /\ s_dirty s = false.
(** [frame_no s n i]: aa_rx_sg_frame_id gives i for name n. *)
Definition frame_no (s : sg) (n : string) (i : nat) : Prop := frame_id s n = Ok (Z.of_nat i).

(** ** Limits *)
Definition lkind_eqb (a b : lkind) : bool :=
  match a, b with LPos, LPos | LVel, LVel | LAcc, LAcc | LEff, LEff => true | _, _ => false end.
(** The last limit of that kind set for a variable, if any. *)
Definition limit_step (lim : lkind -> string -> option (R * R)) (o : op) :=
  match o with
  | OLimit k c a b =>
      fun k' c' => if lkind_eqb k k' && String.eqb c c' then Some (a, b) else lim k' c'
  | _ => lim
  end.
Definition limit_of (h : list op) : lkind -> string -> option (R * R) :=
  fold_left limit_step h (fun _ _ => None).

(** The call changes frames, so indices have to be made again. *)
Definition edits (o : op) : bool :=
  match o with OAdd _ _ _ _ _ _ _ _ | ORm _ | OReparent _ _ _ => true | _ => false end.

(** ** Poses as maps of points *)

(** The homogeneous matrix and the dual quaternion as maps of points. *)
Definition mat_place (T : TF) (p : V3) : V3 :=
  plus3 (tv T) (plus3 (times3 (vx p) (col0 (tR T)))
               (plus3 (times3 (vy p) (col1 (tR T))) (times3 (vz p) (col2 (tR T))))).
Definition dq_place (d : DQ) (p : V3) : V3 :=
  plus3 (times3 2 (vecpart (hamilton (ddual d) (conjugate (dreal d)))))
        (vecpart (hamilton (hamilton (dreal d) (pure p)) (conjugate (dreal d)))).
(** No frame was re-parented. *)
Definition no_reparent (h : list op) : Prop := forall p n E, ~ In (OReparent p n E) h.

(** ** Chains *)

(** [path g r n l]: going up from [n] one reaches [r]; [l] lists the frames passed,
    from just below [r] down to [n]. *)
Inductive path (g : graph) (r : string) : string -> list string -> Prop :=
| path_end : path g r r []
| path_step n d l : n <> r -> n <> ""%string -> g n = Some d -> path g r (d_parent d) l ->
    path g r n (l ++ [n]).
(** The joints among some frames, in order. *)
Definition joint_decls (g : graph) (l : list string) : list decl :=
  flat_map (fun n => match g n with
                     | Some d => if is_joint (d_type d) then [d] else []
                     | None => []
                     end) l.
