(** Model of the scene graph: src/rx/scenegraph.cpp, src/rx/sg_api.cpp,
    src/rx/scene_kin.c and src/rx/scene_sub.cpp.

    Frame objects live in [frame_map], a std::map from names, so a pointer to a
    frame object is modelled by the name under which it is stored.  Frames also
    carry the address of the object, used only where the code compares or keeps
    raw character pointers into it (allowed collisions).  Doubles are ideal reals as
    in TfModel.  Identifiers (signed long) are unbounded integers.  *)
From Coq Require Import ZArith String List Bool Reals.
From Verif Require Import TfModel.
Import ListNotations.
Open Scope Z_scope.

(** Result of a call: a value, a call of abort() (or a failed assert, or
    the library's error handler), or undefined behaviour (null or dangling pointer,
    index outside an array, uninitialised value). [Hang] is a loop that outlives its
    step budget. *)
Inductive res (A : Type) := Ok (a : A) | Abort | UB | Hang.
Arguments Ok {A} a. Arguments Abort {A}. Arguments UB {A}. Arguments Hang {A}.
Definition bind {A B} (r : res A) (f : A -> res B) : res B :=
  match r with Ok a => f a | Abort => Abort | UB => UB | Hang => Hang end.
(** A value that must have been set. *)
Definition from {A} (o : option A) : res A := match o with Some a => Ok a | None => UB end.

(** ** std::map<std::string,A>: association list in increasing byte order *)
Definition smap (A : Type) := list (string * A).
Fixpoint mfind {A} (k : string) (m : smap A) : option A :=
  match m with
  | [] => None
  | (k', a) :: r => if String.eqb k k' then Some a else mfind k r
  end.
(** [m[k] = a] *)
Fixpoint mset {A} (k : string) (a : A) (m : smap A) : smap A :=
  match m with
  | [] => [(k, a)]
  | (k', a') :: r =>
      match String.compare k k' with
      | Lt => (k, a) :: m
      | Eq => (k, a) :: r
      | Gt => (k', a') :: mset k a r
      end
  end.
(** [m.erase(k)] *)
Fixpoint mdel {A} (k : string) (m : smap A) : smap A :=
  match m with
  | [] => []
  | (k', a') :: r => if String.eqb k k' then r else (k', a') :: mdel k r
  end.
Definition mhas {A} (k : string) (m : smap A) : bool :=
  match mfind k m with Some _ => true | None => false end.

(** ** Data *)

(** include/amino/rx/scenegraph.h 64-82, rxerr.h 69 *)
Definition FRAME_ROOT : Z := -1.
Definition FRAME_NONE : Z := -2.
Definition CONFIG_NONE : Z := -1.
Definition CONFIG_MULTI : Z := -2.
Definition INVALID_FRAME : Z := 8.

(** enum aa_rx_frame_type: scenegraph.h 87-91 *)
Inductive ftype := Fixed | Revolute | Prismatic.
Definition is_joint (t : ftype) : bool := match t with Fixed => false | _ => true end.

(** struct SceneFrame / SceneFrameJoint: scenegraph_internal.h 92-136.  The joint
    fields are meaningless for a fixed frame.  [None] for an id is "not
    yet written". *)
Record frame := mkF {
  f_type : ftype; f_name : string; f_parent : string;
  f_cfg : string; f_off : R; f_axis : V3;
  f_E : QV; f_R : M33; f_S : DQ;
  f_fid : option Z; f_pid : option Z; f_cidx : option nat;
  f_inertial : option (R * M33); f_geoms : list nat; f_addr : nat }.

Definition set_fid (f : frame) (x : option Z) : frame :=
  mkF (f_type f) (f_name f) (f_parent f) (f_cfg f) (f_off f) (f_axis f) (f_E f) (f_R f) (f_S f)
      x (f_pid f) (f_cidx f) (f_inertial f) (f_geoms f) (f_addr f).
Definition set_pid (f : frame) (x : option Z) : frame :=
  mkF (f_type f) (f_name f) (f_parent f) (f_cfg f) (f_off f) (f_axis f) (f_E f) (f_R f) (f_S f)
      (f_fid f) x (f_cidx f) (f_inertial f) (f_geoms f) (f_addr f).
Definition set_cidx (f : frame) (x : option nat) : frame :=
  mkF (f_type f) (f_name f) (f_parent f) (f_cfg f) (f_off f) (f_axis f) (f_E f) (f_R f) (f_S f)
      (f_fid f) (f_pid f) x (f_inertial f) (f_geoms f) (f_addr f).
Definition set_parent_E (f : frame) (p : string) (E : QV) : frame :=
  mkF (f_type f) (f_name f) p (f_cfg f) (f_off f) (f_axis f) E (f_R f) (f_S f)
      (f_fid f) (f_pid f) (f_cidx f) (f_inertial f) (f_geoms f) (f_addr f).
Definition set_inertial (f : frame) (x : option (R * M33)) : frame :=
  mkF (f_type f) (f_name f) (f_parent f) (f_cfg f) (f_off f) (f_axis f) (f_E f) (f_R f) (f_S f)
      (f_fid f) (f_pid f) (f_cidx f) x (f_geoms f) (f_addr f).
Definition set_geoms (f : frame) (x : list nat) : frame :=
  mkF (f_type f) (f_name f) (f_parent f) (f_cfg f) (f_off f) (f_axis f) (f_E f) (f_R f) (f_S f)
      (f_fid f) (f_pid f) (f_cidx f) (f_inertial f) x (f_addr f).

(** SceneFrame, SceneFrameJoint constructors: scenegraph.cpp 59-74, 105-118.  A null
    [config_name] means the frame's own name. *)
Definition new_frame (t : ftype) (parent name : string) (q : Q4) (v : V3)
    (cfg : option string) (off : R) (ax : V3) (addr : nat) : frame :=
  mkF t name parent (match cfg with Some c => c | None => name end) off ax
      (mkE q v) (quat2rotmat q) (qutr2duqu (mkE q v)) None None None None [] addr.

(** SceneFrame::in_global: scenegraph.cpp 88-91 *)
Definition in_global (f : frame) : bool := String.eqb (f_parent f) "".

(** struct aa_rx_config_limits: scenegraph_internal.h 43-60.  A has_x bit
    together with x_min, x_max is an option. *)
Inductive lkind := LPos | LVel | LAcc | LEff.
Record limits := mkL { l_pos : option (R * R); l_vel : option (R * R);
                       l_acc : option (R * R); l_eff : option (R * R) }.
Definition limits0 : limits := mkL None None None None.
Definition lget (k : lkind) (l : limits) : option (R * R) :=
  match k with LPos => l_pos l | LVel => l_vel l | LAcc => l_acc l | LEff => l_eff l end.
Definition lset (k : lkind) (x : option (R * R)) (l : limits) : limits :=
  match k with
  | LPos => mkL x (l_vel l) (l_acc l) (l_eff l)
  | LVel => mkL (l_pos l) x (l_acc l) (l_eff l)
  | LAcc => mkL (l_pos l) (l_vel l) x (l_eff l)
  | LEff => mkL (l_pos l) (l_vel l) (l_acc l) x
  end.

(** struct SceneGraph: scenegraph_internal.h 173-213.  A limits object is allocated
    once per name and never freed before the graph, so a pointer to it is its name;
    [s_lmap] holds null pointers as [None].  A pointer in [s_frames] is the frame's
    name, or [None] for null.  Of the GL and collision flags only the allowed set and its
    index list are kept. *)
Record sg := mkS {
  s_map : smap frame;
  s_lmap : smap (option limits);
  s_frames : list (option string);
  s_limits : list (option string);
  s_cmap : smap nat;
  s_crmap : list string;
  s_csize : option nat;
  s_allowed : list (nat * nat);
  s_next : nat;
  s_dirty : bool }.

Definition with_map (s : sg) (m : smap frame) (d : bool) : sg :=
  mkS m (s_lmap s) (s_frames s) (s_limits s) (s_cmap s) (s_crmap s) (s_csize s)
      (s_allowed s) (s_next s) d.
Definition with_lmap (s : sg) (m : smap (option limits)) : sg :=
  mkS (s_map s) m (s_frames s) (s_limits s) (s_cmap s) (s_crmap s) (s_csize s)
      (s_allowed s) (s_next s) (s_dirty s).
Definition with_allowed (s : sg) (l : list (nat * nat)) : sg :=
  mkS (s_map s) (s_lmap s) (s_frames s) (s_limits s) (s_cmap s) (s_crmap s) (s_csize s)
      l (s_next s) (s_dirty s).
Definition with_next (s : sg) (n : nat) : sg :=
  mkS (s_map s) (s_lmap s) (s_frames s) (s_limits s) (s_cmap s) (s_crmap s) (s_csize s)
      (s_allowed s) n (s_dirty s).

(** SceneGraph::SceneGraph, aa_rx_sg_create: scenegraph.cpp 269-272, sg_api.cpp 48-53.
    config_size is not initialised. *)
Definition sg_create : sg := mkS [] [] [] [] [] [] None [] 0 false.

(** ** Indexing: scenegraph.cpp 288-376 *)

(** sort_frame_helper: 288-303.  [l] is the output list, [v] the visited set. *)
Fixpoint sort_helper (fuel : nat) (m : smap frame) (name : string)
    (l v : list string) : res (list string * list string) :=
  match fuel with
  | O => Hang
  | S k =>
      if String.eqb name "" || existsb (String.eqb name) v then Ok (l, v)
      else match mfind name m with
           | None => UB
           | Some f =>
               bind (sort_helper k m (f_parent f) l (name :: v))
                    (fun '(l', v') => Ok (l' ++ [name], v'))
           end
  end.

(** 320-328: one helper call per frame in map order.  The budget of a helper call is
    one more than the number of frames. *)
Fixpoint sort_all (m : smap frame) (todo : smap frame) (l v : list string)
    : res (list string) :=
  match todo with
  | [] => Ok l
  | (_, f) :: r =>
      bind (sort_helper (S (length m)) m (f_name f) l v)
           (fun '(l', v') => sort_all m r l' v')
  end.

(** 310-317: every named parent exists *)
Definition parents_exist (m : smap frame) : bool :=
  forallb (fun p => in_global (snd p) || mhas (f_parent (snd p)) m) m.

(** 324: ids are invalidated (the interleaving with the sort does not
    matter: the sort does not read them) *)
Definition invalidate (m : smap frame) : smap frame :=
  map (fun p => (fst p, set_pid (set_fid (snd p) (Some FRAME_NONE)) (Some FRAME_NONE))) m.

Record ixst := mkIX {
  ix_map : smap frame; ix_lmap : smap (option limits);
  ix_limits : list (option string); ix_cmap : smap nat; ix_crmap : list string }.

(** [limits_map[name]]: inserts a null pointer when absent *)
Definition lmap_touch (n : string) (m : smap (option limits)) : smap (option limits) :=
  if mhas n m then m else mset n None m.
(** the pointer stored in the limits vector *)
Definition lptr (n : string) (m : smap (option limits)) : option string :=
  match mfind n m with Some (Some _) => Some n | _ => None end.

(** 339-371: body of the loop over the sorted list; [i] is i_frame.  The
    configuration set of the code holds exactly the keys of config_map. *)
Definition index_step (i : nat) (n : string) (x : ixst) : res ixst :=
  bind (from (mfind n (ix_map x))) (fun f0 =>
  let f1 := set_fid f0 (Some (Z.of_nat i)) in
  let m1 := mset n f1 (ix_map x) in
  bind (if in_global f1 then Ok FRAME_ROOT
        else bind (from (mfind (f_parent f1) m1)) (fun p => from (f_fid p))) (fun pid =>
  if negb (pid <? Z.of_nat i) then Abort
  else
  let f2 := set_pid f1 (Some pid) in
  if is_joint (f_type f2) then
    let c := f_cfg f2 in
    let x' :=
      if mhas c (ix_cmap x) then x
      else mkIX (ix_map x) (lmap_touch c (ix_lmap x))
                (ix_limits x ++ [lptr c (ix_lmap x)])
                (mset c (length (ix_crmap x)) (ix_cmap x)) (ix_crmap x ++ [c]) in
    bind (from (mfind c (ix_cmap x'))) (fun ci =>
    Ok (mkIX (mset n (set_cidx f2 (Some ci)) m1) (ix_lmap x') (ix_limits x') (ix_cmap x') (ix_crmap x')))
  else Ok (mkIX (mset n f2 m1) (ix_lmap x) (ix_limits x) (ix_cmap x) (ix_crmap x)))).

Fixpoint index_loop (i : nat) (l : list string) (x : ixst) : res ixst :=
  match l with
  | [] => Ok x
  | n :: r => bind (index_step i n x) (index_loop (S i) r)
  end.

(** SceneGraph::index = aa_rx_sg_init: 305-376.  frames.resize leaves the
    entries beyond the sorted list null (or stale). *)
Definition sg_init (s : sg) : res (Z * sg) :=
  if negb (s_dirty s) then Ok (0, s)
  else if negb (parents_exist (s_map s)) then Ok (INVALID_FRAME, s)
  else
    let m := invalidate (s_map s) in
    bind (sort_all m m [] []) (fun l =>
    bind (index_loop 0 l (mkIX m (s_lmap s) [] [] [])) (fun x =>
    Ok (0, mkS (ix_map x) (ix_lmap x)
               (map Some l ++ repeat None (length m - length l))
               (ix_limits x) (ix_cmap x) (ix_crmap x) (Some (length (ix_crmap x)))
               (s_allowed s) (s_next s) false))).

(** ** Editing *)

(** SceneGraph::add: scenegraph.cpp 379-391; aa_rx_sg_add_frame_*: sg_api.cpp 166-195.
    The old frame object of that name is deleted.  A null [q] or [v] is
    dereferenced by the frame constructor (scenegraph.cpp 72-73). *)
Definition sg_add (s : sg) (t : ftype) (parent name : string) (q : option Q4) (v : option V3)
    (cfg : option string) (off : R) (ax : V3) : res sg :=
  match q, v with
  | Some q, Some v =>
      Ok (with_next (with_map s (mset name (new_frame t parent name q v cfg off ax (s_next s)) (s_map s)) true)
                    (S (s_next s)))
  | _, _ => UB
  end.

(** aa_rx_sg_rm_frame: sg_api.cpp 197-212 *)
Definition sg_rm (s : sg) (name : string) : sg := with_map s (mdel name (s_map s)) true.

(** aa_rx_sg_reparent_name: sg_api.cpp 724-738.  An unknown frame is a null
    dereference.  A null new parent is "". *)
Definition sg_reparent (s : sg) (parent name : string) (E : QV) : res sg :=
  bind (from (mfind name (s_map s))) (fun f =>
  Ok (with_map s (mset name (set_parent_E f parent E) (s_map s)) true)).

(** get_limits, aa_rx_sg_set_limit_*: sg_api.cpp 548-578 *)
Definition sg_set_limit (s : sg) (k : lkind) (c : string) (min max : R) : sg :=
  let l := match mfind c (s_lmap s) with Some (Some l) => l | _ => limits0 end in
  with_lmap s (mset c (Some (lset k (Some (min, max)) l)) (s_lmap s)).

(** aa_rx_sg_get_limit_*: 580-600.  The return code is -1 without a limit. *)
Definition sg_get_limit (s : sg) (k : lkind) (id : Z) : res (option (R * R)) :=
  if id <? 0 then UB else
  bind (from (nth_error (s_limits s) (Z.to_nat id))) (fun p =>
  match p with
  | None => Ok None
  | Some c => match mfind c (s_lmap s) with
              | Some (Some l) => Ok (lget k l)
              | _ => UB
              end
  end).

(** aa_rx_sg_config_center: 603-611 *)
Definition sg_config_center (s : sg) (id : Z) : res R :=
  bind (sg_get_limit s LPos id) (fun o =>
  Ok (match o with Some (a, b) => ((b + a) / 2)%R | None => 0%R end)).

(** aa_rx_sg_frame_set_inertial: 626-639 *)
Definition sg_set_inertial (s : sg) (name : string) (mass : R) (J : M33) : res sg :=
  bind (from (mfind name (s_map s))) (fun f =>
  Ok (with_map s (mset name (set_inertial f (Some (mass, J))) (s_map s)) (s_dirty s))).

(** aa_rx_sg_add_geom (aa_rx_geom_attach): scenegraph.cpp 411-418.  A geometry
    object is represented by a number. *)
Definition sg_add_geom (s : sg) (name : string) (g : nat) : res sg :=
  bind (from (mfind name (s_map s))) (fun f =>
  Ok (with_map s (mset name (set_geoms f (f_geoms f ++ [g])) (s_map s)) (s_dirty s))).

(** std::set of pairs of character pointers: membership is by address *)
Definition pair_eqb (a b : nat * nat) : bool := Nat.eqb (fst a) (fst b) && Nat.eqb (snd a) (snd b).
Definition set_ins (p : nat * nat) (l : list (nat * nat)) : list (nat * nat) :=
  if existsb (pair_eqb p) l then l else p :: l.
Definition set_del (p : nat * nat) (l : list (nat * nat)) : list (nat * nat) :=
  filter (fun x => negb (pair_eqb p x)) l.

(** aa_rx_sg_allow_collision_name: sg_api.cpp 822-842 *)
Definition sg_allow (s : sg) (n0 n1 : string) (allowed : bool) : res sg :=
  bind (from (mfind n0 (s_map s))) (fun f0 =>
  bind (from (mfind n1 (s_map s))) (fun f1 =>
  let p := if (match String.compare n0 n1 with Lt => true | _ => false end)
           then (f_addr f0, f_addr f1) else (f_addr f1, f_addr f0) in
  Ok (with_allowed s (if allowed then set_ins p (s_allowed s) else set_del p (s_allowed s))))).

(** ** Queries *)

(** aa_rx_sg_ensure_clean_frames: scenegraph.cpp 430-441 *)
Definition clean {A} (s : sg) (r : res A) : res A := if s_dirty s then Abort else r.

(** [frames[(size_t)id]] as a frame object *)
Definition frame_at (s : sg) (id : Z) : res frame :=
  if id <? 0 then UB else
  bind (from (nth_error (s_frames s) (Z.to_nat id))) (fun p =>
  bind (from p) (fun n => from (mfind n (s_map s)))).

(** aa_rx_sg_frame_count: sg_api.cpp 78-82 *)
Definition frame_count (s : sg) : Z := Z.of_nat (length (s_frames s)).
(** aa_rx_sg_config_count: 67-76 *)
Definition config_count (s : sg) : res nat := clean s (from (s_csize s)).
(** aa_rx_sg_frame_type: 84-89 *)
Definition frame_type (s : sg) (id : Z) : res ftype :=
  clean s (bind (frame_at s id) (fun f => Ok (f_type f))).
(** aa_rx_sg_config_id: 91-99 *)
Definition config_id (s : sg) (c : string) : res Z :=
  clean s (Ok (match mfind c (s_cmap s) with Some i => Z.of_nat i | None => CONFIG_NONE end)).
(** aa_rx_sg_frame_id: 101-111 *)
Definition frame_id (s : sg) (n : string) : res Z :=
  if String.eqb n "" then Ok FRAME_ROOT
  else match mfind n (s_map s) with
       | Some f => from (f_fid f)
       | None => Ok FRAME_NONE
       end.
(** aa_rx_sg_frame_name: 113-130 *)
Definition frame_name (s : sg) (id : Z) : res string :=
  clean s
    (if id =? FRAME_ROOT then Ok ""%string
     else if id =? FRAME_NONE then Ok "?"%string
     else if (frame_count s <=? id) || (id <? 0) then Ok "?"%string
     else bind (frame_at s id) (fun f => Ok (f_name f))).
(** aa_rx_sg_config_name: 132-148 *)
Definition config_name (s : sg) (id : Z) : res string :=
  clean s
    (if id =? CONFIG_NONE then Ok "NONE"%string
     else if id =? CONFIG_MULTI then Ok "MULTI"%string
     else if (id <? 0) || (frame_count s <=? id) then Ok "NONE"%string
     else from (nth_error (s_crmap s) (Z.to_nat id))).
(** aa_rx_sg_frame_parent: 150-163 *)
Definition frame_parent (s : sg) (id : Z) : res Z :=
  clean s
    (if (id =? FRAME_NONE) || (id =? FRAME_ROOT) then Ok FRAME_NONE
     else bind (frame_at s id) (fun f => from (f_pid f))).
(** aa_rx_sg_frame_config: 530-546.  The code does not test that the indices are
    clean; with dirty indices the frame pointer may dangle, which is taken as UB. *)
Definition frame_config (s : sg) (id : Z) : res Z :=
  if s_dirty s then UB else
  bind (frame_at s id) (fun f =>
  if is_joint (f_type f) then bind (from (f_cidx f)) (fun i => Ok (Z.of_nat i)) else Ok CONFIG_NONE).
(** aa_rx_sg_frame_axis: 522-528.  For a fixed frame the cast is invalid. *)
Definition frame_axis (s : sg) (id : Z) : res V3 :=
  if s_dirty s then UB else
  bind (frame_at s id) (fun f => if is_joint (f_type f) then Ok (f_axis f) else UB).
(** aa_rx_sg_frame_get_mass / _get_inertia: 641-669; [None] is NaN / null *)
Definition frame_inertial (s : sg) (id : Z) : res (option (R * M33)) :=
  clean s (bind (frame_at s id) (fun f => Ok (f_inertial f))).

(** ** Histories of calls *)
Inductive op :=
| OAdd (t : ftype) (parent name : string) (q : option Q4) (v : option V3)
       (cfg : option string) (off : R) (ax : V3)
| ORm (name : string)
| OReparent (parent name : string) (E : QV)
| OInit
| OLimit (k : lkind) (c : string) (min max : R)
| OInertial (name : string) (mass : R) (J : M33)
| OGeom (name : string) (g : nat)
| OAllow (n0 n1 : string) (allowed : bool).

(** One call; the integer is the result of aa_rx_sg_init, 0 otherwise. *)
Definition step (s : sg) (o : op) : res (Z * sg) :=
  let ret r := bind r (fun s' => Ok (0, s')) in
  match o with
  | OAdd t p n q v c off ax => ret (sg_add s t p n q v c off ax)
  | ORm n => ret (Ok (sg_rm s n))
  | OReparent p n E => ret (sg_reparent s p n E)
  | OInit => sg_init s
  | OLimit k c a b => ret (Ok (sg_set_limit s k c a b))
  | OInertial n m J => ret (sg_set_inertial s n m J)
  | OGeom n g => ret (sg_add_geom s n g)
  | OAllow a b x => ret (sg_allow s a b x)
  end.

Fixpoint run (s : sg) (h : list op) : res sg :=
  match h with
  | [] => Ok s
  | o :: r => bind (step s o) (fun '(_, s') => run s' r)
  end.

(** ** Relative transforms: scenegraph.cpp 157-252 *)

(** [q[config_index] + offset] *)
Definition joint_value (f : frame) (q : list R) : res R :=
  bind (from (f_cidx f)) (fun i =>
  bind (from (nth_error q i)) (fun x => Ok (x + f_off f)%R)).

(** tf_rel: 157-161, 177-190, 212-221 *)
Definition tf_rel (f : frame) (q : list R) : res QV :=
  match f_type f with
  | Fixed => Ok (f_E f)
  | Prismatic =>
      bind (joint_value f q) (fun qo =>
      Ok (qutr_mul (f_E f) (mkE (mkQ 0 0 0 1) (vscale qo (f_axis f)))))
  | Revolute =>
      bind (joint_value f q) (fun qo =>
      Ok (mkE (qmul (eq (f_E f)) (axang2quat (mkA (f_axis f) qo))) (ev (f_E f))))
  end.

(** tfmat_rel: 163-168 (the twelve doubles of the output; the overrun is in
    [fixed_tfmat_rel_mem]), 192-200, 243-252 *)
Definition tfmat_rel (f : frame) (q : list R) : res TF :=
  match f_type f with
  | Fixed => Ok (mkT (f_R f) (ev (f_E f)))
  | Prismatic =>
      bind (joint_value f q) (fun qo =>
      Ok (mkT (f_R f) (vadd (ev (f_E f)) (vscale qo (f_axis f)))))
  | Revolute =>
      bind (joint_value f q) (fun qo =>
      Ok (mkT (mmul (f_R f) (axang2rotmat2 (mkA (f_axis f) qo))) (ev (f_E f))))
  end.

(** duqu_rel: 170-174, 202-210, 224-241.  [old] is what the output array
    held before the call: the prismatic case writes the member S and leaves the output
    alone. *)
Definition duqu_rel (f : frame) (q : list R) (old : DQ) : res DQ :=
  match f_type f with
  | Fixed => Ok (f_S f)
  | Prismatic => bind (joint_value f q) (fun _ => Ok old)
  | Revolute =>
      bind (joint_value f q) (fun qo =>
      let r := qmul (eq (f_E f)) (axang2quat (mkA (f_axis f) qo)) in
      Ok (mkD r (qmul_vq (vdivs (ev (f_E f)) 2) r)))
  end.

(** The stores of SceneFrameFixed::tfmat_rel: 163-168.  [memcpy n src off out] copies
    n doubles to out[off..]; writing past the end of [out] is UB.  [src9] are the nine doubles
    that start at E[4]. *)
Definition store_doubles (out : list R) (off : nat) (src : list R) : res (list R) :=
  if (Nat.leb (off + length src) (length out))
  then Ok (firstn off out ++ src ++ skipn (off + length src) out)
  else UB.
Definition m33_list (M : M33) : list R :=
  [m00 M; m10 M; m20 M; m01 M; m11 M; m21 M; m02 M; m12 M; m22 M].
(** E[4..6] followed by R[0..5] in the frame object *)
Definition fixed_tfmat_src (f : frame) : list R :=
  [vx (ev (f_E f)); vy (ev (f_E f)); vz (ev (f_E f))] ++ firstn 6 (m33_list (f_R f)).
Definition fixed_tfmat_rel_mem (f : frame) (out : list R) : res (list R) :=
  bind (store_doubles out 0 (m33_list (f_R f))) (fun o => store_doubles o 9 (fixed_tfmat_src f)).

(** ** Forward kinematics *)

(** The loop of aa_rx_sg_tf (sg_api.cpp 256-275), aa_rx_sg_tfmat (331-349) and
    aa_rx_sg_duqu (367-385), which differ only in the representation.  Columns of the
    arrays do not overlap (leading dimension at least the transform's length).
    [rel i f] is the relative transform written for frame number i. *)
Fixpoint fk_loop {A} (mul : A -> A -> A) (rel : nat -> frame -> res A) (s : sg)
    (ids : list nat) (TF_rel TF_abs : list A) : res (list A * list A) :=
  match ids with
  | [] => Ok (TF_rel, TF_abs)
  | i :: r =>
      bind (frame_at s (Z.of_nat i)) (fun f =>
      bind (rel i f) (fun E_rel =>
      bind (if in_global f then Ok E_rel
            else bind (from (f_pid f)) (fun p =>
                 if negb (p <? Z.of_nat i) then Abort
                 else if p <? 0 then UB
                 else bind (from (nth_error TF_abs (Z.to_nat p))) (fun Ep => Ok (mul Ep E_rel))))
      (fun E_abs => fk_loop mul rel s r (TF_rel ++ [E_rel]) (TF_abs ++ [E_abs]))))
  end.

Definition fk_run {A} (mul : A -> A -> A) (rel : nat -> frame -> res A) (s : sg)
    (q : list R) (n_tf : nat) : res (list A * list A) :=
  clean s (bind (from (s_csize s)) (fun n =>
  if negb (Nat.eqb (length q) n) then Abort
  else fk_loop mul rel s (seq 0 (Nat.min n_tf (length (s_frames s)))) [] [])).

(** aa_rx_sg_tf: 241-277 *)
Definition sg_tf (s : sg) (q : list R) (n_tf : nat) : res (list QV * list QV) :=
  fk_run qutr_mul (fun _ f => tf_rel f q) s q n_tf.
(** aa_rx_sg_tfmat: 316-350 *)
Definition sg_tfmat (s : sg) (q : list R) (n_tf : nat) : res (list TF * list TF) :=
  fk_run tfmat_mul (fun _ f => tfmat_rel f q) s q n_tf.
(** aa_rx_sg_duqu: 352-387; [old] is the previous contents of TF_rel *)
Definition sg_duqu (s : sg) (q : list R) (n_tf : nat) (old : nat -> DQ) : res (list DQ * list DQ) :=
  fk_run dmul (fun i f => duqu_rel f q (old i)) s q n_tf.

(** aa_rx_sg_tf_update: 391-462.  [rel0], [abs0] are read at the index of the
    frame only, so the outputs may be the same arrays.  [aa_feq(a,b,0)] is
    equality. *)
Definition Req_b (a b : R) : bool := if Req_EM_T a b then true else false.
Fixpoint update_loop (s : sg) (q0 q : list R) (rel0 abs0 : list QV) (ids : list nat)
    (TF_rel TF_abs : list QV) (upd : list bool) : res (list QV * list QV) :=
  match ids with
  | [] => Ok (TF_rel, TF_abs)
  | i :: r =>
      bind (frame_at s (Z.of_nat i)) (fun f =>
      let g := in_global f in
      let parent_updated :=
        if g then Ok false
        else bind (from (f_pid f)) (fun p =>
             if p <? 0 then UB else from (nth_error upd (Z.to_nat p))) in
      bind (match f_type f with
            | Fixed => bind (tf_rel f q) (fun E => bind parent_updated (fun b => Ok (E, b)))
            | _ =>
                bind (from (f_cidx f)) (fun c =>
                bind (from (nth_error q0 c)) (fun x0 =>
                bind (from (nth_error q c)) (fun x =>
                if Req_b x0 x
                then bind (from (nth_error rel0 i)) (fun E => bind parent_updated (fun b => Ok (E, b)))
                else bind (tf_rel f q) (fun E => Ok (E, true)))))
            end) (fun '(E_rel, up) =>
      bind (if up then
              if g then Ok E_rel
              else bind (from (f_pid f)) (fun p =>
                   if negb (p <? Z.of_nat i) then Abort
                   else if p <? 0 then UB
                   else bind (from (nth_error TF_abs (Z.to_nat p))) (fun Ep => Ok (qutr_mul Ep E_rel)))
            else from (nth_error abs0 i)) (fun E_abs =>
      update_loop s q0 q rel0 abs0 r (TF_rel ++ [E_rel]) (TF_abs ++ [E_abs]) (upd ++ [up]))))
  end.
Definition sg_tf_update (s : sg) (q0 q : list R) (n_tf : nat) (rel0 abs0 : list QV)
    : res (list QV * list QV) :=
  clean s (bind (from (s_csize s)) (fun n =>
  if negb (Nat.eqb (length q) n) then Abort
  else update_loop s q0 q rel0 abs0 (seq 0 (Nat.min n_tf (length (s_frames s)))) [] [] [])).

(** ** struct aa_rx_fk: sg_api.cpp 858-976 *)

(** A strided vector view: struct aa_dvec (include/amino/mat.h) *)
Record dvec := mkDV { dv_len : nat; dv_data : list R; dv_inc : nat }.
Definition dv_get (v : dvec) (i : nat) : option R := nth_error (dv_data v) (i * dv_inc v).

Fixpoint set_at {A} (l : list A) (i : nat) (a : A) : list A :=
  match l, i with
  | [], _ => []
  | _ :: r, O => a :: r
  | x :: r, S j => x :: set_at r j a
  end.

(** aa_rx_fk_ref as an lvalue: the index must be inside the array *)
Definition fk_read (abs : list QV) (id : Z) : res QV :=
  if id <? 0 then UB else from (nth_error abs (Z.to_nat id)).
Definition fk_write (abs : list QV) (id : Z) (E : QV) : res (list QV) :=
  if (id <? 0) || negb (Nat.ltb (Z.to_nat id) (length abs)) then UB
  else Ok (set_at abs (Z.to_nat id) E).

(** aa_rx_fk_set_rel: 938-951 *)
Definition fk_set_rel (s : sg) (abs : list QV) (id : Z) (E_rel : QV) : res (list QV) :=
  bind (frame_parent s id) (fun p =>
  if p =? FRAME_ROOT then fk_write abs id E_rel
  else bind (fk_read abs p) (fun Ep => fk_write abs id (qutr_mul Ep E_rel))).

Fixpoint fk_all_loop (s : sg) (q : list R) (ids : list nat) (abs : list QV) : res (list QV) :=
  match ids with
  | [] => Ok abs
  | i :: r =>
      bind (frame_at s (Z.of_nat i)) (fun f =>
      bind (tf_rel f q) (fun E =>
      bind (fk_set_rel s abs (Z.of_nat i) E) (fun abs' => fk_all_loop s q r abs')))
  end.
(** aa_rx_fk_all: 956-976.  [q->data] is used as a contiguous array. *)
Definition fk_all (s : sg) (v : dvec) (abs : list QV) : res (list QV) :=
  clean s (bind (config_count s) (fun n =>
  if negb (Nat.eqb (dv_len v) n) then Abort
  else fk_all_loop s (dv_data v) (seq 0 (length (s_frames s))) abs)).

(** aa_rx_fk_get_abs_qutr: 896-905; the array holds one transform per frame *)
Definition fk_get_abs (s : sg) (abs : list QV) (id : Z) : res QV :=
  if (id <? 0) || (frame_count s <? id) then Abort else fk_read abs id.
(** aa_rx_fk_get_rel_qutr: 908-920 *)
Definition ident_tf : QV := mkE (mkQ 0 0 0 1) (mkV 0 0 0).
Definition fk_get_rel (abs : list QV) (p c : Z) : res QV :=
  bind (if p =? FRAME_ROOT then Ok ident_tf else fk_read abs p) (fun Ep =>
  bind (if c =? FRAME_ROOT then Ok ident_tf else fk_read abs c) (fun Ec =>
  Ok (qutr_cmul Ep Ec))).
(** aa_rx_sg_rel_tf: 681-711 *)
Definition sg_rel_tf (s : sg) (a b : Z) (abs : list QV) : res QV :=
  clean s
    (if a =? FRAME_ROOT then
       if b =? FRAME_ROOT then Ok ident_tf else fk_read abs b
     else
       if b =? FRAME_ROOT then bind (fk_read abs a) (fun E => Ok (qutr_conj E))
       else bind (fk_read abs a) (fun Ea => bind (fk_read abs b) (fun Eb => Ok (qutr_cmul Ea Eb)))).

(** ** Sub-scene-graphs: src/rx/scene_kin.c *)

(** aa_rx_sg_chain_frame_count: 134-153 *)
Fixpoint chain_count_loop (fuel : nat) (s : sg) (root tip : Z) (a : nat) : res nat :=
  match fuel with
  | O => Hang
  | S k =>
      if negb (tip =? root) && negb (tip =? FRAME_ROOT)
      then bind (frame_type s tip) (fun _ =>
           bind (frame_parent s tip) (fun p => chain_count_loop k s root p (S a)))
      else Ok a
  end.
Definition chain_frame_count (s : sg) (root tip : Z) : res nat :=
  chain_count_loop (S (S (length (s_frames s)))) s root tip 0.

(** aa_rx_sg_chain_frames: 155-176.  [k] entries remain to be filled, i.e. ptr
    is chain_frames + k - 1. *)
Fixpoint chain_fill_loop (k : nat) (s : sg) (root tip : Z) (out : list Z) : res (list Z) :=
  if negb (tip =? root) && negb (tip =? FRAME_ROOT)
  then match k with
       | O => Ok out
       | S j =>
           bind (frame_type s tip) (fun _ =>
           let out' := set_at out j tip in
           bind (frame_parent s tip) (fun p => chain_fill_loop j s root p out'))
       end
  else Ok out.
Definition chain_frames (s : sg) (root tip : Z) (out : list Z) : res (list Z) :=
  chain_fill_loop (length out) s root tip out.

(** aa_rx_sg_chain_config_count: 178-196 (counts from the back; order is
    immaterial) *)
Fixpoint chain_config_count (s : sg) (frames : list Z) : res nat :=
  match frames with
  | [] => Ok O
  | f :: r =>
      bind (frame_type s f) (fun t =>
      bind (chain_config_count s r) (fun n => Ok (if is_joint t then S n else n)))
  end.
(** aa_rx_sg_chain_configs: 199-220.  [n] is the room left in the output. *)
Fixpoint chain_configs (s : sg) (frames : list Z) (n : nat) : res (list Z) :=
  match frames, n with
  | [], _ | _, O => Ok []
  | f :: r, S k =>
      bind (frame_type s f) (fun t =>
      if is_joint t
      then bind (frame_config s f) (fun c => bind (chain_configs s r k) (fun l => Ok (c :: l)))
      else chain_configs s r n)
  end.

(** struct aa_rx_sg_sub: include/amino/rx/scene_ik_internal.h; [None] for [ss_ees]
    is an uninitialised field *)
Record ssg := mkSS { ss_frames : list Z; ss_configs : list Z; ss_ees : option (list Z) }.

(** aa_rx_sg_chain_create: 309-332.  [junk] is the contents of the fresh array. *)
Definition chain_create (s : sg) (root tip : Z) (junk : nat -> Z) : res ssg :=
  bind (chain_frame_count s root tip) (fun n =>
  bind (chain_frames s root tip (map junk (seq 0 n))) (fun fr =>
  bind (chain_config_count s fr) (fun nc =>
  bind (chain_configs s fr nc) (fun cs => Ok (mkSS fr cs (Some [tip])))))).

(** aa_rx_sg_chain_multiple_frames: src/rx/scene_sub.cpp 103-138.  [acc] is the
    std::set as an increasing list. *)
Fixpoint zset_ins (x : Z) (l : list Z) : list Z :=
  match l with
  | [] => [x]
  | y :: r => if x <? y then x :: l else if x =? y then l else y :: zset_ins x r
  end.
Fixpoint multi_walk (fuel : nat) (s : sg) (root tip : Z) (acc : list Z) : res (list Z) :=
  match fuel with
  | O => Hang
  | S k =>
      if negb (tip =? root) && negb (tip =? FRAME_ROOT)
      then if negb (existsb (Z.eqb tip) acc) then Ok acc
           else bind (frame_type s tip) (fun _ =>
                let acc' := zset_ins tip acc in
                bind (frame_parent s tip) (fun p => multi_walk k s root p acc'))
      else Ok acc
  end.
Fixpoint multi_frames (s : sg) (root : Z) (tips : list Z) (acc : list Z) : res (list Z) :=
  match tips with
  | [] => Ok acc
  | t :: r => bind (multi_walk (S (S (length (s_frames s)))) s root t acc) (multi_frames s root r)
  end.
(** aa_rx_sg_multiple_chain_frame_count: 334-344 *)
Fixpoint multi_count (s : sg) (root : Z) (tips : list Z) : res nat :=
  match tips with
  | [] => Ok O
  | t :: r => bind (chain_frame_count s root t) (fun a => bind (multi_count s root r) (fun b => Ok (a + b)%nat))
  end.
(** aa_rx_sg_multiple_chain_create: 347-372 *)
Definition multiple_chain_create (s : sg) (root : Z) (tips : list Z) : res ssg :=
  bind (multi_count s root tips) (fun _ =>
  bind (multi_frames s root tips []) (fun fr =>
  bind (chain_config_count s fr) (fun nc =>
  bind (chain_configs s fr nc) (fun cs => Ok (mkSS fr cs None))))).

(** aa_rx_sg_config_get: sg_api.cpp 496-507 *)
Fixpoint config_get {A} (ids : list Z) (all : list A) : res (list A) :=
  match ids with
  | [] => Ok []
  | i :: r =>
      if i <? 0 then UB else
      bind (from (nth_error all (Z.to_nat i))) (fun x =>
      bind (config_get r all) (fun l => Ok (x :: l)))
  end.
(** aa_rx_sg_config_set: 509-520 *)
Fixpoint config_set {A} (ids : list Z) (sub : list A) (all : list A) : res (list A) :=
  match ids with
  | [] => Ok all
  | i :: r =>
      match sub with
      | [] => UB
      | x :: xs =>
          if (i <? 0) || negb (Nat.ltb (Z.to_nat i) (length all)) then UB
          else config_set r xs (set_at all (Z.to_nat i) x)
      end
  end.

(** aa_rx_sg_sub_config_scatter into a contiguous vector: 249-263.  [all] holds
    [None] for an uninitialised element. *)
Fixpoint scatter (ids : list Z) (v : dvec) (j : nat) (all : list (option R)) : res (list (option R)) :=
  match ids with
  | [] => Ok all
  | i :: r =>
      bind (from (dv_get v j)) (fun x =>
      if (i <? 0) || negb (Nat.ltb (Z.to_nat i) (length all)) then UB
      else scatter r v (S j) (set_at all (Z.to_nat i) (Some x)))
  end.
Definition sub_scatter (s : sg) (ss : ssg) (v : dvec) (all : list (option R)) : res (list (option R)) :=
  bind (config_count s) (fun n =>
  if negb (Nat.eqb (dv_len v) (length (ss_configs ss))) || negb (Nat.eqb (length all) n) then Abort
  else scatter (ss_configs ss) v 0 all).
(** aa_rx_sg_sub_config_gather from a strided vector: 266-280 *)
Fixpoint gather (ids : list Z) (v : dvec) : res (list R) :=
  match ids with
  | [] => Ok []
  | i :: r =>
      if i <? 0 then UB else
      bind (from (dv_get v (Z.to_nat i))) (fun x => bind (gather r v) (fun l => Ok (x :: l)))
  end.

(** aa_rx_sg_sub_expand_path: 283-306.  Paths are lists of points; [start]
    is null or the configuration copied into every point. *)
Fixpoint expand_path {A} (ids : list Z) (start : option (list A)) (sub all : list (list A))
    : res (list (list A)) :=
  match sub, all with
  | x :: xs, a :: r =>
      bind (config_set ids x (match start with Some q => q | None => a end)) (fun a' =>
      bind (expand_path ids start xs r) (fun l => Ok (a' :: l)))
  | _, _ => Ok []
  end.

(** tf_rel on a configuration with uninitialised elements: only the joint's own
    element is read *)
Definition tf_rel_o (f : frame) (q : list (option R)) : res QV :=
  match f_type f with
  | Fixed => Ok (f_E f)
  | _ => bind (from (f_cidx f)) (fun i =>
         bind (from (nth_error q i)) (fun o =>
         bind (from o) (fun x => tf_rel (set_cidx f (Some O)) [x])))
  end.
Fixpoint fk_sub_loop (s : sg) (q : list (option R)) (frames : list Z) (abs : list QV) : res (list QV) :=
  match frames with
  | [] => Ok abs
  | i :: r =>
      bind (frame_at s i) (fun f =>
      bind (tf_rel_o f q) (fun E =>
      bind (fk_set_rel s abs i E) (fun abs' => fk_sub_loop s q r abs')))
  end.
(** aa_rx_fk_sub: src/rx/scene_sub.cpp 80-101.  q_all is not initialised. *)
Definition fk_sub (s : sg) (ss : ssg) (v : dvec) (abs : list QV) : res (list QV) :=
  clean s (bind (config_count s) (fun n =>
  bind (sub_scatter s ss v (repeat None n)) (fun q => fk_sub_loop s q (ss_frames ss) abs))).

(** ** Jacobians: scene_kin.c 376-439, 464-533, 561-618 *)

(** One column: rotational part, translational part.  [pe] is the end-effector
    position for the velocity Jacobian (464-533, 561-618). *)
Definition jac_vel_col (t : ftype) (a : V3) (E : QV) (pe : V3) : V3 * V3 :=
  match t with
  | Revolute => let jr := qrot (eq E) a in (jr, cross jr (vsub pe (ev E)))
  | _ => (mkV 0 0 0, qrot (eq E) a)
  end.
(** 376-439: the twist Jacobian *)
Definition jac_twist_col (t : ftype) (a : V3) (E : QV) : V3 * V3 :=
  match t with
  | Revolute => let jr := qrot (eq E) a in (jr, cross (ev E) jr)
  | _ => (mkV 0 0 0, qrot (eq E) a)
  end.
(** the loop; [n] is the number of columns left *)
Fixpoint jac_loop (s : sg) (col : ftype -> V3 -> QV -> V3 * V3) (abs : list QV)
    (frames : list Z) (n : nat) : res (list (V3 * V3)) :=
  match frames, n with
  | [], _ | _, O => Ok []
  | f :: r, S k =>
      if f <? 0 then Abort else
      bind (frame_type s f) (fun t =>
      if is_joint t
      then bind (frame_axis s f) (fun a =>
           bind (fk_read abs f) (fun E =>
           bind (jac_loop s col abs r k) (fun l => Ok (col t a E :: l))))
      else jac_loop s col abs r n)
  end.
(** aa_rx_sg_chain_jacobian, aa_rx_sg_sub_jacobian, aa_rx_sg_sub_jac_vel_fill2 *)
Definition chain_jacobian (s : sg) (abs : list QV) (ss : ssg) : res (list (V3 * V3)) :=
  match ss_frames ss with
  | [] => UB
  | _ => bind (fk_read abs (last (ss_frames ss) 0)) (fun Ee =>
         jac_loop s (fun t a E => jac_vel_col t a E (ev Ee)) abs (ss_frames ss) (length (ss_configs ss)))
  end.
(** aa_rx_sg_sub_jac_twist_fill2 *)
Definition jac_twist (s : sg) (abs : list QV) (ss : ssg) : res (list (V3 * V3)) :=
  bind (jac_loop s jac_twist_col abs (ss_frames ss) (length (ss_configs ss))) (fun l =>
  if Nat.eqb (length l) (length (ss_configs ss)) then Ok l else Abort).

(** ** Copying: sg_api.cpp 754-811 *)

(** frames in index order, then limits, geometry, allowed pairs, then index *)
Definition copy_frame (s d : sg) (i : nat) : res sg :=
  bind (frame_at s (Z.of_nat i)) (fun f =>
  sg_add d (f_type f) (f_parent f) (f_name f) (Some (eq (f_E f))) (Some (ev (f_E f)))
         (Some (f_cfg f)) (f_off f) (f_axis f)).
Fixpoint copy_frames (s : sg) (ids : list nat) (d : sg) : res sg :=
  match ids with
  | [] => Ok d
  | i :: r => bind (copy_frame s d i) (copy_frames s r)
  end.
(** 787-795 *)
Definition copy_limits (s d : sg) : sg :=
  with_lmap d (fold_left (fun m p => mset (fst p) (snd p) m) (s_lmap s) (s_lmap d)).
(** 740-752, 797-801: aa_rx_sg_map_geom visits frames in index order; copied
    geometry objects keep their number *)
Fixpoint copy_geom_list (d : sg) (n : string) (gs : list nat) : res sg :=
  match gs with
  | [] => Ok d
  | g :: r => bind (sg_add_geom d n g) (fun d' => copy_geom_list d' n r)
  end.
Fixpoint copy_geoms (s : sg) (ids : list nat) (d : sg) : res sg :=
  match ids with
  | [] => Ok d
  | i :: r =>
      bind (frame_at s (Z.of_nat i)) (fun f =>
      bind (frame_name s (Z.of_nat i)) (fun n =>
      bind (copy_geom_list d n (f_geoms f)) (copy_geoms s r)))
  end.
(** The string a stored character pointer points to: that of the live frame object with
    this address; otherwise the pointer dangles. *)
Fixpoint name_at (a : nat) (m : smap frame) : res string :=
  match m with
  | [] => UB
  | (_, f) :: r => if Nat.eqb (f_addr f) a then Ok (f_name f) else name_at a r
  end.
(** 803-805 *)
Fixpoint copy_allowed (s : sg) (l : list (nat * nat)) (d : sg) : res sg :=
  match l with
  | [] => Ok d
  | (a, b) :: r =>
      bind (name_at a (s_map s)) (fun na =>
      bind (name_at b (s_map s)) (fun nb =>
      bind (sg_allow d na nb true) (copy_allowed s r)))
  end.
Definition sg_copy (s : sg) : res sg :=
  clean s
    (let ids := seq 0 (length (s_frames s)) in
     bind (copy_frames s ids sg_create) (fun d =>
     bind (copy_geoms s ids (copy_limits s d)) (fun d =>
     bind (copy_allowed s (s_allowed s) d) (fun d =>
     bind (sg_init d) (fun '(_, d) => Ok d))))).
