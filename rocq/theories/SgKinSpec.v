(** Specification of sub-scene-graph kinematics and configuration subsets. *)
From Coq Require Import ZArith String List Bool Reals.
From Verif Require Import TfModel TfSpec SgModel SgSpec.
Import ListNotations.
Open Scope Z_scope.

(** [id_of s n z]: z is the number of frame n ("" is the root, numbered AA_RX_FRAME_ROOT). *)
Definition id_of (s : sg) (n : string) (z : Z) : Prop := frame_id s n = Ok z /\ z <> FRAME_NONE.
(** The configuration as seen by the caller of aa_rx_fk_all. *)
Definition config_view (s : sg) (v : dvec) (c : string) : R :=
  match config_id s c with
  | Ok i => match dv_get v (Z.to_nat i) with Some x => x | None => 0%R end
  | _ => 0%R
  end.
Definition fits (v : dvec) : Prop := forall i, (i < dv_len v)%nat -> dv_get v i <> None.
(** [abs] holds the pose of every frame. *)
Definition poses (g : graph) (cfg : string -> R) (s : sg) (abs : list QV) : Prop :=
  forall n i, frame_no s n i -> exists E, nth_error abs i = Some E /\ unitq (TfModel.eq E) /\
    forall p, located g cfg n p (place (TfModel.eq E) (ev E) p).
(** [posed_at g s cfg abs n]: n is the root, or its entry in [abs] is its pose at [cfg]. *)
Definition posed_at (g : graph) (s : sg) (cfg : string -> R) (abs : list QV) (n : string) : Prop :=
  n = ""%string \/
  exists i E, id_of s n (Z.of_nat i) /\ nth_error abs i = Some E /\ unitq (TfModel.eq E) /\
    forall p, located g cfg n p (place (TfModel.eq E) (ev E) p).
(** The frames between [root] and [tip]: those below [root], or all when [root] is not
    above [tip]. *)
Definition between (g : graph) (root tip : string) (ls : list string) : Prop :=
  path g root tip ls \/ (path g ""%string tip ls /\ ~ In root ls).

(** Positions in a configuration vector. *)
Definition ids_ok {A} (ids : list Z) (all : list A) : Prop :=
  forall z, In z ids -> 0 <= z < Z.of_nat (length all).
(** [all'] is [all] with the elements [ids] replaced by [sub]. *)
Definition replaced {A} (ids : list Z) (sub all all' : list A) : Prop :=
  length all' = length all /\
  (forall k z x, nth_error ids k = Some z -> nth_error sub k = Some x -> nth_error all' (Z.to_nat z) = Some x) /\
  (forall i, ~ In (Z.of_nat i) ids -> nth_error all' i = nth_error all i).

(** ** Velocities *)

(** Sum of the columns weighted by the joint velocities. *)
Fixpoint col_sum (J : list (V3 * V3)) (dq : list R) : V3 * V3 :=
  match J, dq with
  | (r, t) :: J', x :: dq' =>
      let '(r', t') := col_sum J' dq' in (plus3 (times3 x r) r', plus3 (times3 x t) t')
  | _, _ => (mkV 0 0 0, mkV 0 0 0)
  end.
