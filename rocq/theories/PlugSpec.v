(** What a client of the plugin loader may do and what it relies on. *)
From Coq Require Import List Arith.
From Verif Require Import PlugModel.
Import ListNotations.

Definition held (s : st) (m : nat) : Prop :=
  exists r, nth_error (meshes s) m = Some r /\ m_held r = true.

Definition live (s : st) (g : nat) : Prop :=
  exists q, nth_error (sgs s) g = Some q /\ g_live q = true.

Definition shows (s : st) (g m : nat) : Prop :=
  exists q, nth_error (sgs s) g = Some q /\ g_live q = true /\ In m (g_mesh q).

(** A client releases and attaches meshes it holds, and uses live scene graphs. *)
Definition legal (s : st) (e : ev) : Prop :=
  match e with
  | DlMesh _ _ | UserMesh => True
  | Release m => held s m
  | Attach m g => held s m /\ live s g
  | DlSg _ _ None _ => True
  | DlSg _ _ (Some g) _ => live s g
  | Copy g | Destroy g => live s g
  end.

Fixpoint legal_hist (s : st) (es : list ev) : Prop :=
  match es with
  | [] => True
  | e :: t => legal s e /\ (forall s', step s e = Some s' -> legal_hist s' t)
  end.

Definition is_copy (e : ev) : bool := match e with Copy _ => true | _ => false end.

(** Every load finds its symbol, and scene graphs are loaded on their own. *)
Definition plain (e : ev) : bool :=
  match e with
  | DlMesh _ NoSymbol | DlSg _ NoSymbol _ _ => false
  | DlSg _ Found (Some _) _ => false
  | _ => true
  end.

(** The objects that will close [f]. *)
Definition mesh_owner (f : nat) (r : mesh) : nat :=
  match m_ref r, m_dtor r with
  | S _, Some f' => if Nat.eqb f' f then 1 else 0
  | _, _ => 0
  end.

Definition sg_owner (f : nat) (q : sgr) : nat :=
  match g_live q, g_dtor q with
  | true, Some f' => if Nat.eqb f' f then 1 else 0
  | _, _ => 0
  end.

Definition owners (s : st) (f : nat) : nat :=
  list_sum (map (mesh_owner f) (meshes s)) + list_sum (map (sg_owner f) (sgs s)).

(** The handles of [f] one call forgets: an open without the symbol, and the
    handle of the scene graph another plugin is loaded into. *)
Definition lost1 (s : st) (e : ev) (f : nat) : nat :=
  match e with
  | DlMesh f' NoSymbol | DlSg f' NoSymbol _ _ => if Nat.eqb f' f then 1 else 0
  | DlSg _ Found (Some g) _ =>
      match nth_error (sgs s) g with Some q => sg_owner f q | None => 0 end
  | _ => 0
  end.

Fixpoint lost (s : st) (es : list ev) (f : nat) : nat :=
  match es with
  | [] => 0
  | e :: t => lost1 s e f + match step s e with Some s' => lost s' t f | None => 0 end
  end.

Definition all_gone (s : st) : Prop := (forall m, ~ held s m) /\ (forall g, ~ live s g).
