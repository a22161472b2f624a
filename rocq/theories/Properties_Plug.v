(** C136: lifetime of dynamically loaded plugins. *)
From Coq Require Import List Arith Lia.
From Verif Require Import PlugModel PlugSpec PlugProofs.
Import ListNotations.

(** No legal history closes a closed handle or touches a freed mesh. *)
Theorem C136_safe : forall es, legal_hist init es -> exists s, exec init es = Some s.
Proof. exact safe_thm. Qed.
Print Assumptions C136_safe.

(** The linker's count is exactly the live objects that will close the file and
    the handles that were forgotten. *)
Theorem C136_ledger : forall es s f, legal_hist init es -> exec init es = Some s ->
  opens s f = owners s f + lost init es f.
Proof. exact ledger_thm. Qed.
Print Assumptions C136_ledger.

(** A mesh the client holds can be read, whatever else was destroyed. *)
Theorem C136_held_mesh_readable : forall es s m, legal_hist init es -> exec init es = Some s ->
  held s m -> read_mesh s m = Some tt.
Proof. exact held_thm. Qed.
Print Assumptions C136_held_mesh_readable.

(** Without aa_rx_sg_copy every mesh of a live scene graph can be read. *)
Theorem C136_shown_mesh_readable : forall es s g m, legal_hist init es -> exec init es = Some s ->
  forallb (fun e => negb (is_copy e)) es = true -> shows s g m -> read_mesh s m = Some tt.
Proof. exact shown_thm. Qed.
Print Assumptions C136_shown_mesh_readable.

(** With copies: as long as a scene graph holding the plugin's handle lives. *)
Theorem C136_readable_while_owner_lives : forall es s g q f m r,
  legal_hist init es -> exec init es = Some s ->
  nth_error (sgs s) g = Some q -> g_live q = true -> g_dtor q = Some f ->
  nth_error (meshes s) m = Some r -> 0 < m_ref r -> m_data r = Some f -> read_mesh s m = Some tt.
Proof. exact live_owner_thm. Qed.
Print Assumptions C136_readable_while_owner_lives.

(** When everything is gone every mesh is freed and only forgotten handles are open. *)
Theorem C136_all_gone : forall es s, legal_hist init es -> exec init es = Some s -> all_gone s ->
  (forall f, opens s f = lost init es f) /\
  (forall m r, nth_error (meshes s) m = Some r -> m_ref r = 0).
Proof. exact gone_thm. Qed.
Print Assumptions C136_all_gone.

(** Found symbols and one plugin per scene graph: every file is closed. *)
Theorem C136_plain_closed : forall es s f, legal_hist init es -> exec init es = Some s ->
  forallb plain es = true -> all_gone s -> opens s f = 0.
Proof. exact plain_closed_thm. Qed.
Print Assumptions C136_plain_closed.

(** A copy outlives its original: its mesh points into the unmapped plugin. *)
Theorem C136_copy_readable_refuted :
  ~ (forall es s g m, legal_hist init es -> exec init es = Some s ->
       shows s g m -> read_mesh s m = Some tt).
Proof. exact copy_refuted_thm. Qed.
Print Assumptions C136_copy_readable_refuted.

(** Two plugins in one scene graph: the first is never closed. *)
Theorem C136_closed_refuted :
  ~ (forall es s f, legal_hist init es -> exec init es = Some s -> all_gone s -> opens s f = 0).
Proof. exact closed_refuted_thm. Qed.
Print Assumptions C136_closed_refuted.

(** Which handle is lost: exactly one per extra load, and the last load's is kept. *)
Theorem C136_second_load_loses_first : forall f1 f2 n1 n2 s,
  exec init [DlSg f1 Found None n1; DlSg f2 Found (Some 0) n2; Destroy 0] = Some s ->
  forall f, opens s f = if Nat.eqb f1 f then 1 else 0.
Proof. exact second_load_thm. Qed.
Print Assumptions C136_second_load_loses_first.

(** The order of loads and releases is free: a mesh from a plugin, in a scene
    graph of another plugin, both counted and both closed at the end. *)
Example C136_nonvacuous :
  let es := [DlMesh 3 Found; DlSg 5 Found None 2; Attach 0 0; Release 0; Copy 0] in
  let fin := es ++ [Destroy 1; Destroy 0] in
  legal_hist init fin /\
  (exists s, exec init es = Some s /\ opens s 3 = 1 /\ opens s 5 = 1 /\
     shows s 1 0 /\ shows s 1 2 /\ read_mesh s 0 = Some tt /\ read_mesh s 2 = Some tt) /\
  (exists s, exec init fin = Some s /\ opens s 3 = 0 /\ opens s 5 = 0 /\ all_gone s).
Proof. exact plug_example. Qed.
Print Assumptions C136_nonvacuous.
