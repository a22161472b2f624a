(** * C108: the arrays of meshes *)
From Coq Require Import ZArith List Bool Reals Lia.
From Verif Require Import GeoModel MeshModel MeshSpec MeshProofs.
Import ListNotations.
Open Scope Z_scope.

(** Every history of allowed calls runs, each array shows the copy it was given or the
    caller's array, and the library's live blocks are the copies meshes hold and the [lost]
    ones. *)
Theorem C108_arrays : forall h a, meaning h a -> exists s, run start h = Ok s /\ agrees s a.
Proof. exact arrays. Qed.
Print Assumptions C108_arrays.

Theorem C108_released : forall h a s, meaning h a -> lost a = 0%nat -> (forall m, a_mesh a m = None) ->
  run start h = Ok s -> forall j, ~ live s j.
Proof. exact arrays_released. Qed.
Print Assumptions C108_released.

(** "Once all meshes are destroyed no array is left" fails: setting a texture colour gives up
    the copy of the texture coordinates without freeing it. *)
Theorem C108_texture_leak_refuted : exists h a s, meaning h a /\ (forall m, a_mesh a m = None) /\
  run start h = Ok s /\ exists j, live s j.
Proof. exact texture_leak. Qed.
Print Assumptions C108_texture_leak_refuted.

(** "An array can be set from any readable array" fails for the mesh's own copy. *)
Theorem C108_own_copy_refuted : exists h a, meaning h a /\
  run start (h ++ [MSet 0 Vertices 1 (Of 0 Vertices) true]) = Ub.
Proof. exact self_source_ub. Qed.
Print Assumptions C108_own_copy_refuted.

(** "Any texture colour can be set" fails for bright ones. *)
Theorem C108_bright_refuted : forall c0 c1 c2 c3, (256 / 255 <= c0)%R ->
  run start [MNew; MTexture 0 c0 c1 c2 c3] = Ub.
Proof. exact texture_bright_ub. Qed.
Print Assumptions C108_bright_refuted.

(** A copy keeps its values when the caller's array is written and freed; a lent array follows
    it. *)
Definition ex : list call :=
  ((((((([] ++ [New [1; 2; 3; 4]]) ++ [MNew]) ++ [MSet 0 Vertices 1 (Own 0) true]) ++ [MNew]) ++
    [MSet 1 Vertices 1 (Own 0) false]) ++ [Write 0 [7; 8; 9]]) ++ [MSet 0 Normals 1 (Of 0 Vertices) true]) ++ [MDestroy 1].
Example C108_nonvacuous : exists a s, meaning ex a /\ run start ex = Ok s /\
  view s 0 Vertices = Ok (Some [1; 2; 3]) /\ view s 0 Normals = Ok (Some [1; 2; 3]) /\
  run start (firstn 6 ex) <> Ub /\ live s 0 /\ a_client a 0 = Some [7; 8; 9] /\
  exists s6, run start (firstn 6 ex) = Ok s6 /\ view s6 1 Vertices = Ok (Some [7; 8; 9]).
Proof.
  eexists. eexists. split; [|split; [reflexivity|]].
  - unfold ex. eapply meaning_snoc; [eapply meaning_snoc; [eapply meaning_snoc; [eapply meaning_snoc; [eapply meaning_snoc;
      [eapply meaning_snoc; [eapply meaning_snoc; [eapply meaning_snoc; [apply meaning_nil|]|]|]|]|]|]|]|].
    + apply e_new.
    + apply e_mnew.
    + eapply e_copy; [reflexivity|reflexivity|cbn; lia|discriminate].
    + apply e_mnew.
    + eapply e_lend; reflexivity.
    + eapply e_write. reflexivity.
    + eapply e_copy; [reflexivity|reflexivity|cbn; lia|]. intros g Q R. injection Q as <-. discriminate.
    + eapply e_destroy. reflexivity.
  - split; [reflexivity|]. split; [reflexivity|]. split; [cbn; discriminate|]. split; [eexists; reflexivity|].
    split; [reflexivity|]. eexists. split; reflexivity.
Qed.
