(** C135: ownership of the arrays given to the inverse kinematics parameters. *)
From Coq Require Import Reals List Arith.
From Verif Require Import OwnModel OwnSpec OwnProofs.
Import ListNotations.
Open Scope R_scope.

(** C135: a program that keeps the rules (uses only blocks it still owns, does not free or
    give away a block it has lent to another array) never makes a call that frees or reads
    memory that is not allocated. *)
Theorem C135_safe : forall x c, reach (x, c) -> forall s n p v, mine c p = Some v -> (n <= length v)%nat ->
  take x s n p COPY <> None /\ take x s n p BORROW <> None /\
  ((forall s' m, given c s' = Lent p m -> s' = s) -> take x s n p STEAL <> None) /\
  (~ lent c p -> free x p <> None) /\ (forall lims gain, center_configs x lims gain <> None).
Proof. exact own_safe. Qed.
Print Assumptions C135_safe.

(** C135: each array then reads the values last given: its own copy, the stolen block, or
    the caller's lent block as it is now; and the caller's blocks are never changed. *)
Theorem C135_values : forall x c, reach (x, c) ->
  (forall s, seen x s = holds c s) /\ (forall p v, mine c p = Some v -> heap x p = Some v).
Proof. exact own_values. Qed.
Print Assumptions C135_values.

(** C135: aa_rx_ik_parm_destroy frees every array the parameters own and nothing else, but
    for the seed: what stays allocated are the caller's blocks and an owned seed. *)
Theorem C135_destroy : forall x c, reach (x, c) -> exists h, parm_destroy x = Some h /\
  forall p v, h p = Some v <-> mine c p = Some v \/ (f_data (fl x Seed) = Some p /\ given c Seed = Own v).
Proof. exact own_destroy. Qed.
Print Assumptions C135_destroy.

(** C135: so the seed array leaks. *)
Theorem C135_leak_refuted : exists x c h, reach (x, c) /\ parm_destroy x = Some h /\
  exists p, h p <> None /\ mine c p = None.
Proof. exact leak. Qed.
Print Assumptions C135_leak_refuted.

(** C135: with a reference and a gain long enough, the null space motion is the gain times
    the way back to the reference; without a reference it is not used. *)
Theorem C135_null_motion : forall x c q r g, reach (x, c) -> holds c Ref = Some r -> holds c Gain = Some g ->
  (length q <= length r)%nat -> (length q <= length g)%nat ->
  exists l, null_motion x q = Some (Some l) /\ length l = length q /\
    forall i, (i < length q)%nat -> nth i l 0 = - nth i g 0 * (nth i q 0 - nth i r 0).
Proof. exact null_ok. Qed.
Print Assumptions C135_null_motion.
Theorem C135_null_unused : forall x c q, reach (x, c) -> given c Ref = Nothing -> null_motion x q = Some None.
Proof. exact null_none. Qed.
Print Assumptions C135_null_unused.

(** C135: a reference without a gain makes the solver read through a null pointer. *)
Theorem C135_reference_alone_refuted : exists x c q, reach (x, c) /\ holds c Ref = Some [1] /\ null_motion x q = None.
Proof. exact null_crash. Qed.
Print Assumptions C135_reference_alone_refuted.

(** C135: the default tolerances for the singular value step are zero, not ten times the
    tolerances: they are computed before those are set. *)
Theorem C135_svd_default_refuted : tol_angle_svd default_tols = 0 /\ tol_trans_svd default_tols = 0 /\
  0 < tol_angle default_tols /\ 0 < tol_trans default_tols.
Proof. exact svd_default. Qed.
Print Assumptions C135_svd_default_refuted.

(** The rules can be kept: a caller with one block gives a copy of it as gain. *)
Example C135_nonvacuous : exists x, reach (x, c1 Gain (Own [1])) /\ take (parm_create h1 1%nat) Gain 1 0%nat COPY = Some x.
Proof. exact (w_copy Gain). Qed.
