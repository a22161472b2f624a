(** Optimal assignment. *)
From Coq Require Import List Arith ZArith Reals Lra.
From Verif Require Import TrModel HgModel HgSpec HgBase HgProofs HgRect.
Import ListNotations.
Open Scope nat_scope.

Notation hungarian := (assign_hungarian 0%R Rplus Rminus Rle_b).

(** C37: for every non-empty m by n cost matrix, square or not, with costs of any sign: whenever the call returns,
    the two vectors describe one assignment that pairs as many rows and columns as possible, gives -1 to the
    others, and no other such assignment costs less; no assertion fails and path[] is never overrun on the way. *)
Theorem C37_returned_assignment_is_optimal : forall fuel m n (A : nat -> R) lda row col alt, 0 < m -> 0 < n ->
  match hungarian fuel m n A lda row col alt with
  | Done (r, c) => exists L, min_assignment m n (mref A lda) L /\ row_vector m L r /\ col_vector n L c
  | NoFuel => True
  | AssertFail => False
  | Overflow => False
  end.
Proof. exact assign_ok. Qed.
Print Assumptions C37_returned_assignment_is_optimal.

(** C37: converting the matrix with assign_hungarian_max2min first makes the returned assignment one of maximal total *)
Theorem C37_max2min_maximises : forall fuel m n (A : nat -> R) lda row col alt r c, 0 < m -> 0 < n -> m <= lda ->
  hungarian fuel m n (max2min Rminus Rle_b m n A lda) lda row col alt = Done (r, c) ->
  exists L, max_assignment m n (mref A lda) L /\ row_vector m L r /\ col_vector n L c.
Proof. exact assign_max. Qed.
Print Assumptions C37_max2min_maximises.

(** C37: max2min replaces every entry by its distance from the largest one and touches nothing else *)
Theorem C37_max2min_entries : forall m n (A : nat -> R) lda, 0 < m -> 0 < n -> m <= lda ->
  exists mx, (forall i j, i < m -> j < n -> (mref A lda i j <= mx)%R) /\
    (exists i j, i < m /\ j < n /\ mref A lda i j = mx) /\
    (forall i j, i < m -> j < n -> mref (max2min Rminus Rle_b m n A lda) lda i j = (mx - mref A lda i j)%R) /\
    (forall a, (forall i j, i < m -> j < n -> a <> j * lda + i) -> max2min Rminus Rle_b m n A lda a = A a).
Proof. exact max2min_entries. Qed.
Print Assumptions C37_max2min_entries.

(** C37 refuted: there is a 4 by 4 matrix of zeros and ones for which the call never returns *)
Theorem C37_returns_refuted : exists A : nat -> R,
  (forall a, A a = 0%R \/ A a = 1%R) /\ forall fuel row col alt, hungarian fuel 4 4 A 4 row col alt = NoFuel.
Proof.
  exists (fun a => IZR (endless4 a)). split; [|exact endless4_loop].
  intro a. unfold endless4. do 17 (destruct a as [|a]; [cbn; auto|]). cbn. auto.
Qed.
Print Assumptions C37_returns_refuted.

(** C37 refuted: there is a 3 by 3 matrix of costs 0 and -1 for which the call never returns *)
Theorem C37_returns_for_nonpositive_costs_refuted : exists A : nat -> R,
  (forall a, A a = 0%R \/ A a = (-1)%R) /\ forall fuel row col alt, hungarian fuel 3 3 A 3 row col alt = NoFuel.
Proof.
  exists (fun a => IZR (endless3 a)). split; [|exact endless3_loop].
  intro a. unfold endless3. do 10 (destruct a as [|a]; [cbn; auto|]). cbn. auto.
Qed.
Print Assumptions C37_returns_for_nonpositive_costs_refuted.

(** non-vacuity: a 3 by 3, a 2 by 3 and a 3 by 2 problem that run through all the steps and return *)
Definition c37_costs (a : nat) : Z := nth a [1;2;3; 2;4;6; 3;6;9]%Z 0%Z.
Definition vec_of (n : nat) (o : outcome ((nat -> Z) * (nat -> Z))) (m : nat) : option (list Z * list Z) :=
  match o with Done (r, c) => Some (map r (seq 0 m), map c (seq 0 n)) | _ => None end.
Example C37_nonvacuous : forall row col alt,
  vec_of 3 (hungarian 40 3 3 (fun a => IZR (c37_costs a)) 3 row col alt) 3 = Some ([2; 1; 0], [2; 1; 0])%Z /\
  vec_of 3 (hungarian 40 2 3 (fun a => IZR (c37_costs a)) 3 row col alt) 2 = Some ([1; 0], [1; 0; -1])%Z /\
  vec_of 2 (hungarian 40 3 2 (fun a => IZR (c37_costs a)) 3 row col alt) 3 = Some ([1; 0; -1], [1; 0])%Z.
Proof.
  intros. rewrite !assign_IZR. split; [|split]; vm_compute; reflexivity.
Qed.
