(** C137: the Box-Muller transform. *)
From Coq Require Import Reals.
From Verif Require Import BoxModel BoxSpec BoxProofs.
Open Scope R_scope.

(** Finite exactly for a first argument in (0,1], as documented. *)
Theorem C137_domain : forall x1 x2, (exists z, box_muller x1 x2 = Some z) <-> 0 < x1 <= 1.
Proof. exact bm_domain_thm. Qed.
Print Assumptions C137_domain.

Theorem C137_radius : forall x1 x2 z1 z2, box_muller x1 x2 = Some (z1, z2) ->
  z1 * z1 + z2 * z2 = -2 * ln x1 /\ x1 = exp (- (z1 * z1 + z2 * z2) / 2).
Proof. exact bm_radius_thm. Qed.
Print Assumptions C137_radius.

Theorem C137_injective : forall x1 x2 y1 y2,
  0 < x1 < 1 -> 0 < x2 <= 1 -> 0 < y1 < 1 -> 0 < y2 <= 1 ->
  box_muller x1 x2 = box_muller y1 y2 -> x1 = y1 /\ x2 = y2.
Proof. exact bm_inj_thm. Qed.
Print Assumptions C137_injective.

Theorem C137_onto : forall z1 z2, z1 <> 0 \/ z2 <> 0 ->
  exists x1 x2, 0 < x1 < 1 /\ 0 < x2 <= 1 /\ box_muller x1 x2 = Some (z1, z2).
Proof. exact bm_onto_thm. Qed.
Print Assumptions C137_onto.

(** The density that the bijection gives uniform inputs is the product of two
    standard normal densities. *)
Theorem C137_density : forall x1 x2 z1 z2, 0 < x1 < 1 -> box_muller x1 x2 = Some (z1, z2) ->
  exists d11 d12 d21 d22, jacobian box_muller x1 x2 d11 d12 d21 d22 /\
    d11 * d22 - d12 * d21 <> 0 /\
    gauss z1 * gauss z2 = 1 / Rabs (d11 * d22 - d12 * d21).
Proof. exact bm_density_thm. Qed.
Print Assumptions C137_density.

Theorem C137_frand_range : forall r m, (0 < m)%nat -> (r <= m)%nat -> 0 <= frand r m <= 1.
Proof. exact frand_range_thm. Qed.
Print Assumptions C137_frand_range.

Theorem C137_frand_nonzero : forall r m x2, (0 < r)%nat -> (r <= m)%nat ->
  exists z, box_muller (frand r m) x2 = Some z.
Proof. exact frand_ok_thm. Qed.
Print Assumptions C137_frand_nonzero.

(** aa_frand can return zero, which the transform does not accept. *)
Theorem C137_frand_refuted : ~ (forall r m x2, (0 < m)%nat -> (r <= m)%nat ->
  exists z, box_muller (frand r m) x2 = Some z).
Proof. exact frand_bad_thm. Qed.
Print Assumptions C137_frand_refuted.

(** The scores are inverse and carry the standard density to mean mu, deviation sigma. *)
Theorem C137_scores : forall mu sigma, 0 < sigma ->
  (forall z, x2z (z2x z mu sigma) mu sigma = z) /\
  (forall x, z2x (x2z x mu sigma) mu sigma = x) /\
  (forall z, gauss z = gauss2 mu sigma (z2x z mu sigma) * sigma).
Proof. exact scores_thm. Qed.
Print Assumptions C137_scores.

Example C137_nonvacuous : box_muller 1 (1 / 2) = Some (0, 0) /\
  box_muller (exp (-2)) (1 / 2) = Some (-2, 0) /\
  (exists z, box_muller (frand 3 7) (frand 2 7) = Some z).
Proof. exact box_example. Qed.
Print Assumptions C137_nonvacuous.
