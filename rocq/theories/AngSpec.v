(** What users of angles, modulo, range checks and statistics rely on.  No model helpers. *)
From Coq Require Import List ZArith Reals Lra Lia.
Import ListNotations.
Open Scope R_scope.

(** two numbers differ by a whole multiple of b *)
Definition Congruent (b x y : R) : Prop := exists k : Z, x = y + IZR k * b.
(** two angles point the same way *)
Definition SameAngle (a b : R) : Prop := cos a = cos b /\ sin a = sin b.
(** no angle pointing the same way is closer to zero *)
Definition Shortest (a : R) : Prop := forall b, SameAngle a b -> Rabs a <= Rabs b.

Fixpoint total (f : R -> R) (x : list R) : R :=
  match x with [] => 0 | v :: x' => f v + total f x' end.
Definition mean (x : list R) : R := total (fun v => v) x / INR (length x).
(** sample standard deviation *)
Definition deviation (x : list R) : R :=
  sqrt (total (fun v => (v - mean x) * (v - mean x)) x / (INR (length x) - 1)).
(** mean resultant length of a set of angles, and the circular standard deviation sqrt(-2 ln R) *)
Definition resultant (x : list R) : R :=
  sqrt (total cos x * total cos x + total sin x * total sin x) / INR (length x).
Definition circ_deviation (x : list R) : R := sqrt (-2 * ln (resultant x)).
(** the angle is a mean direction: no angle is closer to the samples, by the sum of cosines of differences *)
Definition MeanDirection (x : list R) (m : R) : Prop :=
  forall a, total (fun v => cos (v - a)) x <= total (fun v => cos (v - m)) x.
(** kept is what remains of x when samples whose deviation d leaves the interval are struck out *)
Inductive Kept (inside : R -> Prop) : list R -> list R -> Prop :=
| Kept_nil : Kept inside [] []
| Kept_in v x k : inside v -> Kept inside x k -> Kept inside (v :: x) (v :: k)
| Kept_out v x k : ~ inside v -> Kept inside x k -> Kept inside (v :: x) k.

(** Striking out outliers: estimate number k of mean and deviation and the samples it was computed from.  Each
    estimate keeps the samples within zmin and zmax deviations of the one before, takes their mean, and for the
    deviation their distance from the mean before. *)
Definition spread (mu : R) (x : list R) : R := sqrt (total (fun v => (v - mu) * (v - mu)) x / (INR (length x) - 1)).
Inductive Estimate (zmin zmax : R) (x : list R) : nat -> R -> R -> list R -> Prop :=
| Est_first : Estimate zmin zmax x 0 (mean x) (deviation x) x
| Est_next k mu sigma before kept :
    Estimate zmin zmax x k mu sigma before ->
    Kept (fun v => zmin * sigma <= v - mu <= zmax * sigma) x kept ->
    (2 <= length kept)%nat ->
    Estimate zmin zmax x (S k) (mean kept) (spread mu kept) kept.
(** the same for angles: the difference of two angles is one pointing from the second to the first, of at most pi *)
Definition Difference (D : R -> R) (m : R) : Prop := forall v, - PI <= D v <= PI /\ SameAngle (m + D v) v.
Inductive CircEstimate (zmin zmax : R) (x : list R) : nat -> R -> R -> list R -> Prop :=
| CEst_first mu : MeanDirection x mu -> - PI < mu <= PI ->
    CircEstimate zmin zmax x 0 mu (sqrt 2 * circ_deviation x) x
| CEst_next k mu sigma before kept D mu' :
    CircEstimate zmin zmax x k mu sigma before ->
    Difference D mu ->
    Kept (fun v => zmin * sigma <= D v <= zmax * sigma) x kept ->
    (2 <= length kept)%nat ->
    MeanDirection kept mu' -> - PI < mu' <= PI -> 0 < resultant kept ->
    CircEstimate zmin zmax x (S k) mu' (sqrt 2 * circ_deviation kept) kept.
