(** Specification of joint rates under limits. *)
From Coq Require Import ZArith String List Reals.
From Verif Require Import TfModel TfSpec SgModel SgSpec SgKinSpec IkSpec MatModel MatSpec LaModel LaSpec WkRateModel WkRateSpec LcModel.
Import ListNotations.
Open Scope R_scope.

Definition at_least (a : option R) (x : R) : Prop := match a with Some y => y <= x | None => True end.
Definition at_most (a : option R) (x : R) : Prop := match a with Some y => x <= y | None => True end.
(** [x] meets the bounds of the linear program. *)
Definition feasible (p : lp) (x : nat -> R) : Prop :=
  (forall j, (j < 7)%nat -> lp_min p j <= x j <= lp_max p j) /\
  forall i lo hi, nth_error (lp_rows p) i = Some (lo, hi) -> at_least lo (mulv 7 (lp_A p) x i) /\ at_most hi (mulv 7 (lp_A p) x i).
(** A solver that only ever reports success with a point that meets the bounds, *)
Definition sound (solve : lp -> Z * (nat -> R)) : Prop := forall p x, solve p = (0%Z, x) -> feasible p x.
(** with the best such point, *)
Definition optimal (solve : lp -> Z * (nat -> R)) : Prop := sound solve /\
  forall p x y, solve p = (0%Z, x) -> feasible p y -> dotp 7 (lp_c p) y <= dotp 7 (lp_c p) x.
(** and one that succeeds whenever there is a point that meets the bounds *)
Definition complete (solve : lp -> Z * (nat -> R)) : Prop := forall p x, feasible p x -> exists y, solve p = (0%Z, y).

(** The limits of the chain's joint variables, as aa_rx_sg_get_limit_pos, _vel and _acc report them *)
Definition limits_of (g : graph) (s : sg) (ls : list string) (k : lkind) (lims : list (option (R * R))) : Prop :=
  Forall2 (fun d l => exists i, config_id s (d_cfg d) = Ok i /\ i <> CONFIG_NONE /\ sg_get_limit s k i = Ok l) (joint_decls g ls) lims.

(** The rate [y] is allowed for a joint at [q] that moves at the rate [v]: it keeps to the velocity limits; it
    can be reached within [dt] by an acceleration within the limits; and after [dt] at that rate the joint is
    not further past a position limit than it would be taken back by the largest acceleration during [dt]. *)
Definition allowed (dt : R) (pos vel acc : option (R * R)) (q v y : R) : Prop :=
  (forall a b, vel = Some (a, b) -> a <= y <= b) /\
  (forall a b, acc = Some (a, b) -> a <= (y - v) / dt <= b) /\
  (forall a b l u, acc = Some (a, b) -> pos = Some (l, u) ->
    l <= q + y * dt + 1 / 2 * b * (dt * dt) /\ q + y * dt + 1 / 2 * a * (dt * dt) <= u).
Definition all_allowed (dt : R) (pos vel acc : list (option (R * R))) (q v y : list R) : Prop :=
  forall i p w a x z r, nth_error pos i = Some p -> nth_error vel i = Some w -> nth_error acc i = Some a ->
    nth_error q i = Some x -> nth_error v i = Some z -> nth_error y i = Some r -> allowed dt p w a x z r.
(** [x] lies between [a] and [b], which may come in either order. *)
Definition betw (a b x : R) : Prop := a <= x <= b \/ b <= x <= a.
