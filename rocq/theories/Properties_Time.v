(** Time arithmetic and integer modulo: C18 and C58. *)
From Coq Require Import ZArith.
From Verif Require Import TimeModel TimeSpec TimeProofs.
Open Scope Z_scope.

(** C18.  [instant t] is tv_sec * 10^9 + tv_nsec; [normal t] is 0 <= tv_nsec < 10^9. *)
Theorem C18_make_norm_exact : forall s n,
  normal (tm_make_norm s n) /\ instant (tm_make_norm s n) = s * 1000000000 + n.
Proof. exact make_norm_ok. Qed.
Print Assumptions C18_make_norm_exact.

Theorem C18_add_sub_exact : forall a b,
  (normal (tm_add a b) /\ instant (tm_add a b) = instant a + instant b) /\
  (normal (tm_sub a b) /\ instant (tm_sub a b) = instant a - instant b).
Proof. exact (fun a b => conj (add_ok a b) (sub_ok a b)). Qed.
Print Assumptions C18_add_sub_exact.

Theorem C18_add_sub_cancel : forall a b, normal a -> tm_sub (tm_add a b) b = a.
Proof. exact add_sub_cancel. Qed.
Print Assumptions C18_add_sub_cancel.

Theorem C18_cmp_orders_instants : forall a b, normal a -> normal b ->
  (tm_cmp a b < 0 <-> instant a < instant b) /\
  (tm_cmp a b = 0 <-> a = b) /\
  (tm_cmp a b > 0 <-> instant a > instant b).
Proof. exact cmp_ok. Qed.
Print Assumptions C18_cmp_orders_instants.

Theorem C18_min_max : forall a b, normal a -> normal b ->
  (tm_min a b = a \/ tm_min a b = b) /\ instant (tm_min a b) = Z.min (instant a) (instant b) /\
  (tm_max a b = a \/ tm_max a b = b) /\ instant (tm_max a b) = Z.max (instant a) (instant b).
Proof. exact min_max_ok. Qed.
Print Assumptions C18_min_max.

(** C18: deadlines: a time [t] after the clock reading [now]. *)
Theorem C18_deadlines : forall now t, normal now -> normal t ->
  (normal (tm_future now t) /\ instant (tm_future now t) = instant now + instant t) /\
  (tm_isafter now t = true <-> instant t < instant now).
Proof. exact (fun now t H1 H2 => conj (future_ok now t) (isafter_ok now t H1 H2)). Qed.
Print Assumptions C18_deadlines.

(** C18: conversions to micro- and milliseconds round towards minus infinity. *)
Theorem C18_conversions : forall t, normal t ->
  tm_usec t = instant t / 1000 /\ tm_msec t = instant t / 1000000.
Proof. exact conv_ok. Qed.
Print Assumptions C18_conversions.

Example C18_nonvacuous :
  tm_sub (mkT 3 100) (mkT 5 200) = mkT (-3) 999999900 /\ normal (mkT (-3) 999999900) /\
  tm_make_norm 1 (-2500000000) = mkT (-2) 500000000.
Proof. vm_compute. repeat split; discriminate. Qed.

(** C58.  aa_imodulo/aa_lmodulo/aa_imodulo64: whenever the computation is defined
    it returns the mathematical modulus (sign of the divisor). *)
Theorem C58_modulo_is_mathematical : forall w a b r, modulo_w w a b = Some r -> r = a mod b.
Proof. exact modulo_w_ok. Qed.
Print Assumptions C58_modulo_is_mathematical.

(** C58: it is defined, with a result in [0,b), for positive divisors up to a
    quarter of the type's range ... *)
Theorem C58_modulo_defined_guarded : forall w a b, 1 < w ->
  - 2 ^ (w - 1) <= a < 2 ^ (w - 1) -> 0 < b -> b <= 2 ^ (w - 2) ->
  exists r, modulo_w w a b = Some r /\ 0 <= r < b.
Proof. exact modulo_w_safe. Qed.
Print Assumptions C58_modulo_defined_guarded.

(** ... but not for all: on every width the intermediate sum overflows although
    operands and result fit. *)
Theorem C58_modulo_overflow_refuted : forall w, 2 < w ->
  modulo_w w (2 ^ (w - 1) - 2) (2 ^ (w - 1) - 1) = None.
Proof. exact modulo_w_overflows. Qed.
Print Assumptions C58_modulo_overflow_refuted.

Example C58_nonvacuous : modulo_w 32 (-7) 5 = Some 3 /\ modulo_w 32 7 (-5) = Some (-3) /\
  modulo_w 32 2147483646 2147483647 = None.
Proof. vm_compute. repeat split. Qed.
