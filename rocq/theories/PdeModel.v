(** Jacobians of the logarithms: src/tf/quat_pde.c, over the reals.  A 4x4 matrix is given by its columns ([M44], TfModel.v). *)
From Coq Require Import Reals.
From Verif Require Import TfModel AtanModel TfExpModel.
Open Scope R_scope.

(** fill_uplo 36-45, applied to a matrix whose entries above the diagonal have not been written:
    J10, J20, J21 are mirrored and the last row gives the last column with the opposite sign. *)
Definition fill_uplo (j00 j10 j20 j11 j21 j22 j30 j31 j32 j33 : R) : M44 :=
  mkM44 (mkQ j00 j10 j20 j30)
        (mkQ j10 j11 j21 j31)
        (mkQ j20 j21 j22 j32)
        (mkQ (- j30) (- j31) (- j32) j33).

(** static qln_jac 47-71 *)
Definition qln_jac_fill (q : Q4) (qq zeta eta : R) : M44 :=
  let kv0 := qx q * zeta in let kv1 := qy q * zeta in let kv2 := qz q * zeta in
  fill_uplo (qx q * kv0 + eta) (qx q * kv1) (qx q * kv2)
            (qy q * kv1 + eta) (qy q * kv2)
            (qz q * kv2 + eta)
            (qx q / qq) (qy q / qq) (qz q / qq) (qw q / qq).

(** the coefficients eta and zeta: aa_tf_qln_jac 78-95, aa_tf_duqu_ln_jac 128-149 *)
Definition ln_coef (q : Q4) : R * R :=
  let w := qw q in
  let vv := vdot (qv q) (qv q) in
  let qq := vv + w * w in
  let v_norm := sqrt vv in
  let q_norm := sqrt qq in
  let q3 := qq * q_norm in
  let theta := atan2 v_norm w in
  if Rlt_dec theta eps
  then (invsinc_series2 (theta * theta) / q_norm,
        horner3 (theta * theta) (- (2) / 3) (- (1) / 5) (- (17) / 420) / q3)
  else let eta := theta / v_norm in (eta, (w / qq - eta) / vv).

(** aa_tf_qln_jac 73-98 *)
Definition qln_jac (q : Q4) : M44 :=
  let qq := vdot (qv q) (qv q) + qw q * qw q in
  let '(eta, zeta) := ln_coef q in
  qln_jac_fill q qq zeta eta.

(** An 8x8 matrix [[rr rd] [dr dd]]. *)
Record M88 := mkM88 { jrr : M44; jrd : M44; jdr : M44; jdd : M44 }.
Definition zero44 : M44 := mkM44 (mkQ 0 0 0 0) (mkQ 0 0 0 0) (mkQ 0 0 0 0) (mkQ 0 0 0 0).

(** s_ff, s_ff_diag 100-115 *)
Definition s_ff (ha hb da db zeta kvb : R) : R := (ha * db + hb * da) * zeta + ha * kvb.
Definition s_ff_diag (ha da zeta kva : R) : R := ha * da * (2 * zeta) + ha * kva.

(** aa_tf_duqu_ln_jac 118-189 *)
Definition duqu_ln_jac (S : DQ) : M88 :=
  let q := dreal S in let d := ddual S in
  let w := qw q in
  let vv := vdot (qv q) (qv q) in
  let qq := vv + w * w in
  let v_norm := sqrt vv in
  let q_norm := sqrt qq in
  let q4 := qq * qq in
  let theta := atan2 v_norm w in
  let '(eta, zeta) := ln_coef q in
  let mu := if Rlt_dec theta eps
            then horner3 (theta * theta) (8 / 5) (4 / 7) (1 / 7) / (q4 * q_norm)
            else (-2 * w / q4 - 3 * zeta) / vv in
  let J_rr := qln_jac_fill q qq zeta eta in
  let dw := qw d in
  let gamma := vdot (qv q) (qv d) in
  let tau := gamma * zeta - dw / qq in
  let ks := gamma * mu + 2 * (dw / q4) in
  let kv0 := qx q * ks in let kv1 := qy q * ks in let kv2 := qz q * ks in
  let gamma2 := 2 * (gamma + w * dw) / q4 in
  let J_dr := fill_uplo
    (s_ff_diag (qx q) (qx d) zeta kv0 + tau)
    (s_ff (qy q) (qx q) (qy d) (qx d) zeta kv0)
    (s_ff (qz q) (qx q) (qz d) (qx d) zeta kv0)
    (s_ff_diag (qy q) (qy d) zeta kv1 + tau)
    (s_ff (qz q) (qy q) (qz d) (qy d) zeta kv1)
    (s_ff_diag (qz q) (qz d) zeta kv2 + tau)
    (qx d / qq - qx q * gamma2) (qy d / qq - qy q * gamma2) (qz d / qq - qz q * gamma2) (qw d / qq - qw q * gamma2) in
  mkM88 J_rr zero44 J_dr J_rr.

(** A matrix times a dual quaternion *)
Definition m88_app (M : M88) (x : DQ) : DQ :=
  mkD (qadd (m44_app (jrr M) (dreal x)) (m44_app (jrd M) (ddual x)))
      (qadd (m44_app (jdr M) (dreal x)) (m44_app (jdd M) (ddual x))).

(** aa_tf_duqu_conj_jac 191-207 *)
Definition diag44 (a b c d : R) : M44 :=
  mkM44 (mkQ a 0 0 0) (mkQ 0 b 0 0) (mkQ 0 0 c 0) (mkQ 0 0 0 d).
Definition duqu_conj_jac : M88 :=
  mkM88 (diag44 (-1) (-1) (-1) 1) zero44 zero44 (diag44 (-1) (-1) (-1) 1).
