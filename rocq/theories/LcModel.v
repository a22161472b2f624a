(** Joint rates under limits, by linear programming: src/rx/lc3.c, over the reals. *)
From Coq Require Import ZArith List Bool Reals.
From Verif Require Import TfModel SgModel MatModel MatSpec LaModel WkRateModel.
Import ListNotations.
Open Scope R_scope.

(** The linear program: maximise c.x with min <= x <= max and lo <= A x <= hi.  x has 7 entries, and A as
    many rows as there are joints; an infinite bound is [None]. *)
Record lp := mkLP { lp_A : nat -> nat -> R; lp_rows : list (option R * option R); lp_min : nat -> R; lp_max : nat -> R; lp_c : nat -> R }.

(** fmax, fmin with a bound that may be infinite *)
Definition omax (a : option R) (x : R) : option R := Some (match a with Some y => Rmax y x | None => x end).
Definition omin (a : option R) (x : R) : option R := Some (match a with Some y => Rmin y x | None => x end).

(** the bounds of one joint: lc3.c 177-211.  Limits that are set are finite here (SgModel). *)
Definition b_bound (dt : R) (pos vel acc : option (R * R)) (q v : R) : option R * option R :=
  let lo := match vel with Some (a, _) => Some (a - v) | None => None end in
  let hi := match vel with Some (_, b) => Some (b - v) | None => None end in
  match acc with
  | None => (lo, hi)
  | Some (amin, amax) =>
      let hi1 := omin hi (amax * dt) in
      let lo1 := match pos with Some (qmin, _) => omax lo ((qmin - q) / dt - amax * (dt / 2) - v) | None => lo end in
      let lo2 := omax lo1 (amin * dt) in
      let hi2 := match pos with Some (_, qmax) => omin hi1 ((qmax - q) / dt - amin * (dt / 2) - v) | None => hi1 end in
      (lo2, hi2)
  end.
(** the loop around it: 174-213 *)
Fixpoint b_bounds (s : sg) (dt : R) (ids : list Z) (q v : list R) : out (list (option R * option R)) :=
  match ids, q, v with
  | j :: r, x :: q', y :: v' =>
      obind (lift (sg_get_limit s LPos j)) (fun pos =>
      obind (lift (sg_get_limit s LVel j)) (fun vel =>
      obind (lift (sg_get_limit s LAcc j)) (fun acc =>
      obind (b_bounds s dt r q' v') (fun l => Done (b_bound dt pos vel acc x y :: l)))))
  | _, _, _ => Done []
  end.
(** the bounds of x: 157-170 *)
Definition x_bound (c : R) : R * R := if Rlt_dec 0 c then (0, c) else if Rlt_dec c 0 then (c, 0) else (0, 0).

Section Solver.
  (** the singular value decomposition, what a failed Cholesky factorisation leaves behind, and free memory *)
  Context (gesdd : nat -> nat -> (nat -> nat -> R) -> svdres) (junk : nat -> R) (M0 : mem).

  (** J, J_star and N: 119-128.  The blocks are put at address 0 one after the other; in the code J_star is
      the front of A. *)
  Definition lc3_mats (o : wk_opts) (s : sg) (abs : list QV) (ss : ssg) : out ((nat -> nat -> R) * (nat -> nat -> R) * (nat -> nat -> R)) :=
    let n := length (ss_configs ss) in
    let J := mkDM 6 n 0 6 in let Js := mkDM n 6 (6 * n) n in let N := mkDM n n (12 * n) n in
    obind (wk_get_js gesdd junk o s abs ss J Js (12 * n + n * n) M0) (fun M1 =>
    obind (wk_get_n J Js 1 N M1) (fun M2 => Done (mget J M2, mget Js M2, mget N M2))).
  (** lc3_constraints: 69-216 *)
  Definition lc3_constraints (o : wk_opts) (s : sg) (abs : list QV) (ss : ssg) (dt : R) (dx_r q_a dq_a dq_r : list R) : out lp :=
    let n := length (ss_configs ss) in
    obind (lc3_mats o s abs ss) (fun x => let '(J, Js, N) := x in
    let g l i := nth i l 0 in
    let A i j := if Nat.ltb j 6 then dt * Js i j else bsum n (fun k => N i k * (g dq_a k - g dq_r k)) in
    let c i := if Nat.ltb i 6 then - (1) / dt * (bsum n (fun k => J i k * g dq_a k) - g dx_r i) else 1 in
    obind (b_bounds s dt (ss_configs ss) q_a dq_a) (fun rows =>
    Done (mkLP A rows (fun i => if Nat.ltb i 6 then fst (x_bound (c i)) else 0) (fun i => if Nat.ltb i 6 then snd (x_bound (c i)) else 1) c))).

  (** the linear program solver (aa_opt_solve after aa_opt_set_obj, aa_opt_set_bnd and aa_opt_set_cstr_gm): a code and the point it writes *)
  Context (solve : lp -> Z * (nat -> R)).
  (** aa_rx_wk_dx2dq_lc3: 293-359.  The result is the return value, and dq if it was written.  The vectors are
      lists, so that strides are not modelled; [ldq] is the length of dq.  cblas_daxpy adds n_x = 6 elements
      to dq, past its end if there are fewer joints. *)
  Definition wk_dx2dq_lc3 (o : wk_opts) (s : sg) (abs : list QV) (ss : ssg) (dt : R) (dx_r q_a dq_a dq_r : list R) (ldq : nat) : out (Z * option (list R)) :=
    let n := length (ss_configs ss) in
    if Rle_dec dt 0 then Done ((-1)%Z, None)
    else check (length dx_r) 6 (check (length q_a) n (check (length dq_a) n (check (length dq_r) n (check ldq n (
    obind (lc3_constraints o s abs ss dt dx_r q_a dq_a dq_r) (fun p =>
    let '(r, x) := solve p in
    if Z.eqb 0 r then
      let y i := nth i dq_a 0 + bsum 6 (fun k => lp_A p i k * x k) in
      if Nat.ltb n 6 then Undef
      else Done (r, Some (map (fun i => if Nat.ltb i 6 then y i + x 6%nat * lp_A p i 6 else y i) (seq 0 n)))
    else Done (r, None))))))).
End Solver.
