(** Ownership of the arrays in the inverse kinematics parameters: src/rx/ik_opt.c,
    with AA_MEM_DUPOP and aa_checked_free of include/amino/mem.h and the null
    space motion of src/rx/scene_ik.c.  A heap maps addresses to arrays; [None]
    is undefined behaviour.  malloc succeeds.  Doubles are reals. *)
From Coq Require Import Reals List Arith.
Import ListNotations.
Open Scope R_scope.

Definition ptr := nat.
(** enum aa_mem_refop: mem.h *)
Inductive refop := COPY | STEAL | BORROW.
(** The three array fields of struct aa_rx_ik_parm: scene_ik_internal.h 137-148 (q_ref and
    q_ref_data, dq_dt and dq_dt_data, q_all_seed and q_all_seed_data, with their counts). *)
Inductive slot := Ref | Gain | Seed.
Definition slot_eqb (a b : slot) : bool :=
  match a, b with Ref, Ref | Gain, Gain | Seed, Seed => true | _, _ => false end.
Record fld := mkF { f_const : option ptr; f_data : option ptr; f_n : nat }.

Record st := mkS { heap : ptr -> option (list R); nxt : ptr; fl : slot -> fld }.

Definition put (h : ptr -> option (list R)) (p : ptr) (v : option (list R)) : ptr -> option (list R) :=
  fun a => if Nat.eqb a p then v else h a.
Definition setf (f : slot -> fld) (s : slot) (v : fld) : slot -> fld :=
  fun a => if slot_eqb a s then v else f a.

(** malloc and fill; addresses are never reused *)
Definition malloc (x : st) (v : list R) : st * ptr :=
  (mkS (put (heap x) (nxt x) (Some v)) (S (nxt x)) (fl x), nxt x).
(** free of a block that is not allocated is undefined *)
Definition free (x : st) (p : ptr) : option st :=
  match heap x p with
  | None => None
  | Some _ => Some (mkS (put (heap x) p None) (nxt x) (fl x))
  end.
(** aa_checked_free: mem.h 106-109 *)
Definition checked_free (x : st) (p : option ptr) : option st :=
  match p with None => Some x | Some a => free x a end.

(** aa_rx_ik_parm_create: ik_opt.c 57-88 (AA_NEW0: all pointers NULL) *)
Definition parm_create (h : ptr -> option (list R)) (n : ptr) : st := mkS h n (fun _ => mkF None None 0).

(** AA_MEM_DUPOP: mem.h 544-558; memcpy of n elements from a block too short is undefined *)
Definition dupop (x : st) (op : refop) (src : ptr) (n : nat) : option (st * option ptr * option ptr) :=
  match op with
  | COPY => match heap x src with
      | Some v => if n <=? length v then
            let '(y, p) := malloc x (firstn n v) in Some (y, Some p, Some p) else None
      | None => None
      end%nat
  | STEAL => Some (x, Some src, Some src)
  | BORROW => Some (x, Some src, None)
  end.

(** aa_rx_ik_parm_take_config, _take_gain_config, _take_seed: ik_opt.c 122-151 *)
Definition take (x : st) (s : slot) (n : nat) (q : ptr) (op : refop) : option st :=
  match checked_free x (f_data (fl x s)) with
  | None => None
  | Some y =>
    match dupop y op q n with
    | None => None
    | Some (z, c, d) => Some (mkS (heap z) (nxt z) (setf (fl z) s (mkF c d n)))
    end
  end.

(** aa_rx_ik_parm_destroy: ik_opt.c 90-96 (the struct itself is not in the heap) *)
Definition parm_destroy (x : st) : option (ptr -> option (list R)) :=
  match checked_free x (f_data (fl x Gain)) with
  | None => None
  | Some y =>
    match checked_free y (f_data (fl x Ref)) with
    | None => None
    | Some z => Some (heap z)
    end
  end.

(** aa_rx_sg_config_center and aa_rx_sg_get_limit_pos, by the limits of each configuration
    (sg_api.cpp): the centre of the limits, zero without limits. *)
Definition center (l : option (R * R)) : R := match l with Some (a, b) => (a + b) / 2 | None => 0 end.
Definition center_gain (gain : R) (l : option (R * R)) : R :=
  match l with Some (a, b) => gain * (2 * PI) / (b - a) | None => 0 end.
(** aa_rx_ik_parm_center_configs: ik_opt.c 154-178 *)
Definition center_configs (x : st) (lims : list (option (R * R))) (gain : R) : option st :=
  let n := length lims in
  let '(y, p) := malloc x (map center lims) in
  let '(z, g) := malloc y (map (center_gain gain) lims) in
  match take z Ref n p STEAL with
  | None => None
  | Some w => take w Gain n g STEAL
  end.

(** The null space motion of s_ksol_jpinv: scene_ik.c 423-428; [Some None]: no reference, not used. *)
Definition read (x : st) (p : option ptr) (i : nat) : option R :=
  match p with None => None | Some a => match heap x a with None => None | Some v => nth_error v i end end.
Fixpoint dqnull (x : st) (q : list R) (i : nat) : option (list R) :=
  match q with
  | [] => Some []
  | a :: r =>
    match read x (f_const (fl x Gain)) i, read x (f_const (fl x Ref)) i, dqnull x r (S i) with
    | Some g, Some c, Some l => Some ((- g * (a - c)) :: l)
    | _, _, _ => None
    end
  end.
Definition null_motion (x : st) (q : list R) : option (option (list R)) :=
  match f_const (fl x Ref) with
  | None => Some None
  | Some _ => match dqnull x q 0 with None => None | Some l => Some (Some l) end
  end.

(** The default tolerances, in the order of the assignments of aa_rx_ik_parm_create: ik_opt.c 61-85. *)
Record tols := mkTol { tol_angle : R; tol_trans : R; tol_angle_svd : R; tol_trans_svd : R }.
Definition default_tols : tols :=
  let t0 := mkTol 0 0 0 0 in
  let t1 := mkTol (tol_angle t0) (tol_trans t0) (10 * tol_angle t0) (tol_trans_svd t0) in
  let t2 := mkTol (tol_angle t1) (tol_trans t1) (tol_angle_svd t1) (10 * tol_trans t1) in
  let t3 := mkTol (1 / 10 * PI / 180) (tol_trans t2) (tol_angle_svd t2) (tol_trans_svd t2) in
  mkTol (tol_angle t3) (1 / 10 * / 1000) (tol_angle_svd t3) (tol_trans_svd t3).
