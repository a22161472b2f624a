(** Model of joint-space trajectories: src/ct/traj.cpp, src/ct/state.c.

    Doubles are ideal reals.  [None] as a result is undefined behaviour (null pointer,
    write outside an array, empty list).  Way points are lists of the q array of
    their state; the other members of struct aa_ct_state are used only where stated.
    Segments are linked by prev and next in the order of the list, so the
    neighbours of segment k are the segments k-1 and k+1 (aa_ct_list_add, 55-65; back() of an
    empty list there is taken to yield null, as in libstdc++). *)
From Coq Require Import List Reals Arith ZArith Bool.
Import ListNotations.
Open Scope R_scope.

(** Comparisons of doubles. *)
Definition Rlt_b (a b : R) : bool := if Rlt_dec a b then true else false.
Definition Rle_b (a b : R) : bool := if Rle_dec a b then true else false.
(** AA_MAX: include/amino/math.h 63-66; AA_MIN: 69-72; fmin of <math.h> on numbers *)
Definition aa_max (a b : R) : R := if Rlt_b b a then a else b.
Definition aa_min (a b : R) : R := if Rlt_b a b then a else b.

(** AA_EPSILON: math.h 59; aa_feq: 114-116; aa_veq: src/math.c 47-52 *)
Definition aa_epsilon : R := 1 / 1000.
Definition feq (a b tol : R) : bool := Rle_b (Rabs (a - b)) tol.
Fixpoint veq (a b : list R) (tol : R) : bool :=
  match a, b with
  | x :: a', y :: b' => feq x y tol && veq a' b' tol
  | _, _ => true
  end.

(** aa_ct_pt_list_add, aa_ct_pt_list_add_q: traj.cpp 95-110, 139-147, with
    aa_ct_state_eq: state.c 134-176, on states that have only q *)
Definition state_eq (a b : list R) : bool := Nat.eqb (length a) (length b) && veq a b aa_epsilon.
Definition pt_add (l : list (list R)) (q : list R) : list (list R) :=
  match l with
  | [] => [q]
  | _ => if state_eq (last l []) q then l else l ++ [q]
  end.
(** aa_ct_pt_list_add_front: 112-127 *)
Definition pt_add_front (l : list (list R)) (q : list R) : list (list R) :=
  match l with
  | [] => [q]
  | f :: _ => if state_eq f q then l else q :: l
  end.

(** struct aa_ct_limit (include/amino/ct/state.h 72-80): the dq and ddq arrays of min and max *)
Record limit := mkLim { min_dq : list R; max_dq : list R; min_ddq : list R; max_ddq : list R }.

(** The caller's struct aa_ct_state: the number of variables and the arrays
    (null or given). *)
Record st := mkSt { s_n : nat; s_q : option (list R); s_dq : option (list R); s_ddq : option (list R) }.
(** writing the first n elements of an array *)
Definition fill (n : nat) (vals old : list R) : option (list R) :=
  if Nat.leb n (length old) && Nat.leb n (length vals) then Some (firstn n vals ++ skipn n old) else None.
(** the same through a pointer that the code tests, and one it does not test *)
Definition fill_if (n : nat) (vals : list R) (p : option (list R)) : option (option (list R)) :=
  match p with
  | None => Some None
  | Some old => option_map Some (fill n vals old)
  end.
Definition fill_ptr (n : nat) (vals : list R) (p : option (list R)) : option (option (list R)) :=
  match p with
  | None => if Nat.eqb n 0 then Some None else None
  | Some old => option_map Some (fill n vals old)
  end.
Definition obind {A B} (o : option A) (f : A -> option B) : option B :=
  match o with Some a => f a | None => None end.

Fixpoint zip (f : R -> R -> R) (a b : list R) : list R :=
  match a, b with x :: a', y :: b' => f x y :: zip f a' b' | _, _ => [] end.

(** ** Constant-velocity segments *)

(** struct aa_ct_seg_dq: traj.cpp 322-330.  n_q is the length of the arrays. *)
Record seg_dq := mkSD { sd_q0 : list R; sd_dq : list R; sd_t0 : R; sd_t1 : R }.

(** aa_ct_seg_dq_eval: 349-374; true is AA_CT_SEG_IN *)
Definition dq_eval (c : seg_dq) (s : st) (t : R) : option (bool * st) :=
  let n := Nat.min (length (sd_q0 c)) (s_n s) in
  if Rle_b (sd_t0 c) t && Rle_b t (sd_t1 c) then
    let tt := t - sd_t0 c in
    obind (fill_if n (zip (fun q d => q + tt * d) (sd_q0 c) (sd_dq c)) (s_q s)) (fun q =>
    obind (fill_if n (sd_dq c) (s_dq s)) (fun dq => Some (true, mkSt (s_n s) q dq (s_ddq s))))
  else
    let tt := sd_t1 c - sd_t0 c in
    obind (fill_ptr n (zip (fun q d => q + d * tt) (sd_q0 c) (sd_dq c)) (s_q s)) (fun q =>
    Some (false, mkSt (s_n s) q (s_dq s) (s_ddq s))).

(** the time needed by one variable: 403-409 *)
Definition axis_time (d mn mx : R) : R := if Rlt_b d 0 then d / mn else d / mx.
Fixpoint lin_time (dt : R) (d mn mx : list R) : R :=
  match d, mn, mx with
  | x :: d', a :: mn', b :: mx' => lin_time (aa_max dt (axis_time x a b)) d' mn' mx'
  | _, _, _ => dt
  end.
(** aa_ct_seg_dq_new: 377-424 *)
Definition dq_new (t0 : R) (q0 q1 : list R) (L : limit) : seg_dq :=
  let n := Nat.min (length q0) (length q1) in
  let d := firstn n (zip (fun a b => b - a) q0 q1) in
  let dt := lin_time 0 d (min_dq L) (max_dq L) in
  mkSD (firstn n q0) (map (fun x => x / dt) d) t0 (t0 + dt).

(** aa_ct_tjq_lin_generate: 427-454.  Result: segments and duration; the list must have a
    first point. *)
Fixpoint lin_segs (t0 : R) (q0 : list R) (r : list (list R)) (L : limit) : list seg_dq :=
  match r with
  | [] => []
  | q1 :: r' => let c := dq_new t0 q0 q1 L in c :: lin_segs (sd_t1 c) q1 r' L
  end.
Definition lin_generate (pts : list (list R)) (L : limit) : option (list seg_dq * R) :=
  match pts with
  | [] => None
  | q0 :: r => let l := lin_segs 0 q0 r L in Some (l, last (map sd_t1 l) 0)
  end.

(** ** Evaluation of a list: aa_ct_seg_list_eval, 208-229 *)

(** [ev k] evaluates segment k of n; [it] is the iterator (None: it_on is 0).  The
    result has the new iterator.  [A] is the caller's state. *)
Fixpoint eval_loop {A : Type} (ev : nat -> A -> R -> option (bool * A)) (left k : nat) (s : A) (t : R)
    : option (bool * A * option nat) :=
  match left with
  | O => Some (false, s, None)
  | S j =>
      obind (ev k s t) (fun '(r, s') => if r then Some (true, s', Some k) else eval_loop ev j (S k) s' t)
  end.
Definition list_eval {A : Type} (ev : nat -> A -> R -> option (bool * A)) (n : nat) (it : option nat) (s : A) (t : R)
    : option (bool * A * option nat) :=
  let k := match it with Some k => k | None => O end in
  if Nat.leb n k then None else eval_loop ev (n - k) k s t.

Definition lin_ev (l : list seg_dq) (k : nat) (s : st) (t : R) : option (bool * st) :=
  obind (nth_error l k) (fun c => dq_eval c s t).
Definition lin_eval (l : list seg_dq) (it : option nat) (s : st) (t : R) : option (bool * st * option nat) :=
  list_eval (lin_ev l) (length l) it s t.

(** ** Constant-acceleration segments and trapezoidal profiles *)

(** struct aa_ct_seg_ddq: 459-468 *)
Record seg_ddq := mkSA { sa_q0 : list R; sa_dq0 : list R; sa_ddq : list R; sa_t0 : R; sa_t1 : R }.
(** aa_ct_seg_ddq_eval: 487-507; both arrays are written without a test *)
Definition ddq_eval (c : seg_ddq) (s : st) (t : R) : option (bool * st) :=
  if Rle_b (sa_t0 c) t && Rle_b t (sa_t1 c) then
    let n := Nat.min (length (sa_q0 c)) (s_n s) in
    let tt := t - sa_t0 c in
    obind (fill_ptr n (zip (fun d a => d - tt * a) (sa_dq0 c) (sa_ddq c)) (s_dq s)) (fun dq =>
    obind (fill_ptr n (zip Rplus (sa_q0 c) (zip (fun d a => tt * d - tt * tt * a / 2) (sa_dq0 c) (sa_ddq c))) (s_q s)) (fun q =>
    Some (true, mkSt (s_n s) q dq (s_ddq s))))
  else Some (false, s).

(** acceleration and segment time of one variable: 534-558.  Result (tai, dti). *)
Definition trap_axis (q0 q1 mndq mxdq mnddq mxddq : R) : R * R :=
  let up := Rle_b q0 q1 in
  let sign := if up then 1 else -1 in
  let dqmax := if up then mxdq else mndq in
  let ddqmax := if up then mxddq else mnddq in
  let tai := sqrt ((q1 - q0) / ddqmax) in
  if Rlt_b (dqmax * sign) (tai * ddqmax * sign)
  then let tai' := dqmax / ddqmax in (tai', ((q1 - q0) - dqmax * tai') / dqmax + 2 * tai')
  else (tai, 2 * tai).
(** 534-562: largest times over all variables, (ta, dt) *)
Fixpoint trap_times (ta dt : R) (q0 q1 a b c d : list R) : R * R :=
  match q0, q1, a, b, c, d with
  | x :: q0', y :: q1', a1 :: a', b1 :: b', c1 :: c', d1 :: d' =>
      let '(tai, dti) := trap_axis x y a1 b1 c1 d1 in
      trap_times (aa_max ta tai) (aa_max dt dti) q0' q1' a' b' c' d'
  | _, _, _, _, _, _ => (ta, dt)
  end.
(** aa_ct_seg_trap_new: 515-645 *)
Definition trap_new (t0 : R) (q0 q1 : list R) (L : limit) : seg_ddq * seg_dq * seg_ddq :=
  let n := Nat.min (length q0) (length q1) in
  let '(ta, dt) := trap_times 0 0 q0 q1 (min_dq L) (max_dq L) (min_ddq L) (max_ddq L) in
  let ddq := zip (fun a b => (b - a) / (ta * ta + ta * (dt - 2 * ta))) q0 q1 in
  let cdq := map (fun a => a * ta) ddq in
  let cq0 := zip (fun q a => q + a * ta * ta / 2) q0 ddq in
  (mkSA (firstn n q0) (repeat 0 n) ddq t0 (t0 + ta),
   mkSD cq0 cdq (t0 + ta) (t0 + dt - ta),
   mkSA (zip (fun q d => q + d * (dt - 2 * ta)) cq0 cdq) cdq (map Ropp ddq) (t0 + dt - ta) (t0 + dt)).
Inductive seg := SegDq (c : seg_dq) | SegDdq (c : seg_ddq).
(** aa_ct_tjq_trap_generate: 648-682 *)
Fixpoint trap_segs (t0 : R) (q0 : list R) (r : list (list R)) (L : limit) : list seg :=
  match r with
  | [] => []
  | q1 :: r' =>
      let '(a, c, d) := trap_new t0 q0 q1 L in
      SegDdq a :: SegDq c :: SegDdq d :: trap_segs (sa_t1 d) q1 r' L
  end.
Definition seg_end (c : seg) : R := match c with SegDq c => sd_t1 c | SegDdq c => sa_t1 c end.
Definition trap_generate (pts : list (list R)) (L : limit) : option (list seg * R) :=
  match pts with
  | [] => None
  | q0 :: r => let l := trap_segs 0 q0 r L in Some (l, last (map seg_end l) 0)
  end.
Definition seg_ev (l : list seg) (k : nat) (s : st) (t : R) : option (bool * st) :=
  obind (nth_error l k) (fun c => match c with SegDq c => dq_eval c s t | SegDdq c => ddq_eval c s t end).
Definition trap_eval (l : list seg) (it : option nat) (s : st) (t : R) : option (bool * st * option nat) :=
  list_eval (seg_ev l) (length l) it s t.

(** ** Parabolic blends *)

(** struct aa_ct_seg_pb_cx: 690-700 *)
Record pb := mkPB { pb_q : list R; pb_dq : list R; pb_ddq : list R; pb_t : R; pb_dt : R; pb_b : R }.
Definition dbl_min : R := / 2 ^ 1022.
Definition dbl_max : R := (2 - / 2 ^ 52) * 2 ^ 1023.

(** aa_ct_tj_pb_limit: 766-781 on the differences a - b *)
Fixpoint pb_limit_loop (mv : R) (mag mn mx : list R) : R :=
  match mag, mn, mx with
  | x :: mag', a :: mn', b :: mx' =>
      let v := axis_time x a b in
      pb_limit_loop (if Rlt_b mv v then v else mv) mag' mn' mx'
  | _, _, _ => mv
  end.
Definition pb_limit (a b mn mx : list R) : R := pb_limit_loop dbl_min (zip Rminus a b) mn mx.

(** aa_ct_tj_pb_new: 793-822 *)
Definition zeros (n : nat) : list R := repeat 0 n.
Definition pb_new (q : list R) (next : option (list R)) (L : limit) : pb :=
  mkPB q (zeros (length q)) (zeros (length q)) 0
       (match next with Some q1 => pb_limit q1 q (min_dq L) (max_dq L) | None => dbl_max end) 0.
Fixpoint pb_init (pts : list (list R)) (L : limit) : list pb :=
  match pts with
  | [] => []
  | q :: r => pb_new q (hd_error r) L :: pb_init r L
  end.

(** aa_ct_tj_pb_update: 831-853, given the previous segment (already updated) and the next *)
Definition pb_update (prev : option pb) (c : pb) (next : option pb) (L : limit) : pb :=
  let dq := match next with
            | Some n => zip (fun a b => (b - a) / pb_dt c) (pb_q c) (pb_q n)
            | None => pb_dq c
            end in
  let pdq := match prev with Some p => pb_dq p | None => zeros (length (pb_q c)) end in
  let b := pb_limit dq pdq (min_ddq L) (max_ddq L) in
  mkPB (pb_q c) dq (zip (fun x y => (x - y) / b) dq pdq)
       (match prev with Some p => pb_t p + pb_dt p | None => b / 2 end) (pb_dt c) b.
Fixpoint pb_update_all (prev : option pb) (l : list pb) (L : limit) : list pb :=
  match l with
  | [] => []
  | c :: r => let c' := pb_update prev c (hd_error r) L in c' :: pb_update_all (Some c') r L
  end.

(** 879-903: overlap of a segment with its neighbours, and the scale *)
Definition pb_overlap (prev : option pb) (c : pb) (next : option pb) : bool :=
  (match prev with
   | Some p => Rlt_b (pb_dt p) (pb_b c) && Rlt_b (2 * pb_dt p - pb_b p) (pb_b c)
   | None => false
   end) ||
  (match next with
   | Some n => Rlt_b (pb_dt c) (pb_b c) && Rlt_b (2 * pb_dt c - pb_b n) (pb_b c)
   | None => false
   end).
Definition pb_scale (prev : option pb) (c : pb) (next : option pb) : R :=
  if pb_overlap prev c next
  then sqrt (aa_min (match prev with Some p => pb_dt p | None => dbl_max end) (pb_dt c) / pb_b c)
  else 1.
Fixpoint pb_overlaps (prev : option pb) (l : list pb) : list (bool * R) :=
  match l with
  | [] => []
  | c :: r => (pb_overlap prev c (hd_error r), pb_scale prev c (hd_error r)) :: pb_overlaps (Some c) r
  end.
(** 905-910: every segment but the last is stretched *)
Fixpoint pb_stretch (l : list pb) (f : list (bool * R)) : list pb :=
  match l, f with
  | c :: (_ :: _) as r, (_, x) :: ((_, y) :: _) as f' =>
      mkPB (pb_q c) (pb_dq c) (pb_ddq c) (pb_t c) (pb_dt c / aa_min y x) (pb_b c) :: pb_stretch r f'
  | _, _ => l
  end.
(** 869-911: the loop; None when the step budget runs out *)
Fixpoint pb_loop (fuel : nat) (l : list pb) (L : limit) : option (list pb) :=
  match fuel with
  | O => None
  | S k =>
      let l' := pb_update_all None l L in
      let f := pb_overlaps None l' in
      if existsb fst f then pb_loop k (pb_stretch l' f) L else Some (pb_stretch l' f)
  end.
(** 913-914 *)
Fixpoint pb_finish (l : list pb) : list pb :=
  match l with
  | [] => []
  | [c] => [mkPB (pb_q c) (pb_dq c) (pb_ddq c) (pb_t c) 0 (pb_b c)]
  | c :: r => c :: pb_finish r
  end.
(** aa_ct_tjq_pb_generate: 856-929; segments and duration *)
Definition pb_generate (fuel : nat) (pts : list (list R)) (L : limit) : option (list pb * R) :=
  match pts with
  | [] => None
  | _ =>
      obind (pb_loop fuel (pb_init pts L) L) (fun l0 =>
      let l := pb_finish l0 in
      let b0 := match l with c :: _ => pb_b c | [] => 0 end in
      let bn := last (map pb_b l) 0 in
      Some (l, b0 / 2 + fold_left Rplus (map pb_dt l) 0 + bn / 2))
  end.

(** aa_ct_tj_pb_eval: 725-757; the arrays are written without a test, as many elements
    as the segment has *)
Definition pb_eval1 (prev : option pb) (c : pb) (next : option pb) (s : st) (t : R) : option (bool * st) :=
  let n := length (pb_q c) in
  let dt := t - pb_t c in
  let pdq := match prev with Some p => pb_dq p | None => zeros n end in
  let h := pb_b c / 2 in
  let put q dq ddq :=
    obind (fill_ptr n q (s_q s)) (fun q =>
    obind (fill_ptr n dq (s_dq s)) (fun dq =>
    obind (fill_ptr n ddq (s_ddq s)) (fun ddq => Some (true, mkSt (s_n s) q dq ddq)))) in
  if Rle_b (pb_t c - h) t && Rle_b t (pb_t c + h) then
    put (zip Rplus (pb_q c) (zip (fun p a => p * dt + a * (dt + h) ^ 2 / 2) pdq (pb_ddq c)))
        (zip (fun p a => p + a * (dt + h)) pdq (pb_ddq c))
        (pb_ddq c)
  else match next with
       | Some x =>
           if Rle_b (pb_t c + h) t && Rle_b t (pb_t c + pb_dt c - pb_b x / 2)
           then put (zip (fun q d => q + d * dt) (pb_q c) (pb_dq c)) (pb_dq c) (zeros n)
           else Some (false, s)
       | None => Some (false, s)
       end.
Definition pb_ev (l : list pb) (k : nat) (s : st) (t : R) : option (bool * st) :=
  obind (nth_error l k) (fun c =>
  pb_eval1 (match k with O => None | S j => nth_error l j end) c (nth_error l (S k)) s t).
Definition pb_eval (l : list pb) (it : option nat) (s : st) (t : R) : option (bool * st * option nat) :=
  list_eval (pb_ev l) (length l) it s t.

(** ** Checks *)

(** aa_ct_seg_list_check: 1014-1031.  [fn] is the caller's function, [ev] the evaluation of the list,
    [it] the cursor of the list at the call, [s] the state that is allocated.  The step budget bounds the
    number of samples; None when it runs out. *)
Fixpoint check_loop {A : Type} (fuel : nat) (ev : option nat -> A -> R -> option (bool * A * option nat))
    (fn : R -> A -> Z) (dt : R) (it : option nat) (s : A) (t : R) : option (Z * option nat) :=
  match fuel with
  | O => None
  | S k =>
      obind (ev it s t) (fun '(b, s', it') =>
      if b then (if Z.eqb (fn t s') 0 then check_loop k ev fn dt it' s' (t + dt) else Some (fn t s', it'))
      else Some (0%Z, it'))
  end.
(** aa_ct_state_alloc: state.c 45-73 *)
Definition state_alloc (n : nat) : st := mkSt n (Some (zeros n)) (Some (zeros n)) (Some (zeros n)).
Definition seg_list_check (fuel : nat) (ev : option nat -> st -> R -> option (bool * st * option nat))
    (n : nat) (it : option nat) (dt : R) (fn : R -> st -> Z) : option (Z * option nat) :=
  check_loop fuel ev fn dt it (state_alloc n) 0.

(** aa_ct_seg_list_check_c0: 1034-1114, on a list of constant-velocity segments *)
Definition pos_diff (n : nat) (a b : st) : R :=
  match s_q a, s_q b with
  | Some x, Some y => fold_left Rplus (firstn n (zip (fun u v => Rabs (u - v)) x y)) 0
  | _, _ => 0
  end.
(** 1048-1073: None: budget, or the loop ends with Some (inl 1) or the two states *)
Fixpoint c0_loop (fuel : nat) (ev : option nat -> st -> R -> option (bool * st * option nat))
    (n : nat) (dt tol : R) (it : option nat) (s0 s1 : st) (t0 t1 : R) : option (Z + (st * st * option nat)) :=
  match fuel with
  | O => None
  | S k =>
      obind (ev it s1 t1) (fun '(b, s1', it1) =>
      if b then
        obind (ev it1 s0 t0) (fun '(_, s0', it2) =>
        if Rlt_b tol (pos_diff n s1' s0') then Some (inl 1%Z)
        else c0_loop k ev n dt tol it2 s1' s0' (t0 + dt) (t1 + dt))
      else Some (inr (s0, s1', it1)))
  end.
(** 1075-1107: the ends of neighbouring segments *)
Fixpoint c0_ends (l : list seg_dq) (n : nat) (eps : R) (s0 s1 : st) : option Z :=
  match l with
  | c :: ((c' :: _) as r) =>
      obind (dq_eval c s0 (sd_t1 c)) (fun '(_, s0') =>
      obind (dq_eval c' s1 (sd_t0 c')) (fun '(_, s1') =>
      if Rlt_b eps (pos_diff n s1' s0') then Some 2%Z else c0_ends r n eps s0' s1'))
  | _ => Some 0%Z
  end.
Definition lin_check_c0 (fuel : nat) (l : list seg_dq) (n : nat) (it : option nat) (dt tol eps : R) : option Z :=
  obind (lin_eval l it (state_alloc n) dt) (fun '(_, s1, it1) =>
  obind (c0_loop fuel (lin_eval l) n dt tol it1 (state_alloc n) s1 0 dt) (fun o =>
  match o with
  | inl z => Some z
  | inr (s0, s1', _) => c0_ends l n eps s0 s1'
  end)).

(** aa_ct_seg_list_eval_q: 231-238; aa_ct_seg_list_eval_dq: 240-249 *)
Definition st_q (n : nat) (q : list R) : st := mkSt n (Some q) None None.
Definition st_dq (n : nat) (q dq : list R) : st := mkSt n (Some q) (Some dq) None.
