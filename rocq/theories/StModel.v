(** Model of robot states and point lists: src/ct/state.c, src/ct/traj.cpp 55-186,
    src/rx/rx_ct.c 57-73.

    Doubles are ideal reals.  Memory is a list of arrays; an address is an array and an
    offset in it, and allocating appends an array.  A cell of an array is [None] until
    something is stored there.  [Undef] is undefined behaviour: null or out-of-range
    access, or the use of the value of a cell that was never stored; copying such a cell
    is allowed.  [Hang] is a loop that does not end within the given number of rounds.
    Region memory is never reused while the list lives, so addresses stay valid. *)
From Coq Require Import List Reals Arith Bool.
Import ListNotations.
From Verif Require Import TrModel.
Open Scope nat_scope.

Inductive res (A : Type) : Type := Ok (a : A) | Undef | Hang.
Arguments Ok {A} a.
Arguments Undef {A}.
Arguments Hang {A}.
Definition rbind {A B} (r : res A) (f : A -> res B) : res B :=
  match r with Ok a => f a | Undef => Undef | Hang => Hang end.

Definition cell := option R.
Definition heap := list (list cell).
Definition addr := (nat * nat)%type.
Definition ptr := option addr.

(** the array members of struct aa_ct_state: include/amino/ct/state.h 51-70 *)
Inductive part := Pq | Pdq | Pddq | Peff | PX | PdX | PddX | Pabs | Prel.
Definition part_eq (a b : part) : bool :=
  match a, b with
  | Pq, Pq | Pdq, Pdq | Pddq, Pddq | Peff, Peff | PX, PX | PdX, PdX | PddX, PddX
  | Pabs, Pabs | Prel, Prel => true
  | _, _ => false
  end.
(** struct aa_ct_state: state.h 51-70; the nine pointers are a function of the member *)
Record cst := mkC { c_nq : nat; c_ntf : nat; c_ptr : part -> ptr }.
(** AA_MEM_ZERO of a struct: all pointers null *)
Definition no_ptr : part -> ptr := fun _ => None.
Definition set_ptr (f : part -> ptr) (k : part) (p : ptr) : part -> ptr :=
  fun j => if part_eq j k then p else f j.

(** AA_MEM_REGION_NEW_N *)
Definition new_array (H : heap) (cells : list cell) : heap * ptr :=
  (H ++ [cells], Some (length H, 0)).

(** one cell; and the first n cells from an address *)
Definition rd_cell (H : heap) (a : addr) : res cell :=
  match nth_error H (fst a) with
  | Some arr => match nth_error arr (snd a) with Some c => Ok c | None => Undef end
  | None => Undef
  end.
Definition rd_cells (H : heap) (a : addr) (n : nat) : res (list cell) :=
  match nth_error H (fst a) with
  | Some arr => if snd a + n <=? length arr then Ok (firstn n (skipn (snd a) arr)) else Undef
  | None => Undef
  end.
(** a double that is used *)
Definition rd (H : heap) (a : addr) : res R :=
  rbind (rd_cell H a) (fun c => match c with Some x => Ok x | None => Undef end).
Definition next_addr (a : addr) : addr := (fst a, S (snd a)).

(** ** aa_ct_state_alloc: state.c 44-70: the arrays in the order of their allocation, with
    their sizes; the first three are zeroed, 56-58 *)
Definition alloc_parts : list part := [Pq; Pdq; Pddq; Peff; PX; PdX; PddX; Pabs; Prel].
Definition alloc_cells (n_q n_tf : nat) (k : part) : list cell :=
  match k with
  | Pq | Pdq | Pddq => repeat (Some 0%R) n_q
  | Peff => repeat None n_q
  | PX => repeat None 7
  | PdX | PddX => repeat None 6
  | Pabs | Prel => repeat None n_tf
  end.
Fixpoint alloc_loop (n_q n_tf : nat) (ks : list part) (H : heap) (f : part -> ptr) : heap * (part -> ptr) :=
  match ks with
  | [] => (H, f)
  | k :: r => let (H1, p) := new_array H (alloc_cells n_q n_tf k) in
              alloc_loop n_q n_tf r H1 (set_ptr f k p)
  end.
Definition state_alloc (H : heap) (n_q n_tf : nat) : heap * cst :=
  let (H1, f) := alloc_loop n_q n_tf alloc_parts H no_ptr in (H1, mkC n_q n_tf f).

(** ** state_clone_helper: 72-79 (AA_MEM_REGION_DUP copies the cells) *)
Definition clone_helper (H : heap) (src : ptr) (cnt : nat) : res (heap * ptr) :=
  match src with
  | Some a => rbind (rd_cells H a cnt) (fun cs => Ok (new_array H cs))
  | None => Ok (H, None)
  end.
(** aa_ct_state_clone: 81-105: the arrays in the order they are copied, and the counts *)
Definition clone_parts : list part := [Pq; Pdq; Pddq; PX; PdX; PddX; Peff; Pabs; Prel].
Definition clone_cnt (s : cst) (k : part) : nat :=
  match k with
  | Pq | Pdq | Pddq | Peff => c_nq s
  | PX => 7
  | PdX | PddX => 6
  | Pabs | Prel => c_ntf s
  end.
Fixpoint clone_loop (s : cst) (ks : list part) (H : heap) (f : part -> ptr) : res (heap * (part -> ptr)) :=
  match ks with
  | [] => Ok (H, f)
  | k :: r => rbind (clone_helper H (c_ptr s k) (clone_cnt s k)) (fun Hp =>
              clone_loop s r (fst Hp) (set_ptr f k (snd Hp)))
  end.
(** the destination's own members are all overwritten *)
Definition state_clone (H : heap) (s : cst) : res (heap * cst) :=
  rbind (clone_loop s clone_parts H no_ptr) (fun Hf => Ok (fst Hf, mkC (c_nq s) (c_ntf s) (snd Hf))).

(** ** aa_dump_vec: src/debug.c 68-72: the numbers printed; with n = 0 the bound n-1 wraps
    around and the loop runs off the array *)
Fixpoint rd_vec (H : heap) (a : addr) (n : nat) : res (list R) :=
  match n with
  | 0 => Ok []
  | S n' => rbind (rd H a) (fun x => rbind (rd_vec H (next_addr a) n') (fun v => Ok (x :: v)))
  end.
Definition dump_vec (H : heap) (p : ptr) (n : nat) : res (list R) :=
  match n, p with
  | 0, _ | _, None => Undef
  | _, Some a => rd_vec H a n
  end.
(** aa_ct_state_dump: state.c 108-145: one line per array that is given, with its label; the
    line of the efforts prints ddq, 126-129 *)
Definition dump_line (H : heap) (s : cst) (tested printed : part) (n : nat) : res (list (part * list R)) :=
  match c_ptr s tested with
  | None => Ok []
  | Some _ => rbind (dump_vec H (c_ptr s printed) n) (fun v => Ok [(tested, v)])
  end.
Fixpoint dump_lines (H : heap) (s : cst) (l : list (part * part * nat)) : res (list (part * list R)) :=
  match l with
  | [] => Ok []
  | (t, p, n) :: r => rbind (dump_line H s t p n) (fun a => rbind (dump_lines H s r) (fun b => Ok (a ++ b)))
  end.
Definition state_dump (H : heap) (s : cst) : res (list (part * list R)) :=
  dump_lines H s [(Pq, Pq, c_nq s); (Pdq, Pdq, c_nq s); (Pddq, Pddq, c_nq s); (Peff, Pddq, c_nq s);
                  (PX, PX, 7); (PdX, PdX, 6); (PddX, PddX, 6)].

(** ** aa_veq on memory: src/math.c 47-52 *)
Fixpoint veq_at (H : heap) (n : nat) (a b : addr) (tol : R) : res bool :=
  match n with
  | 0 => Ok true
  | S n' => rbind (rd H a) (fun x => rbind (rd H b) (fun y =>
            if feq x y tol then veq_at H n' (next_addr a) (next_addr b) tol else Ok false))
  end.
(** one pair of arrays: state.c 154-158 and the like *)
Definition same_part (H : heap) (p1 p2 : ptr) (n : nat) : res bool :=
  match p1, p2 with
  | Some a, Some b => veq_at H n a b aa_epsilon
  | None, None => Ok true
  | _, _ => Ok false
  end.
Fixpoint same_parts (H : heap) (s1 s2 : cst) (l : list (part * nat)) : res bool :=
  match l with
  | [] => Ok true
  | (k, n) :: r => rbind (same_part H (c_ptr s1 k) (c_ptr s2 k) n) (fun b =>
                   if b then same_parts H s1 s2 r else Ok false)
  end.
(** aa_ct_state_eq: 148-191 *)
Definition state_eqb (H : heap) (s1 s2 : cst) : res bool :=
  if negb (c_nq s1 =? c_nq s2) || negb (c_ntf s1 =? c_ntf s2) then Ok false
  else same_parts H s1 s2 [(Pq, c_nq s1); (Pdq, c_nq s1); (Pddq, c_nq s1); (PX, 7); (PdX, 6); (PddX, 6)].

(** storing numbers from an address on *)
Definition put_cells (H : heap) (a : addr) (v : list R) : res heap :=
  match nth_error H (fst a) with
  | Some arr =>
      if snd a + length v <=? length arr
      then Ok (firstn (fst a) H ++ [firstn (snd a) arr ++ map Some v ++ skipn (snd a + length v) arr]
               ++ skipn (S (fst a)) H)
      else Undef
  | None => Undef
  end.
(** aa_ct_state_set_qutr: 193-196; E holds seven numbers *)
Definition set_qutr (H : heap) (s : cst) (E : list R) : res heap :=
  match c_ptr s PX with Some a => put_cells H a E | None => Undef end.

(** ** Point lists: struct aa_ct_pt (traj.h), struct aa_ct_pt_list (traj_internal.hpp 86-99):
    the points made so far, and the std::list of pointers to them *)
Record node := mkN { n_st : cst; n_prev : option nat; n_next : option nat }.
Record plist := mkPL { pl_nodes : list node; pl_list : list nat }.
(** aa_ct_pt_list_create: traj.cpp 89-93 *)
Definition pt_create : plist := mkPL [] [].
Definition set_next (ns : list node) (i : nat) (v : option nat) : list node :=
  map (fun jn => if fst jn =? i then mkN (n_st (snd jn)) (n_prev (snd jn)) v else snd jn)
      (combine (seq 0 (length ns)) ns).
Definition set_prev (ns : list node) (i : nat) (v : option nat) : list node :=
  map (fun jn => if fst jn =? i then mkN (n_st (snd jn)) v (n_next (snd jn)) else snd jn)
      (combine (seq 0 (length ns)) ns).
(** list.back() and list.front(); null for the empty list, as in libstdc++ *)
Definition back (l : list nat) : option nat := hd_error (rev l).
Definition front (l : list nat) : option nat := hd_error l.
(** aa_ct_list_add: 55-65, of the new point s *)
Definition list_add (L : plist) (s : cst) : plist :=
  let el := length (pl_nodes L) in
  let ns := match back (pl_list L) with
            | Some b => set_next (pl_nodes L) b (Some el)
            | None => pl_nodes L
            end in
  mkPL (ns ++ [mkN s (back (pl_list L)) None]) (pl_list L ++ [el]).
(** aa_ct_list_add_front: 73-84 *)
Definition list_add_front (L : plist) (s : cst) : plist :=
  let el := length (pl_nodes L) in
  let ns := match front (pl_list L) with
            | Some b => set_prev (pl_nodes L) b (Some el)
            | None => pl_nodes L
            end in
  mkPL (ns ++ [mkN s None (front (pl_list L))]) (el :: pl_list L).
(** is the point at i equal to the state: 99-104 *)
Definition eq_at (H : heap) (L : plist) (i : option nat) (s : cst) : res bool :=
  match i with
  | None => Ok false
  | Some i => match nth_error (pl_nodes L) i with
              | Some p => state_eqb H (n_st p) s
              | None => Undef
              end
  end.
(** aa_ct_pt_list_add: 95-110 *)
Definition pts_add (H : heap) (L : plist) (s : cst) : res (heap * plist) :=
  rbind (eq_at H L (back (pl_list L)) s) (fun b =>
  if b then Ok (H, L) else rbind (state_clone H s) (fun Hs => Ok (fst Hs, list_add L (snd Hs)))).
(** aa_ct_pt_list_add_front: 112-127 *)
Definition pts_add_front (H : heap) (L : plist) (s : cst) : res (heap * plist) :=
  rbind (eq_at H L (front (pl_list L)) s) (fun b =>
  if b then Ok (H, L) else rbind (state_clone H s) (fun Hs => Ok (fst Hs, list_add_front L (snd Hs)))).
(** aa_ct_pt_list_add_qutr: 130-137; aa_ct_pt_list_add_q: 139-147 *)
Definition pts_add_qutr (H : heap) (L : plist) (E : addr) : res (heap * plist) :=
  pts_add H L (mkC 0 0 (set_ptr no_ptr PX (Some E))).
Definition pts_add_q (H : heap) (L : plist) (n_q : nat) (q : addr) : res (heap * plist) :=
  pts_add H L (mkC n_q 0 (set_ptr no_ptr Pq (Some q))).
(** aa_ct_pt_list_start_state: 156-160; aa_ct_pt_list_final_state: 163-167; size: 169-173 *)
Definition point (L : plist) (i : option nat) : res cst :=
  match i with
  | Some i => match nth_error (pl_nodes L) i with Some p => Ok (n_st p) | None => Undef end
  | None => Undef
  end.
Definition start_state (L : plist) : res cst := point L (front (pl_list L)).
Definition final_state (L : plist) : res cst := point L (back (pl_list L)).
Definition pts_size (L : plist) : nat := length (pl_list L).
(** aa_ct_pt_list_dump: 175-185: follows the next links *)
Fixpoint dump_from (H : heap) (L : plist) (fuel : nat) (i : option nat) : res (list (list (part * list R))) :=
  match i with
  | None => Ok []
  | Some i =>
      match fuel with
      | 0 => Hang
      | S fuel' =>
          match nth_error (pl_nodes L) i with
          | Some p => rbind (state_dump H (n_st p)) (fun d =>
                      rbind (dump_from H L fuel' (n_next p)) (fun r => Ok (d :: r)))
          | None => Undef
          end
      end
  end.
Definition pts_dump (H : heap) (L : plist) (fuel : nat) : res (list (list (part * list R))) :=
  dump_from H L fuel (front (pl_list L)).

(** ** aa_rx_ct_pt_list: rx_ct.c 57-73; path is an array of n_q * n_path doubles *)
Fixpoint path_loop (fuel n_q n_path : nat) (path : addr) (i : nat) (H : heap) (L : plist) : res (heap * plist) :=
  if i <? n_q * n_path then
    match fuel with
    | 0 => Hang
    | S fuel' =>
        rbind (pts_add H L (mkC n_q 0 (set_ptr no_ptr Pq (Some (fst path, snd path + i))))) (fun HL =>
        path_loop fuel' n_q n_path path (i + n_q) (fst HL) (snd HL))
    end
  else Ok (H, L).
Definition rx_pt_list (fuel : nat) (H : heap) (n_q n_path : nat) (path : addr) : res (heap * plist) :=
  path_loop fuel n_q n_path path 0 H pt_create.
