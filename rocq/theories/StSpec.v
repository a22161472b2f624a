(** What callers are promised about robot states and point lists. *)
From Coq Require Import List Reals Arith.
Import ListNotations.
From Verif Require Import StModel.
Open Scope R_scope.

(** The contents of a state: its two sizes and, for each array member, nothing (null) or
    the numbers in it ([None] for a number never stored). *)
Record view := mkV { v_nq : nat; v_ntf : nat; v_arr : part -> option (list cell) }.
(** how many numbers an array member has *)
Definition size_of (n_q n_tf : nat) (k : part) : nat :=
  match k with
  | Pq | Pdq | Pddq | Peff => n_q
  | PX => 7
  | PdX | PddX => 6
  | Pabs | Prel => n_tf
  end.

(** the cells found from address a on are cs *)
Definition cells_at (H : heap) (a : addr) (cs : list cell) : Prop :=
  exists before after, nth_error H (fst a) = Some (before ++ cs ++ after) /\ length before = snd a.
(** in memory H the state s has the contents V *)
Definition shows (H : heap) (s : cst) (V : view) : Prop :=
  c_nq s = v_nq V /\ c_ntf s = v_ntf V /\
  forall k, match c_ptr s k, v_arr V k with
            | None, None => True
            | Some a, Some cs => cells_at H a cs /\ length cs = size_of (v_nq V) (v_ntf V) k
            | _, _ => False
            end.
(** the arrays that are compared: everything but the efforts and the frames *)
Definition compared (k : part) : Prop := ~ In k [Peff; Pabs; Prel].
(** all numbers of the compared arrays were stored *)
Definition stored (V : view) : Prop :=
  forall k cs, compared k -> v_arr V k = Some cs -> Forall (fun c => c <> None) cs.

(** two numbers are at most 1/1000 apart *)
Definition near_cell (a b : cell) : Prop :=
  match a, b with Some x, Some y => Rabs (x - y) <= 1 / 1000 | _, _ => False end.
(** two contents count as equal *)
Definition near (V W : view) : Prop :=
  v_nq V = v_nq W /\ v_ntf V = v_ntf W /\
  forall k, compared k ->
    match v_arr V k, v_arr W k with
    | None, None => True
    | Some a, Some b => Forall2 near_cell a b
    | _, _ => False
    end.

(** memory only grew *)
Definition grew (H H' : heap) : Prop := exists new, H' = H ++ new.
(** every array of the state was allocated between H and H' *)
Definition made_between (H H' : heap) (s : cst) : Prop :=
  forall k a, c_ptr s k = Some a -> (length H <= fst a < length H')%nat /\ snd a = 0%nat.
(** no two members of a state share an array *)
Definition separate (s : cst) : Prop :=
  forall j k a b, c_ptr s j = Some a -> c_ptr s k = Some b -> fst a = fst b -> j = k.
(** the memories agree on the arrays numbered from n to m *)
Definition agree_on (n m : nat) (H H' : heap) : Prop :=
  forall i, (n <= i < m)%nat -> nth_error H' i = nth_error H i.

(** ** Point lists *)
Inductive side := Back | Front.
(** adding contents, one after the other, to a list of contents: a point that counts as
    equal to the point already at that end is dropped *)
Inductive added : list (side * view) -> list view -> Prop :=
| added_nil : added [] []
| added_first e d V : added e [] -> added (e ++ [(d, V)]) [V]
| added_back e l W V : added e (l ++ [W]) -> ~ near W V -> added (e ++ [(Back, V)]) (l ++ [W; V])
| added_front e W l V : added e (W :: l) -> ~ near W V -> added (e ++ [(Front, V)]) (V :: W :: l)
| dropped_back e l W V : added e (l ++ [W]) -> near W V -> added (e ++ [(Back, V)]) (l ++ [W])
| dropped_front e W l V : added e (W :: l) -> near W V -> added (e ++ [(Front, V)]) (W :: l).

(** the arrays of the points of a list *)
Definition owned (L : plist) (i : nat) : Prop :=
  exists p k a, In p (pl_nodes L) /\ c_ptr (n_st p) k = Some a /\ fst a = i.
(** A history of a point list: between two calls the caller may do anything to memory the
    list does not own, and each call is given a state with known contents.  [Add] calls
    are aa_ct_pt_list_add and aa_ct_pt_list_add_front. *)
Inductive history : list (side * view) -> heap -> plist -> Prop :=
| h_create H : history [] H pt_create
| h_write e H H' L : history e H L -> (length H <= length H')%nat ->
    (forall i, owned L i -> nth_error H' i = nth_error H i) -> history e H' L
| h_add e H L s V H' L' : history e H L -> shows H s V -> stored V ->
    pts_add H L s = Ok (H', L') -> history (e ++ [(Back, V)]) H' L'
| h_add_front e H L s V H' L' : history e H L -> shows H s V -> stored V ->
    pts_add_front H L s = Ok (H', L') -> history (e ++ [(Front, V)]) H' L'.

(** the points met by following the next (or prev) links from i are l, and then the links
    end *)
Inductive links (get : node -> option nat) (ns : list node) : option nat -> list nat -> Prop :=
| links_end : links get ns None []
| links_step i p l : nth_error ns i = Some p -> links get ns (get p) l -> links get ns (Some i) (i :: l).
(** the list has the contents l, first to last *)
Definition contents (H : heap) (L : plist) (l : list view) : Prop :=
  Forall2 (fun i V => exists p, nth_error (pl_nodes L) i = Some p /\ shows H (n_st p) V) (pl_list L) l.

(** one list is another one with points left out *)
Inductive subsequence : list view -> list view -> Prop :=
| sub_nil : subsequence [] []
| sub_keep V a b : subsequence a b -> subsequence (V :: a) (V :: b)
| sub_skip V a b : subsequence a b -> subsequence a (V :: b).

(** the i-th row of a path *)
Definition row (n_q : nat) (v : list R) (i : nat) : view :=
  mkV n_q 0 (fun k => match k with Pq => Some (map Some (firstn n_q (skipn (i * n_q) v))) | _ => None end).
(** a state with only a configuration, and one with only a pose *)
Definition joints (v : list R) : view :=
  mkV (length v) 0 (fun k => match k with Pq => Some (map Some v) | _ => None end).
Definition pose (E : list R) : view :=
  mkV 0 0 (fun k => match k with PX => Some (map Some E) | _ => None end).
(** contents without efforts whose other arrays hold the numbers vals, none of them empty *)
Definition printable (V : view) (vals : part -> option (list R)) : Prop :=
  (forall k, In k [Pq; Pdq; Pddq] -> v_arr V k <> None -> (0 < v_nq V)%nat) /\
  (forall k, compared k -> v_arr V k = option_map (map Some) (vals k)) /\ v_arr V Peff = None.
(** one line for each array that is given, in this order *)
Definition lines (vals : part -> option (list R)) : list (part * list R) :=
  flat_map (fun k => match vals k with Some v => [(k, v)] | None => [] end) [Pq; Pdq; Pddq; PX; PdX; PddX].
(** one joint at x with effort e *)
Definition q_eff (x e : R) : view :=
  mkV 1 0 (fun k => match k with Pq => Some [Some x] | Peff => Some [Some e] | _ => None end).
