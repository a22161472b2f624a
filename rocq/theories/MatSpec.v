(** What the vector and matrix functions should do, in terms of the elements a descriptor names. *)
From Coq Require Import Reals Arith.
From Verif Require Import MatModel.
Open Scope R_scope.

(** AA_DVEC_REF and AA_DMAT_REF: the address of an element *)
Definition velem (v : dvec) (i : nat) : nat := (v_data v + i * v_inc v)%nat.
Definition melem (A : dmat) (i j : nat) : nat := (m_data A + m_ld A * j + i)%nat.
Definition in_vec (v : dvec) (a : nat) : Prop := exists i, (i < v_len v)%nat /\ a = velem v i.
Definition in_mat (A : dmat) (a : nat) : Prop := exists i j, (i < m_rows A)%nat /\ (j < m_cols A)%nat /\ a = melem A i j.
(** descriptors whose elements have different addresses *)
Definition good_vec (v : dvec) : Prop := (0 < v_inc v)%nat.
Definition good_mat (A : dmat) : Prop := (m_rows A <= m_ld A)%nat.
Definition apart (P Q : nat -> Prop) : Prop := forall a, P a -> ~ Q a.

(** the memory changes exactly at the elements of v (of A), where it becomes f *)
Definition vec_becomes (v : dvec) (m m' : mem) (f : nat -> R) : Prop :=
  (forall i, (i < v_len v)%nat -> m' (velem v i) = f i) /\ (forall a, ~ in_vec v a -> m' a = m a).
Definition mat_becomes (A : dmat) (m m' : mem) (f : nat -> nat -> R) : Prop :=
  (forall i j, (i < m_rows A)%nat -> (j < m_cols A)%nat -> m' (melem A i j) = f i j) /\
  (forall a, ~ in_mat A a -> m' a = m a).

Definition vget (v : dvec) (m : mem) (i : nat) : R := m (velem v i).
Definition mget (A : dmat) (m : mem) (i j : nat) : R := m (melem A i j).
(** op(A) and its dimensions *)
Definition oget (tr : bool) (A : dmat) (m : mem) (i j : nat) : R := if tr then mget A m j i else mget A m i j.
Definition orows (tr : bool) (A : dmat) : nat := if tr then m_cols A else m_rows A.
Definition ocols (tr : bool) (A : dmat) : nat := if tr then m_rows A else m_cols A.

(** the value of an expression, and its operands being of the size n of the result *)
Fixpoint value (e : vexp) (m : mem) (i : nat) : R :=
  match e with
  | EVec x => vget x m i
  | EScal a e => a * value e m i
  | EAxpy a x y => a * vget x m i + value y m i
  | EMV1 tr a A x => a * bsum (ocols tr A) (fun k => oget tr A m i k * vget x m k)
  | EMV2 tr a A x b y => a * bsum (ocols tr A) (fun k => oget tr A m i k * vget x m k) + b * value y m i
  end.
Fixpoint sized (n : nat) (e : vexp) : Prop :=
  match e with
  | EVec x => v_len x = n
  | EScal _ e => sized n e
  | EAxpy _ x y => v_len x = n /\ sized n y
  | EMV1 tr _ A x => orows tr A = n /\ v_len x = ocols tr A
  | EMV2 tr _ A x _ y => orows tr A = n /\ v_len x = ocols tr A /\ sized n y
  end.
(** the target shares no element with an operand, except that the last summand may be the
    target itself *)
Fixpoint separate (t : dvec) (e : vexp) : Prop :=
  match e with
  | EVec x => x = t \/ apart (in_vec t) (in_vec x)
  | EScal _ e => separate t e
  | EAxpy _ x y => apart (in_vec t) (in_vec x) /\ separate t y
  | EMV1 _ _ A x => apart (in_vec t) (in_vec x) /\ apart (in_vec t) (in_mat A)
  | EMV2 _ _ A x _ y => apart (in_vec t) (in_vec x) /\ apart (in_vec t) (in_mat A) /\ separate t y
  end.
