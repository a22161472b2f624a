(** The continuous time Riccati equation by Laub's Schur method: /repo/src/are.c 46-175.

    Matrices are functions of row and column; the column major storage of blocks of the Hamiltonian is the subject of
    C35 and C72 and is not repeated here.  The workspace of the region allocator (Region*.v), the workspace queries of
    dgees and dgels and the balancing inside LAPACK are not modelled; dgees and dgels are parameters. *)
From Coq Require Import Reals Arith List Bool.
From Verif Require Import MatModel.
Open Scope R_scope.

Definition mat := nat -> nat -> R.
(** storing an m by m matrix at row r and column c: &AA_MATREF(H, 2*m, r, c) *)
Definition block (H : mat) (r c m : nat) (f : mat) : mat := fun i j =>
  if Nat.leb r i && Nat.ltb i (r + m) && Nat.leb c j && Nat.ltb j (c + m) then f (i - r)%nat (j - c)%nat else H i j.
(** dlascl 'G' with cfrom = -1 and cto = 1 on the block *)
Definition scl (H : mat) (r c m : nat) : mat := block H r c m (fun i j => 1 / -1 * H (r + i)%nat (c + j)%nat).

(** aa_la_care_laub_select: are.c 46-49 *)
Definition care_select (re im : R) : bool := if Rlt_dec re 0 then true else false.
(** aa_la_care_laub_hamiltonian: are.c 51-95 *)
Definition care_hamiltonian (m n p : nat) (A B C H0 : mat) : mat :=
  let H1 := block H0 0 0 m A in
  let H2 := scl (block H1 m m m (fun i j => A j i)) m m m in
  let H3 := if Nat.eqb n m then scl (block H2 0 m m B) 0 m m
            else block H2 0 m m (fun i j => -1 * bsum n (fun k => B i k * B j k)) in
  if Nat.eqb p m then scl (block H3 m 0 m C) m 0 m
  else block H3 m 0 m (fun i j => -1 * bsum p (fun k => C k i * C k j)).

(** what dgees leaves: info, the number of selected eigenvalues, the Schur form and the Schur vectors *)
Record gees_res := mkGees { g_info : Z; g_sdim : nat; g_t : mat; g_vs : mat }.

Section Care.
  (** dgees("V", "S", select): order and matrix *)
  Variable gees : (R -> R -> bool) -> nat -> mat -> gees_res.
  (** dgels("T"): order, matrix, right hand sides; info and what is left in the place of the right hand sides *)
  Variable gels : nat -> mat -> mat -> Z * mat.
  (** aa_la_care_laub: are.c 97-175; info is not looked at after either call *)
  Definition care_laub (m n p : nat) (A B C H0 : mat) : Z * mat :=
    let vs := g_vs (gees care_select (2 * m) (care_hamiltonian m n p A B C H0)) in
    let X := fun i j => vs (m + j)%nat i in
    (0%Z, snd (gels m vs X)).
End Care.
