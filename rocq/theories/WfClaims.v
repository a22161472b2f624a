(** Proofs for C87: numbers, indices, materials and getters. *)
From Coq Require Import String Ascii ZArith Reals Bool Arith List Lia Lra.
From Verif Require Import WfModel WfSpec WfProofs WfNum WfObj WfObj2 WfObj3 WfObj4 WfMtl WfMtl2 WfAny.
Import ListNotations.
Open Scope nat_scope.

Lemma pow10_one k : powerRZ 10 k = 1%R -> k = 0%Z.
Proof.
  destruct k as [|p|p]; [reflexivity| |]; cbn [powerRZ]; intros H; exfalso.
  - assert (1 < 10 ^ Pos.to_nat p)%R by (apply Rlt_pow_R1; [lra|lia]). lra.
  - assert (1 < 10 ^ Pos.to_nat p)%R by (apply Rlt_pow_R1; [lra|lia]).
    assert (/ (10 ^ Pos.to_nat p) < / 1)%R by (apply Rinv_lt_contravar; lra). rewrite H, Rinv_1 in H1. lra.
Qed.
Theorem c87_exponent n t : reads n -> blanks t -> mantissa n <> 0%R -> exponent n <> 0%Z -> parse_float (num_text n ++ t) <> number n.
Proof.
  intros [OK F] B M E. rewrite parse_num by assumption. unfold number. intros H. apply E, pow10_one.
  apply (Rmult_eq_reg_l (mantissa n)); [|exact M]. lra.
Qed.
Theorem c87_long n t : num_ok n -> blanks t -> (decimal (n_int n) <= LONG_MAX)%Z -> (LONG_MAX < decimal (frac_of n))%Z ->
  parse_float (num_text n ++ t) =
    ((if n_neg n then -1 else 1) * (IZR (decimal (n_int n)) + IZR LONG_MAX / 10 ^ length (frac_of n)))%R /\
  parse_float (num_text n ++ t) <> mantissa n.
Proof.
  intros OK B F1 F2. assert (E := parse_frac n t OK F1 B). rewrite Z.min_l in E by lia. split; [exact E|]. rewrite E. unfold mantissa.
  assert (P : (0 < 10 ^ length (frac_of n))%R) by (apply pow_lt; lra).
  assert (IZR LONG_MAX < IZR (decimal (frac_of n)))%R by now apply IZR_lt.
  assert (IZR LONG_MAX / 10 ^ length (frac_of n) < IZR (decimal (frac_of n)) / 10 ^ length (frac_of n))%R.
  { apply Rmult_lt_compat_r; [now apply Rinv_0_lt_compat|assumption]. }
  destruct (n_neg n); lra.
Qed.

Section Claims.
  Variable dir : text.
  Variable files : text -> option text.
  (** the corners of faces *)
  Theorem c87_range ls : Forall (line_ok reads) ls -> readable dir files (stmts ls) ->
    (forall c, In c (corners (stmts ls)) -> (0 < decimal (c_v c))%Z /\ (3 * decimal (c_v c) <= Z.of_nat (length (vertices (stmts ls))))%Z) ->
    exists o, wf_parse dir files (file_text ls) = Ok o /\ Forall (fun i => (0 <= 3 * i /\ 3 * i + 2 < Z.of_nat (length (o_vert o)))%Z) (o_vi o).
  Proof.
    intros OK R H. destruct (c87_file dir files ls OK R) as (o & E & Y). exists o. split; [exact E|]. destruct Y as [Yv _ _ Yi _ _ _ _ _ _ _].
    rewrite Yi, Yv. apply Forall_map, Forall_forall. intros c I. specialize (H c I). unfold index. lia.
  Qed.
  Theorem c87_no_range ls c : Forall (line_ok reads) ls -> readable dir files (stmts ls) -> In c (corners (stmts ls)) ->
    (decimal (c_v c) = 0%Z \/ (Z.of_nat (length (vertices (stmts ls))) < 3 * decimal (c_v c))%Z) ->
    exists o i, wf_parse dir files (file_text ls) = Ok o /\ In i (o_vi o) /\ ((i < 0)%Z \/ (Z.of_nat (length (o_vert o)) <= 3 * i + 2)%Z).
  Proof.
    intros OK R I H. destruct (c87_file dir files ls OK R) as (o & E & Y). exists o, (index (c_v c)). split; [exact E|].
    destruct Y as [Yv _ _ Yi _ _ _ _ _ _ _]. rewrite Yi, Yv. split; [apply in_map_iff; eauto|]. unfold index. lia.
  Qed.
  (** materials *)
  Lemma fm_len d : forall now, length (face_material now d) = length (filter is_face d).
  Proof. induction d as [|s d IH]; intros now; [reflexivity|]. destruct s; cbn; rewrite ?IH; reflexivity. Qed.
  Lemma fm_used d : forall now n k, nth_error (face_material now d) k = Some (Some n) -> now = Some n \/ In n (used d).
  Proof.
    induction d as [|s d IH]; intros now n k H; [destruct k; discriminate|].
    destruct s; cbn [face_material] in H; try (apply IH in H; exact H).
    - apply IH in H. cbn. destruct H as [H|H]; [injection H as <-; right; now left|right; now right].
    - destruct k as [|k]; cbn in H; [injection H as ->; now left|]. now apply IH in H.
  Qed.
  Lemma f2_nth {A B} (P : A -> B -> Prop) l m : Forall2 P l m -> forall k x, nth_error l k = Some x -> exists y, nth_error m k = Some y /\ P x y.
  Proof.
    induction 1 as [|a b l m H _ IH]; intros k x; [destruct k; discriminate|]. destruct k as [|k]; cbn; [injection 1 as <-; eauto|apply IH].
  Qed.
  Theorem c87_face_name ls : Forall (line_ok reads) ls -> readable dir files (stmts ls) ->
    exists o, wf_parse dir files (file_text ls) = Ok o /\
    forall k n, nth_error (face_material None (stmts ls)) k = Some (Some n) ->
      exists i, nth_error (o_mi o) k = Some (Z.of_nat i) /\ get_material_name o i = Ok (Some n).
  Proof.
    intros OK R. destruct (c87_file dir files ls OK R) as (o & E & Y). exists o. split; [exact E|]. intros k n H.
    destruct (f2_nth _ _ _ (sy_mi _ _ _ _ Y) k _ H) as (i & Hi & P & N). exists (Z.to_nat i). rewrite Z2Nat.id by exact P.
    split; [exact Hi|]. unfold get_material_name. now rewrite N.
  Qed.
  Theorem c87_alias ls k : Forall (line_ok reads) ls -> readable dir files (stmts ls) ->
    nth_error (face_material None (stmts ls)) k = Some None -> used (stmts ls) <> [] ->
    exists o n, wf_parse dir files (file_text ls) = Ok o /\ nth_error (o_mi o) k = Some 0%Z /\ get_material_name o 0 = Ok (Some n) /\
      In n (used (stmts ls)).
  Proof.
    intros OK R H U. destruct (c87_file dir files ls OK R) as (o & E & Y).
    destruct (f2_nth _ _ _ (sy_mi _ _ _ _ Y) k _ H) as (i & Hi & ->). assert (M := sy_materials _ _ _ _ Y).
    destruct (used (stmts ls)) as [|n r]; [congruence|]. exists o, n. split; [exact E|]. split; [exact Hi|].
    unfold get_material_name. rewrite M. split; [reflexivity|now left].
  Qed.
  (** getters *)
  Theorem c87_getters ls : Forall (line_ok reads) ls -> readable dir files (stmts ls) ->
    exists o, wf_parse dir files (file_text ls) = Ok o /\
    (forall i n, nth_error (libraries (stmts ls)) i = Some n ->
       get_mtl_filename o i = Ok (Some n) /\ exists m, get_mtl o i = Ok (Some m) /\ library dir files n m) /\
    (forall i, length (libraries (stmts ls)) < i -> get_mtl_filename o i = Ok None /\ get_mtl o i = Ok None) /\
    (forall i, length (firsts (used (stmts ls))) <= i -> get_material_name o i = Ok None).
  Proof.
    intros OK R. destruct (c87_file dir files ls OK R) as (o & E & Y). exists o. split; [exact E|].
    assert (Ef := sy_files _ _ _ _ Y). assert (El := sy_libs _ _ _ _ Y). assert (Em := sy_materials _ _ _ _ Y).
    assert (L : length (o_mtl o) = length (libraries (stmts ls))) by (symmetry; clear -El; induction El; cbn; congruence).
    unfold get_mtl_filename, get_mtl, get_material_name. rewrite Ef, Em, L. split; [|split].
    - intros i n H. assert (i < length (libraries (stmts ls))) by (apply nth_error_Some; congruence).
      rewrite (proj2 (Nat.leb_le _ _)) by lia. rewrite H. split; [reflexivity|].
      destruct (f2_nth _ _ _ El i n H) as (m & -> & P). eauto.
    - intros i H. rewrite (proj2 (Nat.leb_gt _ _)) by lia. tauto.
    - intros i H. f_equal. now apply nth_error_None.
  Qed.
  Theorem c87_getters_end ls : Forall (line_ok reads) ls -> readable dir files (stmts ls) ->
    exists o, wf_parse dir files (file_text ls) = Ok o /\
      get_mtl_filename o (length (libraries (stmts ls))) = Undef /\ get_mtl o (length (libraries (stmts ls))) = Undef.
  Proof.
    intros OK R. destruct (c87_file dir files ls OK R) as (o & E & Y). exists o. split; [exact E|].
    assert (Ef := sy_files _ _ _ _ Y). assert (El := sy_libs _ _ _ _ Y).
    assert (L : length (o_mtl o) = length (libraries (stmts ls))) by (symmetry; clear -El; induction El; cbn; congruence).
    unfold get_mtl_filename, get_mtl. rewrite Ef, L, Nat.leb_refl. rewrite !(proj2 (nth_error_None _ _)) by lia. tauto.
  Qed.
End Claims.
