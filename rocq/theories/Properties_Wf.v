(** C87: reading Wavefront OBJ and MTL files. *)
From Coq Require Import String Ascii ZArith Reals Bool Arith List Lia Lra.
From Verif Require Import WfModel WfSpec WfProofs WfNum WfObj2 WfObj3 WfObj4 WfMtl2 WfAny WfClaims WfExamples.
Import ListNotations.
Open Scope nat_scope.

(** A file of well-formed lines whose libraries can be read is accepted, and the object holds what
    the lines say, in their order. *)
Theorem C87_file : forall dir files ls, Forall (line_ok reads) ls -> readable dir files (stmts ls) ->
  exists o, wf_parse dir files (file_text ls) = Ok o /\ says dir files (stmts ls) o.
Proof. exact c87_file. Qed.
Print Assumptions C87_file.

(** A number without an exponent, whose digits before and after the point fit a long, is read
    exactly. *)
Theorem C87_number : forall n t, num_ok n -> num_fits n -> n_exp n = None -> blanks t -> parse_float (num_text n ++ t) = number n.
Proof.
  intros n t OK F E B. rewrite parse_num by assumption. unfold number, exponent. rewrite E. cbn. ring.
Qed.
Print Assumptions C87_number.

(** The scanner accepts exponents, and the number's value leaves them out. *)
Theorem C87_exponent_refuted : forall n t, reads n -> blanks t -> mantissa n <> 0%R -> exponent n <> 0%Z ->
  parse_float (num_text n ++ t) = mantissa n /\ parse_float (num_text n ++ t) <> number n.
Proof. intros n t R B M E. split; [apply parse_num; [apply R|apply R|exact B]|now apply c87_exponent]. Qed.
Print Assumptions C87_exponent_refuted.

(** A fraction whose digits exceed a long is replaced by the largest long over the same power of ten. *)
Theorem C87_long_fraction_refuted : forall n t, num_ok n -> blanks t -> (decimal (n_int n) <= LONG_MAX)%Z ->
  (LONG_MAX < decimal (frac_of n))%Z ->
  parse_float (num_text n ++ t) =
    ((if n_neg n then -1 else 1) * (IZR (decimal (n_int n)) + IZR LONG_MAX / 10 ^ length (frac_of n)))%R /\
  parse_float (num_text n ++ t) <> mantissa n.
Proof. exact c87_long. Qed.
Print Assumptions C87_long_fraction_refuted.

(** A library that cannot be opened or read makes the whole file fail. *)
Theorem C87_library : forall dir files ls l g n rest, Forall (line_ok reads) ls -> line_ok reads l -> readable dir files (stmts ls) ->
  body l = MtlLib g n ->
  (files (dir ++ lit "/" ++ n) = None \/ (exists t, files (dir ++ lit "/" ++ n) = Some t /\ mtl_parse t = Rejected)) ->
  wf_parse dir files (file_text ls ++ line_text l ++ nl :: rest) = Rejected.
Proof. exact c87_library. Qed.
Print Assumptions C87_library.

(** Text after a statement that is not a comment -- a fourth coordinate or corner, a carriage
    return before the newline -- makes the whole file fail, whatever follows. *)
Theorem C87_garbage : forall dir files ls l x rest, Forall (line_ok reads) ls -> line_ok reads l ->
  readable dir files (stmts (ls ++ [l])) -> note l = None -> is_skipped (body l) = false -> body l <> Nothing -> follows l x ->
  wf_parse dir files (file_text ls ++ line_text l ++ x :: rest) = Rejected.
Proof. exact c87_garbage. Qed.
Print Assumptions C87_garbage.

(** A last line without a newline is read if it ends with its number, name or skipped text... *)
Theorem C87_last_line : forall dir files ls l, Forall (line_ok reads) ls -> line_ok reads l ->
  readable dir files (stmts (ls ++ [l])) -> finished l ->
  exists o, wf_parse dir files (file_text ls ++ line_text l) = Ok o /\ says dir files (stmts (ls ++ [l])) o.
Proof. exact c87_finished. Qed.
Print Assumptions C87_last_line.

(** ... and otherwise -- a face, a comment, a name with blanks after it, a blank line -- makes the
    whole file fail. *)
Theorem C87_last_line_refuted : forall dir files ls l, Forall (line_ok reads) ls -> line_ok reads l ->
  readable dir files (stmts (ls ++ [l])) -> unfinished l -> wf_parse dir files (file_text ls ++ line_text l) = Rejected.
Proof. exact c87_unfinished. Qed.
Print Assumptions C87_last_line_refuted.

(** A file that ends inside a vertex is accepted with a part of that vertex. *)
Theorem C87_truncated_refuted : forall dir files ls g x g1, Forall (line_ok reads) ls -> readable dir files (stmts ls) ->
  gap g -> reads x -> gap g1 ->
  exists o, wf_parse dir files (file_text ls ++ lit "v" ++ g ++ num_text x ++ g1) = Ok o /\
    o_vert o = vertices (stmts ls) ++ [mantissa x].
Proof. exact c87_truncated. Qed.
Print Assumptions C87_truncated_refuted.

(** For any text at all the parser ends; it rejects the text or gives an object whose arrays fit
    together, unless a library it names takes the library parser into undefined behavior. *)
Theorem C87_total : forall dir files t,
  match wf_parse dir files t with
  | Ok o => exists n, fits n o
  | Rejected => True
  | Undef => exists n t', files n = Some t' /\ mtl_parse t' = Undef
  | Hang => False
  end.
Proof. exact obj_any. Qed.
Print Assumptions C87_total.

(** Corners that name vertices of the file give indices inside the vertex array... *)
Theorem C87_indices : forall dir files ls, Forall (line_ok reads) ls -> readable dir files (stmts ls) ->
  (forall c, In c (corners (stmts ls)) ->
     (0 < decimal (c_v c))%Z /\ (3 * decimal (c_v c) <= Z.of_nat (length (vertices (stmts ls))))%Z) ->
  exists o, wf_parse dir files (file_text ls) = Ok o /\
    Forall (fun i => (0 <= 3 * i /\ 3 * i + 2 < Z.of_nat (length (o_vert o)))%Z) (o_vi o).
Proof. exact c87_range. Qed.
Print Assumptions C87_indices.

(** ... and one that does not is accepted all the same, with an index outside the array. *)
Theorem C87_indices_refuted : forall dir files ls c, Forall (line_ok reads) ls -> readable dir files (stmts ls) ->
  In c (corners (stmts ls)) ->
  (decimal (c_v c) = 0%Z \/ (Z.of_nat (length (vertices (stmts ls))) < 3 * decimal (c_v c))%Z) ->
  exists o i, wf_parse dir files (file_text ls) = Ok o /\ In i (o_vi o) /\
    ((i < 0)%Z \/ (Z.of_nat (length (o_vert o)) <= 3 * i + 2)%Z).
Proof. exact c87_no_range. Qed.
Print Assumptions C87_indices_refuted.

(** The material number of a face gives back the name in use at that face... *)
Theorem C87_face_material : forall dir files ls, Forall (line_ok reads) ls -> readable dir files (stmts ls) ->
  exists o, wf_parse dir files (file_text ls) = Ok o /\
  forall k n, nth_error (face_material None (stmts ls)) k = Some (Some n) ->
    exists i, nth_error (o_mi o) k = Some (Z.of_nat i) /\ get_material_name o i = Ok (Some n).
Proof. exact c87_face_name. Qed.
Print Assumptions C87_face_material.

(** ... and gives a face before any name that of a material used only later. *)
Theorem C87_face_material_refuted : forall dir files ls k, Forall (line_ok reads) ls -> readable dir files (stmts ls) ->
  nth_error (face_material None (stmts ls)) k = Some None -> used (stmts ls) <> [] ->
  exists o n, wf_parse dir files (file_text ls) = Ok o /\ nth_error (o_mi o) k = Some 0%Z /\
    get_material_name o 0 = Ok (Some n) /\ In n (used (stmts ls)).
Proof. exact c87_alias. Qed.
Print Assumptions C87_face_material_refuted.

(** The getters give the i-th library's name and contents, and null past the end... *)
Theorem C87_getters : forall dir files ls, Forall (line_ok reads) ls -> readable dir files (stmts ls) ->
  exists o, wf_parse dir files (file_text ls) = Ok o /\
  (forall i n, nth_error (libraries (stmts ls)) i = Some n ->
     get_mtl_filename o i = Ok (Some n) /\ exists m, get_mtl o i = Ok (Some m) /\ library dir files n m) /\
  (forall i, length (libraries (stmts ls)) < i -> get_mtl_filename o i = Ok None /\ get_mtl o i = Ok None) /\
  (forall i, length (firsts (used (stmts ls))) <= i -> get_material_name o i = Ok None).
Proof. exact c87_getters. Qed.
Print Assumptions C87_getters.

(** ... except that the one right at the end reads past the array. *)
Theorem C87_getters_refuted : forall dir files ls, Forall (line_ok reads) ls -> readable dir files (stmts ls) ->
  exists o, wf_parse dir files (file_text ls) = Ok o /\
    get_mtl_filename o (length (libraries (stmts ls))) = Undef /\ get_mtl o (length (libraries (stmts ls))) = Undef.
Proof. exact c87_getters_end. Qed.
Print Assumptions C87_getters_refuted.

(** A library of well-formed lines is accepted; it has one material for each newmtl, with the last
    value of each kind given before the next one. *)
Theorem C87_mtl_file : forall ls, Forall (mline_ok reads) ls -> orderly (map m_body ls) ->
  exists ms, mtl_parse (mfile_text ls) = Ok ms /\ Forall2 describes (snd (sections (map m_body ls))) ms.
Proof. exact c87_mtl. Qed.
Print Assumptions C87_mtl_file.

(** The library parser ends on any text, and after a first material none makes it undefined. *)
Theorem C87_mtl_total : forall ls t, mtl_parse t <> Hang /\
  (Forall (mline_ok reads) ls -> orderly (map m_body ls) -> snd (sections (map m_body ls)) <> [] ->
   mtl_parse (mfile_text ls ++ t) <> Undef).
Proof. intros ls t. split; [apply mtl_no_hang|apply mtl_defined]. Qed.
Print Assumptions C87_mtl_total.

(** A value before the first material writes through a null pointer. *)
Theorem C87_mtl_early_refuted : forall ls l rest, Forall (mline_ok reads) ls -> orderly (map m_body ls) ->
  snd (sections (map m_body ls)) = [] -> mline_ok reads l -> sets (m_body l) = true ->
  mtl_parse (mfile_text ls ++ mline_text l ++ nl :: rest) = Undef.
Proof. exact mtl_early. Qed.
Print Assumptions C87_mtl_early_refuted.

(** A color on a last line without a newline is stored, but the material says it has none. *)
Theorem C87_mtl_last_refuted : forall ls b f g0 x g1 y g2 z t secs n body, Forall (mline_ok reads) ls -> orderly (map m_body ls) ->
  snd (sections (map m_body ls)) = secs ++ [(n, body)] -> last_vector f body = None ->
  mline_ok reads (mkMLine b (Vector f g0 x g1 y g2 z) t None) ->
  exists ms m, mtl_parse (mfile_text ls ++ mline_text (mkMLine b (Vector f g0 x g1 y g2 z) t None)) = Ok (ms ++ [m]) /\
    m_has_vec m f = false /\ vec_of m f = [mantissa x; mantissa y; mantissa z].
Proof. exact mtl_last. Qed.
Print Assumptions C87_mtl_last_refuted.

(** The example file, written out in WfExamples, meets the hypotheses above: its library can be
    read, it has a face before any material and a corner of 0, and a number with an exponent. *)
Lemma ex_readable : readable (lit "dir") ex_files (stmts ex_file).
Proof.
  intros n H. cbn in H. destruct H as [<- | []]. destruct ex_lib_ok as (A & B & _).
  destruct (c87_mtl ex_lib A B) as (ms & E & _). exists ms, (mfile_text ex_lib). split; [reflexivity|exact E].
Qed.
Definition long_num : num := mkNum false (lit "0") (Some (lit "99999999999999999999")) None.
Ltac mant := unfold mantissa, frac_of, nm; cbn [n_neg n_int n_frac];
  repeat match goal with |- context [decimal ?x] => let v := eval vm_compute in (decimal x) in change (decimal x) with v end;
  cbn [length lit list_ascii_of_string pow]; field.
Example C87_nonvacuous :
  Forall (line_ok reads) ex_file /\ readable (lit "dir") ex_files (stmts ex_file) /\
  Forall (mline_ok reads) ex_lib /\ orderly (map m_body ex_lib) /\
  face_material None (stmts ex_file) = [None; Some (lit "red")] /\
  (exists c, In c (corners (stmts ex_file)) /\ decimal (c_v c) = 0%Z) /\
  (exists o, wf_parse (lit "dir") ex_files (file_text ex_file) = Ok o /\
     o_vert o = [-1 * (1 + 5 / 10); 1 * (2 + 25 / 100); 3; 0; -1 * (0 + 5 / 10); -3]%R /\
     o_vi o = [0; 1; -1; 0; 1; 0]%Z /\ o_ui o = [-1; -1; -1; 0; 0; 0]%Z /\ o_mi o = [0; 0]%Z /\
     o_materials o = [lit "red"; lit "blue"]) /\
  (exists n, reads n /\ mantissa n <> 0%R /\ exponent n <> 0%Z) /\
  num_ok long_num /\ (LONG_MAX < decimal (frac_of long_num))%Z /\
  (forall rest, wf_parse (lit "dir") ex_files (file_text ex_file ++ lit "v 1.0 2.0 3.0 4.0" ++ rest) = Rejected).
Proof.
  assert (OK := ex_ok). assert (R := ex_readable). destruct ex_lib_ok as (A & B & _).
  split; [exact OK|]. split; [exact R|]. split; [exact A|]. split; [exact B|]. split; [reflexivity|].
  split; [exists (cn "0" "" "1"); split; [cbn; tauto|reflexivity]|].
  split.
  { destruct (c87_file _ _ _ OK R) as (o & E & Y). exists o. split; [exact E|]. destruct Y as [Y1 _ _ Y4 _ Y6 _ _ _ Y10 Y11].
    split; [rewrite Y1; cbn; do 6 (apply f_equal2; [mant|]); reflexivity|]. split; [rewrite Y4; reflexivity|]. split; [rewrite Y6; reflexivity|].
    split; [|rewrite Y10; reflexivity].
    change (face_material None (stmts ex_file)) with [None; Some (lit "red")] in Y11. rewrite Y10 in Y11.
    change (firsts (used (stmts ex_file))) with [lit "red"; lit "blue"] in Y11.
    inversion Y11 as [|x1 i1 l1 q1 K1 K2]; subst. inversion K2 as [|x2 j l2 q2 K3 K4]; subst. inversion K4; subst. destruct K3 as [P K3].
    f_equal. f_equal. destruct (Z.to_nat j) as [|[|[|k]]] eqn:J; [lia|discriminate|discriminate|discriminate]. }
  split.
  { exists (mkNum true (lit "3") None (Some ("e"%char, true, lit "2"))). split; [wf; tauto|].
    split; [|vm_compute; discriminate].
    match goal with |- mantissa ?n <> _ => replace (mantissa n) with (-3)%R by mant end. lra. }
  split; [unfold num_ok, long_num; cbn [n_int n_frac n_exp]; wf|]. split; [reflexivity|].
  intros rest. set (l := mkLine [] (Vertex sp (nm false "1" "0") sp (nm false "2" "0") sp (nm false "3" "0")) sp None).
  change (lit "v 1.0 2.0 3.0 4.0" ++ rest) with (line_text l ++ "4"%char :: lit ".0" ++ rest).
  apply C87_garbage; try reflexivity; try discriminate.
  - exact OK.
  - unfold l, line_ok. cbn -[reads blanks gap]. wf.
  - intros n H. apply R. unfold stmts, libraries in *. rewrite map_app, flat_map_app in H. apply in_app_or in H as [H|[]]. exact H.
  - unfold follows. cbn. repeat split; discriminate.
Qed.
Print Assumptions C87_nonvacuous.
