(** Model of the Wavefront parsers: src/wavefront/wavefront.l, mtl.l, wf_obj.c, wf_mtl.c.

    Texts are lists of bytes.  A flex scanner is modelled by what its manual promises: in a
    start condition the rule with the longest match is taken, the earliest one of those; a
    character that no rule matches is copied to the output and skipped (only a newline, as
    every condition has a rule for any other character); the scanner returns 0 at the end of
    the input.  Matches are found with derivatives of regular expressions.  Numbers are ideal
    reals.  Growable arrays (C14) are lists. *)
From Coq Require Import String Ascii ZArith Reals Bool Arith List.
Import ListNotations.
Open Scope nat_scope.

Definition text := list ascii.
Definition lit (s : string) : text := list_ascii_of_string s.

(** ** Regular expressions *)

(** character classes of the C locale *)
Inductive cls := Digit | Blank | Graph | NotNl | EDS | Chr (c : ascii).
Definition code (c : ascii) : nat := nat_of_ascii c.
Definition nl : ascii := ascii_of_nat 10.
Definition is_digit (c : ascii) : bool := (48 <=? code c) && (code c <=? 57).
Definition is_blank (c : ascii) : bool := (code c =? 32) || (code c =? 9).
Definition is_graph (c : ascii) : bool := (33 <=? code c) && (code c <=? 126).
Definition in_cls (k : cls) (c : ascii) : bool :=
  match k with
  | Digit => is_digit c
  | Blank => is_blank c
  | Graph => is_graph c
  | NotNl => negb (Ascii.eqb c nl)
  | EDS => Ascii.eqb c "e" || Ascii.eqb c "d" || Ascii.eqb c "s"
  | Chr d => Ascii.eqb c d
  end.
Inductive re := Nul | Eps | Cls (k : cls) | Cat (a b : re) | Alt (a b : re) | Star (a : re).
Fixpoint nullable (r : re) : bool :=
  match r with
  | Nul | Cls _ => false
  | Eps | Star _ => true
  | Cat a b => nullable a && nullable b
  | Alt a b => nullable a || nullable b
  end.
Definition cat (a b : re) : re := match a with Nul => Nul | Eps => b | _ => Cat a b end.
Definition alt (a b : re) : re := match a, b with Nul, _ => b | _, Nul => a | _, _ => Alt a b end.
Fixpoint deriv (c : ascii) (r : re) : re :=
  match r with
  | Nul | Eps => Nul
  | Cls k => if in_cls k c then Eps else Nul
  | Cat a b => if nullable a then alt (cat (deriv c a) b) (deriv c b) else cat (deriv c a) b
  | Alt a b => alt (deriv c a) (deriv c b)
  | Star a => cat (deriv c a) (Star a)
  end.
Definition opt (r : re) : re := Alt r Eps.
Definition plus (r : re) : re := Cat r (Star r).
Fixpoint word (w : text) : re :=
  match w with [] => Eps | [c] => Cls (Chr c) | c :: w' => Cat (Cls (Chr c)) (word w') end.

(** the named patterns: wavefront.l 95-107, mtl.l 84-98 *)
Definition BLANKS : re := plus (Cls Blank).
Definition MAYBE_BLANKS : re := Star (Cls Blank).
Definition END : re :=
  Cat (Star (Cls Blank)) (Cat (opt (Cat (Cls (Chr "#")) (Star (Cls NotNl)))) (Cls (Chr nl))).
Definition INT : re := plus (Cls Digit).
Definition NUMBER : re :=
  Cat (opt (Cls (Chr "-"))) (Cat INT
    (Cat (opt (Cat (Cls (Chr ".")) (Star (Cls Digit))))
         (opt (Cat (Cls EDS) (Cat (opt (Cls (Chr "-"))) INT))))).
Definition NUMBER_BLANKS : re := Cat NUMBER BLANKS.
Definition NUMBER_END : re := Cat NUMBER MAYBE_BLANKS.
Definition GRAPHS : re := plus (Cls Graph).
(** {START}"w"{BLANKS} and "w" followed by any rest of the line *)
Definition KEY (w : text) : re := Cat MAYBE_BLANKS (Cat (word w) BLANKS).
Definition DOT : re := Cls NotNl.

(** ** The scanner *)
Section Lex.
  Context {A : Type}.
  Definition step (c : ascii) (rs : list (re * A)) : list (re * A) := map (fun ra => (deriv c (fst ra), snd ra)) rs.
  (** the first rule that has matched *)
  Fixpoint hit (rs : list (re * A)) : option A :=
    match rs with
    | [] => None
    | (r, a) :: rs' => if nullable r then Some a else hit rs'
    end.
  (** [seen] is the text read so far, reversed; [best] the longest match so far: its rule, its
      text and what follows it *)
  Fixpoint longest (rs : list (re * A)) (s seen : text) (best : option (A * text * text)) : option (A * text * text) :=
    match s with
    | [] => best
    | c :: s' =>
        let rs' := step c rs in
        longest rs' s' (c :: seen)
          (match hit rs' with Some a => Some (a, rev (c :: seen), s') | None => best end)
    end.
  Definition next_token (rs : list (re * A)) (s : text) : option (A * text * text) := longest rs s [] None.
End Lex.

(** what a parser returns *)
Inductive res (A : Type) := Ok (a : A) | Rejected | Undef | Hang.
Arguments Ok {A} a. Arguments Rejected {A}. Arguments Undef {A}. Arguments Hang {A}.

(** ** Numbers *)

(** strtol with base 10: spaces, a sign, digits; saturates; the rest of the text *)
Definition is_space (c : ascii) : bool := (code c =? 32) || ((9 <=? code c) && (code c <=? 13)).
Definition LONG_MAX : Z := 9223372036854775807.
Definition LONG_MIN : Z := (-9223372036854775808)%Z.
Fixpoint span (p : ascii -> bool) (s : text) : text * text :=
  match s with
  | c :: s' => if p c then let (a, b) := span p s' in (c :: a, b) else ([], s)
  | [] => ([], [])
  end.
Definition digit_val (c : ascii) : Z := Z.of_nat (code c) - 48.
Definition dec (ds : text) : Z := fold_left (fun n c => (n * 10 + digit_val c)%Z) ds 0%Z.
Definition strtol (s : text) : Z * text :=
  let (_, s1) := span is_space s in
  let '(neg, s2) := match s1 with
                    | c :: r => if Ascii.eqb c "-" then (true, r) else if Ascii.eqb c "+" then (false, r) else (false, s1)
                    | [] => (false, s1)
                    end in
  let (ds, rest) := span is_digit s2 in
  match ds with
  | [] => (0%Z, s)
  | _ => (Z.max LONG_MIN (Z.min LONG_MAX (if neg then - dec ds else dec ds)%Z), rest)
  end.
(** while(k--) x/=10: wf_obj.c 133 *)
Fixpoint div10 (k : nat) (x : R) : R := match k with O => x | S k' => div10 k' (x / 10)%R end.
(** aa_rx_wf_parse_float: wf_obj.c 117-146 *)
Definition parse_float (str0 : text) : R :=
  let str := snd (span is_blank str0) in
  let (n, e) := strtol str in
  let r := IZR n in
  match e with
  | c :: e1 =>
      if Ascii.eqb c "." then
        let (f, g) := strtol e1 in
        if Z.eqb f 0 then r else
        let k := length e1 - length g in
        if Nat.eqb k 0 then r else
        let x := div10 k (IZR f) in
        if (match str with c :: _ => Ascii.eqb c "-" | [] => false end) || Z.ltb n 0 then (r - x)%R else (r + x)%R
      else r
  | [] => r
  end.
(** (int32_t)atol(yytext)-1: wavefront_internal.h 62.  Simplification: the subtraction does not
    overflow; the C one does for a literal of 2147483648 modulo 4294967296. *)
Definition int32 (z : Z) : Z := ((z + 2147483648) mod 4294967296 - 2147483648)%Z.
Definition face_index (tok : text) : Z := (int32 (fst (strtol tok)) - 1)%Z.
Definition FACE_NONE : Z := (-1)%Z.

(** ** Material libraries: struct aa_rx_wf_material, wavefront_internal.h 127-144.  A member is
    given when its has_ flag is set; its value is what was stored, zero at first (AA_NEW0). *)
Inductive vfield := Fspecular | Fambient | Femission | Fdiffuse.
Inductive sfield := Fweight | Falpha | Fior.
Definition vfield_eqb (a b : vfield) : bool :=
  match a, b with
  | Fspecular, Fspecular | Fambient, Fambient | Femission, Femission | Fdiffuse, Fdiffuse => true
  | _, _ => false
  end.
Definition sfield_eqb (a b : sfield) : bool :=
  match a, b with Fweight, Fweight | Falpha, Falpha | Fior, Fior => true | _, _ => false end.
Record material := mkMat { m_name : text; m_vec : vfield -> nat -> R; m_has_vec : vfield -> bool;
                           m_num : sfield -> R; m_has_num : sfield -> bool }.
Definition new_material (name : text) : material :=
  mkMat name (fun _ _ => 0%R) (fun _ => false) (fun _ => 0%R) (fun _ => false).
Definition set_vec (m : material) (f : vfield) (i : nat) (x : R) : material :=
  mkMat (m_name m) (fun g j => if vfield_eqb g f && (j =? i) then x else m_vec m g j) (m_has_vec m) (m_num m) (m_has_num m).
Definition has_vec (m : material) (f : vfield) : material :=
  mkMat (m_name m) (m_vec m) (fun g => if vfield_eqb g f then true else m_has_vec m g) (m_num m) (m_has_num m).
Definition set_num (m : material) (f : sfield) (x : R) : material :=
  mkMat (m_name m) (m_vec m) (m_has_vec m) (fun g => if sfield_eqb g f then x else m_num m g)
        (fun g => if sfield_eqb g f then true else m_has_num m g).

(** start conditions of mtl.l: 65-81 *)
Inductive mst := MInit | MEol | MNewmtl | MNum (f : sfield) | MVec (f : vfield) | MV0 | MV1 | MV2.
Inductive mact :=
| MNop | MBegin (s : mst) | MPush | MStoreNum (f : sfield) | MStartVec (f : vfield)
| MStoreVec (i : nat) (s : mst) | MPopVec | MDoneVec (f : vfield) | MError.
(** the rules of mtl.l 102-235, in their order, for each start condition *)
Definition mtl_rules (s : mst) : list (re * mact) :=
  match s with
  | MInit =>
      [(END, MNop);
       (KEY (lit "newmtl"), MBegin MNewmtl);
       (KEY (lit "Ns"), MBegin (MNum Fweight));
       (KEY (lit "Ni"), MBegin (MNum Fior));
       (KEY (lit "Ka"), MStartVec Fambient);
       (KEY (lit "Kd"), MStartVec Fdiffuse);
       (KEY (lit "Ks"), MStartVec Fspecular);
       (KEY (lit "Ke"), MStartVec Femission);
       (KEY (lit "d"), MBegin (MNum Falpha));
       (Cat MAYBE_BLANKS (Cat (word (lit "illum")) (Cat (Star DOT) END)), MNop);
       (Cat MAYBE_BLANKS (Cat (word (lit "map_Kd")) (Cat (Star DOT) END)), MNop);
       (DOT, MError)]
  | MEol => [(END, MBegin MInit); (DOT, MError)]
  | MNewmtl => [(GRAPHS, MPush); (DOT, MError)]
  | MNum f => [(NUMBER_END, MStoreNum f); (DOT, MError)]
  | MVec f => [(END, MDoneVec f); (DOT, MError)]
  | MV0 => [(NUMBER_BLANKS, MStoreVec 0 MV1); (DOT, MError)]
  | MV1 => [(NUMBER_BLANKS, MStoreVec 1 MV2); (DOT, MError)]
  | MV2 => [(NUMBER_END, MPopVec); (DOT, MError)]
  end.
(** struct aa_rx_wf_mtl and struct wf_mtl_extra: the materials, the last one being current
    (wf_mtl.c 53-60), the array that vectors are stored in, and the stack of start conditions *)
Record mtl := mkMtl { ml_mats : list material; ml_v : vfield; ml_stack : list mst }.
Definition upd_current (l : mtl) (g : material -> material) : option mtl :=
  match rev (ml_mats l) with
  | [] => None
  | m :: r => Some (mkMtl (rev r ++ [g m]) (ml_v l) (ml_stack l))
  end.
Definition after (o : option mtl) (k : mtl -> res (mst * mtl)) : res (mst * mtl) :=
  match o with Some l => k l | None => Undef end.
(** one action: mtl.l 102-235; no current material is a null pointer *)
Definition mtl_act (a : mact) (s : mst) (tok : text) (l : mtl) : res (mst * mtl) :=
  match a with
  | MNop => Ok (s, l)
  | MBegin s' => Ok (s', l)
  | MPush => Ok (MEol, mkMtl (ml_mats l ++ [new_material tok]) (ml_v l) (ml_stack l))
  | MStoreNum f => after (upd_current l (fun m => set_num m f (parse_float tok))) (fun l' => Ok (MEol, l'))
  | MStartVec f => after (upd_current l (fun m => m)) (fun l' => Ok (MV0, mkMtl (ml_mats l') f (MVec f :: ml_stack l')))
  | MStoreVec i s' => after (upd_current l (fun m => set_vec m (ml_v l) i (parse_float tok))) (fun l' => Ok (s', l'))
  | MPopVec =>
      after (upd_current l (fun m => set_vec m (ml_v l) 2 (parse_float tok))) (fun l' =>
      match ml_stack l' with
      | s' :: r => Ok (s', mkMtl (ml_mats l') (ml_v l') r)
      | [] => Undef
      end)
  | MDoneVec f => after (upd_current l (fun m => has_vec m f)) (fun l' => Ok (MInit, l'))
  | MError => Rejected
  end.
Fixpoint mtl_lex (fuel : nat) (s : mst) (t : text) (l : mtl) : res mtl :=
  match t with
  | [] => Ok l
  | c :: t' =>
      match fuel with
      | O => Hang
      | S fuel' =>
          match next_token (mtl_rules s) t with
          | None => mtl_lex fuel' s t' l
          | Some (a, tok, rest) =>
              match mtl_act a s tok l with
              | Ok (s', l') => mtl_lex fuel' s' rest l'
              | Rejected => Rejected | Undef => Undef | Hang => Hang
              end
          end
      end
  end.
(** aa_rx_wf_mtl_parse: mtl.l 239-268, on the text of the file; Rejected is the null result *)
Definition mtl_parse (t : text) : res (list material) :=
  match mtl_lex (length t) MInit t (mkMtl [] Fambient []) with
  | Ok l => Ok (ml_mats l)
  | Rejected => Rejected | Undef => Undef | Hang => Hang
  end.
(** aa_rx_wf_mtl_get_material: wf_mtl.c 80-88 *)
Definition get_material (l : list material) (i : nat) : option material := nth_error l i.

(** ** Objects: struct aa_rx_wf_obj, wf_obj.c 53-75 *)
Record obj := mkObj { o_vert : list R; o_norm : list R; o_tex : list R;
                      o_vi : list Z; o_ni : list Z; o_ui : list Z; o_mi : list Z;
                      o_files : list text; o_objects : list text; o_materials : list text;
                      o_mtl : list (list material); o_current : Z }.
(** aa_rx_wf_obj_create: wf_obj.c 95-115 *)
Definition obj_create : obj := mkObj [] [] [] [] [] [] [] [] [] [] [] 0.
(** struct aa_rx_wf_obj_face, wavefront_internal.h 48-53: vertex, normal, texture indices.
    Simplification: zero before they are set; the scanner sets all nine before it uses them. *)
Record face := mkFace { f_v : nat -> Z; f_n : nat -> Z; f_t : nat -> Z }.
Inductive member := Mv | Mn | Mt.
Definition upd (f : nat -> Z) (i : nat) (z : Z) : nat -> Z := fun j => if j =? i then z else f j.
Definition set_face (f : face) (m : member) (i : nat) (z : Z) : face :=
  match m with
  | Mv => mkFace (upd (f_v f) i z) (f_n f) (f_t f)
  | Mn => mkFace (f_v f) (upd (f_n f) i z) (f_t f)
  | Mt => mkFace (f_v f) (f_n f) (upd (f_t f) i z)
  end.
(** aa_rx_wf_obj_push_vertex, _normal, _texture_vertex, _object: wf_obj.c 170-187, 203-208 *)
Definition push_vertex (o : obj) (x : R) : obj :=
  mkObj (o_vert o ++ [x]) (o_norm o) (o_tex o) (o_vi o) (o_ni o) (o_ui o) (o_mi o) (o_files o) (o_objects o) (o_materials o) (o_mtl o) (o_current o).
Definition push_normal (o : obj) (x : R) : obj :=
  mkObj (o_vert o) (o_norm o ++ [x]) (o_tex o) (o_vi o) (o_ni o) (o_ui o) (o_mi o) (o_files o) (o_objects o) (o_materials o) (o_mtl o) (o_current o).
Definition push_texture_vertex (o : obj) (x : R) : obj :=
  mkObj (o_vert o) (o_norm o) (o_tex o ++ [x]) (o_vi o) (o_ni o) (o_ui o) (o_mi o) (o_files o) (o_objects o) (o_materials o) (o_mtl o) (o_current o).
Definition push_object (o : obj) (s : text) : obj :=
  mkObj (o_vert o) (o_norm o) (o_tex o) (o_vi o) (o_ni o) (o_ui o) (o_mi o) (o_files o) (o_objects o ++ [s]) (o_materials o) (o_mtl o) (o_current o).
(** aa_rx_wf_obj_push_face: wf_obj.c 189-201 *)
Definition push_face (o : obj) (f : face) : obj :=
  mkObj (o_vert o) (o_norm o) (o_tex o) (o_vi o ++ map (f_v f) [0; 1; 2]) (o_ni o ++ map (f_n f) [0; 1; 2])
        (o_ui o ++ map (f_t f) [0; 1; 2]) (o_mi o ++ [o_current o]) (o_files o) (o_objects o) (o_materials o) (o_mtl o) (o_current o).
(** aa_rx_wf_obj_use_material: wf_obj.c 259-274 *)
Definition text_eqb (a b : text) : bool := if list_eq_dec ascii_dec a b then true else false.
Fixpoint find_name (l : list text) (s : text) (i : nat) : option nat :=
  match l with
  | [] => None
  | x :: r => if text_eqb s x then Some i else find_name r s (S i)
  end.
Definition use_material (o : obj) (s : text) : obj :=
  match find_name (o_materials o) s 0 with
  | Some i => mkObj (o_vert o) (o_norm o) (o_tex o) (o_vi o) (o_ni o) (o_ui o) (o_mi o) (o_files o) (o_objects o) (o_materials o) (o_mtl o) (Z.of_nat i)
  | None => mkObj (o_vert o) (o_norm o) (o_tex o) (o_vi o) (o_ni o) (o_ui o) (o_mi o) (o_files o) (o_objects o) (o_materials o ++ [s]) (o_mtl o)
                  (Z.of_nat (length (o_materials o)))
  end.
(** aa_rx_wf_obj_push_mtl: wf_obj.c 210-229; [files] gives the text of a file, if it can be opened *)
Definition push_mtl (dir : text) (files : text -> option text) (o : obj) (s : text) : res obj :=
  match files (dir ++ lit "/" ++ s) with
  | None => Rejected
  | Some t =>
      match mtl_parse t with
      | Ok l => Ok (mkObj (o_vert o) (o_norm o) (o_tex o) (o_vi o) (o_ni o) (o_ui o) (o_mi o) (o_files o ++ [s]) (o_objects o) (o_materials o)
                          (o_mtl o ++ [l]) (o_current o))
      | Rejected => Rejected | Undef => Undef | Hang => Hang
      end
  end.
(** aa_rx_wf_obj_get_mtl_filename: wf_obj.c 239-247; aa_rx_wf_obj_get_mtl: 249-257;
    aa_rx_wf_obj_get_material_name: 283-291; null is None *)
Definition get_mtl_filename (o : obj) (i : nat) : res (option text) :=
  if i <=? length (o_files o) then match nth_error (o_files o) i with Some s => Ok (Some s) | None => Undef end else Ok None.
Definition get_mtl (o : obj) (i : nat) : res (option (list material)) :=
  if i <=? length (o_mtl o) then match nth_error (o_mtl o) i with Some m => Ok (Some m) | None => Undef end else Ok None.
Definition get_material_name (o : obj) (i : nat) : res (option text) := Ok (nth_error (o_materials o) i).

(** start conditions of wavefront.l: 64-91 (ERROR is never entered) *)
Inductive ost := Init | Eol | Mtllib | Usemtl | Object | V (i : nat) | VT (i : nat) | VN (i : nat)
               | FV (i : nat) | FT (i : nat) | FN (i : nat).
Inductive oact :=
| ANop | ABegin (s : ost) | ALib | AUse | AObject | AVertex (s : ost) | ATex (s : ost) | ANormal (s : ost)
| ASet (m : member) (i : nat) (s : ost) | ASkip (i : nat) (s : ost) | AFace | AError.
(** the rules of wavefront.l 111-322, in their order, for each start condition *)
Definition obj_rules (s : ost) : list (re * oact) :=
  match s with
  | Init =>
      [(END, ANop);
       (KEY (lit "mtllib"), ABegin Mtllib);
       (KEY (lit "usemtl"), ABegin Usemtl);
       (KEY (lit "o"), ABegin Object);
       (KEY (lit "v"), ABegin (V 0));
       (KEY (lit "vt"), ABegin (VT 0));
       (KEY (lit "vn"), ABegin (VN 0));
       (Cat MAYBE_BLANKS (Cat (word (lit "s")) (Cat BLANKS (Star DOT))), ABegin Eol);
       (KEY (lit "f"), ABegin (FV 0));
       (Cat (word (lit "l")) (Cat BLANKS (Star DOT)), ANop);
       (DOT, AError)]
  | Eol => [(END, ABegin Init); (DOT, AError)]
  | Mtllib => [(GRAPHS, ALib); (DOT, AError)]
  | Usemtl => [(GRAPHS, AUse); (DOT, AError)]
  | Object => [(GRAPHS, AObject); (DOT, AError)]
  | V 0 => [(NUMBER_BLANKS, AVertex (V 1)); (DOT, AError)]
  | V 1 => [(NUMBER_BLANKS, AVertex (V 2)); (DOT, AError)]
  | V _ => [(NUMBER_END, AVertex Eol); (DOT, AError)]
  | VT 0 => [(NUMBER_BLANKS, ATex (VT 1)); (DOT, AError)]
  | VT _ => [(NUMBER_END, ATex Eol); (DOT, AError)]
  | VN 0 => [(NUMBER_BLANKS, ANormal (VN 1)); (DOT, AError)]
  | VN 1 => [(NUMBER_BLANKS, ANormal (VN 2)); (DOT, AError)]
  | VN _ => [(NUMBER_END, ANormal Eol); (DOT, AError)]
  | FV i => [(Cat INT (Cls (Chr "/")), ASet Mv i (FT i)); (DOT, AError)]
  | FT i => [(Cls (Chr "/"), ASkip i (FN i)); (Cat INT (Cls (Chr "/")), ASet Mt i (FN i)); (DOT, AError)]
  | FN 0 => [(Cat INT BLANKS, ASet Mn 0 (FV 1)); (DOT, AError)]
  | FN 1 => [(Cat INT BLANKS, ASet Mn 1 (FV 2)); (DOT, AError)]
  | FN _ => [(Cat INT END, AFace); (DOT, AError)]
  end.
Definition obj_act (dir : text) (files : text -> option text) (a : oact) (s : ost) (tok : text) (o : obj) (f : face)
    : res (ost * obj * face) :=
  match a with
  | ANop => Ok (s, o, f)
  | ABegin s' => Ok (s', o, f)
  | ALib => match push_mtl dir files o tok with
            | Ok o' => Ok (Eol, o', f)
            | Rejected => Rejected | Undef => Undef | Hang => Hang
            end
  | AUse => Ok (Eol, use_material o tok, f)
  | AObject => Ok (Eol, push_object o tok, f)
  | AVertex s' => Ok (s', push_vertex o (parse_float tok), f)
  | ATex s' => Ok (s', push_texture_vertex o (parse_float tok), f)
  | ANormal s' => Ok (s', push_normal o (parse_float tok), f)
  | ASet m i s' => Ok (s', o, set_face f m i (face_index tok))
  | ASkip i s' => Ok (s', o, set_face f Mt i FACE_NONE)
  | AFace => let f' := set_face f Mn 2 (face_index tok) in Ok (Init, push_face o f', f')
  | AError => Rejected
  end.
Fixpoint obj_lex (dir : text) (files : text -> option text) (fuel : nat) (s : ost) (t : text) (o : obj) (f : face) : res obj :=
  match t with
  | [] => Ok o
  | c :: t' =>
      match fuel with
      | O => Hang
      | S fuel' =>
          match next_token (obj_rules s) t with
          | None => obj_lex dir files fuel' s t' o f
          | Some (a, tok, rest) =>
              match obj_act dir files a s tok o f with
              | Ok (s', o', f') => obj_lex dir files fuel' s' rest o' f'
              | Rejected => Rejected | Undef => Undef | Hang => Hang
              end
          end
      end
  end.
Definition face0 : face := mkFace (fun _ => 0%Z) (fun _ => 0%Z) (fun _ => 0%Z).
(** aa_rx_wf_parse: wavefront.l 326-356, on the text of the file in directory [dir] *)
Definition wf_parse (dir : text) (files : text -> option text) (t : text) : res obj :=
  obj_lex dir files (length t) Init t obj_create face0.
