(** Specification for C87: the texts of Wavefront files, and what they say. *)
From Coq Require Import String Ascii ZArith Reals Bool Arith List.
From Verif Require Import WfModel.
Import ListNotations.
Open Scope nat_scope.

(** ** Numbers *)
Definition blanks (s : text) : Prop := Forall (fun c => is_blank c = true) s.
Definition digits (s : text) : Prop := s <> [] /\ Forall (fun c => is_digit c = true) s.
Definition one_line (s : text) : Prop := Forall (fun c => c <> nl) s.
Definition name_ok (s : text) : Prop := s <> [] /\ Forall (fun c => is_graph c = true) s.
(** a separator *)
Definition gap (s : text) : Prop := s <> [] /\ blanks s.

Fixpoint decimal (ds : text) : Z :=
  match ds with [] => 0%Z | d :: r => ((Z.of_nat (code d) - 48) * 10 ^ Z.of_nat (length r) + decimal r)%Z end.

(** -12.50e-3 : a sign, digits, perhaps a fraction, perhaps an exponent *)
Record num := mkNum { n_neg : bool; n_int : text; n_frac : option text; n_exp : option (ascii * bool * text) }.
Definition num_ok (n : num) : Prop :=
  digits (n_int n) /\
  match n_frac n with Some f => Forall (fun c => is_digit c = true) f | None => True end /\
  match n_exp n with Some (e, _, d) => (e = "e" \/ e = "d" \/ e = "s")%char /\ digits d | None => True end.
Definition sign_text (b : bool) : text := if b then lit "-" else [].
Definition num_text (n : num) : text :=
  sign_text (n_neg n) ++ n_int n ++
  match n_frac n with Some f => lit "." ++ f | None => [] end ++
  match n_exp n with Some (e, b, d) => e :: sign_text b ++ d | None => [] end.
Definition frac_of (n : num) : text := match n_frac n with Some f => f | None => [] end.
(** the number before its exponent, and with it *)
Definition mantissa (n : num) : R :=
  ((if n_neg n then -1 else 1) * (IZR (decimal (n_int n)) + IZR (decimal (frac_of n)) / 10 ^ length (frac_of n)))%R.
Definition exponent (n : num) : Z :=
  match n_exp n with Some (_, b, d) => (if b then - decimal d else decimal d)%Z | None => 0%Z end.
Definition number (n : num) : R := (mantissa n * powerRZ 10 (exponent n))%R.
(** both runs of digits fit in a long *)
Definition num_fits (n : num) : Prop := (decimal (n_int n) <= LONG_MAX)%Z /\ (decimal (frac_of n) <= LONG_MAX)%Z.
Definition reads (n : num) : Prop := num_ok n /\ num_fits n.

(** ** Object files *)

(** v/t/n or v//n, counted from 1 *)
Record corner := mkCorner { c_v : text; c_t : option text; c_n : text }.
Definition corner_text (c : corner) : text :=
  c_v c ++ lit "/" ++ match c_t c with Some t => t | None => [] end ++ lit "/" ++ c_n c.
Definition index_ok (d : text) : Prop := digits d /\ (decimal d < 2147483648)%Z.
Definition corner_ok (c : corner) : Prop :=
  index_ok (c_v c) /\ index_ok (c_n c) /\ match c_t c with Some t => index_ok t | None => True end.

(** a statement with the separators between its words *)
Inductive stmt :=
| Nothing
| Vertex (g0 : text) (x : num) (g1 : text) (y : num) (g2 : text) (z : num)
| Normal (g0 : text) (x : num) (g1 : text) (y : num) (g2 : text) (z : num)
| Uv (g0 : text) (u : num) (g1 : text) (v : num)
| ObjectName (g0 name : text)
| UseMtl (g0 name : text)
| MtlLib (g0 name : text)
| Smooth (g0 rest : text)
| Polyline (g0 rest : text)
| Face (g0 : text) (a : corner) (g1 : text) (b : corner) (g2 : text) (c : corner).
Definition stmt_text (s : stmt) : text :=
  match s with
  | Nothing => []
  | Vertex g0 x g1 y g2 z => lit "v" ++ g0 ++ num_text x ++ g1 ++ num_text y ++ g2 ++ num_text z
  | Normal g0 x g1 y g2 z => lit "vn" ++ g0 ++ num_text x ++ g1 ++ num_text y ++ g2 ++ num_text z
  | Uv g0 u g1 v => lit "vt" ++ g0 ++ num_text u ++ g1 ++ num_text v
  | ObjectName g0 n => lit "o" ++ g0 ++ n
  | UseMtl g0 n => lit "usemtl" ++ g0 ++ n
  | MtlLib g0 n => lit "mtllib" ++ g0 ++ n
  | Smooth g0 r => lit "s" ++ g0 ++ r
  | Polyline g0 r => lit "l" ++ g0 ++ r
  | Face g0 a g1 b g2 c => lit "f" ++ g0 ++ corner_text a ++ g1 ++ corner_text b ++ g2 ++ corner_text c
  end.
(** [fine] is what is asked of every number *)
Definition stmt_ok (fine : num -> Prop) (s : stmt) : Prop :=
  match s with
  | Nothing => True
  | Vertex g0 x g1 y g2 z | Normal g0 x g1 y g2 z => gap g0 /\ fine x /\ gap g1 /\ fine y /\ gap g2 /\ fine z
  | Uv g0 u g1 v => gap g0 /\ fine u /\ gap g1 /\ fine v
  | ObjectName g0 n | UseMtl g0 n | MtlLib g0 n => gap g0 /\ name_ok n
  | Smooth g0 r | Polyline g0 r => gap g0 /\ one_line r
  | Face g0 a g1 b g2 c => gap g0 /\ corner_ok a /\ gap g1 /\ corner_ok b /\ gap g2 /\ corner_ok c
  end.
Definition is_name (s : stmt) : bool := match s with ObjectName _ _ | UseMtl _ _ | MtlLib _ _ => true | _ => false end.
Definition is_polyline (s : stmt) : bool := match s with Polyline _ _ => true | _ => false end.

(** a line: indented, with blanks and perhaps a comment after it.  A comment is kept apart from
    a name by blanks, and polylines are not indented. *)
Record line := mkLine { indent : text; body : stmt; trail : text; note : option text }.
Definition note_text (n : option text) : text := match n with Some c => lit "#" ++ c | None => [] end.
Definition line_text (l : line) : text := indent l ++ stmt_text (body l) ++ trail l ++ note_text (note l).
Definition line_ok (fine : num -> Prop) (l : line) : Prop :=
  blanks (indent l) /\ blanks (trail l) /\ match note l with Some c => one_line c | None => True end /\
  stmt_ok fine (body l) /\
  (is_name (body l) = true -> note l <> None -> trail l <> []) /\
  (is_polyline (body l) = true -> indent l = []).
Definition file_text (ls : list line) : text := flat_map (fun l => line_text l ++ [nl]) ls.
Definition stmts (ls : list line) : list stmt := map body ls.

(** what the statements say, in order *)
Definition vertices (d : list stmt) : list R :=
  flat_map (fun s => match s with Vertex _ x _ y _ z => [mantissa x; mantissa y; mantissa z] | _ => [] end) d.
Definition normals (d : list stmt) : list R :=
  flat_map (fun s => match s with Normal _ x _ y _ z => [mantissa x; mantissa y; mantissa z] | _ => [] end) d.
Definition uvs (d : list stmt) : list R :=
  flat_map (fun s => match s with Uv _ u _ v => [mantissa u; mantissa v] | _ => [] end) d.
Definition corners (d : list stmt) : list corner :=
  flat_map (fun s => match s with Face _ a _ b _ c => [a; b; c] | _ => [] end) d.
(** counted from 0, and -1 for one that is left out *)
Definition index (t : text) : Z := (decimal t - 1)%Z.
Definition uv_index (c : corner) : Z := match c_t c with Some t => index t | None => (-1)%Z end.
Definition object_names (d : list stmt) : list text :=
  flat_map (fun s => match s with ObjectName _ n => [n] | _ => [] end) d.
Definition libraries (d : list stmt) : list text :=
  flat_map (fun s => match s with MtlLib _ n => [n] | _ => [] end) d.
Definition used (d : list stmt) : list text :=
  flat_map (fun s => match s with UseMtl _ n => [n] | _ => [] end) d.
(** the material in use at each face, if any *)
Fixpoint face_material (now : option text) (d : list stmt) : list (option text) :=
  match d with
  | [] => []
  | UseMtl _ n :: r => face_material (Some n) r
  | Face _ _ _ _ _ _ :: r => now :: face_material now r
  | _ :: r => face_material now r
  end.
(** the names of a list, each where it comes first *)
Fixpoint firsts (l : list text) : list text :=
  match l with [] => [] | x :: r => x :: filter (fun y => negb (text_eqb x y)) (firsts r) end.

(** the library [n] can be opened and read *)
Definition library (dir : text) (files : text -> option text) (n : text) (m : list material) : Prop :=
  exists t, files (dir ++ lit "/" ++ n) = Some t /\ mtl_parse t = Ok m.
Definition readable (dir : text) (files : text -> option text) (d : list stmt) : Prop :=
  forall n, In n (libraries d) -> exists m, library dir files n m.
(** the object says what the statements say *)
Record says (dir : text) (files : text -> option text) (d : list stmt) (o : obj) : Prop := {
  sy_vert : o_vert o = vertices d;
  sy_norm : o_norm o = normals d;
  sy_uv : o_tex o = uvs d;
  sy_vi : o_vi o = map (fun c => index (c_v c)) (corners d);
  sy_ni : o_ni o = map (fun c => index (c_n c)) (corners d);
  sy_ui : o_ui o = map uv_index (corners d);
  sy_objects : o_objects o = object_names d;
  sy_files : o_files o = libraries d;
  sy_libs : Forall2 (library dir files) (libraries d) (o_mtl o);
  sy_materials : o_materials o = firsts (used d);
  (** every face has the index of its material's name; those before any name have 0 *)
  sy_mi : Forall2 (fun n i => match n with
                              | Some s => (0 <= i)%Z /\ nth_error (o_materials o) (Z.to_nat i) = Some s
                              | None => i = 0%Z
                              end) (face_material None d) (o_mi o) }.

(** ** Material libraries *)
Inductive mstmt :=
| MNothing
| NewMtl (g0 name : text)
| Scalar (f : sfield) (g0 : text) (x : num)
| Vector (f : vfield) (g0 : text) (x : num) (g1 : text) (y : num) (g2 : text) (z : num)
| Illum (rest : text)
| MapKd (rest : text).
Definition skey (f : sfield) : text := match f with Fweight => lit "Ns" | Fior => lit "Ni" | Falpha => lit "d" end.
Definition vkey (f : vfield) : text :=
  match f with Fambient => lit "Ka" | Fdiffuse => lit "Kd" | Fspecular => lit "Ks" | Femission => lit "Ke" end.
Definition mstmt_text (s : mstmt) : text :=
  match s with
  | MNothing => []
  | NewMtl g0 n => lit "newmtl" ++ g0 ++ n
  | Scalar f g0 x => skey f ++ g0 ++ num_text x
  | Vector f g0 x g1 y g2 z => vkey f ++ g0 ++ num_text x ++ g1 ++ num_text y ++ g2 ++ num_text z
  | Illum r => lit "illum" ++ r
  | MapKd r => lit "map_Kd" ++ r
  end.
Definition mstmt_ok (fine : num -> Prop) (s : mstmt) : Prop :=
  match s with
  | MNothing => True
  | NewMtl g0 n => gap g0 /\ name_ok n
  | Scalar _ g0 x => gap g0 /\ fine x
  | Vector _ g0 x g1 y g2 z => gap g0 /\ fine x /\ gap g1 /\ fine y /\ gap g2 /\ fine z
  | Illum r | MapKd r => one_line r
  end.
Record mline := mkMLine { m_indent : text; m_body : mstmt; m_trail : text; m_note : option text }.
Definition mline_text (l : mline) : text := m_indent l ++ mstmt_text (m_body l) ++ m_trail l ++ note_text (m_note l).
Definition mline_ok (fine : num -> Prop) (l : mline) : Prop :=
  blanks (m_indent l) /\ blanks (m_trail l) /\ match m_note l with Some c => one_line c | None => True end /\
  mstmt_ok fine (m_body l) /\
  (match m_body l with NewMtl _ _ => m_note l <> None -> m_trail l <> [] | _ => True end).
Definition mfile_text (ls : list mline) : text := flat_map (fun l => mline_text l ++ [nl]) ls.

(** a material: its name and the statements up to the next one *)
Fixpoint sections (d : list mstmt) : list mstmt * list (text * list mstmt) :=
  match d with
  | [] => ([], [])
  | NewMtl _ n :: r => let (now, secs) := sections r in ([], (n, now) :: secs)
  | s :: r => let (now, secs) := sections r in (s :: now, secs)
  end.
Definition sets (s : mstmt) : bool := match s with Scalar _ _ _ | Vector _ _ _ _ _ _ _ => true | _ => false end.
(** nothing is set before the first material *)
Definition orderly (d : list mstmt) : Prop := Forall (fun s => sets s = false) (fst (sections d)).
(** the last value a section gives *)
Fixpoint last_scalar (f : sfield) (d : list mstmt) : option R :=
  match d with
  | [] => None
  | s :: r => match last_scalar f r with
              | Some x => Some x
              | None => match s with Scalar g _ x => if sfield_eqb f g then Some (mantissa x) else None | _ => None end
              end
  end.
Fixpoint last_vector (f : vfield) (d : list mstmt) : option (list R) :=
  match d with
  | [] => None
  | s :: r => match last_vector f r with
              | Some x => Some x
              | None => match s with
                        | Vector g _ x _ y _ z => if vfield_eqb f g then Some [mantissa x; mantissa y; mantissa z] else None
                        | _ => None
                        end
              end
  end.
Definition vec_of (m : material) (f : vfield) : list R := map (m_vec m f) [0; 1; 2].
Record describes (sec : text * list mstmt) (m : material) : Prop := {
  ds_name : m_name m = fst sec;
  ds_num : forall f, match last_scalar f (snd sec) with
                     | Some x => m_has_num m f = true /\ m_num m f = x
                     | None => m_has_num m f = false /\ m_num m f = 0%R
                     end;
  ds_vec : forall f, match last_vector f (snd sec) with
                     | Some v => m_has_vec m f = true /\ vec_of m f = v
                     | None => m_has_vec m f = false /\ vec_of m f = [0; 0; 0]%R
                     end }.

(** ** More about object files *)

(** a last line without a newline: one that ends with its last number or name, or a line that is
    skipped, and one that does not *)
Definition is_face (s : stmt) : bool := match s with Face _ _ _ _ _ _ => true | _ => false end.
Definition is_skipped (s : stmt) : bool := match s with Smooth _ _ | Polyline _ _ => true | _ => false end.
Definition is_numeric (s : stmt) : bool :=
  match s with Vertex _ _ _ _ _ _ | Normal _ _ _ _ _ _ | Uv _ _ _ _ => true | _ => false end.
Definition finished (l : line) : Prop :=
  is_skipped (body l) = true \/ (is_numeric (body l) = true /\ note l = None) \/
  (is_name (body l) = true /\ trail l = [] /\ note l = None).
Definition unfinished (l : line) : Prop :=
  is_skipped (body l) = false /\
  (is_face (body l) = true \/ note l <> None \/ (is_name (body l) = true /\ trail l <> []) \/
   (body l = Nothing /\ line_text l <> [])).
(** [x] follows the statement of a line where only a comment may: not a blank, a comment or a
    newline; next to the statement, a carriage return *)
Definition follows (l : line) (x : ascii) : Prop :=
  is_blank x = false /\ x <> "#"%char /\ x <> nl /\ (trail l = [] -> x = ascii_of_nat 13).

(** an object's arrays fit together: three entries of each index array and one material for each
    of [n] faces, distinct material names, and material numbers that are zero or name one *)
Definition fits (n : nat) (o : obj) : Prop :=
  length (o_vi o) = 3 * n /\ length (o_ni o) = 3 * n /\ length (o_ui o) = 3 * n /\ length (o_mi o) = n /\
  length (o_mtl o) = length (o_files o) /\ NoDup (o_materials o) /\
  Forall (fun i => i = 0%Z \/ (0 < i < Z.of_nat (length (o_materials o)))%Z) (o_mi o).
