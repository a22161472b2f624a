(** Example for C87: a file with every kind of statement, and a library. *)
From Coq Require Import String Ascii ZArith Reals Bool Arith List Lia Lra.
From Verif Require Import WfModel WfSpec.
Import ListNotations.
Open Scope nat_scope.

Definition sp : text := lit " ".
Definition nm (b : bool) (i : string) (f : string) : num := mkNum b (lit i) (Some (lit f)) None.
Definition cn (v t n : string) : corner := mkCorner (lit v) (match t with EmptyString => None | _ => Some (lit t) end) (lit n).
Definition ln (s : stmt) : line := mkLine [] s [] None.
Definition ex_file : list line :=
  [mkLine [] Nothing [] (Some (lit " a box"));
   ln (MtlLib sp (lit "box.mtl"));
   ln (ObjectName sp (lit "Box"));
   ln (Vertex sp (nm true "1" "5") sp (nm false "2" "25") sp (mkNum false (lit "3") None None));
   mkLine sp (Vertex sp (nm false "0" "") sp (nm true "0" "5") sp (mkNum true (lit "3") None (Some ("e"%char, true, lit "2")))) sp (Some (lit "x"));
   ln (Normal sp (nm false "0" "0") sp (nm false "0" "0") sp (nm false "1" "0"));
   ln (Uv sp (nm false "0" "5") sp (nm false "0" "5"));
   ln (Smooth sp (lit "off"));
   ln (Polyline sp (lit "1 2"));
   ln (Face sp (cn "1" "" "1") sp (cn "2" "" "1") sp (cn "0" "" "1"));
   ln (UseMtl sp (lit "red"));
   ln (Face sp (cn "1" "1" "1") sp (cn "2" "1" "1") sp (cn "1" "1" "1"));
   ln (UseMtl sp (lit "blue"));
   ln (UseMtl sp (lit "red"))].
Example ex_text : file_text ex_file = list_ascii_of_string
"# a box
mtllib box.mtl
o Box
v -1.5 2.25 3
 v 0. -0.5 -3e-2 #x
vn 0.0 0.0 1.0
vt 0.5 0.5
s off
l 1 2
f 1//1 2//1 0//1
usemtl red
f 1/1/1 2/1/1 1/1/1
usemtl blue
usemtl red
".
Proof. reflexivity. Qed.

Ltac wf := repeat (match goal with
  | |- _ /\ _ => split
  | |- True => exact I
  | |- Forall _ (_ :: _) => apply Forall_cons
  | |- Forall _ [] => apply Forall_nil
  | |- gap _ => unfold gap, blanks, sp
  | |- blanks _ => unfold blanks, sp
  | |- name_ok _ => unfold name_ok
  | |- one_line _ => unfold one_line
  | |- digits _ => unfold digits
  | |- reads _ => unfold reads, num_ok, num_fits, nm
  | |- corner_ok _ => unfold corner_ok, index_ok, cn
  | |- (_ <= _)%Z => vm_compute; discriminate
  | |- (_ < _)%Z => reflexivity
  | |- _ <> _ => discriminate
  | |- _ = true => reflexivity
  | |- _ -> _ => intro; try discriminate; try congruence
  end; cbn [lit list_ascii_of_string n_int n_frac n_exp frac_of c_v c_t c_n]).
Lemma ex_ok : Forall (line_ok reads) ex_file.
Proof.
  unfold ex_file, ln. repeat constructor; cbn -[reads corner_ok blanks gap name_ok one_line]; wf; try tauto.
Qed.

Definition ml (s : mstmt) : mline := mkMLine [] s [] None.
Definition ex_lib : list mline :=
  [mkMLine [] MNothing [] (Some (lit " lib"));
   ml (NewMtl sp (lit "red"));
   ml (Scalar Fweight sp (nm false "96" "0"));
   ml (Vector Fdiffuse sp (nm false "0" "8") sp (nm false "0" "0") sp (nm false "0" "25"));
   ml (Illum (lit " 2"));
   ml (NewMtl sp (lit "blue"));
   ml (Scalar Falpha sp (nm false "0" "5"));
   ml (Scalar Falpha sp (nm false "1" "0"))].
Example ex_lib_text : mfile_text ex_lib = list_ascii_of_string
"# lib
newmtl red
Ns 96.0
Kd 0.8 0.0 0.25
illum 2
newmtl blue
d 0.5
d 1.0
".
Proof. reflexivity. Qed.
Lemma ex_lib_ok : Forall (mline_ok reads) ex_lib /\ orderly (map m_body ex_lib) /\ snd (sections (map m_body ex_lib)) <> [].
Proof.
  split; [|split].
  - unfold ex_lib, ml. repeat constructor; cbn -[reads blanks gap name_ok one_line]; wf; try tauto.
  - cbv. repeat constructor.
  - discriminate.
Qed.
Definition ex_files (n : text) : option text :=
  if text_eqb n (lit "dir/box.mtl") then Some (mfile_text ex_lib) else None.
