(** Model of the C++ transform objects: include/amino/tf/spatial.hpp,
    include/amino/tf/planar.hpp and the Eigen conversions of
    include/amino/eigen_compat.hpp.  The objects are the memory layouts of
    include/amino/tf/type.h; doubles are ideal reals as in TfModel and
    PlanarModel, whose functions the objects call.  The pointer and the
    reference overload of each constructor forward to the same function and are
    one definition here.  Line numbers are spatial.hpp's until the planar part. *)
From Coq Require Import Reals List.
From Verif Require Import TfModel TfExpModel PlanarModel.
Import ListNotations.
Open Scope R_scope.

(** What a call does: return, behave in an undefined way, or never return
    (in C++: recurse until the stack is exhausted). *)
Inductive outcome (A : Type) := Done (a : A) | Undef | Forever.
Arguments Done {A} _. Arguments Undef {A}. Arguments Forever {A}.
Definition obind {A B : Type} (x : outcome A) (f : A -> outcome B) : outcome B :=
  match x with Done a => f a | Undef => Undef | Forever => Forever end.

(** ** Data arrays (type.h 124-133, 140-149, 189-206, 232-240; duqu and qv layouts) *)
Definition vdata (v : V3) : list R := [vx v; vy v; vz v].
Definition qdata (q : Q4) : list R := [qx q; qy q; qz q; qw q].
Definition mdata (M : M33) : list R :=
  [m00 M; m10 M; m20 M; m01 M; m11 M; m21 M; m02 M; m12 M; m22 M].
Definition tdata (T : TF) : list R := mdata (tR T) ++ vdata (tv T).
Definition ddata (s : DQ) : list R := qdata (dreal s) ++ qdata (ddual s).
Definition edata (e : QV) : list R := qdata (eq e) ++ vdata (ev e).
(** a double read at an offset; the arrays of the callers are long enough *)
Definition at_ (l : list R) (i : nat) : R := nth i l 0.

(** ** Vec3: 64-141 *)
(** from_xyz: 105-112 *)
Definition vec_xyz (x y z : R) : V3 := mkV x y z.
(** from_vec3: 117-122, three doubles from an offset *)
Definition vec_arr (l : list R) (off : nat) : V3 := mkV (at_ l off) (at_ l (off + 1)) (at_ l (off + 2)).
(** from_duqu: 127-132; DualQuat::translation: 738-743 *)
Definition vec_duqu (s : DQ) : V3 := dtrans s.
(** from_tfmat: 137-140 *)
Definition vec_tfmat (T : TF) : V3 := vec_arr (tdata T) 9.

(** ** Quat: 180-340 *)
(** from_quat: 252-257 *)
Definition quat_arr (l : list R) (off : nat) : Q4 :=
  mkQ (at_ l off) (at_ l (off + 1)) (at_ l (off + 2)) (at_ l (off + 3)).
(** from_xyzw: 262-270 *)
Definition quat_xyzw (x y z w : R) : Q4 := mkQ x y z w.

(** The arguments a rotation can be constructed from: nothing (184, 349), a
    quaternion, a rotation matrix, an axis-angle, an angle about x, y or z
    (150-175), a rotation vector (304, 460). *)
Inductive rot :=
| RNone | RQuat (q : Q4) | RMat (M : M33) | RAxang (a : AX)
| RX (t : R) | RY (t : R) | RZ (t : R) | RVec (v : V3).

(** Quat's constructors: 184-229, from_rotmat 275-280, from_axang 285-290,
    from_rotvec 304-309, from_xangle .. from_zangle 314-339 *)
Definition Quat (s : rot) : Q4 :=
  match s with
  | RNone => quat_xyzw 0 0 0 1
  | RQuat q => quat_arr (qdata q) 0
  | RMat M => rotmat2quat M
  | RAxang a => axang2quat a
  | RX t => xangle2quat t
  | RY t => yangle2quat t
  | RZ t => zangle2quat t
  | RVec v => rotvec2quat v
  end.
(** Quat::from_axang of an axis array and an angle: 295-299 *)
Definition quat_axis (k : V3) (t : R) : Q4 := axang2quat (mkA k t).
(** rotate: 234-247 *)
Definition quat_rotate (q : Q4) (p : V3) : V3 := qrot q p.

(** ** RotMat: 345-496 *)
(** from_rotmat of components, row by row: 408-425 (column-major data) *)
Definition rotmat_rows (r11 r12 r13 r21 r22 r23 r31 r32 r33 : R) : M33 :=
  mkM r11 r21 r31 r12 r22 r32 r13 r23 r33.
(** from_rotmat of an array: 440-445 *)
Definition rotmat_arr (l : list R) (off : nat) : M33 :=
  mkM (at_ l off) (at_ l (off + 1)) (at_ l (off + 2)) (at_ l (off + 3)) (at_ l (off + 4))
      (at_ l (off + 5)) (at_ l (off + 6)) (at_ l (off + 7)) (at_ l (off + 8)).
(** RotMat's constructors: 349-394, from_quat 430-435, from_axang 450-455,
    from_rotvec 460-465, from_xangle .. from_zangle 470-495 *)
Definition RotMat (s : rot) : M33 :=
  match s with
  | RNone => rotmat_rows 1 0 0 0 1 0 0 0 1
  | RQuat q => quat2rotmat q
  | RMat M => rotmat_arr (mdata M) 0
  | RAxang a => axang2rotmat a
  | RX t => xangle2rotmat t
  | RY t => yangle2rotmat t
  | RZ t => zangle2rotmat t
  | RVec v => rotmat_expv v
  end.

(** ** AxisAngle: 501-615 *)
(** from_axang of components: 576-581; with a zero axis the quotients are not
    numbers, which ideal reals cannot say: [None] *)
Definition axang_xyz (x y z t : R) : option AX :=
  let n := sqrt (x * x + y * y + z * z) in
  if Req_EM_T n 0 then None else Some (mkA (mkV (x / n) (y / n) (z / n)) t).
(** from_axang of an axis array and an angle: 596-604 *)
Definition axang_axis (k : V3) (t : R) : AX := mkA k t.
(** AxisAngle(): 505 *)
Definition axang_none : option AX := axang_xyz 0 0 1 0.
(** from_quat: 556-561; from_rotmat: 566-571; from_axang of an array: 586-591;
    from_rotvec: 609-614 *)
Definition axang_quat (q : Q4) : AX := quat2axang q.
Definition axang_rotmat (M : M33) : AX := rotmat2axang M.
Definition axang_copy (a : AX) : AX := a.
Definition axang_rotvec (v : V3) : AX := rotvec2axang v.

(** ** DualQuat: 624-840.  Every function that makes one first declares a
    [DualQuat], whose default constructor (628) calls from_xyzw. *)
Inductive dqcall :=
| DNew                                                     (* DualQuat(): 628 *)
| DXyzw (x y z w dx dy dz dw : R)                          (* from_xyzw: 748-756 *)
| DDuqu (s : DQ)                                           (* from_duqu: 761-766; 633-643 *)
| DQv (q : Q4) (v : V3)                                    (* from_qv: 772-777; 648-674 *)
| DTfmat (T : TF)                                          (* from_tfmat: 782-787; 679-684 *)
| DX (t : R) (v : V3) | DY (t : R) (v : V3) | DZ (t : R) (v : V3)
                              (* from_xxyz .. from_zxyz: 792-817; 689-708 *)
| DXyz (x y z : R)                                         (* from_xyz: 823-828; 713 *)
| DAxang (a : AX) (v : V3)                                 (* 720-723 *)
| DDiff (s : DQ) (dx : TfModel.DX)                         (* from_dx: 834-839 *)
| DConj (s : DQ).                                          (* conj: 728-733 *)

(** [fuel] bounds the depth of the calls.  The values written over the declared
    object are those of the named C functions; aa_tf_xxyz2duqu and its siblings
    are Fortran (src/tff.F90 2904-2940): the principal rotation's quaternion,
    then aa_tf_qv2duqu. *)
Fixpoint DualQuat (fuel : nat) (c : dqcall) : outcome DQ :=
  match fuel with
  | O => Forever
  | S f =>
      let over d := obind (DualQuat f DNew) (fun _ => Done d) in
      match c with
      | DNew => DualQuat f (DXyzw 0 0 0 1 0 0 0 0)
      | DXyzw x y z w dx dy dz dw => over (mkD (quat_xyzw x y z w) (quat_xyzw dx dy dz dw))
      | DDuqu s => over s
      | DQv q v => over (qutr2duqu (mkE q v))
      | DTfmat T => over (tfmat2duqu T)
      | DX t v => over (qutr2duqu (mkE (xangle2quat t) v))
      | DY t v => over (qutr2duqu (mkE (yangle2quat t) v))
      | DZ t v => over (qutr2duqu (mkE (zangle2quat t) v))
      | DXyz x y z => over (xyz2duqu x y z)
      | DAxang a v => DualQuat f (DQv (axang2quat a) v)
      | DDiff s dx => over (duqu_vel2diff s dx)
      | DConj s => over (dconj s)
      end
  end.

(** ** QuatTran: 845-1010 and TfMat: 1015-1127 *)
(** The arguments a transform can be constructed from: nothing, a
    quaternion-translation, a quaternion and a vector, an angle about an axis
    and a vector, a dual quaternion, a transformation matrix. *)
Inductive trf :=
| TNone | TQv (e : QV) | TQuat (q : Q4) (v : V3)
| TX (t : R) (v : V3) | TY (t : R) (v : V3) | TZ (t : R) (v : V3)
| TDuqu (s : DQ) | TMat (T : TF).

(** Writing an array over the [n] doubles of an object *)
Definition store (n : nat) (l : list R) : outcome (list R) :=
  if Nat.leb (length l) n then Done l else Undef.
(** QuatTran::from_qv: 951-957, of one array 963 *)
Definition qutr_arr (r v : list R) : QV := mkE (quat_arr r 0) (vec_arr v 0).
Definition qutr_arr7 (l : list R) : QV := mkE (quat_arr l 0) (vec_arr l 4).
(** QuatTran's constructors: 849-923, from_xyzw 938-945, from_duqu 968-973;
    from_tfmat (978-983) lets aa_tf_tfmat2duqu write into the seven doubles *)
Definition QuatTran (s : trf) : outcome QV :=
  match s with
  | TNone => Done (mkE (quat_xyzw 0 0 0 1) (vec_xyz 0 0 0))
  | TQv e => Done (qutr_arr (qdata (eq e)) (vdata (ev e)))
  | TQuat q v => Done (qutr_arr (qdata q) (vdata v))
  | TX t v => Done (qutr_arr (qdata (Quat (RX t))) (vdata v))
  | TY t v => Done (qutr_arr (qdata (Quat (RY t))) (vdata v))
  | TZ t v => Done (qutr_arr (qdata (Quat (RZ t))) (vdata v))
  | TDuqu d => Done (duqu2qutr d)
  | TMat T => obind (store 7 (ddata (tfmat2duqu T))) (fun l => Done (qutr_arr7 l))
  end.
(** conj: 928-933; transform: 988-1009 *)
Definition quattran_conj (e : QV) : QV := qutr_conj e.
Definition quattran_transform (e : QV) (p : V3) : V3 := qutr_tf e p.

(** TfMat's constructors: 1019-1069, from_duqu 1074-1079, from_qv 1085-1090,
    from_tfmat 1095-1100; none takes a principal angle *)
Definition aa_tf_ident : list R := [1; 0; 0; 0; 1; 0; 0; 0; 1; 0; 0; 0].   (* spatial.h 152, 203 *)
Definition tfmat_arr (l : list R) : TF := mkT (rotmat_arr l 0) (vec_arr l 9).
Definition TfMat (s : trf) : option TF :=
  match s with
  | TNone => Some (tfmat_arr aa_tf_ident)
  | TQv e => Some (qutr2tfmat e)
  | TQuat q v => Some (qutr2tfmat (mkE q v))
  | TX _ _ | TY _ _ | TZ _ _ => None
  | TDuqu d => Some (duqu2tfmat d)
  | TMat T => Some (tfmat_arr (tdata T))
  end.
(** transform: 1105-1126 *)
Definition tfmat_transform (T : TF) (p : V3) : V3 := tfmat_tf T p.

(** ** Operators: 1134-1224 *)
Definition vec_plus (a b : V3) : V3 := mkV (vx a + vx b) (vy a + vy b) (vz a + vz b).
Definition vec_div (a : V3) (b : R) : V3 := mkV (vx a / b) (vy a / b) (vz a / b).
Definition mul_rotmat (a b : M33) : M33 := mmul a b.
Definition mul_quat (a b : Q4) : Q4 := qmul a b.
Definition mul_tfmat (a b : TF) : TF := tfmat_mul a b.
Definition mul_duqu (a b : DQ) : DQ := dmul a b.
Definition mul_qutr (a b : QV) : QV := qutr_mul a b.
Definition rotmat_point (r : M33) (p : V3) : V3 := mrot r p.

(** ** Eigen conversions: eigen_compat.hpp 44-121.  An Eigen matrix is its
    entries by row and column; the last row of an Eigen transform is Eigen's. *)
Definition eigen := nat -> nat -> R.
(** rotation matrix: 72-80; transformation matrix: 83-105 *)
Definition conv_rotmat (M : M33) : eigen := fun i j => at_ (mdata M) (j * 3 + i).
Definition conv_tfmat (T : TF) : eigen := fun i j => at_ (tdata T) (j * 3 + i).
(** quaternion-translation: 108-121 *)
Definition conv_qutr (e : QV) : eigen := conv_tfmat (qutr2tfmat e).

(** ** Planar objects: planar.hpp *)
(** AngleP: 137-164.  [None]: the member was never given a value. *)
Definition AngleP := option R.
(** AngleP(): 139; of an angle: 142; of a C complex number: 145; of a C++ one:
    148; of a rotation matrix: 151-154; reading it: 157-160 *)
Definition anglep_none : AngleP := None.
Definition anglep_of (t : R) : AngleP := Some t.
Definition anglep_cmplx (c : C2) : AngleP := Some (cmplx2angle c).
Definition anglep_std (c : C2) : AngleP := Some (AtanModel.atan2 (im c) (re c)).
Definition anglep_rotmat (M : R4) : AngleP := Some (rotmatp2angle M).
Definition anglep_get (a : AngleP) : outcome R := match a with Some t => Done t | None => Undef end.
Definition anglep_set (a : AngleP) (t : R) : AngleP := Some t.

(** BaseCmplx, Vec2 (58-134): components and conversions between the C and the
    C++ complex number (both two doubles, real first) *)
Definition vec2_xy (x y : R) : C2 := mkC x y.
Definition c_cmplx (c : C2) : C2 := mkC (at_ [re c; im c] 0) (at_ [re c; im c] 1).     (* 75-77 *)
Definition from_c (c : C2) : C2 := mkC (at_ [re c; im c] 0) (at_ [re c; im c] 1).      (* 88-100 *)
Definition vec2_set_x (v : C2) (x : R) : C2 := mkC x (im v).                           (* 104, 130 *)
Definition vec2_set_y (v : C2) (y : R) : C2 := mkC (re v) y.                           (* 107, 133 *)

(** The arguments a planar rotation can be constructed from *)
Inductive prot := PNone | PCmplx (c : C2) | PStd (c : C2) | PAngle (t : R) | PAngleP (a : AngleP) | PMat (M : R4).
(** Cmplx: 167-222; Cmplx() is the number zero, the identity is Cmplx::ident() *)
Definition Cmplx (s : prot) : outcome C2 :=
  match s with
  | PNone => Done (mkC 0 0)
  | PCmplx c => Done (from_c c)
  | PStd c => Done c
  | PAngle t => Done (from_c (angle2cmplx t))
  | PAngleP a => obind (anglep_get a) (fun t => Done (from_c (angle2cmplx t)))
  | PMat M => Done (from_c (rotmatp2cmplx M))
  end.
Definition cmplx_ident : C2 := mkC 1 0.                                               (* 212 *)
Definition cmplx_angle (c : C2) : R := cmplx2angle c.                                 (* 215, 218 *)
Definition cmplx_conj (c : C2) : C2 := cconj c.                                       (* 221 *)

(** RotMatP: 228-322 *)
Definition rotmatp_rows (r11 r12 r21 r22 : R) : R4 := mkR4 r11 r21 r12 r22.           (* 261-269 *)
Definition rotmatp_arr (l : list R) : R4 := rotmatp_rows (at_ l 0) (at_ l 2) (at_ l 1) (at_ l 3). (* 273-275 *)
Definition RotMatP (s : prot) : outcome R4 :=
  match s with
  | PNone => Done (rotmatp_arr [1; 0; 0; 1])                      (* 305-308, planar.h 74 *)
  | PCmplx c => Done (cmplx2rotmatp c)                            (* 279-283 *)
  | PStd c => Done (cmplx2rotmatp (c_cmplx c))                    (* 287-289 *)
  | PAngle t => Done (angle2rotmatp t)                            (* 253-257 *)
  | PAngleP a => obind (anglep_get a) (fun t => Done (angle2rotmatp t))   (* 298-302 *)
  | PMat M => Done M                                              (* 233-235 *)
  end.
Definition rotmatp_angle (M : R4) : R := rotmatp2angle M.                             (* 311-314 *)
Definition rotmatp_inverse (M : R4) : R4 := rotmatp_inv2 M.                           (* 317-321 *)

(** CmplxTran: 327-431; a transform is made from a rotation and a vector, from
    another complex-translation or from a transformation matrix *)
Inductive ptrf := QNone | QRot (s : prot) (v : C2) | QCv (c v : C2) | QMat (T : T6).
Definition cv_arr (l : list R) : C2 * C2 := (mkC (at_ l 0) (at_ l 1), mkC (at_ l 2) (at_ l 3)).
Definition CmplxTran (s : ptrf) : outcome (C2 * C2) :=
  match s with
  | QNone => Done (cv_arr [1; 0; 0; 0])                           (* 354-367, planar.h 78 *)
  | QRot PNone v => Done (cmplx_ident, v)                         (* not a constructor *)
  | QRot (PMat M) v => Done (rotmatp2cmplx M, v)                  (* 413-423 *)
  | QRot r v => obind (Cmplx r) (fun c => Done (c_cmplx c, v))    (* 370-381, 391-401 *)
  | QCv c v => Done (c, v)                                        (* 404-406 *)
  | QMat T => Done (tfmatp2cv T)                                  (* 384-388, 408-410 *)
  end.
Definition cmplxtran_inv (e : C2 * C2) : C2 * C2 := cv_inv (fst e) (snd e).           (* 426-430 *)

(** TfMatP: 436-555 *)
Definition tfmatp_arr (l : list R) : T6 :=
  mkT6 (mkR4 (at_ l 0) (at_ l 1) (at_ l 2) (at_ l 3)) (at_ l 4) (at_ l 5).
Definition tfmatp_rv (M : R4) (v : C2) : T6 := mkT6 M (re v) (im v).
Definition TfMatP (s : ptrf) : outcome T6 :=
  match s with
  | QNone => Done (tfmatp_arr [1; 0; 0; 1; 0; 0])                 (* 468-478, planar.h 81 *)
  | QRot PNone v => Done (tfmatp_rv (rotmatp_arr [1; 0; 0; 1]) v) (* not a constructor *)
  | QRot (PMat M) v => Done (tfmatp_rv M v)                       (* 506-516 *)
  | QRot r v => obind (Cmplx r) (fun c => Done (tfmatp_rv (cmplx2rotmatp (c_cmplx c)) v)) (* 481-492, 519-541 *)
  | QCv c v => Done (tfmatp_rv (cmplx2rotmatp c) v)               (* 544-547 *)
  | QMat T => Done T                                              (* 459-461 *)
  end.
Definition tfmatp_inverse (T : T6) : T6 := tfmatp_inv2 T.                             (* 550-554 *)

(** Operators: 558-611 *)
Definition pmul_cv (c v : C2) : C2 := crot c v.
Definition pmul_rv (M : R4) (v : C2) : C2 := rotmatp_rot M v.
Definition pmul_rr (A B : R4) : R4 := rotmatp_mul A B.
Definition pmul_tp (T : T6) (p : C2) : C2 := tfmatp_tf T p.
Definition pmul_ep (e : C2 * C2) (p : C2) : C2 := cv_tf (fst e) (snd e) p.
Definition pmul_tt (A B : T6) : T6 := tfmatp_mul A B.
Definition pmul_ee (a b : C2 * C2) : C2 * C2 := cv_mul (fst a) (snd a) (fst b) (snd b).
