(** Specification vocabulary for the C++ transform objects: the motion each kind
    of constructor argument stands for, in terms of points. *)
From Coq Require Import Reals.
From Verif Require Import TfModel TfSpec TfExpSpec PlanarModel PlanarSpec SpModel.
Open Scope R_scope.

(** The argument is a rotation: unit quaternion, proper matrix, unit axis.
    (For a rotation vector the library is exact at zero and from 2^-12 on;
    C23 and C24 say what happens in between.) *)
Definition rotates (s : rot) : Prop :=
  match s with
  | RQuat q => unitq q
  | RMat M => proper_rotation M
  | RAxang a => unit3 (axis a)
  | RVec v => v = zero3 \/ / 2 ^ 12 <= len3 v
  | _ => True
  end.
(** Rows of a matrix times a point *)
Definition row_times (M : M33) (p : V3) : V3 :=
  mkV (m00 M * vx p + m01 M * vy p + m02 M * vz p)
      (m10 M * vx p + m11 M * vy p + m12 M * vz p)
      (m20 M * vx p + m21 M * vy p + m22 M * vz p).
(** [turns s p p']: the rotation [s] stands for takes [p] to [p'] *)
Definition turns (s : rot) (p p' : V3) : Prop :=
  match s with
  | RNone => p' = p
  | RQuat q => pure p' = hamilton (hamilton q (pure p)) (conjugate q)
  | RMat M => p' = row_times M p
  | RAxang a => p' = rodrigues (axis a) (angle a) p
  | RX t => p' = rot_x t p
  | RY t => p' = rot_y t p
  | RZ t => p' = rot_z t p
  | RVec v => forall k t, unit3 k -> 0 <= t -> v = times3 t k -> p' = rodrigues k t p
  end.

(** The same for transforms *)
Definition moves (s : trf) (p p' : V3) : Prop :=
  match s with
  | TNone => p' = p
  | TQv e => exists r, turns (RQuat (eq e)) p r /\ p' = plus3 (ev e) r
  | TQuat q v => exists r, turns (RQuat q) p r /\ p' = plus3 v r
  | TX t v => p' = plus3 v (rot_x t p)
  | TY t v => p' = plus3 v (rot_y t p)
  | TZ t v => p' = plus3 v (rot_z t p)
  | TDuqu s => exists r t, turns (RQuat (dreal s)) p r /\
      hamilton (ddual s) (conjugate (dreal s)) = pure (times3 (1 / 2) t) /\ p' = plus3 t r
  | TMat T => p' = plus3 (tv T) (row_times (tR T) p)
  end.
Definition transforms (s : trf) : Prop :=
  match s with
  | TQv e => unitq (eq e)
  | TQuat q _ => unitq q
  | TDuqu s => unit_duqu s
  | TMat T => proper_rotation (tR T)
  | _ => True
  end.

(** A row of an Eigen matrix times a point *)
Definition eigen_row (E : eigen) (i : nat) (p : V3) : R :=
  E i 0%nat * vx p + E i 1%nat * vy p + E i 2%nat * vz p.

(** Planar *)
Definition protates (s : prot) : Prop :=
  match s with
  | PCmplx c | PStd c => unitc c
  | PMat M => proper2 M
  | PAngleP a => a <> None
  | _ => True
  end.
Definition pturns (s : prot) (p p' : C2) : Prop :=
  match s with
  | PNone => p' = p
  | PCmplx c | PStd c => exists t, re c = cos t /\ im c = sin t /\ p' = turn t p
  | PAngle t => p' = turn t p
  | PAngleP a => forall t, a = Some t -> p' = turn t p
  | PMat M => p' = mkC (r0 M * re p + r2 M * im p) (r1 M * re p + r3 M * im p)
  end.
Definition ptransforms (s : ptrf) : Prop :=
  match s with
  | QNone => True
  | QRot r _ => protates r
  | QCv c _ => unitc c
  | QMat T => proper2 (tr T)
  end.
Definition pmoves (s : ptrf) (p p' : C2) : Prop :=
  match s with
  | QNone => p' = p
  | QRot r v => exists q, pturns r p q /\ p' = shift v q
  | QCv c v => exists q, pturns (PCmplx c) p q /\ p' = shift v q
  | QMat T => exists q, pturns (PMat (tr T)) p q /\ p' = shift (mkC (t4 T) (t5 T)) q
  end.
