(** batoid/coordSys.py and batoid/coordTransform.py. *)
From Coq Require Import List.
From Verif Require Import Num Vec.
Import ListNotations.

(** class CoordSys (batoid/coordSys.py:19-41).  Immutable here: every method of
    the class returns a new object. *)
Record coordsys (T : Type) := CS { origin : vec3 T; rot : mat3 T }.
Arguments CS {T}. Arguments origin {T}. Arguments rot {T}.

Section CS.
  Context {T : Type} {NT : Num T}.

  (** CoordSys() with defaults (batoid/coordSys.py:35-41). *)
  Definition cs_default : coordsys T := CS vzero meye.
  (** shiftGlobal (batoid/coordSys.py:64-76). *)
  Definition shiftGlobal (c : coordsys T) (dr : vec3 T) : coordsys T :=
    CS (vadd (origin c) dr) (rot c).
  (** shiftLocal (batoid/coordSys.py:78-91). *)
  Definition shiftLocal (c : coordsys T) (dr : vec3 T) : coordsys T :=
    shiftGlobal c (mv (rot c) dr).
  (** toGlobal on one vector (batoid/coordSys.py:93-107). *)
  Definition toGlobal (c : coordsys T) (v : vec3 T) : vec3 T :=
    vadd (mv (rot c) v) (origin c).
  (** toLocal on one vector (batoid/coordSys.py:109-124). *)
  Definition toLocal (c : coordsys T) (v : vec3 T) : vec3 T :=
    mv (mtr (rot c)) (vsub v (origin c)).
  (** rotateGlobal (batoid/coordSys.py:126-150); [cs = None] is coordSys=None. *)
  Definition rotateGlobal (c : coordsys T) (r : mat3 T) (center : vec3 T)
      (cs : option (coordsys T)) : coordsys T :=
    let cs := match cs with None => cs_default | Some s => s end in
    let g := toGlobal cs center in
    CS (vadd (mv r (vsub (origin c) g)) g) (mm r (rot c)).
  (** rotateLocal (batoid/coordSys.py:152-178). [rTmp@self.rot.T@(...)] associates
      to the left: the two matrices are multiplied first. *)
  Definition rotateLocal (c : coordsys T) (r : mat3 T) (center : vec3 T)
      (cs : option (coordsys T)) : coordsys T :=
    let cs := match cs with None => c | Some s => s end in
    let g := toGlobal cs center in
    let rTmp := mm (rot c) r in
    CS (vadd (mv (mm rTmp (mtr (rot c))) (vsub (origin c) g)) g) rTmp.

  (** class CoordTransform: the derived attributes dr, drot
      (batoid/coordTransform.py:16-20). *)
  Record coordtransform := CT { fromSys : coordsys T; toSys : coordsys T;
                                ct_dr : vec3 T; ct_drot : mat3 T }.
  Definition mkCT (f t : coordsys T) : coordtransform :=
    CT f t (mv (mtr (rot f)) (vsub (origin t) (origin f))) (mm (mtr (rot f)) (rot t)).

  (** applyForwardArray on one point (batoid/coordTransform.py:70-90). *)
  Definition applyForwardArray (ct : coordtransform) (p : vec3 T) : vec3 T :=
    mv (mtr (ct_drot ct)) (vsub p (ct_dr ct)).
  (** applyReverseArray on one point (batoid/coordTransform.py:92-113). *)
  Definition applyReverseArray (ct : coordtransform) (p : vec3 T) : vec3 T :=
    vadd (mv (ct_drot ct) p) (ct_dr ct).

  Local Open Scope num_scope.
  (** Loop body of applyForwardTransformArrays (src/batoid.cpp:15-20); the same
      lines occur in finishParallel (50-55), applyForwardTransform (95-100) and
      in each tracing loop (225-230, 323-328, 433-438, 583-588, 722-727). *)
  Definition fwd_point (dr : vec3 T) (d : mat3 T) (p : vec3 T) : vec3 T :=
    let dx := cx p - cx dr in
    let dy := cy p - cy dr in
    let dz := cz p - cz dr in
    V3 (dx * m00 d + dy * m10 d + dz * m20 d)
       (dx * m01 d + dy * m11 d + dz * m21 d)
       (dx * m02 d + dy * m12 d + dz * m22 d).
  (** Velocity part (src/batoid.cpp:101-103, 231-233, ...). *)
  Definition fwd_vel (d : mat3 T) (v : vec3 T) : vec3 T :=
    V3 (cx v * m00 d + cy v * m10 d + cz v * m20 d)
       (cx v * m01 d + cy v * m11 d + cz v * m21 d)
       (cx v * m02 d + cy v * m12 d + cz v * m22 d).
  (** Loop body of applyReverseTransformArrays (src/batoid.cpp:31-33), also
      finishParallel (62-64), applyReverseTransform (135-137). *)
  Definition rev_point (dr : vec3 T) (d : mat3 T) (p : vec3 T) : vec3 T :=
    V3 (cx p * m00 d + cy p * m01 d + cz p * m02 d + cx dr)
       (cx p * m10 d + cy p * m11 d + cz p * m12 d + cy dr)
       (cx p * m20 d + cy p * m21 d + cz p * m22 d + cz dr).
  (** src/batoid.cpp:141-143. *)
  Definition rev_vel (d : mat3 T) (v : vec3 T) : vec3 T :=
    V3 (cx v * m00 d + cy v * m01 d + cz v * m02 d)
       (cx v * m10 d + cy v * m11 d + cz v * m12 d)
       (cx v * m20 d + cy v * m21 d + cz v * m22 d).
End CS.
Arguments coordtransform T : clear implicits.

(** A user's edits of a coordinate system, for histories (C04). *)
Inductive cs_op (T : Type) :=
| OpShiftGlobal (dr : vec3 T)
| OpShiftLocal (dr : vec3 T)
| OpRotateGlobal (r : mat3 T) (center : vec3 T) (cs : option (coordsys T))
| OpRotateLocal (r : mat3 T) (center : vec3 T) (cs : option (coordsys T)).
Arguments OpShiftGlobal {T}. Arguments OpShiftLocal {T}.
Arguments OpRotateGlobal {T}. Arguments OpRotateLocal {T}.

Definition cs_step {T} `{Num T} (c : coordsys T) (o : cs_op T) : coordsys T :=
  match o with
  | OpShiftGlobal dr => shiftGlobal c dr
  | OpShiftLocal dr => shiftLocal c dr
  | OpRotateGlobal r p cs => rotateGlobal c r p cs
  | OpRotateLocal r p cs => rotateLocal c r p cs
  end.
