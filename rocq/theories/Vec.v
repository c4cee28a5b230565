(** 3-vectors and 3x3 matrices, as numpy arrays of shape (3,) and (3,3) and as
    the C++ [vec3], [mat3] (row-major, so drot[3*i+j] is row i, column j;
    include/batoid.h:10-11). *)
From Coq Require Import List.
From Verif Require Import Num.
Import ListNotations.

Record vec3 (T : Type) := V3 { cx : T; cy : T; cz : T }.
Arguments V3 {T}. Arguments cx {T}. Arguments cy {T}. Arguments cz {T}.

Record mat3 (T : Type) := M3 {
  m00 : T; m01 : T; m02 : T;
  m10 : T; m11 : T; m12 : T;
  m20 : T; m21 : T; m22 : T }.
Arguments M3 {T}.
Arguments m00 {T}. Arguments m01 {T}. Arguments m02 {T}.
Arguments m10 {T}. Arguments m11 {T}. Arguments m12 {T}.
Arguments m20 {T}. Arguments m21 {T}. Arguments m22 {T}.

Section Ops.
  Context {T : Type} {NT : Num T}.
  Local Open Scope num_scope.

  (** numpy [a+b], [a-b] on shape (3,) (batoid/coordSys.py:76,123,148). *)
  Definition vadd (a b : vec3 T) : vec3 T := V3 (cx a + cx b) (cy a + cy b) (cz a + cz b).
  Definition vsub (a b : vec3 T) : vec3 T := V3 (cx a - cx b) (cy a - cy b) (cz a - cz b).

  (** numpy [M @ v] (batoid/coordSys.py:91,107,148; batoid/coordTransform.py:19).
      Simplification: numpy does not specify the order of the three additions;
      left to right here. *)
  Definition mv (m : mat3 T) (v : vec3 T) : vec3 T :=
    V3 (m00 m * cx v + m01 m * cy v + m02 m * cz v)
       (m10 m * cx v + m11 m * cy v + m12 m * cz v)
       (m20 m * cx v + m21 m * cy v + m22 m * cz v).

  (** numpy [M.T] (batoid/coordSys.py:124,176; batoid/coordTransform.py:19-20,90). *)
  Definition mtr (m : mat3 T) : mat3 T :=
    M3 (m00 m) (m10 m) (m20 m) (m01 m) (m11 m) (m21 m) (m02 m) (m12 m) (m22 m).

  (** numpy [A @ B] on (3,3) (batoid/coordSys.py:149,174; coordTransform.py:20). *)
  Definition mm (a b : mat3 T) : mat3 T :=
    let e r0 r1 r2 c0 c1 c2 := r0 * c0 + r1 * c1 + r2 * c2 in
    M3 (e (m00 a) (m01 a) (m02 a) (m00 b) (m10 b) (m20 b))
       (e (m00 a) (m01 a) (m02 a) (m01 b) (m11 b) (m21 b))
       (e (m00 a) (m01 a) (m02 a) (m02 b) (m12 b) (m22 b))
       (e (m10 a) (m11 a) (m12 a) (m00 b) (m10 b) (m20 b))
       (e (m10 a) (m11 a) (m12 a) (m01 b) (m11 b) (m21 b))
       (e (m10 a) (m11 a) (m12 a) (m02 b) (m12 b) (m22 b))
       (e (m20 a) (m21 a) (m22 a) (m00 b) (m10 b) (m20 b))
       (e (m20 a) (m21 a) (m22 a) (m01 b) (m11 b) (m21 b))
       (e (m20 a) (m21 a) (m22 a) (m02 b) (m12 b) (m22 b)).

  (** np.eye(3) (batoid/coordSys.py:39). *)
  Definition meye : mat3 T := M3 n1 n0 n0 n0 n1 n0 n0 n0 n1.
  (** np.zeros(3) (batoid/coordSys.py:37). *)
  Definition vzero : vec3 T := V3 n0 n0 n0.
End Ops.

Definition vmap {A B} (f : A -> B) (v : vec3 A) : vec3 B := V3 (f (cx v)) (f (cy v)) (f (cz v)).
Definition mmap {A B} (f : A -> B) (m : mat3 A) : mat3 B :=
  M3 (f (m00 m)) (f (m01 m)) (f (m02 m)) (f (m10 m)) (f (m11 m)) (f (m12 m))
     (f (m20 m)) (f (m21 m)) (f (m22 m)).
