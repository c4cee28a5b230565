(** Independent specification vocabulary: geometry over plain real numbers, and
    the injections of real data into the executable model.  Nothing here refers to
    a function of the model. *)
From Coq Require Import Reals List Bool.
From Verif Require Import Num NumR Vec CoordSys Ray Bundle.
Import ListNotations.
Open Scope R_scope.

(** ** Vectors and matrices over R *)
Definition vR := vec3 R.
Definition mR := mat3 R.
Definition dotR (a b : vR) : R := cx a * cx b + cy a * cy b + cz a * cz b.
Definition plusR (a b : vR) : vR := V3 (cx a + cx b) (cy a + cy b) (cz a + cz b).
Definition minusR (a b : vR) : vR := V3 (cx a - cx b) (cy a - cy b) (cz a - cz b).
Definition timesR (k : R) (a : vR) : vR := V3 (k * cx a) (k * cy a) (k * cz a).
Definition crossR (a b : vR) : vR :=
  V3 (cy a * cz b - cz a * cy b) (cz a * cx b - cx a * cz b) (cx a * cy b - cy a * cx b).
Definition zeroR : vR := V3 0 0 0.
Definition lenR (a : vR) : R := sqrt (dotR a a).
Definition distR (a b : vR) : R := lenR (minusR a b).

Definition col0 (m : mR) : vR := V3 (m00 m) (m10 m) (m20 m).
Definition col1 (m : mR) : vR := V3 (m01 m) (m11 m) (m21 m).
Definition col2 (m : mR) : vR := V3 (m02 m) (m12 m) (m22 m).
(** The columns (the axes of the frame) are unit and mutually perpendicular. *)
Definition orthonormal (m : mR) : Prop :=
  dotR (col0 m) (col0 m) = 1 /\ dotR (col1 m) (col1 m) = 1 /\ dotR (col2 m) (col2 m) = 1 /\
  dotR (col0 m) (col1 m) = 0 /\ dotR (col0 m) (col2 m) = 0 /\ dotR (col1 m) (col2 m) = 0.
Definition right_handed (m : mR) : Prop := crossR (col0 m) (col1 m) = col2 m.
Definition rotation (m : mR) : Prop := orthonormal m /\ right_handed m.
(** M applied to a vector: the combination of the columns. *)
Definition applyR (m : mR) (v : vR) : vR :=
  plusR (plusR (timesR (cx v) (col0 m)) (timesR (cy v) (col1 m))) (timesR (cz v) (col2 m)).
Definition eyeR : mR := M3 1 0 0 0 1 0 0 0 1.
(** The matrix of the transposed map. *)
Definition transR (m : mR) : mR :=
  M3 (m00 m) (m10 m) (m20 m) (m01 m) (m11 m) (m21 m) (m02 m) (m12 m) (m22 m).

(** ** Frames: global position and direction of local coordinates *)
Definition frame := coordsys R.
Definition good_frame (c : frame) : Prop := orthonormal (rot c).
Definition global_frame : frame := CS zeroR eyeR.
Definition global_point (c : frame) (p : vR) : vR := plusR (origin c) (applyR (rot c) p).
Definition global_dir (c : frame) (v : vR) : vR := applyR (rot c) v.

(** ** Injections of real data into the model's arithmetic XR *)
Definition F3 : vR -> vec3 XR := vmap Fin.
Definition FM : mR -> mat3 XR := mmap Fin.
Definition Fcs (c : frame) : coordsys XR := CS (F3 (origin c)) (FM (rot c)).
Definition Fray (r : ray R) : ray XR :=
  Ray (F3 (pos r)) (F3 (vel r)) (Fin (time r)) (Fin (wavelength r)) (Fin (flux r))
      (vignetted r) (failed r).
Definition Frv (rv : rayvec R) : rayvec XR := RV (map Fray (rays rv)) (Fcs (rvcs rv)).

(** A global motion: rotation [m] followed by a shift [t]. *)
Definition moved (m : mR) (t : vR) (p : vR) : vR := plusR (applyR m p) t.
(** Global position and direction of a ray of a bundle. *)
Definition ray_global_pos (c : frame) (r : ray R) : vR := global_point c (pos r).
Definition ray_global_vel (c : frame) (r : ray R) : vR := global_dir c (vel r).

(** ** Histories of frame edits (C04) *)
Definition Fop (o : cs_op R) : cs_op XR :=
  match o with
  | OpShiftGlobal dr => OpShiftGlobal (F3 dr)
  | OpShiftLocal dr => OpShiftLocal (F3 dr)
  | OpRotateGlobal r p cs => OpRotateGlobal (FM r) (F3 p) (option_map Fcs cs)
  | OpRotateLocal r p cs => OpRotateLocal (FM r) (F3 p) (option_map Fcs cs)
  end.
(** Rotation arguments are rotations. *)
Definition rot_op (o : cs_op R) : Prop :=
  match o with
  | OpRotateGlobal r _ _ | OpRotateLocal r _ _ => rotation r
  | _ => True
  end.

(** ** Rays seen from a surface's frame *)
(** Local coordinates of a global point / direction. *)
Definition local_point (c : frame) (g : vR) : vR := applyR (transR (rot c)) (minusR g (origin c)).
Definition local_dir (c : frame) (d : vR) : vR := applyR (transR (rot c)) d.
(** Position and velocity, in frame B, of a ray given in frame A. *)
Definition pos_in (A B : frame) (r : ray R) : vR := local_point B (global_point A (pos r)).
Definition vel_in (A B : frame) (r : ray R) : vR := local_dir B (global_dir A (vel r)).
(** The point of the line through p with velocity v at flight time t. *)
Definition on_line (p v : vR) (t : R) : vR := plusR p (timesR t v).
