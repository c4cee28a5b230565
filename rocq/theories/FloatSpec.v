(** Specification vocabulary for double-precision results: the real number a double stands for. *)
From Coq Require Import Reals ZArith List Bool Floats.SpecFloat.
From Verif Require Import Num NumF Vec CoordSys Surface Medium Ray Bundle Spec.
Import ListNotations.
Open Scope R_scope.

(** 2^e. *)
Definition two (e : Z) : R := powerRZ 2 e.
(** The value of a double (0 for infinities and NaN) and whether it has one. *)
Definition valF (a : F64) : R :=
  match a with S754_finite s m e => (if s then -1 else 1) * IZR (Zpos m) * two e | _ => 0 end.
Definition finF (a : F64) : Prop := match a with S754_zero _ | S754_finite _ _ _ => True | _ => False end.
(** Half the distance of 1 to the next double, and half the smallest positive double. *)
Definition ulp1 : R := two (-53).
Definition eta : R := two (-1075).
(** a is x to within one rounding. *)
Definition rounded (a : F64) (x : R) : Prop := Rabs (valF a - x) <= ulp1 * Rabs x + eta.

(** Vectors and matrices of doubles. *)
Definition valV (v : vec3 F64) : vR := V3 (valF (cx v)) (valF (cy v)) (valF (cz v)).
Definition valM (m : mat3 F64) : mR :=
  M3 (valF (m00 m)) (valF (m01 m)) (valF (m02 m)) (valF (m10 m)) (valF (m11 m)) (valF (m12 m)) (valF (m20 m)) (valF (m21 m)) (valF (m22 m)).
Definition finV (v : vec3 F64) : Prop := finF (cx v) /\ finF (cy v) /\ finF (cz v).
Definition finM (m : mat3 F64) : Prop :=
  finF (m00 m) /\ finF (m01 m) /\ finF (m02 m) /\ finF (m10 m) /\ finF (m11 m) /\ finF (m12 m) /\ finF (m20 m) /\ finF (m21 m) /\ finF (m22 m).
(** A finite double, all components of a vector, at most B in size. *)
Definition sized (B : R) (a : F64) : Prop := finF a /\ Rabs (valF a) <= B.
Definition sizedV (B : R) (v : vec3 F64) : Prop := sized B (cx v) /\ sized B (cy v) /\ sized B (cz v).
Definition sizedM (B : R) (m : mat3 F64) : Prop :=
  sized B (m00 m) /\ sized B (m01 m) /\ sized B (m02 m) /\ sized B (m10 m) /\ sized B (m11 m) /\ sized B (m12 m) /\ sized B (m20 m) /\ sized B (m21 m) /\ sized B (m22 m).
(** A finite double, a finite vector, within e of the exact value. *)
Definition close (e : R) (a : F64) (x : R) : Prop := finF a /\ Rabs (valF a - x) <= e.
Definition closeV (e : R) (a : vec3 F64) (x : vR) : Prop := close e (cx a) (cx x) /\ close e (cy a) (cy x) /\ close e (cz a) (cz x).
(** The distance of 1 to the next double. *)
Definition ulp : R := two (-52).
(** Scales at which no operation below overflows or falls into the subnormal range. *)
Definition inrange (C : R) : Prop := two (-900) <= C <= two 900.
(** A frame of doubles and the real frame it stands for. *)
Definition valC (c : coordsys F64) : frame := CS (valV (origin c)) (valM (rot c)).
(** The same with room for sums of a few hundred such terms. *)
Definition inrange4 (S : R) : Prop := two (-900) <= S <= two 890.
(** Unit and mutually perpendicular to within tau: the columns, and the rows. *)
Definition nearly (tau : R) (x y : R) : Prop := Rabs (x - y) <= tau.
Definition nearly_columns (tau : R) (m : mR) : Prop :=
  nearly tau (dotR (col0 m) (col0 m)) 1 /\ nearly tau (dotR (col1 m) (col1 m)) 1 /\ nearly tau (dotR (col2 m) (col2 m)) 1 /\
  nearly tau (dotR (col0 m) (col1 m)) 0 /\ nearly tau (dotR (col0 m) (col2 m)) 0 /\ nearly tau (dotR (col1 m) (col2 m)) 0.
Definition nearly_orthonormal (tau : R) (m : mR) : Prop := nearly_columns tau m /\ nearly_columns tau (transR m).
(** A frame of finite doubles, orthonormal to within tau, with its origin at most O from the global one. *)
Definition finC (c : coordsys F64) : Prop := finV (origin c) /\ finM (rot c).
Definition double_frame (tau O : R) (c : coordsys F64) : Prop :=
  finC c /\ nearly_orthonormal tau (valM (rot c)) /\ lenR (valV (origin c)) <= O.
(** Coordinates whose squares neither overflow nor underflow. *)
Definition ranged (x y : F64) : Prop :=
  finF x /\ finF y /\ ((valF x = 0 /\ valF y = 0) \/ two (-800) <= valF x * valF x + valF y * valF y <= two 800).
(** Where the computed normal of a surface is trustworthy: no square overflows or underflows. *)
Definition mild (s : surface F64) (x y : F64) : Prop :=
  match s with
  | Sphere _ | Quadric _ _ | Asphere _ _ _ => ranged x y
  | Paraboloid R => finF R /\ two (-399) <= Rabs (valF R)
  | Tilted tx ty => finF tx /\ finF ty /\ Rabs (valF tx) <= 1 /\ Rabs (valF ty) <= 1
  | _ => True
  end.
(** Mirrors one after another: surface, its frame, coating. *)
Definition mirrors (niter : nat) (l : list (surface F64 * coordsys F64 * option (coating F64))) (rv : rayvec F64) : rayvec F64 :=
  fold_left (fun rv '(s, c, co) => rv_reflect niter s (Some c) co rv) l rv.
(** Ray i meets every mirror where the computed normal is finite and trustworthy and the slope moderate. *)
Fixpoint gentle (niter i : nat) (l : list (surface F64 * coordsys F64 * option (coating F64))) (rv : rayvec F64) : Prop :=
  match l with
  | [] => True
  | (s, c, co) :: l =>
      let rv' := rv_reflect niter s (Some c) co rv in
      (forall r, nth_error (rays rv') i = Some r -> failed r = false ->
        mild s (cx (pos r)) (cy (pos r)) /\ finV (normal s (cx (pos r)) (cy (pos r))) /\ / 1000 <= valF (cz (normal s (cx (pos r)) (cy (pos r))))) /\
      gentle niter i l rv'
  end.
(** The rays carried to one frame after another. *)
Definition hops (cs : list (coordsys F64)) (rv : rayvec F64) : rayvec F64 := fold_left (fun rv c => rv_toCoordSys c rv) cs rv.
(** Refracting surfaces one after another: surface, its frame, medium before, medium after, coating. *)
Definition lens_list := list (surface F64 * coordsys F64 * medium F64 * medium F64 * option (coating F64)).
Definition lenses (niter : nat) (l : lens_list) (rv : rayvec F64) : rayvec F64 :=
  fold_left (fun rv '(s, c, m1, m2, co) => rv_refract niter s m1 m2 (Some c) co rv) l rv.
(** The refractive index behind the last surface (n: the one before the first) for the wavelength w. *)
Definition last_index (n : R) (w : F64) (l : lens_list) : R := fold_left (fun n '(s, c, m1, m2, co) => valF (getN m2 w)) l n.
(** Ray i, as long as it has not failed, meets every surface where the computed normal is finite and trustworthy and the slope
    moderate, and comes out with a finite velocity; no index of refraction is out of the ordinary. *)
Fixpoint ordinary (niter i : nat) (n : R) (l : lens_list) (rv : rayvec F64) : Prop :=
  match l with
  | [] => True
  | (s, c, m1, m2, co) :: l =>
      let rv' := rv_refract niter s m1 m2 (Some c) co rv in
      (forall r, nth_error (rays rv') i = Some r -> failed r = false ->
        mild s (cx (pos r)) (cy (pos r)) /\ finV (normal s (cx (pos r)) (cy (pos r))) /\ / 1000 <= valF (cz (normal s (cx (pos r)) (cy (pos r)))) /\
        finV (vel r) /\ finF (getN m2 (wavelength r)) /\ 0.9 <= valF (getN m2 (wavelength r)) <= 4 /\ n <= 1.9 * valF (getN m2 (wavelength r)) /\
        ordinary niter i (valF (getN m2 (wavelength r))) l rv')
  end.
