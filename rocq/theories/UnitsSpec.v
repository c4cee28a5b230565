(** Specification vocabulary for changes of the unit of length (and of time: light travels one unit of length in one unit of
    time).  A quantity of dimension length^d that was a is k^d a in the new unit. *)
From Coq Require Import Reals ZArith List Bool Arith.
From Verif Require Import Num NumR Vec CoordSys Surface Medium Obscuration Ray Bundle Optic ImageSpec.
Import ListNotations.

Section Units.
  Context (k : R).
  Definition conv (d : Z) (a : XR) : XR := (Fin (powerRZ k d) * a)%num.
  Definition conv_vec (v : vec3 XR) : vec3 XR := V3 (conv 1 (cx v)) (conv 1 (cy v)) (conv 1 (cz v)).
  Definition conv_frame (c : coordsys XR) : coordsys XR := CS (conv_vec (origin c)) (rot c).
  Definition conv_ray (r : ray XR) : ray XR :=
    Ray (conv_vec (pos r)) (vel r) (conv 1 (time r)) (wavelength r) (flux r) (vignetted r) (failed r).
  (** Coefficients of r^2, r^4, ... in a height. *)
  Fixpoint conv_asphere (d : Z) (l : list XR) : list XR :=
    match l with [] => [] | c :: l => conv d c :: conv_asphere (d - 2) l end.
  (** Coefficients of x^i y^j, in rows of length w, of a quantity of dimension d. *)
  Fixpoint conv_poly (d : Z) (w m : nat) (l : list XR) : list XR :=
    match l with [] => [] | c :: l => conv (d - Z.of_nat (m / w) - Z.of_nat (m mod w)) c :: conv_poly d w (S m) l end.
  Definition conv_table (t : table XR) : table XR :=
    Tab (conv 1 (tb_x0 t)) (conv 1 (tb_y0 t)) (conv 1 (tb_dx t)) (conv 1 (tb_dy t)) (tb_nx t) (tb_ny t)
        (map (conv 1) (tb_z t)) (tb_dzdx t) (tb_dzdy t) (map (conv (-1)) (tb_d2 t)) (tb_use_nan t).
  Fixpoint conv_surface (s : surface XR) : surface XR :=
    match s with
    | Plane => Plane
    | Tilted tx ty => Tilted tx ty
    | Sphere R => Sphere (conv 1 R)
    | Paraboloid R => Paraboloid (conv 1 R)
    | Quadric R c => Quadric (conv 1 R) c
    | Asphere R c cs => Asphere (conv 1 R) c (conv_asphere (-1) cs)
    | Poly cs gx gy x0 y0 xs ys =>
        Poly (conv_poly 1 xs 0 cs) (conv_poly 0 (xs - 1) 0 gx) (conv_poly 0 (xs - 1) 0 gy) (conv 1 x0) (conv 1 y0) xs ys
    | Bicubic t => Bicubic (conv_table t)
    | Sum l => Sum (map conv_surface l)
    end.
  Fixpoint conv_obsc (o : obsc XR) : obsc XR :=
    match o with
    | ObscCircle r x0 y0 => ObscCircle (conv 1 r) (conv 1 x0) (conv 1 y0)
    | ObscAnnulus i o x0 y0 => ObscAnnulus (conv 1 i) (conv 1 o) (conv 1 x0) (conv 1 y0)
    | ObscRectangle w h x0 y0 s c => ObscRectangle (conv 1 w) (conv 1 h) (conv 1 x0) (conv 1 y0) s c
    | ObscRay w x0 y0 s c => ObscRay (conv 1 w) (conv 1 x0) (conv 1 y0) s c
    | ObscPolygon verts => ObscPolygon (map (fun p => (conv 1 (fst p), conv 1 (snd p))) verts)
    | ObscNegation o => ObscNegation (conv_obsc o)
    | ObscUnion l => ObscUnion (map conv_obsc l)
    | ObscIntersection l => ObscIntersection (map conv_obsc l)
    end.
  Definition convert : change := Change conv_surface conv_surface conv_obsc conv_frame conv_ray.
  (** Surfaces that light meets by a formula rather than by iteration. *)
  Definition closed_form (s : surface XR) : bool :=
    match s with Plane | Tilted _ _ | Sphere _ | Paraboloid _ | Quadric _ _ => true | _ => false end.
  (** Surfaces that light meets by Newton's iteration. *)
  Definition iterated (s : surface XR) : bool := match s with Asphere _ _ _ | Poly _ _ _ _ _ _ _ | Bicubic _ => true | _ => false end.
  (** Every interface has such a surface; phase screens and obscurations are arbitrary. *)
  Definition closed_optic : optic XR -> Prop := all_ifaces (fun i => closed_form (i_surf i) = true).
End Units.
