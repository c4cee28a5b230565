(** Specification vocabulary for mirror images: the image of an optic, and of the light, under
    x -> -x, y -> -y or both (the half turn about the z axis). *)
From Coq Require Import List Bool Arith Reals.
From Verif Require Import Num NumR Vec CoordSys Surface Medium Obscuration Ray Bundle Optic ImageSpec.
Import ListNotations.

Definition flip (b : bool) (a : XR) : XR := if b then nopp a else a.

Section Mirror.
  Context (bx by_ : bool).

  Definition mir_vec (v : vec3 XR) : vec3 XR := V3 (flip bx (cx v)) (flip by_ (cy v)) (cz v).
  (** S m S for the diagonal matrix S of the reflection. *)
  Definition mir_mat (m : mat3 XR) : mat3 XR :=
    M3 (m00 m) (flip (xorb bx by_) (m01 m)) (flip bx (m02 m))
       (flip (xorb bx by_) (m10 m)) (m11 m) (flip by_ (m12 m))
       (flip bx (m20 m)) (flip by_ (m21 m)) (m22 m).
  Definition mir_frame (c : coordsys XR) : coordsys XR := CS (mir_vec (origin c)) (mir_mat (rot c)).

  (** The coefficient of x^i y^j in rows of length w. *)
  Definition sign_at (b : bool) (w k : nat) : bool :=
    xorb b (xorb (bx && Nat.odd (k / w)) (by_ && Nat.odd (k mod w))).
  Fixpoint signed (b : bool) (w k : nat) (l : list XR) : list XR :=
    match l with [] => [] | c :: l => flip (sign_at b w k) c :: signed b w (S k) l end.
  Fixpoint mir_surface (s : surface XR) : surface XR :=
    match s with
    | Tilted tx ty => Tilted (flip bx tx) (flip by_ ty)
    | Poly cs gx gy x0 y0 xs ys =>
        Poly (signed false xs 0 cs) (signed bx (xs - 1) 0 gx) (signed by_ (xs - 1) 0 gy)
             (flip bx x0) (flip by_ y0) xs ys
    | Sum l => Sum (map mir_surface l)
    | s => s
    end.
  (** Surfaces other than Bicubic. *)
  Inductive mirrorable : surface XR -> Prop :=
  | mir_plane : mirrorable Plane
  | mir_tilted tx ty : mirrorable (Tilted tx ty)
  | mir_sphere R : mirrorable (Sphere R)
  | mir_paraboloid R : mirrorable (Paraboloid R)
  | mir_quadric R k : mirrorable (Quadric R k)
  | mir_asphere R k cs : mirrorable (Asphere R k cs)
  | mir_poly cs gx gy x0 y0 xs ys : mirrorable (Poly cs gx gy x0 y0 xs ys)
  | mir_sum l : (forall s, In s l -> mirrorable s) -> mirrorable (Sum l).

  Fixpoint mir_obsc (o : obsc XR) : obsc XR :=
    match o with
    | ObscCircle r x0 y0 => ObscCircle r (flip bx x0) (flip by_ y0)
    | ObscAnnulus i o x0 y0 => ObscAnnulus i o (flip bx x0) (flip by_ y0)
    | ObscRectangle w h x0 y0 sth cth => ObscRectangle w h (flip bx x0) (flip by_ y0) (flip by_ sth) (flip bx cth)
    | ObscRay w x0 y0 sth cth => ObscRay w (flip bx x0) (flip by_ y0) (flip by_ sth) (flip bx cth)
    | ObscPolygon verts => ObscPolygon (map (fun p => (flip bx (fst p), flip by_ (snd p))) verts)
    | ObscNegation o => ObscNegation (mir_obsc o)
    | ObscUnion l => ObscUnion (map mir_obsc l)
    | ObscIntersection l => ObscIntersection (map mir_obsc l)
    end.
  (** Obscurations other than polygons. *)
  Inductive smooth_obsc : obsc XR -> Prop :=
  | smooth_circle r x0 y0 : smooth_obsc (ObscCircle r x0 y0)
  | smooth_annulus i o x0 y0 : smooth_obsc (ObscAnnulus i o x0 y0)
  | smooth_rectangle w h x0 y0 s c : smooth_obsc (ObscRectangle w h x0 y0 s c)
  | smooth_ray w x0 y0 s c : smooth_obsc (ObscRay w x0 y0 s c)
  | smooth_negation o : smooth_obsc o -> smooth_obsc (ObscNegation o)
  | smooth_union l : (forall o, In o l -> smooth_obsc o) -> smooth_obsc (ObscUnion l)
  | smooth_intersection l : (forall o, In o l -> smooth_obsc o) -> smooth_obsc (ObscIntersection l).

  Definition mir_ray (r : ray XR) : ray XR :=
    Ray (mir_vec (pos r)) (mir_vec (vel r)) (time r) (wavelength r) (flux r) (vignetted r) (failed r).
  Definition mirror : change := Change mir_surface mir_surface mir_obsc mir_frame mir_ray.
  Definition mirrorable_iface (i : iface XR) : Prop :=
    mirrorable (i_surf i) /\ (forall o, i_obsc i = Some o -> smooth_obsc o) /\
    (forall s, i_kind i = KScreen s -> mirrorable s).
  (** No bicubic surface and no polygon anywhere in the optic. *)
  Definition mirrorable_optic : optic XR -> Prop := all_ifaces mirrorable_iface.
End Mirror.
