(** Specification vocabulary for axially symmetric optics. *)
From Coq Require Import Reals List Bool.
From Verif Require Import Num NumR Vec CoordSys Surface Medium Obscuration Ray Bundle Optic Spec TreeSpec.
Import ListNotations.
Open Scope R_scope.

(** Surfaces of revolution about their z axis, whatever their parameters. *)
Inductive round_surface : surface XR -> Prop :=
| round_plane : round_surface Plane
| round_sphere R : round_surface (Sphere R)
| round_paraboloid R : round_surface (Paraboloid R)
| round_quadric R k : round_surface (Quadric R k)
| round_asphere R k coefs : round_surface (Asphere R k coefs)
| round_sum l : (forall s, In s l -> round_surface s) -> round_surface (Sum l).
(** Discs and rings centred on the axis, and what they combine to. *)
Inductive round_obsc : obsc XR -> Prop :=
| round_circle r : round_obsc (ObscCircle r (Fin 0) (Fin 0))
| round_annulus i o : round_obsc (ObscAnnulus i o (Fin 0) (Fin 0))
| round_negation o : round_obsc o -> round_obsc (ObscNegation o)
| round_union l : (forall o, In o l -> round_obsc o) -> round_obsc (ObscUnion l)
| round_intersection l : (forall o, In o l -> round_obsc o) -> round_obsc (ObscIntersection l).
(** Frames whose z axis lies along the global z axis, in either sense. *)
Definition axial_frame (A : frame) : Prop :=
  good_frame A /\ cx (origin A) = 0 /\ cy (origin A) = 0 /\
  m02 (rot A) = 0 /\ m12 (rot A) = 0 /\ m20 (rot A) = 0 /\ m21 (rot A) = 0.
Definition round_iface (i : iface XR) : Prop :=
  round_surface (i_surf i) /\ (forall o, i_obsc i = Some o -> round_obsc o) /\
  (exists A, i_cs i = Fcs A /\ axial_frame A) /\ (forall s, i_kind i <> KScreen s).
(** Everything light meets is round and sits on the global z axis. *)
Definition axial_optic (o : optic XR) : Prop := forall i, In i (leaves o) -> round_iface i.

(** Turns about the z axis and reflections in planes through it. *)
Definition axial_turn (Q : mR) : Prop :=
  orthonormal Q /\ m02 Q = 0 /\ m12 Q = 0 /\ m20 Q = 0 /\ m21 Q = 0 /\ m22 Q = 1.
(** A ray turned in space, in the coordinates of frame A. *)
Definition turned (Q : mR) (A : frame) (r : ray R) : ray R :=
  Ray (local_point A (applyR Q (global_point A (pos r)))) (local_dir A (applyR Q (global_dir A (vel r))))
      (time r) (wavelength r) (flux r) (vignetted r) (failed r).
(** One ray goes in, one real ray that has not failed comes out. *)
Definition gets_through (niter : nat) (o : optic XR) (reverse : bool) (A : frame) (r : ray XR) (B : frame) (r1 : ray R) : Prop :=
  trace niter o reverse (RV [r] (Fcs A)) = RV [Fray r1] (Fcs B) /\ failed r1 = false.
(** The moment of the direction of travel about the z axis times the refractive index:
    light has speed 1/n, so this is the z component of position x velocity over speed squared. *)
Definition skewness (A : frame) (r : ray R) : R :=
  let p := global_point A (pos r) in let v := global_dir A (vel r) in
  (cx p * cy v - cy p * cx v) / dotR v v.
(** A ray that keeps to the plane a x + b y = 0 through the axis. *)
Definition meridional (a b : R) (A : frame) (r : ray R) : Prop :=
  let p := global_point A (pos r) in let v := global_dir A (vel r) in
  a * cx p + b * cy p = 0 /\ a * cx v + b * cy v = 0.
