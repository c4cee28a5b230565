(** Specification vocabulary for the aplanatic points of a sphere. *)
From Coq Require Import Reals List.
From Verif Require Import Num NumR Vec CoordSys Surface Medium Ray Bundle Optic Spec OpticsSpec StigSpec.
Open Scope R_scope.

(** A spherical refracting surface with its vertex at the origin of B and curvature radius [rad], with index n2 beyond it for
    light of wavelength w. *)
Definition sphere_lens (i : iface XR) (reverse : bool) (B : frame) (rad w n2 : R) : Prop :=
  i_kind i = KRefractive /\ i_surf i = Sphere (Fin rad) /\ i_cs i = Fcs B /\ good_frame B /\ rad <> 0 /\
  getN (if reverse then i_in i else i_out i) (Fin w) = Fin n2 /\ 0 < n2.
(** The point of the axis that is a times the radius beyond the centre, seen from the vertex. *)
Definition beyond_centre (B : frame) (rad a : R) : vR := axis_point B (rad * (1 + a)).
