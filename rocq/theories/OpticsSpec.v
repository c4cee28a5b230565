(** Specification vocabulary for rays meeting a surface. *)
From Coq Require Import Reals List Bool.
From Verif Require Import Num NumR Vec CoordSys Surface Medium Ray Bundle Spec.
Import ListNotations.
Open Scope R_scope.

(** Ray number k of a bundle given in frame A, not failed, is moved by
    [intersect] with a surface in frame B (not marked failed) and ends, as [ri],
    at the real point q (coordinates in B). *)
Record arrives (niter : nat) (s : surface XR) (A B : frame) (l : list (ray R)) (k : nat)
    (r : ray R) (ri : ray XR) (q : vR) : Prop := {
  ar_A : good_frame A; ar_B : good_frame B;
  ar_k : nth_error l k = Some r;
  ar_live : failed r = false;
  ar_i : nth_error (rays (rv_intersect niter s (Some (Fcs B)) None (Frv (RV l A)))) k = Some ri;
  ar_ok : failed ri = false;
  ar_q : pos ri = F3 q }.
(** The surface's unit normal at the point q is the real vector n. *)
Definition normal_at (s : surface XR) (q n : vR) : Prop :=
  normal s (Fin (cx q)) (Fin (cy q)) = F3 n.
(** The ray number k of the result. *)
Definition kth (k : nat) (rv : rayvec XR) (r : ray XR) : Prop := nth_error (rays rv) k = Some r.

(** Unit direction, refractive index felt by a ray of velocity v (speed 1/n). *)
Definition unitR (v : vR) : vR := timesR (/ lenR v) v.
Definition index_of (v : vR) : R := / lenR v.
(** Component perpendicular to a unit vector. *)
Definition tangR (v n : vR) : vR := minusR v (timesR (dotR v n) n).

(** Real coatings. *)
Definition Fcoat (c : coating R) : coating XR :=
  SimpleCoating (Fin (reflectivity c)) (Fin (transmissivity c)).
Definition reflected_flux (c : option (coating R)) (f : R) : R :=
  match c with None => f | Some c => f * reflectivity c end.
Definition transmitted_flux (c : option (coating R)) (f : R) : R :=
  match c with None => f | Some c => f * transmissivity c end.

(** ** Closed-form surfaces with real parameters *)
Inductive shape :=
| ShPlane
| ShTilted (tx ty : R)
| ShSphere (rad : R)
| ShParaboloid (rad : R)
| ShQuadric (rad conic : R).
Definition Fshape (sh : shape) : surface XR :=
  match sh with
  | ShPlane => Plane
  | ShTilted tx ty => Tilted (Fin tx) (Fin ty)
  | ShSphere rad => Sphere (Fin rad)
  | ShParaboloid rad => Paraboloid (Fin rad)
  | ShQuadric rad k => Quadric (Fin rad) (Fin k)
  end.
(** Non-zero radius of curvature; a quadric with conic = -1 is a paraboloid. *)
Definition good_shape (sh : shape) : Prop :=
  match sh with
  | ShPlane | ShTilted _ _ => True
  | ShSphere rad | ShParaboloid rad => rad <> 0
  | ShQuadric rad k => rad <> 0 /\ 1 + k <> 0
  end.
(** The complete algebraic surface: the whole sphere, both sheets of a hyperboloid,
    the whole ellipsoid. *)
Definition whole (sh : shape) (q : vR) : Prop :=
  let rho2 := cx q * cx q + cy q * cy q in
  match sh with
  | ShPlane => cz q = 0
  | ShTilted tx ty => cz q = cx q * tx + cy q * ty
  | ShSphere rad => rho2 + (cz q - rad) * (cz q - rad) = rad * rad
  | ShParaboloid rad => rho2 = 2 * rad * cz q
  | ShQuadric rad k => rho2 + (1 + k) * (cz q * cz q) = 2 * rad * cz q
  end.
(** On the part of the complete surface that contains the vertex: the half of the
    sphere or ellipsoid, the one sheet of the hyperboloid. *)
Definition vertex_part (sh : shape) (q : vR) : Prop :=
  match sh with
  | ShPlane | ShTilted _ _ | ShParaboloid _ => True
  | ShSphere rad => 0 <= rad * (rad - cz q)
  | ShQuadric rad k => 0 <= rad * (rad - (1 + k) * cz q)
  end.
(** The point is where the published sag says: surface.sag(x, y) = z. *)
Definition on_sag (s : surface XR) (q : vR) : Prop :=
  sag s (Fin (cx q)) (Fin (cy q)) = Fin (cz q).
(** The line p + t v lies inside a plane surface, or runs along an asymptote
    direction of a hyperboloid. *)
Definition degenerate (sh : shape) (p v : vR) : Prop :=
  match sh with
  | ShPlane => cz v = 0 /\ cz p = 0
  | ShTilted tx ty => cx v * tx + cy v * ty = cz v /\ cz p = cx p * tx + cy p * ty
  | ShSphere _ | ShParaboloid _ => False
  | ShQuadric rad k => (1 + k) * (cz v * cz v) + (cx v * cx v + cy v * cy v) = 0
  end.
