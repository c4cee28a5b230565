(** Specification vocabulary for sending light back through an optic. *)
From Coq Require Import Reals String List Bool.
From Verif Require Import Num NumR Vec CoordSys Surface Medium Obscuration Ray Bundle Optic Spec OpticsSpec TreeSpec.
Import ListNotations.
Open Scope R_scope.

Definition opposite (v : vR) : vR := timesR (-1) v.
(** Surfaces that find a ray which already lies on them (a Quadric does not, see
    C12_quadric_from_surface_refuted). *)
Definition simple (sh : shape) : Prop :=
  match sh with ShPlane | ShSphere _ | ShParaboloid _ => True | _ => False end.
(** An interface with a real frame and a simple surface; anything but an OPD screen. *)
Record real_iface (i : iface XR) (sh : shape) (B : frame) : Prop := {
  ri_surf : i_surf i = Fshape sh; ri_simple : simple sh; ri_good : good_shape sh;
  ri_cs : i_cs i = Fcs B; ri_frame : good_frame B;
  ri_kind : forall s, i_kind i <> KScreen s }.
(** A ray at q leaving with velocity v meets the sag surface nowhere else. *)
Definition only_here (sh : shape) (q v : vR) : Prop :=
  forall t, on_sag (Fshape sh) (on_line q v t) -> t = 0.

(** The journey of one ray through a list of interfaces, with the state (frame and
    ray) after each.  At every interface the ray arrives with non-zero velocity, does
    not fail, leaves from a point of the sag surface where the normal is real, not along
    the surface, and neither meets that surface again nor stops at the next interface
    on an invisible continuation of it.  A refractive interface has positive indices
    and its inMedium is the medium the ray travels in. *)
Inductive journey (niter : nat) : list (iface XR) -> frame -> ray R -> list (frame * ray R) -> Prop :=
| journey_end A r : journey niter [] A r []
| journey_on i is A r B r1 sts sh n :
    good_frame A -> real_iface i sh B ->
    iface_trace niter i false (Frv (RV [r] A)) = Frv (RV [r1] B) -> failed r1 = false ->
    vel_in A B r <> zeroR ->
    (i_kind i = KRefractive ->
       getN (i_in i) (Fin (wavelength r)) = Fin (index_of (vel_in A B r)) /\
       exists n2, 0 < n2 /\ getN (i_out i) (Fin (wavelength r)) = Fin n2) ->
    on_sag (Fshape sh) (pos r1) -> normal_at (Fshape sh) (pos r1) n -> dotR (vel r1) n <> 0 ->
    only_here sh (pos r1) (vel r1) ->
    (let '(C, r2) := hd (B, r1) sts in whole sh (pos_in C B r2) -> pos_in C B r2 = pos r1) ->
    journey niter is B r1 sts ->
    journey niter (i :: is) A r ((B, r1) :: sts).

(** r2 in frame C runs along the line of r in frame A, the other way. *)
Definition runs_back (A : frame) (r : ray R) (C : frame) (r2 : ray R) : Prop :=
  failed r2 = false /\ wavelength r2 = wavelength r /\
  ray_global_vel C r2 = opposite (ray_global_vel A r) /\
  exists t, ray_global_pos C r2 = on_line (ray_global_pos A r) (ray_global_vel A r) t.
(** The same ray turned round on the spot. *)
Definition turned (r r' : ray R) : Prop :=
  pos r' = pos r /\ vel r' = opposite (vel r) /\ failed r' = false /\ wavelength r' = wavelength r.
