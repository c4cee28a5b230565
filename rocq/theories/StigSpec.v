(** Specification vocabulary for perfect imaging by conics. *)
From Coq Require Import Reals List.
From Verif Require Import Num NumR Vec CoordSys Surface Medium Ray Bundle Optic Spec OpticsSpec.
Import ListNotations.
Open Scope R_scope.

(** The straight line of the ray (given in frame A) is at the global point g at time t. *)
Definition passes (A : frame) (r : ray R) (t : R) (g : vR) : Prop :=
  plusR (global_point A (pos r)) (timesR (t - time r) (global_dir A (vel r))) = g.
(** The point at height z on the axis of frame B, and the foci of the conic of curvature radius
    [rad] and eccentricity [e] (conic constant -e^2) whose vertex is the origin of B. *)
Definition axis_point (B : frame) (z : R) : vR := global_point B (V3 0 0 z).
Definition near_focus (B : frame) (rad e : R) : vR := axis_point B (rad / (1 + e)).
Definition far_focus (B : frame) (rad e : R) : vR := axis_point B (rad / (1 - e)).
(** A mirror in the shape of the conic of curvature radius [rad] and eccentricity [e] (neither
    plane nor paraboloid) with its vertex at the origin of B. *)
Definition conic_mirror (i : iface XR) (B : frame) (rad e : R) : Prop :=
  i_kind i = KMirror /\ i_surf i = Quadric (Fin rad) (Fin (- (e * e))) /\ i_cs i = Fcs B /\
  good_frame B /\ rad <> 0 /\ 0 <= e /\ e <> 1.
(** A refracting surface of that shape, with index n2 beyond it for light of wavelength w. *)
Definition conic_lens (i : iface XR) (reverse : bool) (B : frame) (rad e w n2 : R) : Prop :=
  i_kind i = KRefractive /\ i_surf i = Quadric (Fin rad) (Fin (- (e * e))) /\ i_cs i = Fcs B /\
  good_frame B /\ rad <> 0 /\ 0 <= e /\ e <> 1 /\
  getN (if reverse then i_in i else i_out i) (Fin w) = Fin n2 /\ 0 < n2.
(** The interface sends the ray r (in frame A) to the ray r1 (in frame B), on its surface. *)
Definition lands (niter : nat) (i : iface XR) (reverse : bool) (A : frame) (r : ray R) (B : frame) (r1 : ray R) : Prop :=
  iface_trace niter i reverse (RV [Fray r] (Fcs A)) = RV [Fray r1] (Fcs B) /\
  failed r1 = false /\ on_sag (i_surf i) (pos r1).
(** A mirror of a chain: shape, place, and whether it is used from the far focus to the near one. *)
Record leg := Leg { l_iface : iface XR; l_frame : frame; l_rad : R; l_ecc : R; l_flip : bool }.
Definition leg_ok (l : leg) : Prop := conic_mirror (l_iface l) (l_frame l) (l_rad l) (l_ecc l).
Definition focus_in (l : leg) : vR := (if l_flip l then far_focus else near_focus) (l_frame l) (l_rad l) (l_ecc l).
Definition focus_out (l : leg) : vR := (if l_flip l then near_focus else far_focus) (l_frame l) (l_rad l) (l_ecc l).
(** Each mirror takes over at the point to which the one before it sends the light. *)
Fixpoint confocal (g0 : vR) (ls : list leg) (g1 : vR) : Prop :=
  match ls with
  | [] => g0 = g1
  | l :: ls => focus_in l = g0 /\ confocal (focus_out l) ls g1
  end.
(** The ray goes from one interface to the next, landing on each of them. *)
Inductive through (niter : nat) (reverse : bool) : frame -> ray R -> list (iface XR) -> frame -> ray R -> Prop :=
| through_nil A r : through niter reverse A r [] A r
| through_cons A r i is B r1 C r2 : lands niter i reverse A r B r1 -> through niter reverse B r1 is C r2 ->
    through niter reverse A r (i :: is) C r2.
(** Length of the major axis (the distance light covers from one focus to the other), and the
    possible sums of signed lengths over a chain. *)
Definition major_axis (l : leg) : R := 2 * l_rad l / (1 - l_ecc l * l_ecc l).
Inductive signed_sum : list leg -> R -> Prop :=
| sum_nil : signed_sum [] 0
| sum_plus l ls x : signed_sum ls x -> signed_sum (l :: ls) (major_axis l + x)
| sum_minus l ls x : signed_sum ls x -> signed_sum (l :: ls) (- major_axis l + x).
(** A paraboloidal mirror of curvature radius [rad], its vertex at the origin of B. *)
Definition paraboloid_mirror (i : iface XR) (B : frame) (rad : R) : Prop :=
  i_kind i = KMirror /\ i_surf i = Paraboloid (Fin rad) /\ i_cs i = Fcs B /\ good_frame B /\ rad <> 0.
