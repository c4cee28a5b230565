(** Specification vocabulary for the invariants of bundles of rays. *)
From Coq Require Import Reals List Bool.
From Verif Require Import Num NumR Vec CoordSys Surface Medium Ray Bundle Optic Spec OpticsSpec TreeSpec MalusSpec.
Import ListNotations.
Open Scope R_scope.

(** Direction of travel times refractive index, in space. *)
Definition momentum (A : frame) (r : ray R) : vR := slowness (ray_global_vel A r).
(** W is the optical length measured along the positions of the rays: it grows at the rate of the component
    of the momentum along the displacement. *)
Definition measures (A : frame) (rs : R -> ray R) (W : R -> R) (s : R) : Prop :=
  exists dp, changes (fun t => ray_global_pos A (from s rs t)) dp /\ derivable_pt_lim W s (dotR (momentum A (rs s)) dp).
(** Rays that depend on two parameters: their second rates of change exist at (0, 0) and do not depend on the order. *)
Definition twice_smooth (A : frame) (rs : R -> R -> ray R) : Prop :=
  exists qu qv tu tv quv tuv,
    near (fun v => changes (fun u => ray_global_pos A (rs u v)) (qu v) /\ derivable_pt_lim (fun u => time (rs u v)) 0 (tu v)) /\
    near (fun u => changes (fun v => ray_global_pos A (rs u v)) (qv u) /\ derivable_pt_lim (fun v => time (rs u v)) 0 (tv u)) /\
    changes qu quv /\ changes qv quv /\ derivable_pt_lim tu 0 tuv /\ derivable_pt_lim tv 0 tuv.
(** The Lagrange invariant: the area the two parameters span in the space of positions and momenta. *)
Definition etendue (A : frame) (rs : R -> R -> ray R) (e : R) : Prop :=
  exists pu pv qu qv,
    changes (fun u => momentum A (rs u 0)) pu /\ changes (fun v => momentum A (rs 0 v)) pv /\
    changes (fun u => ray_global_pos A (rs u 0)) qu /\ changes (fun v => ray_global_pos A (rs 0 v)) qv /\
    e = dotR pu qv - dotR pv qu.
(** The optic carries the family rs in the frame A to the family rs1 in the frame B. *)
Definition carries (niter : nat) (b : bool) (o : optic XR) (A : frame) (rs : R -> ray R) (B : frame) (rs1 : R -> ray R) : Prop :=
  smooth_rays rs /\ one_light rs /\ sweeps niter b (visit b o) A rs B rs1.
