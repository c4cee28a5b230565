(** Specification vocabulary for wavefronts: families of rays that depend on a parameter. *)
From Coq Require Import Reals List Bool.
From Verif Require Import Num NumR Vec CoordSys Surface Medium Obscuration Ray Bundle Optic Spec OpticsSpec SurfSpec TreeSpec.
Import ListNotations.
Open Scope R_scope.

(** True of all parameters near 0. *)
Definition near (P : R -> Prop) : Prop := exists d, 0 < d /\ forall t, Rabs t < d -> P t.
(** A moving vector has rate of change d at parameter 0. *)
Definition changes (f : R -> vR) (d : vR) : Prop :=
  derivable_pt_lim (fun t => cx (f t)) 0 (cx d) /\ derivable_pt_lim (fun t => cy (f t)) 0 (cy d) /\
  derivable_pt_lim (fun t => cz (f t)) 0 (cz d).
(** A family of rays, one for each value of a parameter, that has rates of change at 0. *)
Definition smooth_rays (rs : R -> ray R) : Prop :=
  (exists dp, changes (fun t => pos (rs t)) dp) /\ (exists dv, changes (fun t => vel (rs t)) dv) /\
  exists dt, derivable_pt_lim (fun t => time (rs t)) 0 dt.
(** Light of one wavelength in one medium. *)
Definition one_light (rs : R -> ray R) : Prop :=
  vel (rs 0) <> zeroR /\
  near (fun t => wavelength (rs t) = wavelength (rs 0) /\ dotR (vel (rs t)) (vel (rs t)) = dotR (vel (rs 0)) (vel (rs 0))).
(** Direction of travel times refractive index: the time it takes per unit of length. *)
Definition slowness (v : vR) : vR := timesR (/ dotR v v) v.
(** The rate at which the times of the rays change, less the rate at which a wave travelling along the ray
    at 0 would reach the positions of its neighbours. *)
Definition lag (A : frame) (rs : R -> ray R) (m : R) : Prop :=
  exists dp dt, changes (fun t => ray_global_pos A (rs t)) dp /\ derivable_pt_lim (fun t => time (rs t)) 0 dt /\
    dt - dotR (slowness (ray_global_vel A (rs 0))) dp = m.
(** The rays are perpendicular to their wavefront: positions of equal time lie across the ray. *)
Definition wavefront_at (A : frame) (rs : R -> ray R) : Prop := lag A rs 0.

(** An OPD screen has a real slope where the rays meet it, and the rays come from the side the
    normal points to, through vacuum. *)
Definition faces_screen (i : iface XR) (A B : frame) (rs rs1 : R -> ray R) : Prop :=
  forall screen, i_kind i = KScreen screen -> exists sc, screen = Fsurf sc /\ smooth sc /\
    near (fun t => exists n gx gy, normal_at (i_surf i) (pos (rs1 t)) n /\ dotR (vel_in A B (rs t)) n < 0 /\
      dotR (vel (rs t)) (vel (rs t)) = 1 /\
      grad screen (Fin (cx (pos (rs1 t)))) (Fin (cy (pos (rs1 t)))) = (Fin gx, Fin gy)).
(** The family goes through the interfaces one after the other.  At each the rays arrive exactly on the
    surface, do not fail, and still have rates of change. *)
Inductive sweeps (niter : nat) (reverse : bool) : list (iface XR) -> frame -> (R -> ray R) -> frame -> (R -> ray R) -> Prop :=
| sweeps_end A rs : sweeps niter reverse [] A rs A rs
| sweeps_on i is A rs B rs1 C rs2 s :
    i_surf i = Fsurf s -> smooth s -> i_cs i = Fcs B -> good_frame B ->
    near (fun t => iface_trace niter i reverse (Frv (RV [rs t] A)) = Frv (RV [rs1 t] B) /\ failed (rs1 t) = false /\
                   on_sag (i_surf i) (pos (rs1 t))) ->
    vel (rs1 0) <> zeroR -> smooth_rays rs1 -> faces_screen i A B rs rs1 ->
    sweeps niter reverse is B rs1 C rs2 -> sweeps niter reverse (i :: is) A rs C rs2.

(** The same family with the parameter counted from s. *)
Definition from (s : R) (rs : R -> ray R) : R -> ray R := fun t => rs (s + t).
(** Where a ray is after the time tau of free flight. *)
Definition later (A : frame) (r : ray R) (tau : R) : vR := plusR (ray_global_pos A r) (timesR tau (ray_global_vel A r)).
(** All rays with the same velocity and phase: a plane wave.  All rays leaving one point at one time. *)
Definition plane_wave (rs : R -> ray R) : Prop :=
  near (fun t => vel (rs t) = vel (rs 0) /\
    time (rs t) - dotR (slowness (vel (rs 0))) (pos (rs t)) = time (rs 0) - dotR (slowness (vel (rs 0))) (pos (rs 0))).
Definition point_source (rs : R -> ray R) : Prop := near (fun t => pos (rs t) = pos (rs 0) /\ time (rs t) = time (rs 0)).
(** The rays have been stopped on a sphere about c. *)
Definition on_sphere (A : frame) (rs : R -> ray R) (c : vR) : Prop :=
  near (fun t => distR (ray_global_pos A (rs t)) c = distR (ray_global_pos A (rs 0)) c).
