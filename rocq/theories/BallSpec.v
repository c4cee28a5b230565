(** Specification vocabulary for concentric spheres. *)
From Coq Require Import Reals List.
From Verif Require Import Num NumR Vec CoordSys Surface Medium Ray Bundle Optic Spec OpticsSpec StigSpec FlatSpec.
Import ListNotations.
Open Scope R_scope.

(** A spherical surface with its centre at Q: mirror, boundary of a medium, or without effect on the light. *)
Definition shell (reverse : bool) (w : R) (Q : vR) (s : sheet) : Prop :=
  (exists rad, rad <> 0 /\ i_surf (s_iface s) = Sphere (Fin rad) /\ axis_point (s_frame s) rad = Q) /\
  i_cs (s_iface s) = Fcs (s_frame s) /\ good_frame (s_frame s) /\
  match i_kind (s_iface s) with
  | KRefractive => exists n, getN (if reverse then i_in (s_iface s) else i_out (s_iface s)) (Fin w) = Fin n /\ 0 < n
  | KScreen _ => False
  | _ => True
  end.
(** The moment about Q of the slowness of the wave. *)
Definition moment (Q : vR) (A : frame) (r : ray R) : vR := crossR (minusR (global_point A (pos r)) Q) (slowness A r).
(** The point of the path of a ray closest to Q. *)
Definition closest (Q : vR) (A : frame) (r : ray R) (g : vR) : Prop :=
  (exists t, passes A r t g) /\ dotR (minusR g Q) (global_dir A (vel r)) = 0.
