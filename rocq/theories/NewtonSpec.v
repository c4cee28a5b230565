(** Specification vocabulary for the convergence of iterative intersections. *)
From Coq Require Import Reals List Bool.
From Verif Require Import Num NumR Vec CoordSys Surface Ray Spec SurfSpec.
Import ListNotations.
Open Scope R_scope.

(** The surface is g t higher than the ray at time t, for all times within r of c; g' is the derivative. *)
Definition gap_along (s : surface R) (p v : vR) (c r : R) (g g' : R -> R) : Prop :=
  forall t, Rabs (t - c) < r ->
    regular s (cx p + cx v * t) (cy p + cy v * t) /\
    sag (Fsurf s) (Fin (cx p + cx v * t)) (Fin (cy p + cy v * t)) = Fin (cz p + cz v * t + g t) /\
    derivable_pt_lim g t (g' t).
(** The gap opens at a speed of at least m, which changes by at most M per unit of time. *)
Definition gap_bounds (c r : R) (g' : R -> R) (m M : R) : Prop :=
  0 < m /\ (forall t, Rabs (t - c) < r -> m <= Rabs (g' t)) /\
  (forall t u, Rabs (t - c) < r -> Rabs (u - c) < r -> Rabs (g' t - g' u) <= M * Rabs (t - u)).
(** Where the iteration starts: at the conic of an asphere, at the first surface of a sum, at the ray itself otherwise. *)
Definition starts (s : surface R) (niter : nat) (p v : vR) (t0 : R) : Prop :=
  match s with
  | Asphere rad k _ => hit (Quadric (Fin rad) (Fin k)) niter (F3 p) (F3 v) = (true, Fin t0)
  | Poly _ _ _ _ _ _ _ | Bicubic _ => t0 = 0
  | Sum (s0 :: _) => hit (Fsurf s0) niter (F3 p) (F3 v) = (true, Fin t0)
  | _ => False
  end.
(** The test at the end of the iteration. *)
Definition small (x : R) : bool := if Rlt_dec (Rabs x) (1 / 1000000000000) then true else false.
