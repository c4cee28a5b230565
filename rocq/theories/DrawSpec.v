(** Vocabulary for the drawings of optics (C92). *)
From Coq Require Import Reals String List ZArith.
From Verif Require Import Num NumR Vec CoordSys Surface Obscuration Ray Spec Draw.
Import ListNotations.
Open Scope R_scope.

(** The radii of a round aperture: a circle or an annulus, or the complement of one. *)
Inductive round : obsc XR -> R -> R -> Prop :=
| round_circle r x y : round (ObscCircle (Fin r) x y) 0 r
| round_annulus i r x y : round (ObscAnnulus (Fin i) (Fin r) x y) i r
| round_clear_circle r x y : round (ObscNegation (ObscCircle (Fin r) x y)) 0 r
| round_clear_annulus i r x y : round (ObscNegation (ObscAnnulus (Fin i) (Fin r) x y)) i r.
(** The surface has a height over the annulus. *)
Definition has_heights (s : surface XR) (i r : R) : Prop :=
  forall x y, i * i <= x * x + y * y <= r * r -> exists z, sag s (Fin x) (Fin y) = Fin z.
(** p is the point of the surface of an optic at (x, y), in global coordinates. *)
Definition surface_point (A : frame) (s : surface XR) (x y : R) (p : vec3 XR) : Prop :=
  exists z, sag s (Fin x) (Fin y) = Fin z /\ p = F3 (global_point A (V3 x y z)).
Definition side_view (A : frame) (s : surface XR) (x : R) (q : XR * XR) : Prop :=
  exists p, surface_point A s x 0 p /\ q = (cx p, cz p).
(** A circle of 100 points and segments of 50, end points included. *)
Definition ring (r : R) : list (R * R) :=
  map (fun k => (r * cos (2 * PI * (INR k / 99)), r * sin (2 * PI * (INR k / 99)))) (seq 0 100).
Definition segment (a b : R * R) : list (R * R) :=
  map (fun k => (fst a + INR k / 49 * (fst b - fst a), snd a + INR k / 49 * (snd b - snd a))) (seq 0 50).
Definition wires (i r : R) : list (list (R * R)) :=
  [ring r; segment (0, - r) (0, - i); segment (0, i) (0, r); segment (- r, 0) (- i, 0); segment (i, 0) (r, 0)].
(** The k-th of n points from a to b. *)
Definition step_to (a b : R) (n k : nat) : R := a + INR k / INR (n - 1) * (b - a).
(** The views of n points from a to b. *)
Definition views (A : frame) (s : surface XR) (a b : R) (n : nat) (l : list (XR * XR)) : Prop :=
  List.length l = n /\ forall k, (k < n)%nat -> exists q, nth_error l k = Some q /\ side_view A s (step_to a b n k) q.
(** The number of points per half slice. *)
Definition slice_points (nslice : Z) (s : surface XR) : nat :=
  if (nslice <=? 0)%Z then match s with Plane => 2%nat | _ => 50%nat end else Z.to_nat nslice.
