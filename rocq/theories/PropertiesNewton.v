(** C96: iterative intersections converge. *)
From Coq Require Import Reals List ZArith Bool Lra Lia.
From Verif Require Import Num NumR Vec CoordSys Surface Medium Ray Bundle Spec OpticsSpec SurfSpec NewtonSpec NewtonProofs SamplesSurf SamplesNewton.
Import ListNotations.
Open Scope R_scope.

(** Within a distance (in time) of an intersection over which the gap between ray and surface opens at a speed of at least m and
    changes its speed by at most M, every iteration squares the error (times M/m), and the result says whether the
    remaining gap is below 1e-12. *)
Theorem C96_converges : forall s p v c r g g' m M, smooth s -> gap_along s p v c r g g' -> gap_bounds c r g' m M ->
  g c = 0 -> M * r <= m -> forall niter t0, starts s niter p v t0 -> Rabs (t0 - c) < r ->
  exists t, hit (Fsurf s) niter (F3 p) (F3 v) = (small (g t), Fin t) /\
    Rabs (t - c) <= Rabs (t0 - c) * (M / m * Rabs (t0 - c)) ^ (2 ^ niter - 1).
Proof. exact converges. Qed.
Print Assumptions C96_converges.

(** So rv.intersect finds the ray on the surface, at that distance from the true intersection. *)
Theorem C96_intersect : forall s A B l k ray c r g g' m M bound niter t0,
  good_frame A -> good_frame B -> nth_error l k = Some ray -> failed ray = false ->
  let p := pos_in A B ray in let v := vel_in A B ray in
  smooth s -> gap_along s p v c r g g' -> gap_bounds c r g' m M -> g c = 0 -> M * r <= m ->
  starts s niter p v t0 -> Rabs (t0 - c) < r -> (forall t, Rabs (t - c) < r -> Rabs (g' t) <= bound) ->
  bound * (Rabs (t0 - c) * (M / m * Rabs (t0 - c)) ^ (2 ^ niter - 1)) < 1 / 1000000000000 ->
  exists t, Rabs (t - c) <= Rabs (t0 - c) * (M / m * Rabs (t0 - c)) ^ (2 ^ niter - 1) /\
    kth k (rv_intersect niter (Fsurf s) (Some (Fcs B)) None (Frv (RV l A)))
      (Fray (Ray (on_line p v t) v (time ray + t) (wavelength ray) (flux ray) (vignetted ray) false)).
Proof. exact intersect_found. Qed.
Print Assumptions C96_intersect.

(** With enough iterations the ray is found, as closely as one likes. *)
Theorem C96_eventually : forall s p v c r g g' m M, smooth s -> gap_along s p v c r g g' -> gap_bounds c r g' m M ->
  g c = 0 -> M * r <= m -> forall t0 bound, (forall niter, starts s niter p v t0) -> Rabs (t0 - c) < r ->
  (forall t, Rabs (t - c) < r -> Rabs (g' t) <= bound) ->
  forall eps, 0 < eps -> exists N, forall niter, (N <= niter)%nat ->
    exists t, hit (Fsurf s) niter (F3 p) (F3 v) = (true, Fin t) /\ Rabs (t - c) < eps.
Proof. exact eventually_found. Qed.
Print Assumptions C96_eventually.

(** There is no other intersection at that distance. *)
Theorem C96_unique : forall s p v c r g g' m M, gap_along s p v c r g g' -> gap_bounds c r g' m M -> g c = 0 ->
  forall u, Rabs (u - c) < r -> g u = 0 -> u = c.
Proof. exact only_root. Qed.
Print Assumptions C96_unique.

Example C96_example : smooth nw_saddle /\ gap_along nw_saddle nw_p nw_v (1/10) (1/5) nw_gap (fun t => 2 * (1 + t) + 4) /\
  gap_bounds (1/10) (1/5) (fun t => 2 * (1 + t) + 4) (29/5) 2 /\ nw_gap (1/10) = 0 /\ 2 * (1/5) <= 29/5 /\
  starts nw_saddle 5 nw_p nw_v 0 /\ Rabs (0 - 1/10) < 1/5 /\
  (forall t, Rabs (t - 1/10) < 1/5 -> Rabs (2 * (1 + t) + 4) <= 7) /\
  7 * (Rabs (0 - 1/10) * (2 / (29/5) * Rabs (0 - 1/10)) ^ (2 ^ 5 - 1)) < 1 / 1000000000000.
Proof.
  split; [exact nw_smooth|]. split; [exact nw_along|]. split; [exact nw_bounds|]. split; [exact nw_root|]. split; [lra|].
  split; [reflexivity|]. split; [rewrite nw_start; lra|]. split; [exact nw_speed|exact nw_enough].
Qed.

(** A ray parallel to the axis of the surface is found exactly, in one iteration. *)
Theorem C96_parallel : forall s p v niter t0 h, smooth s -> cx v = 0 -> cy v = 0 -> cz v <> 0 -> regular s (cx p) (cy p) ->
  sag (Fsurf s) (Fin (cx p)) (Fin (cy p)) = Fin h -> starts s niter p v t0 -> (1 <= niter)%nat ->
  hit (Fsurf s) niter (F3 p) (F3 v) = (true, Fin ((h - cz p) / cz v)).
Proof. exact parallel_found. Qed.
Print Assumptions C96_parallel.

Example C96_example_parallel : smooth nw_asphere /\ regular nw_asphere 3 0 /\ starts nw_asphere 1 nw_q nw_w 4 /\
  sag (Fsurf nw_asphere) (Fin 3) (Fin 0) = Fin (1 + 9/8).
Proof. split; [apply nw_asphere_ok|]. split; [apply nw_asphere_ok|]. split; [exact (nw_asphere_start 1)|exact nw_asphere_height]. Qed.
