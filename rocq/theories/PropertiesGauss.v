(** C100: close to the axis of a centred system, rays obey the laws of Gaussian optics. *)
From Coq Require Import Reals List ZArith Bool Lra Lia.
From Verif Require Import Num NumR Vec CoordSys Surface Medium Ray Bundle Optic Spec OpticsSpec TreeSpec StigSpec
  SurfSpec GaussSpec GaussLimits GaussProofs GaussSurfaces GaussLands SamplesGauss.
Import ListNotations.
Open Scope R_scope.

(** Rays that close in on the axis, traced through any number of mirrors and refracting surfaces (in either direction), close in
    on the axis again; divided by their distance they tend to what the paraxial recipe (transfer, then bending by curvature
    times change of index) makes of the Gaussian ray they started from. *)
Theorem C100_system : forall niter reverse a w els A r C r2 g, good_frame A -> centred reverse w (g_n g) els ->
  guided niter reverse a A r els C r2 -> pencil A r w g ->
  nearby (fun s => in_turn niter reverse (map e_iface els) (RV [Fray (r s)] (Fcs A)) = RV [Fray (r2 s)] (Fcs C)) /\
  pencil C r2 w (fold_left meet els g).
Proof. intros niter reverse a w els A r C r2 g H1 H2 H3 H4. split; [eapply guided_traced, H3|eapply system; eassumption]. Qed.
Print Assumptions C100_system.

(** Through planes, spheres, paraboloids and quadrics the rays close enough to the axis do get, with nothing assumed about where
    they go; only, the light must not start where the axis meets the surface. *)
Theorem C100_lands : forall niter reverse w els A r g, good_frame A -> centred reverse w (g_n g) els -> reachable (g_z g) els ->
  pencil A r w g -> nearby (fun s => failed (r s) = false) -> exists C r2,
  nearby (fun s => in_turn niter reverse (map e_iface els) (RV [Fray (r s)] (Fcs A)) = RV [Fray (r2 s)] (Fcs C) /\ failed (r2 s) = false) /\
  pencil C r2 w (fold_left meet els g).
Proof. exact paraxial. Qed.
Print Assumptions C100_lands.

(** The lines of such rays cross the plane at z1 at the heights of the Gaussian ray, to first order. *)
Theorem C100_crossing : forall A r w g z1, pencil A r w g ->
  let t s := (z1 - cz (global_point A (pos (r s)))) / cz (global_dir A (vel (r s))) in
  let Q s := plusR (global_point A (pos (r s))) (timesR (t s) (global_dir A (vel (r s)))) in
  nearby (fun s => cz (Q s) = z1) /\
  tends (fun s => cx (Q s) / s) (g_x g + g_px g * (z1 - g_z g) / g_n g) /\
  tends (fun s => cy (Q s) / s) (g_y g + g_py g * (z1 - g_z g) / g_n g).
Proof. exact crossing. Qed.
Print Assumptions C100_crossing.

(** The curvatures at the vertex: 1/R for sphere, paraboloid and conic whatever the conic constant; the first coefficient of an
    asphere counts twice. *)
Theorem C100_curvature : curved Plane 0 /\ forall rad, rad <> 0 ->
  curved (Sphere (Fin rad)) (/ rad) /\ curved (Paraboloid (Fin rad)) (/ rad) /\
  (forall k, curved (Quadric (Fin rad) (Fin k)) (/ rad)) /\
  (forall k cs, curved (Asphere (Fin rad) (Fin k) (map Fin cs)) (/ rad + 2 * nth 0 cs 0)).
Proof.
  split; [exact plane_curved|]. intros rad Hr. split; [apply sphere_curved, Hr|]. split; [apply paraboloid_curved, Hr|].
  split; intros; [apply quadric_curved, Hr|apply asphere_curved, Hr].
Qed.
Print Assumptions C100_curvature.

(** The curvatures of the parts of a sum add up. *)
Theorem C100_curvature_sum : forall l ks, Forall smooth l -> Forall2 (fun s k => curved (Fsurf s) k) l ks ->
  curved (Fsurf (Sum l)) (sumR ks).
Proof. exact sum_curved. Qed.
Print Assumptions C100_curvature_sum.
(** A polynomial surface (batoid.Zernike) without piston, tilt and astigmatism at the vertex has twice the coefficient of x^2 and y^2. *)
Theorem C100_curvature_polynomial : forall a gx gy n k, (3 <= n)%nat -> derivative_arrays n a gx gy ->
  entry n a 0 0 = 0 -> entry n a 0 1 = 0 -> entry n a 1 0 = 0 -> entry n a 1 1 = 0 -> entry n a 2 0 = k / 2 -> entry n a 0 2 = k / 2 ->
  curved (Fsurf (Poly a gx gy 0 0 n n)) k.
Proof. exact poly_curved. Qed.
Print Assumptions C100_curvature_polynomial.
Example C100_example_sum : let bump := Poly [0; 0; 3; 0; 0; 0; 3; 0; 0] [0; 0; 6; 0] [0; 6; 0; 0] 0 0 3 3 in
  derivative_arrays 3 [0; 0; 3; 0; 0; 0; 3; 0; 0] [0; 0; 6; 0] [0; 6; 0; 0] /\ Forall smooth [Sphere 10; bump] /\
  curved (Fsurf bump) 6 /\ curved (Sum [Sphere (Fin 10); Fsurf bump]) (/ 10 + (6 + 0)).
Proof.
  intros bump. assert (D : derivative_arrays 3 [0; 0; 3; 0; 0; 0; 3; 0; 0] [0; 0; 6; 0] [0; 6; 0; 0]).
  { repeat split; try reflexivity.
    - destruct i as [|[|i]], j as [|[|j]]; try (exfalso; lia); cbn; lra.
    - destruct i as [|[|i]], j as [|[|j]]; try (exfalso; lia); cbn; lra.
    - destruct i as [|[|[|i]]]; try (exfalso; lia); reflexivity.
    - destruct i as [|[|[|i]]]; try (exfalso; lia); reflexivity. }
  assert (C : curved (Fsurf bump) 6) by (apply C100_curvature_polynomial; [lia|exact D|..]; cbn; lra).
  assert (S : Forall smooth [Sphere 10; bump]) by (constructor; [exact I|constructor; [split; [reflexivity|split; [lia|exact D]]|constructor]]).
  split; [exact D|]. split; [exact S|]. split; [exact C|].
  apply (C100_curvature_sum [Sphere 10; bump] [/ 10; 6] S). constructor; [apply (proj2 C100_curvature); lra|constructor; [exact C|constructor]].
Qed.

(** Imaging by one surface: from a point at z0 on the axis to the point z1 with n2/(z1 - z) - n1/(z0 - z) = k (n2 - n1); the
    indices are negative for light going down, so this is the law of mirrors as well. *)
Theorem C100_conjugate : forall niter reverse a w e A r r1 z0 n1 p1 p2 z1, good_frame A ->
  element_ok reverse w n1 e -> guided niter reverse a A r [e] (at_z (e_z e)) r1 -> pencil A r w (Gauss z0 n1 0 0 p1 p2) ->
  e_n e <> 0 -> z1 <> e_z e -> z0 <> e_z e ->
  e_n e / (z1 - e_z e) - n1 / (z0 - e_z e) = e_k e * (e_n e - n1) ->
  let t s := (z1 - cz (global_point (at_z (e_z e)) (pos (r1 s)))) / cz (global_dir (at_z (e_z e)) (vel (r1 s))) in
  let Q s := plusR (global_point (at_z (e_z e)) (pos (r1 s))) (timesR (t s) (global_dir (at_z (e_z e)) (vel (r1 s)))) in
  tends (fun s => cx (Q s) / s) 0 /\ tends (fun s => cy (Q s) / s) 0.
Proof. exact conjugate. Qed.
Print Assumptions C100_conjugate.

(** Rays parallel to the axis: after a mirror or a refracting surface they cross the axis at the focal distance
    n2 / (k (n2 - n1)) from the vertex, which for a mirror is R/2. *)
Theorem C100_focus : forall niter reverse a w e A r r1 z0 n1 h1 h2 z1, good_frame A ->
  element_ok reverse w n1 e -> guided niter reverse a A r [e] (at_z (e_z e)) r1 -> pencil A r w (Gauss z0 n1 h1 h2 0 0) ->
  e_n e <> 0 -> e_k e * (e_n e - n1) * (z1 - e_z e) = e_n e ->
  let t s := (z1 - cz (global_point (at_z (e_z e)) (pos (r1 s)))) / cz (global_dir (at_z (e_z e)) (vel (r1 s))) in
  let Q s := plusR (global_point (at_z (e_z e)) (pos (r1 s))) (timesR (t s) (global_dir (at_z (e_z e)) (vel (r1 s)))) in
  tends (fun s => cx (Q s) / s) 0 /\ tends (fun s => cy (Q s) / s) 0.
Proof. exact focus. Qed.
Print Assumptions C100_focus.

(** Two surfaces at a distance d: the power of the pair (with no restriction to thin lenses). *)
Theorem C100_pair : forall g e1 e2, g_n g <> 0 -> e_n e1 <> 0 -> let p1 := e_k e1 * (e_n e1 - g_n g) in let p2 := e_k e2 * (e_n e2 - e_n e1) in
  g_px g = 0 -> g_py g = 0 -> let h := fold_left meet [e1; e2] g in let d := e_z e2 - e_z e1 in
  g_px h = - (p1 + p2 - p1 * p2 * d / e_n e1) * g_x g /\ g_py h = - (p1 + p2 - p1 * p2 * d / e_n e1) * g_y g.
Proof. exact pair. Qed.
Print Assumptions C100_pair.

(** Any two Gaussian rays keep their Lagrange invariant through every system. *)
Theorem C100_lagrange : forall els g h, g_n g <> 0 -> Forall (fun e => e_n e <> 0) els -> g_n g = g_n h -> g_z g = g_z h ->
  invariant (fold_left meet els g) (fold_left meet els h) = invariant g h.
Proof. exact lagrange. Qed.
Print Assumptions C100_lagrange.

(** Starlight on a paraboloid of radius 20 with a detector 10 above it. *)
Example C100_example : good_frame (at_z 0) /\ centred false (1/2) (g_n ga_start) ga_els /\
  (forall niter, guided niter false 1 (at_z 0) ga_ray ga_els (at_z 10) ga_ray2) /\ pencil (at_z 0) ga_ray (1/2) ga_start /\
  fold_left meet ga_els ga_start = Gauss 10 1 0 0 (- / 10) 0.
Proof. split; [apply at_good|]. split; [exact ga_centred|]. split; [exact ga_guided|]. split; [exact ga_pencil|exact ga_image]. Qed.
Example C100_example_focus : let e := Element ga_mirror 0 (/ 20) 1 in element_ok false (1/2) (-1) e /\
  (forall niter, guided niter false 1 (at_z 0) ga_ray [e] (at_z 0) ga_ray1) /\ pencil (at_z 0) ga_ray (1/2) (Gauss 15 (-1) 1 0 0 0) /\
  e_k e * (e_n e - -1) * (10 - e_z e) = e_n e.
Proof.
  cbv zeta. split; [exact (proj1 ga_centred)|]. split; [|split; [exact ga_pencil|cbn; field]].
  intros niter. apply (@guided_cons niter false 1 (at_z 0) ga_ray (Element ga_mirror 0 (/ 20) 1) [] ga_ray1 (at_z 0) ga_ray1); [|apply guided_nil].
  exact (ga_step niter).
Qed.
Example C100_example_lagrange : g_n ga_start <> 0 /\ Forall (fun e => e_n e <> 0) ga_els /\
  invariant ga_start (Gauss 15 (-1) 0 0 1 0) = 1.
Proof. split; [cbn; lra|]. split; [repeat constructor; cbn; lra|unfold invariant; cbn; ring]. Qed.
(** A lens with spherical faces. *)
Example C100_example_lens : centred false (1/2) (g_n ga_begin) ga_lens /\ reachable (g_z ga_begin) ga_lens /\ pencil (at_z 0) ga_light (1/2) ga_begin /\ nearby (fun s => failed (ga_light s) = false) /\
  (let g := fold_left meet ga_lens ga_begin in g_x g = 149/150 /\ g_px g = - (299/15000)).
Proof.
  split; [exact ga_lens_centred|]. split; [exact ga_lens_reachable|]. split; [exact ga_light_pencil|]. split; [apply nearby_all; reflexivity|exact ga_lens_image].
Qed.
