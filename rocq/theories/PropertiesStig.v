(** C75-C77: conics form perfect images, and perfect images can be relayed. *)
From Coq Require Import Reals List.
From Verif Require Import Num NumR Vec CoordSys Surface Medium Ray Bundle Optic Spec OpticsSpec TreeSpec StigSpec StigProofs SamplesStig.
Import ListNotations.
Open Scope R_scope.

(** ** C75 Conic mirrors *)
Theorem C75_near_to_far : forall niter i reverse A B r r1 rad e t,
  conic_mirror i B rad e -> good_frame A -> lands niter i reverse A r B r1 -> passes A r t (near_focus B rad e) ->
  (t < time r1 /\ passes B r1 (t + index_of (vel r) * (2 * Rabs rad / (1 - e * e))) (far_focus B rad e)) \/
  (time r1 < t /\ passes B r1 (t - index_of (vel r) * (2 * Rabs rad / (1 - e * e))) (far_focus B rad e)).
Proof. exact conic_near. Qed.
Print Assumptions C75_near_to_far.
Theorem C75_far_to_near : forall niter i reverse A B r r1 rad e t,
  conic_mirror i B rad e -> good_frame A -> lands niter i reverse A r B r1 -> passes A r t (far_focus B rad e) ->
  (t < time r1 /\ passes B r1 (t + index_of (vel r) * Rabs (2 * rad / (1 - e * e))) (near_focus B rad e)) \/
  (time r1 < t /\ passes B r1 (t - index_of (vel r) * Rabs (2 * rad / (1 - e * e))) (near_focus B rad e)).
Proof. exact conic_far. Qed.
Print Assumptions C75_far_to_near.
Theorem C75_collimates : forall niter i reverse A B r r1 rad t,
  paraboloid_mirror i B rad -> good_frame A -> lands niter i reverse A r B r1 -> passes A r t (axis_point B (rad / 2)) ->
  exists w, vel r1 = V3 0 0 w /\ w <> 0 /\ index_of (vel r1) = index_of (vel r) /\
  ((t < time r1 /\ 0 < rad * w /\ time r1 - cz (pos r1) / w = t + index_of (vel r) * (Rabs rad / 2)) \/
   (time r1 < t /\ rad * w < 0 /\ time r1 - cz (pos r1) / w = t - index_of (vel r) * (Rabs rad / 2))).
Proof. exact para_collimating. Qed.
Print Assumptions C75_collimates.
Example C75_example : conic_mirror st_mirror global_frame 3 (1/2) /\ good_frame global_frame /\
  forall niter, exists r1, lands niter st_mirror false global_frame st_ray global_frame r1 /\
    passes global_frame st_ray 7 (near_focus global_frame 3 (1/2)) /\
    7 < time r1 /\ passes global_frame r1 15 (far_focus global_frame 3 (1/2)).
Proof. split; [exact st_mirror_ok|]. split; [exact global_good|exact st_lands]. Qed.

(** ** C76 Conic lenses *)
Theorem C76_focuses : forall niter i reverse A B r r1 rad e n2 z0 w,
  conic_lens i reverse B rad e (wavelength r) n2 -> good_frame A -> lands niter i reverse A r B r1 ->
  vel_in A B r = V3 0 0 w -> cz (pos_in A B r) = z0 -> index_of (vel r) = e * n2 ->
  passes B r1 (time r - z0 / w + w / Rabs w * (n2 * (rad / (1 - e)))) (far_focus B rad e).
Proof. exact conic_focusing. Qed.
Print Assumptions C76_focuses.
Theorem C76_collimates : forall niter i reverse A B r r1 rad e n2 t,
  conic_lens i reverse B rad e (wavelength r) n2 -> good_frame A -> lands niter i reverse A r B r1 ->
  passes A r t (far_focus B rad e) -> n2 = e * index_of (vel r) ->
  let s := Rabs (rad / (1 - e)) / (rad / (1 - e)) in
  (t < time r1 /\ vel r1 = V3 0 0 (- s / n2) /\
   time r1 - cz (pos r1) / cz (vel r1) = t + index_of (vel r) * Rabs (rad / (1 - e))) \/
  (time r1 < t /\ vel r1 = V3 0 0 (s / n2) /\
   time r1 - cz (pos r1) / cz (vel r1) = t - index_of (vel r) * Rabs (rad / (1 - e))).
Proof. exact conic_collimating. Qed.
Print Assumptions C76_collimates.
Example C76_example : conic_lens st_lens false global_frame 1 (2/3) (1/2) (3/2) /\ conic_lens st_lens true global_frame 1 (2/3) (1/2) 1 /\
  (forall niter, exists r1, lands niter st_lens false global_frame st_parallel global_frame r1 /\
     vel_in global_frame global_frame st_parallel = V3 0 0 1 /\ index_of (vel st_parallel) = 2/3 * (3/2) /\
     passes global_frame r1 (19/2) (far_focus global_frame 1 (2/3))) /\
  (forall niter, exists r1, lands niter st_lens true global_frame st_source global_frame r1 /\
     passes global_frame st_source 4 (far_focus global_frame 1 (2/3)) /\ 1 = 2/3 * index_of (vel st_source) /\
     4 < time r1 /\ vel r1 = V3 0 0 (-1)).
Proof. split; [apply st_lens_ok|]. split; [apply st_lens_ok|]. split; [exact st_focusing|exact st_collimating]. Qed.

(** ** C77 Chains of confocal mirrors *)
Theorem C77_relay : forall niter reverse ls, (forall l, In l ls -> leg_ok l) -> forall A r C r2 t g0 g1,
  good_frame A -> confocal g0 ls g1 -> through niter reverse A r (map l_iface ls) C r2 -> passes A r t g0 ->
  exists x, signed_sum ls x /\ passes C r2 (t + index_of (vel r) * x) g1 /\ index_of (vel r2) = index_of (vel r).
Proof. exact chain_pass. Qed.
Print Assumptions C77_relay.
Theorem C77_telescope : forall niter reverse i P rad ls A r C r2 g1 z0 w,
  paraboloid_mirror i P rad -> (forall l, In l ls -> leg_ok l) -> good_frame A ->
  confocal (axis_point P (rad / 2)) ls g1 -> through niter reverse A r (i :: map l_iface ls) C r2 ->
  vel_in A P r = V3 0 0 w -> w <> 0 -> cz (pos_in A P r) = z0 ->
  exists x, signed_sum ls x /\ passes C r2 (time r - (z0 + rad / 2) / w + index_of (vel r) * x) g1.
Proof. exact telescope_focus. Qed.
Print Assumptions C77_telescope.
Theorem C77_two_mirrors : forall niter reverse i P rad j S rad2 e A r B r1 C r2 z0 w,
  paraboloid_mirror i P rad -> conic_mirror j S rad2 e -> good_frame A ->
  near_focus S rad2 e = axis_point P (rad / 2) -> lands niter i reverse A r B r1 -> lands niter j reverse B r1 C r2 ->
  vel_in A P r = V3 0 0 w -> w <> 0 -> cz (pos_in A P r) = z0 ->
  let t := time r - (z0 + rad / 2) / w in
  C = S /\ ((t < time r2 /\ passes C r2 (t + index_of (vel r) * (2 * Rabs rad2 / (1 - e * e))) (far_focus S rad2 e)) \/
            (time r2 < t /\ passes C r2 (t - index_of (vel r) * (2 * Rabs rad2 / (1 - e * e))) (far_focus S rad2 e))).
Proof. exact two_mirrors. Qed.
Print Assumptions C77_two_mirrors.
(** What [through] means: that is how an optic traces the rays. *)
Theorem C77_through : forall niter reverse A r is C r2,
  through niter reverse A r is C r2 -> in_turn niter reverse is (RV [Fray r] (Fcs A)) = RV [Fray r2] (Fcs C).
Proof. exact through_in_turn. Qed.
Print Assumptions C77_through.
Example C77_example : paraboloid_mirror st_primary global_frame 20 /\ leg_ok st_leg /\
  confocal (axis_point global_frame (20 / 2)) [st_leg] (far_focus st_top 6 2) /\
  forall niter, exists r1 r2, lands niter st_primary false global_frame st_starlight global_frame r1 /\
    lands niter st_secondary false global_frame r1 st_top r2 /\
    vel_in global_frame global_frame st_starlight = V3 0 0 (-1) /\
    time r2 < 15 /\ passes st_top r2 19 (far_focus st_top 6 2).
Proof. split; [apply st_pair_ok|]. split; [apply st_pair_ok|]. split; [split; [exact st_confocal|reflexivity]|exact st_telescope]. Qed.
