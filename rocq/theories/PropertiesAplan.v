(** C97: the aplanatic points and the centre of a spherical surface. *)
From Coq Require Import Reals List ZArith Bool Lra.
From Verif Require Import Num NumR Vec CoordSys Surface Medium Ray Bundle Optic Spec OpticsSpec StigSpec SamplesStig AplanSpec AplanProofs SamplesAplan.
Open Scope R_scope.

(** Every ray towards (or from) the point n2/n1 radii beyond the centre is refracted towards (or from) the point n1/n2 radii
    beyond it, without any difference in time: the line is at both points at the same time. *)
Theorem C97_aplanatic : forall niter i reverse A B r r1 rad n2 t,
  sphere_lens i reverse B rad (wavelength r) n2 -> good_frame A -> lands niter i reverse A r B r1 ->
  passes A r t (beyond_centre B rad (n2 / index_of (vel r))) ->
  passes B r1 t (beyond_centre B rad (index_of (vel r) / n2)).
Proof. exact aplanatic. Qed.
Print Assumptions C97_aplanatic.

Example C97_example : sphere_lens ball false global_frame 5 (wavelength ball_ray) (25/16) /\ good_frame global_frame /\
  forall niter, exists r1, lands niter ball false global_frame ball_ray global_frame r1 /\
    passes global_frame ball_ray (4 + 1 + 195/16) (beyond_centre global_frame 5 (25/16 / index_of (vel ball_ray))) /\
    passes global_frame r1 (4 + 1 + 195/16) (beyond_centre global_frame 5 (index_of (vel ball_ray) / (25/16))).
Proof. split; [exact ball_ok|]. split; [exact global_good|exact ball_lands]. Qed.

(** Light through the centre goes straight on, at the new speed. *)
Theorem C97_centre : forall niter i reverse A B r r1 rad n2 t,
  sphere_lens i reverse B rad (wavelength r) n2 -> good_frame A -> lands niter i reverse A r B r1 ->
  passes A r t (beyond_centre B rad 0) ->
  vel r1 = timesR (index_of (vel r) / n2) (vel_in A B r) /\
  passes B r1 (time r1 + (t - time r1) * n2 / index_of (vel r)) (beyond_centre B rad 0).
Proof. exact centred. Qed.
Print Assumptions C97_centre.

Example C97_example_centre : forall niter, exists r1, lands niter ball false global_frame radial_ray global_frame r1 /\
  passes global_frame radial_ray 10 (beyond_centre global_frame 5 0).
Proof. exact radial_lands. Qed.
