(** C102: concentric spheres keep the moment of the light about their centre. *)
From Coq Require Import Reals List Lra.
From Verif Require Import Num NumR Vec CoordSys Surface Medium Ray Bundle Optic Spec OpticsSpec StigSpec XRFacts CoordFacts FlatSpec FlatProofs BallSpec BallProofs SamplesStig SamplesAplan SamplesBall.
Import ListNotations.
Open Scope R_scope.

(** ** C102 Concentric spheres *)
Theorem C102_moment : forall niter reverse Q ss A r C r2,
  (forall s, In s ss -> shell reverse (wavelength r) Q s) -> good_frame A -> vel r <> zeroR ->
  through niter reverse A r (map s_iface ss) C r2 -> moment Q C r2 = moment Q A r.
Proof. intros niter b Q ss A r C r2 H G V T. exact (proj2 (proj2 (shells niter b Q ss A r C r2 H G V T))). Qed.
Print Assumptions C102_moment.
Theorem C102_distance : forall niter reverse Q ss A r C r2 g g2,
  (forall s, In s ss -> shell reverse (wavelength r) Q s) -> good_frame A -> vel r <> zeroR ->
  through niter reverse A r (map s_iface ss) C r2 -> closest Q A r g -> closest Q C r2 g2 ->
  index_of (vel r2) * lenR (minusR g2 Q) = index_of (vel r) * lenR (minusR g Q).
Proof.
  intros niter b Q ss A r C r2 g g2 H G V T ((t & P) & O) ((t2 & P2) & O2). destruct (shells niter b Q ss A r C r2 H G V T) as (GC & V2 & M).
  exact (distances Q A r C r2 t g t2 g2 G V P O GC V2 P2 O2 M).
Qed.
Print Assumptions C102_distance.
Theorem C102_centre : forall niter reverse Q ss A r C r2,
  (forall s, In s ss -> shell reverse (wavelength r) Q s) -> good_frame A -> vel r <> zeroR ->
  through niter reverse A r (map s_iface ss) C r2 -> (exists t, passes A r t Q) <-> (exists t, passes C r2 t Q).
Proof.
  intros niter b Q ss A r C r2 H G V T. destruct (shells niter b Q ss A r C r2 H G V T) as (GC & V2 & M).
  split; intros (t & P); apply (moment_zero Q); auto; [rewrite M; rewrite <- (moment_at A r t Q Q P)|rewrite <- M; rewrite <- (moment_at C r2 t Q Q P)]; apply vec3_eq; cbn; ring.
Qed.
Print Assumptions C102_centre.
Example C102_example : forall niter, (forall s, In s onion -> shell false (wavelength ball_ray) (V3 0 0 5) s) /\
  (exists r2, through niter false global_frame ball_ray (map s_iface onion) core_frame r2) /\
  moment (V3 0 0 5) global_frame ball_ray <> zeroR.
Proof. intros niter. split; [exact (onion_shells _)|]. split; [exact (onion_through niter)|exact onion_moment]. Qed.
Example C102_example_closest : closest (V3 0 0 5) global_frame ball_ray (V3 (315/169) 0 (925/169)).
Proof. split; [exists (4 + 73/13); apply vec3_eq; cbn; lra|unfold dotR; cbn; lra]. Qed.
