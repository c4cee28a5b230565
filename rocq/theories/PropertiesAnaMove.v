(** C72: images do not depend on where the telescope stands. *)
From Coq Require Import Reals String List ZArith Bool Lra Lia.
From Verif Require Import Num NumR NumF Vec CoordSys Surface Medium Ray Bundle Trig Optic Field RayGen Wave Spec OpticsSpec FieldSpec
  TreeSpec MoveSpec GenSpec WaveSpec Analysis AnalysisSpec AnalysisMove AnalysisBad SamplesAnalysis SamplesAnaMove.
Import ListNotations.
Open Scope R_scope.

Theorem C72_spot : forall niter ms o bd pupil pobsc radius tx ty w projection nx reference,
  Forall rigid ms -> movable o ->
  clear_reference niter (telescope_of o bd pupil pobsc radius) tx ty w projection nx reference ->
  spot niter (telescope_of (move_optic ms o) bd pupil pobsc radius) tx ty w projection nx reference
  = spot niter (telescope_of o bd pupil pobsc radius) tx ty w projection nx reference.
Proof. exact spot_moved. Qed.
Print Assumptions C72_spot.
Theorem C72_wavefront : forall niter ms o bd pupil pobsc radius tx ty w projection nx sphereRadius reference,
  Forall rigid ms -> movable o ->
  clear_reference niter (telescope_of o bd pupil pobsc radius) tx ty w projection nx reference ->
  clear_radius sphereRadius (telescope_of o bd pupil pobsc radius) ->
  wavefront niter (telescope_of (move_optic ms o) bd pupil pobsc radius) tx ty w projection nx sphereRadius reference
  = wavefront niter (telescope_of o bd pupil pobsc radius) tx ty w projection nx sphereRadius reference.
Proof. exact wavefront_moved. Qed.
Print Assumptions C72_wavefront.
Theorem C72_huygens : forall niter ms o bd pupil pobsc radius lstsq tx ty w projection nx dx dy nxOut reference,
  Forall rigid ms -> movable o ->
  huygensPSF niter lstsq (telescope_of (move_optic ms o) bd pupil pobsc radius) tx ty w projection nx dx dy nxOut reference
  = huygensPSF niter lstsq (telescope_of o bd pupil pobsc radius) tx ty w projection nx dx dy nxOut reference.
Proof. exact psf_moved. Qed.
Print Assumptions C72_huygens.
Theorem C72_fft : forall niter ms o bd pupil pobsc radius lstsq tx ty w projection nx pad sphereRadius reference,
  Forall rigid ms -> movable o ->
  clear_reference niter (telescope_of o bd pupil pobsc radius) tx ty w projection nx reference ->
  clear_radius sphereRadius (telescope_of o bd pupil pobsc radius) ->
  fftPSF niter lstsq (telescope_of (move_optic ms o) bd pupil pobsc radius) tx ty w projection nx pad sphereRadius reference
  = fftPSF niter lstsq (telescope_of o bd pupil pobsc radius) tx ty w projection nx pad sphereRadius reference.
Proof. exact fft_moved. Qed.
Print Assumptions C72_fft.
Theorem C72_derivatives : forall niter ms o bd pupil pobsc radius lstsq tx ty w nrad naz projection,
  Forall rigid ms -> movable o ->
  let tel0 := telescope_of o bd pupil pobsc radius in
  let tel1 := telescope_of (move_optic ms o) bd pupil pobsc radius in
  dkdu niter lstsq tel1 tx ty w nrad naz projection = dkdu niter lstsq tel0 tx ty w nrad naz projection /\
  drdth niter tel1 tx ty w nrad naz projection = drdth niter tel0 tx ty w nrad naz projection /\
  dthdr niter tel1 tx ty w nrad naz projection = dthdr niter tel0 tx ty w nrad naz projection /\
  focalLength niter tel1 tx ty w nrad naz projection = focalLength niter tel0 tx ty w nrad naz projection.
Proof. exact derivatives_moved. Qed.
Print Assumptions C72_derivatives.
Theorem C72_zernikeGQ : forall niter ms o bd pupil pobsc radius lg basis tx ty w projection rings spokes sphereRadius jmax eps D,
  Forall rigid ms -> movable o -> pupil = Some D ->
  clear_spokes niter lg (telescope_of o bd pupil pobsc radius) tx ty w projection rings spokes eps D ->
  clear_radius sphereRadius (telescope_of o bd pupil pobsc radius) ->
  zernikeGQ niter lg basis (telescope_of (move_optic ms o) bd pupil pobsc radius) tx ty w projection rings spokes sphereRadius "mean" jmax eps
  = zernikeGQ niter lg basis (telescope_of o bd pupil pobsc radius) tx ty w projection rings spokes sphereRadius "mean" jmax eps.
Proof. exact zernike_moved. Qed.
Print Assumptions C72_zernikeGQ.
Example C72_example : Forall rigid journey /\ movable optic20 /\ newton20 = telescope_of optic20 (Some (Fin 30)) (Some (Fin 4)) (Some (Fin 0)) (Some (Fin 10)) /\
  (forall niter, clear_reference niter newton20 (Fin 0) (Fin 0) (Fin 1) "postel" 4 "chief") /\ clear_radius None newton20 /\
  movable bare /\ (forall niter,
  clear_spokes niter midpoint (telescope_of bare (Some (Fin 1)) (Some (Fin 2)) None (Some (Fin (-10)))) (Fin 0) (Fin 0) (Fin 1) "postel" 1 (Some 1%nat) (Fin 0) (Fin 2)).
Proof.
  split; [exact journey_rigid|]. split; [exact optic20_movable|]. split; [reflexivity|].
  split; [intros niter; apply newton20_clear|]. split; [apply (newton20_clear 0)|]. split; [exact bare_movable|].
  intros niter. apply bare_clear.
Qed.
(** zernikeGQ makes its chief ray in the global frame, so with reference = 'chief' the answer
    changes when the telescope is turned: here the piston term drops by 18 wavelengths. *)
Theorem C72_chief_refuted : exists ms o, Forall rigid ms /\ movable o /\ forall niter, exists lg basis a,
  zernikeGQ niter lg basis (telescope_of o (Some (Fin 1)) (Some (Fin 2)) None (Some (Fin (-10))))
    (Fin 0) (Fin 0) (Fin 1) "postel" 1 (Some 1%nat) None "chief" 1 (Fin 0) = Ok [Fin a] /\
  zernikeGQ niter lg basis (telescope_of (move_optic ms o) (Some (Fin 1)) (Some (Fin 2)) None (Some (Fin (-10))))
    (Fin 0) (Fin 0) (Fin 1) "postel" 1 (Some 1%nat) None "chief" 1 (Fin 0) = Ok [Fin (a - 18)].
Proof.
  exists upside_down, bare. split; [exact upside_down_rigid|]. split; [exact bare_movable|]. intros niter.
  exists midpoint, piston, (10 - sqrt (199 / 2)). split; [exact (chief_upright niter)|].
  replace (10 - sqrt (199 / 2) - 18) with (-8 - sqrt (199 / 2)) by lra. exact (chief_upside_down niter).
Qed.
Print Assumptions C72_chief_refuted.
(** exitPupilPos measures distances from the global z axis.  Moving the telescope by one to the
    right moves the answer by one half. *)
Theorem C72_exitPupil_refuted : exists (o : optic F64) (d : vec3 F64) angle, d = V3 n1 n0 n0 /\ stop_of o <> None /\
  forall (TT : Trig F64) niter, let tel o := telescope_of o (Some n1) (Some n2) None None in
  exitPupilPos niter (tel o) n1 angle "gnomonic" = Ok (V3 n0 n0 n0) /\
  exists z, exitPupilPos niter (tel (withGlobalShift d o)) n1 angle "gnomonic" = Ok (V3 (nfrac 1 2) n0 z).
Proof.
  exists (bare64 (Some stop64)), one_right, angle64. split; [reflexivity|]. split; [discriminate|]. intros TT niter.
  split; [exact (exit_still TT niter)|exact (exit_right TT niter)].
Qed.
Print Assumptions C72_exitPupil_refuted.
(** Without a stop surface the rays are aimed at the global origin, wherever the optic is. *)
Theorem C72_stopless_refuted : exists (o : optic F64) (d : vec3 F64), d = V3 n1 n0 n0 /\ stop_of o = None /\
  forall (TT : Trig F64) niter, let tel o := telescope_of o (Some n1) (Some n2) None None in
  spot niter (tel o) n0 n0 n1 "gnomonic" 2 "origin" = Ok ([nopp n1; n0; nopp n1; n0], [nopp n1; nopp n1; n0; n0]) /\
  spot niter (tel (withGlobalShift d o)) n0 n0 n1 "gnomonic" 2 "origin"
  = Ok ([nopp n2; nopp n1; nopp n2; nopp n1], [nopp n1; nopp n1; n0; n0]).
Proof.
  exists (bare64 None), one_right. split; [reflexivity|]. split; [reflexivity|]. intros TT niter.
  split; [exact (stopless_still TT niter)|exact (stopless_right TT niter)].
Qed.
Print Assumptions C72_stopless_refuted.
