(** Properties of the Jacobian between field angle and image, and of the exit pupil
    (C80, C81). *)
From Coq Require Import Reals String List ZArith Bool Lra.
From Verif Require Import Num NumR Vec CoordSys Surface Medium Ray Bundle Trig Optic Field RayGen Spec OpticsSpec TreeSpec FieldSpec WaveSpec AnalysisSpec Analysis AxialSpec
  AxialTrace GenSpec JacSpec JacProofs PupilProofs SamplesJac.
Import ListNotations.
Open Scope R_scope.

Theorem C80_value : forall niter tel tx ty lam nrad naz projection q,
  moved_rays niter tel tx ty lam nrad naz projection q ->
  (q <> [] -> drdth niter tel (Fin tx) (Fin ty) (Fin lam) nrad naz projection =
     Ok (Fin (mean_rate cx by_x q), Fin (mean_rate cx by_y q), Fin (mean_rate cy by_x q), Fin (mean_rate cy by_y q))) /\
  (q = [] -> drdth niter tel (Fin tx) (Fin ty) (Fin lam) nrad naz projection = Ok (NaN, NaN, NaN, NaN)).
Proof. exact drdth_value. Qed.
Print Assumptions C80_value.

Theorem C80_linear : forall niter tel tx ty lam nrad naz projection q a b c d,
  moved_rays niter tel tx ty lam nrad naz projection q -> q <> [] -> Forall (moves_by a b c d) q ->
  drdth niter tel (Fin tx) (Fin ty) (Fin lam) nrad naz projection = Ok (Fin a, Fin b, Fin c, Fin d).
Proof. exact drdth_linear. Qed.
Print Assumptions C80_linear.

Theorem C80_inverse : forall niter tel tx ty lam nrad naz projection a b c d,
  drdth niter tel tx ty lam nrad naz projection = Ok (Fin a, Fin b, Fin c, Fin d) ->
  (a * d - b * c <> 0 -> exists a' b' c' d', dthdr niter tel tx ty lam nrad naz projection = Ok (Fin a', Fin b', Fin c', Fin d') /\
     times2 (a, b, c, d) (a', b', c', d') = (1, 0, 0, 1) /\ times2 (a', b', c', d') (a, b, c, d) = (1, 0, 0, 1)) /\
  (a * d - b * c = 0 -> dthdr niter tel tx ty lam nrad naz projection = Err LinAlgError).
Proof. exact dthdr_inverse. Qed.
Print Assumptions C80_inverse.

Theorem C80_focal : forall niter tel tx ty lam nrad naz projection a b c d,
  drdth niter tel tx ty lam nrad naz projection = Ok (Fin a, Fin b, Fin c, Fin d) ->
  (0 <= a * d - b * c -> exists f, focalLength niter tel tx ty lam nrad naz projection = Ok (Fin f) /\ 0 <= f /\ f * f = a * d - b * c) /\
  (a * d - b * c < 0 -> focalLength niter tel tx ty lam nrad naz projection = Ok NaN).
Proof. exact focal_length. Qed.
Print Assumptions C80_focal.

Theorem C80_errors : forall T (NT : Num T) (TT : Trig T) niter (tel : telescope T) tx ty lam nrad naz projection e,
  drdth niter tel tx ty lam nrad naz projection = Err e ->
  dthdr niter tel tx ty lam nrad naz projection = Err e /\ focalLength niter tel tx ty lam nrad naz projection = Err e.
Proof. exact jacobian_errors. Qed.
Print Assumptions C80_errors.

Theorem C80_focal_refuted : exists L u v lam nrad naz, forall niter,
  focalLength niter (gap L 1) (Fin u) (Fin v) (Fin lam) nrad naz "gnomonic" = Ok (Fin L) /\
  focalLength niter (gap L (-1)) (Fin u) (Fin v) (Fin lam) nrad naz "gnomonic" = Ok NaN.
Proof. exact focal_refuted. Qed.
Print Assumptions C80_focal_refuted.

(** A stop and a screen at distance L: the rays move by L times the change of the field angle. *)
Example C80_example : forall niter, exists q, q <> [] /\
  moved_rays niter (gap 3 1) (1/10) (1/5) 1 5 6 "gnomonic" q /\ Forall (moves_by 3 0 0 3) q /\
  drdth niter (gap 3 1) (Fin (1/10)) (Fin (1/5)) (Fin 1) 5 6 "gnomonic" = Ok (Fin 3, Fin 0, Fin 0, Fin 3).
Proof.
  intros niter. destruct (gap_moved niter 1 3 1 (1/10) (1/5) 5 6 ltac:(lra) ltac:(repeat constructor) ltac:(discriminate)) as (q & Ne & Hq & HJ).
  rewrite Rmult_1_l in HJ. exists q. split; [exact Ne|]. split; [exact Hq|]. split; [exact HJ|]. exact (drdth_linear _ _ _ _ _ _ _ _ q _ _ _ _ Hq Ne HJ).
Qed.

Theorem C81_exit_pupil : forall niter tel lam a p l n s F z0 d r B r1,
  axial_optic (tl_optic tel) -> axial_frame F ->
  oa_backDist (tl_attr tel) = Some (Fin l) -> getN (oa_in (tl_attr tel)) (Fin lam) = Fin n -> n <> 0 ->
  oa_stop (tl_attr tel) = Some (s, Fcs F) -> sag s (Fin 0) (Fin 0) = Fin z0 ->
  a <> 0 -> in_domain p a 0 -> fieldToDirCos (Fin 0) (Fin a) (proj_name p) = Ok (Fin (cx d), Fin (cy d), Fin (cz d)) ->
  arriving d n l lam 1 (V3 0 0 z0) r -> gets_through niter (tl_optic tel) false F (Fray r) B r1 ->
  let P := global_point B (pos r1) in let V := global_dir B (vel r1) in
  (cx V <> 0 \/ cy V <> 0 -> exists t z, on_line P V t = V3 0 0 z /\
     exitPupilPos niter tel (Fin lam) (Fin a) (proj_name p) = Ok (F3 (V3 0 0 z))) /\
  (cx V = 0 -> cy V = 0 -> exitPupilPos niter tel (Fin lam) (Fin a) (proj_name p) = Err ValueError).
Proof. exact exit_pupil_axial. Qed.
Print Assumptions C81_exit_pupil.

(** A stop four above a flat mirror: the exit pupil is four below it. *)
Example C81_example : forall niter, axial_optic (tl_optic periscope) /\ axial_frame global_frame /\
  fieldToDirCos (Fin 0) (Fin (3/4)) "gnomonic" = Ok (Fin 0, Fin (3/5), Fin (-4/5)) /\
  arriving (V3 0 (3/5) (-4/5)) 1 5 1 1 (V3 0 0 0) side_ray /\
  (exists r1, gets_through niter (tl_optic periscope) false global_frame (Fray side_ray) down4 r1 /\
     pos r1 = V3 0 3 0 /\ vel r1 = V3 0 (3/5) (4/5)) /\
  exitPupilPos niter periscope (Fin 1) (Fin (3/4)) "gnomonic" = Ok (F3 (V3 0 0 (-8))).
Proof.
  intros niter. exact (conj periscope_axial (conj global_axial (conj side_direction (conj side_arriving (conj (side_through niter) (periscope_pupil niter)))))).
Qed.
