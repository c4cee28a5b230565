(** C93: sidereal time and horizon coordinates. *)
From Coq Require Import Reals ZArith Lra Psatz.
From Verif Require Import Num NumR Vec CoordSys Trig Spec Sky SkySpec SkyProofs SamplesSky SamplesJac.
Open Scope R_scope.

(** The altitude and azimuth of a star: its components along north, west and up are those of the direction with that altitude and azimuth. *)
Theorem C93_horizon : forall ra dec jd lat lon th, cos (rad lat) <> 0 -> lst (Fin jd) (Fin lon) = Fin th ->
  Rabs (dotR (star_dir ra dec) (up lat th)) <> 1 ->
  exists alt az, eq_to_az (Fin ra) (Fin dec) (Fin jd) (Fin lat) (Fin lon) = (Fin alt, Fin az) /\
    -90 < alt < 90 /\ -180 < az <= 180 /\ same_star lat th ra dec alt az.
Proof. exact horizon_of_star. Qed.
Print Assumptions C93_horizon.

(** The right ascension and declination of a direction. *)
Theorem C93_equator : forall alt az jd lat lon th, cos (rad lat) <> 0 -> lst (Fin jd) (Fin lon) = Fin th ->
  Rabs (dotR (horizon_dir alt az) (horizon_dir lat 0)) <> 1 ->
  exists ra dec, az_to_eq (Fin alt) (Fin az) (Fin jd) (Fin lat) (Fin lon) = (Fin ra, Fin dec) /\
    -90 < dec < 90 /\ th - 180 <= ra < th + 180 /\ same_star lat th ra dec alt az.
Proof. exact star_of_horizon. Qed.
Print Assumptions C93_equator.

(** The two are inverse to each other. *)
Theorem C93_there_and_back : forall ra dec jd lat lon th, cos (rad lat) <> 0 -> lst (Fin jd) (Fin lon) = Fin th -> -90 < dec < 90 ->
  Rabs (dotR (star_dir ra dec) (up lat th)) <> 1 ->
  exists alt az ra', eq_to_az (Fin ra) (Fin dec) (Fin jd) (Fin lat) (Fin lon) = (Fin alt, Fin az) /\
    az_to_eq (Fin alt) (Fin az) (Fin jd) (Fin lat) (Fin lon) = (Fin ra', Fin dec) /\ whole_turns ra' ra.
Proof. exact there_and_back. Qed.
Print Assumptions C93_there_and_back.

Theorem C93_back_and_there : forall alt az jd lat lon th, cos (rad lat) <> 0 -> lst (Fin jd) (Fin lon) = Fin th ->
  -90 < alt < 90 -> -180 < az <= 180 -> Rabs (dotR (horizon_dir alt az) (horizon_dir lat 0)) <> 1 ->
  exists ra dec, az_to_eq (Fin alt) (Fin az) (Fin jd) (Fin lat) (Fin lon) = (Fin ra, Fin dec) /\
    eq_to_az (Fin ra) (Fin dec) (Fin jd) (Fin lat) (Fin lon) = (Fin alt, Fin az).
Proof. exact back_and_there. Qed.
Print Assumptions C93_back_and_there.

(** The telescope of the app points at the star as the app draws it, and the line it tilts about stays level, at one height. *)
Theorem C93_pointing : forall ra dec jd lat lon th c, cos (rad lat) <> 0 -> lst (Fin jd) (Fin lon) = Fin th ->
  Rabs (dotR (star_dir ra dec) (up lat th)) <> 1 -> good_frame c -> rot c = eyeR ->
  exists alt az c', eq_to_az (Fin ra) (Fin dec) (Fin jd) (Fin lat) (Fin lon) = (Fin alt, Fin az) /\
    telescope_frame (Fin alt) (Fin az) (Fcs c) = Fcs c' /\
    F3 (global_dir c' (V3 0 0 1)) = star_view (Fin lat) (lst (Fin jd) (Fin lon)) (star_xyz (Fin (rad ra)) (Fin (rad dec))) /\
    (cx (origin c) = 0 -> cy (origin c) = 0 ->
     forall w, global_point c' (V3 w 0 (elevation - pier - cz (origin c))) = plusR (V3 0 0 elevation) (level_axis az w)).
Proof. exact telescope_on_star. Qed.
Print Assumptions C93_pointing.

Example C93_example_sky : forall jd lon ra az, cos (rad (-30)) <> 0 /\ (exists th, lst (Fin jd) (Fin lon) = Fin th) /\ (forall th, Rabs (dotR (star_dir ra 0) (up (-30) th)) <> 1) /\
  Rabs (dotR (horizon_dir 0 az) (horizon_dir (-30) 0)) <> 1 /\ good_frame global_frame /\ rot global_frame = eyeR /\ cx (origin global_frame) = 0 /\ cy (origin global_frame) = 0.
Proof.
  intros. split; [exact south_ok|]. split; [eexists; apply lst_F|]. split; [apply equator_ok|]. split; [apply level_ok|]. split; [exact global_good|]. repeat split; reflexivity.
Qed.

(** At the zenith the azimuth is NaN. *)
Theorem C93_zenith_refuted : exists ra dec jd lat lon, eq_to_az (Fin ra) (Fin dec) (Fin jd) (Fin lat) (Fin lon) = (Fin 90, NaN).
Proof. exists (lstR 0 0), (-30), 0, (-30), 0. apply (zenith_nan 0 (-30) 0 _ (lst_F 0 0)). lra. Qed.
Print Assumptions C93_zenith_refuted.

(** lst lies between 0 and 360 degrees; from 2000 to 2050 it is ahead of the sidereal time by more than 1.73 degrees. *)
Theorem C93_sidereal : forall jd lon, exists th, lst (Fin jd) (Fin lon) = Fin th /\ 0 <= th < 360 /\
  (2451545 <= jd <= 2469807 -> exists e, 1.73 < e < 1.78 /\ whole_turns th (sidereal jd + lon + e)).
Proof. exact lst_turns. Qed.
Print Assumptions C93_sidereal.

Example C93_example_sidereal : 2451545 <= 2460676.25 <= 2469807.
Proof. lra. Qed.

Theorem C93_sidereal_refuted : exists jd lon th, lst (Fin jd) (Fin lon) = Fin th /\ ~ whole_turns th (sidereal jd + lon).
Proof. exists 2460676.25, (-70.7494). eexists. split; [apply lst_F|]. apply lst_differs; [lra|apply lst_F]. Qed.
Print Assumptions C93_sidereal_refuted.
