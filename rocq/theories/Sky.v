(** Sidereal time and horizon coordinates (batoid/app.py). *)
From Coq Require Import Reals ZArith.
From Verif Require Import Num NumR Vec CoordSys Trig Parse.
Open Scope R_scope.

(** np.arctan2 and Python's % on floats, as operations without laws. *)
Class Clock (T : Type) := { natan2 : T -> T -> T; npymod : T -> T -> T }.
(** Their exact counterparts; simplification: the sign of a zero y is not looked at when x is negative. *)
Definition atan2R (y x : R) : R :=
  if Rlt_dec 0 x then atan (y / x)
  else if Rlt_dec x 0 then (if Rle_dec 0 y then atan (y / x) + PI else atan (y / x) - PI)
  else if Rlt_dec 0 y then PI / 2 else if Rlt_dec y 0 then - (PI / 2) else 0.
Definition pymodR (a b : R) : R := a - b * IZR (Int_part (a / b)).
Global Instance ClockXR : Clock XR := {
  natan2 y x := match y, x with Fin y, Fin x => Fin (atan2R y x) | _, _ => NaN end;
  npymod a b := match a, b with Fin a, Fin b => if Req_EM_T b 0 then NaN else Fin (pymodR a b) | _, _ => NaN end
}.

Section Sky.
  Context {T : Type} {NT : Num T} {TT : Trig T} {CT : Clock T}.
  Local Open Scope num_scope.
  Definition deg2rad (x : T) : T := x * (npi / nofZ 180).
  Definition rad2deg (x : T) : T := x * (nofZ 180 / npi).

  (** lst (batoid/app.py:54-63). *)
  Definition lst (jd lon_deg : T) : T :=
    let t := jd / nofZ 36525 in
    npymod (nfrac 28046061837 100000000 + nfrac 36098564736629 100000000000 * (jd - nofZ 2451545)
            + nfrac 387933 1000000000 * t * t - t * t * t / nofZ 38710000 + lon_deg) (nofZ 360).

  (** eq_to_az (batoid/app.py:66-82): (alt, az). *)
  Definition eq_to_az (ra_deg dec_deg jd lat_deg lon_deg : T) : T * T :=
    let ra := deg2rad ra_deg in
    let dec := deg2rad dec_deg in
    let ha := deg2rad (lst jd lon_deg) - ra in
    let lat := deg2rad lat_deg in
    let sinlat := nsin lat in
    let coslat := ncos lat in
    let sindec := nsin dec in
    let sinalt := sindec * sinlat + ncos dec * coslat * ncos ha in
    let alt := nasin sinalt in
    let sinaz := - nsin ha * ncos dec / ncos alt in
    let cosaz := (sindec - sinalt * sinlat) / (ncos alt * coslat) in
    let az := natan2 sinaz cosaz in
    (rad2deg alt, rad2deg az).

  (** az_to_eq (batoid/app.py:85-95): (ra, dec). *)
  Definition az_to_eq (alt_deg az_deg jd lat_deg lon_deg : T) : T * T :=
    let alt := deg2rad alt_deg in
    let az := deg2rad az_deg in
    let lat := deg2rad lat_deg in
    let sindec := nsin alt * nsin lat + ncos alt * ncos lat * ncos az in
    let dec := nasin sindec in
    let sinha := - nsin az * ncos alt / ncos dec in
    let cosha := (nsin alt - nsin dec * nsin lat) / (ncos dec * ncos lat) in
    let ha := natan2 sinha cosha in
    let ra := deg2rad (lst jd lon_deg) - ha in
    (rad2deg ra, rad2deg dec).

  (** get_stars_xyzs (batoid/app.py:22-33) for one star, angles in radians. *)
  Definition star_xyz (ra dec : T) : vec3 T := V3 (ncos ra * ncos dec) (nsin ra * ncos dec) (nsin dec).
  (** RubinCSApp._stars_xyzs (batoid/app.py:256-266) for one star. *)
  Definition star_view (lat lst : T) (star : vec3 T) : vec3 T :=
    applyForwardArray (mkCT cs_default (CS vzero (mm (rotZ (deg2rad (lst + nofZ 180))) (rotY (- deg2rad (nofZ 90 - lat)))))) star.
  (** The frame of the telescope in RubinCSApp._telescope_xyz (batoid/app.py:288-304), from its frame [c] in
      the file.  CompoundOptic.withGlobalShift and withLocalRotation (batoid/optic.py:1358-1382, 1479-1557)
      apply shiftGlobal and, for R = rot of the optic's frame, rotateGlobal by R @ rot @ R.T to the optic's
      frame and to those of its items. *)
  Definition telescope_frame (alt az : T) (c : coordsys T) : coordsys T :=
    let turn c r center k := rotateGlobal c (mm (mm (rot c) r) (mtr (rot c))) center (Some k) in
    let c := shiftGlobal c (V3 n0 n0 (nfrac 353 100)) in
    let c := turn c (rotZ (deg2rad (nofZ 90 - az))) vzero c in
    turn c (rotX (deg2rad (nofZ 90 - alt))) (V3 n0 n0 (nfrac 5425 1000)) cs_default.
End Sky.
