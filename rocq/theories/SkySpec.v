(** Vocabulary for the sky (C93). *)
From Coq Require Import Reals ZArith.
From Verif Require Import Num NumR Vec Spec.
Open Scope R_scope.

Definition rad (x : R) : R := x * (PI / 180).
(** The direction of a star, right ascension and declination in degrees, in the frame of the equator. *)
Definition star_dir (ra dec : R) : vR := V3 (cos (rad dec) * cos (rad ra)) (cos (rad dec) * sin (rad ra)) (sin (rad dec)).
(** The directions north, west and up of a place at a latitude whose meridian is at the right ascension [theta] now. *)
Definition up (lat theta : R) : vR := star_dir theta lat.
Definition north (lat theta : R) : vR := V3 (- sin (rad lat) * cos (rad theta)) (- sin (rad lat) * sin (rad theta)) (cos (rad lat)).
Definition west (theta : R) : vR := V3 (sin (rad theta)) (- cos (rad theta)) 0.
(** The direction with altitude [alt] and azimuth [az], from north through east, in components north, west, up. *)
Definition horizon_dir (alt az : R) : vR := V3 (cos (rad alt) * cos (rad az)) (- (cos (rad alt) * sin (rad az))) (sin (rad alt)).
(** The same star, seen in the two ways. *)
Definition same_star (lat theta ra dec alt az : R) : Prop :=
  dotR (star_dir ra dec) (north lat theta) = cx (horizon_dir alt az) /\
  dotR (star_dir ra dec) (west theta) = cy (horizon_dir alt az) /\
  dotR (star_dir ra dec) (up lat theta) = cz (horizon_dir alt az).
(** Greenwich mean sidereal time in degrees, before reduction (Meeus, Astronomical Algorithms, 12.4):
    the polynomial in the number of Julian centuries since J2000. *)
Definition sidereal (jd : R) : R :=
  let t := (jd - 2451545) / 36525 in
  280.46061837 + 360.98564736629 * (jd - 2451545) + 0.000387933 * t * t - t * t * t / 38710000.
Definition whole_turns (a b : R) : Prop := exists k : Z, a = b + 360 * IZR k.
(** The telescope is set on a pier 3.53 m high and tilts about a level axis 5.425 m above the ground; the point of that axis at distance w from the vertical. *)
Definition pier : R := 3.53.
Definition elevation : R := 5.425.
Definition level_axis (az w : R) : vR := V3 (w * sin (rad az)) (w * cos (rad az)) 0.
