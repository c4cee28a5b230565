(** Specification vocabulary for plane waves (C06, C61). *)
From Coq Require Import Reals List Bool.
From Verif Require Import Num NumR Vec CoordSys Ray Bundle Spec.
Import ListNotations.
Open Scope R_scope.

(** A ray that carries a wave: it moves and has a wavelength. *)
Definition has_wave (r : ray R) : Prop := vel r <> zeroR /\ wavelength r <> 0.
(** Wavevector along the velocity, of length 2 pi / (wavelength speed); angular
    frequency 2 pi / wavelength (light speed 1). *)
Definition wavevector (r : ray R) : vR :=
  timesR (2 * PI / (wavelength r * dotR (vel r) (vel r))) (vel r).
Definition frequency (r : ray R) : R := 2 * PI / wavelength r.
Definition wave_phase (r : ray R) (p : vR) (t : R) : R :=
  dotR (wavevector r) (minusR p (pos r)) - frequency r * (t - time r).

(** The rays that count in a sum of amplitudes. *)
Definition counted {T} (ignoreVignetted : bool) (r : ray T) : bool :=
  if failed r then false else if vignetted r then negb ignoreVignetted else true.
Definition sumR (l : list R) : R := fold_right Rplus 0 l.
Definition wave_sum (ign : bool) (l : list (ray R)) (p : vR) (t : R) : R * R :=
  (sumR (map (fun r => flux r * cos (wave_phase r p t)) (filter (counted ign) l)),
   sumR (map (fun r => flux r * sin (wave_phase r p t)) (filter (counted ign) l))).
