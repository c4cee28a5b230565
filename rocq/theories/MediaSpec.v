(** Specification vocabulary for refractive indices. *)
From Coq Require Import Reals List.
From Verif Require Import Num NumR Medium.
Import ListNotations.
Open Scope R_scope.

(** Strictly increasing wavelengths. *)
Definition increasing (l : list R) : Prop :=
  forall i j a b, (i < j)%nat -> nth_error l i = Some a -> nth_error l j = Some b -> a < b.
(** Two neighbouring rows of the table. *)
Definition rows (args vals : list R) (i : nat) (al vl au vu : R) : Prop :=
  nth_error args i = Some al /\ nth_error vals i = Some vl /\
  nth_error args (S i) = Some au /\ nth_error vals (S i) = Some vu.
(** The straight line through (al, vl) and (au, vu). *)
Definition chord (al vl au vu w : R) : R := vl + (w - al) / (au - al) * (vu - vl).

(** The documented formulas, with the wavelength in microns. *)
Definition microns (w : R) : R := w * 1000000.
Definition sellmeier (B1 B2 B3 C1 C2 C3 lam : R) : R :=
  1 + B1 * lam ^ 2 / (lam ^ 2 - C1) + B2 * lam ^ 2 / (lam ^ 2 - C2) + B3 * lam ^ 2 / (lam ^ 2 - C3).
Definition sumita (A0 A1 A2 A3 A4 A5 lam : R) : R :=
  A0 + A1 * lam ^ 2 + A2 / lam ^ 2 + A3 / lam ^ 4 + A4 / lam ^ 6 + A5 / lam ^ 8.
(** Filippenko (1982): (n - 1) 10^6 for air at pressure P (mmHg), temperature t
    (Celsius), water vapour pressure f (mmHg), with s = 1/lam^2. *)
Definition mmHg (kPa : R) : R := kPa * (750061683 / 100000000).
Definition celsius (K : R) : R := K - 27315 / 100.
Definition dry_air (s : R) : R := 64328 / 1000 + 294981 / 10 / (146 - s) + 2554 / 10 / (41 - s).
Definition warm (t : R) : R := 1 + 3661 / 1000000 * t.
Definition refractivity (P t f s : R) : R :=
  dry_air s * P * (1 + (1049 / 1000 - 157 / 10000 * t) / 1000000 * P) / (720883 / 1000 * warm t)
  - (624 / 10000 - 680 / 1000000 * s) / warm t * f.
Definition air (pressure temperature h2o w : R) : R :=
  1 + refractivity (mmHg pressure) (celsius temperature) (mmHg h2o) (/ (microns w) ^ 2) / 1000000.
(** Ordinary weather: up to ten atmospheres, 200 K to 400 K, vapour below the total. *)
Definition weather (pressure temperature h2o : R) : Prop :=
  0 < pressure <= 1000 /\ 200 <= temperature <= 400 /\ 0 <= h2o <= pressure.
(** Longer than the resonance at 1/sqrt 41 microns. *)
Definition beyond_uv (w : R) : Prop := 0 < w /\ / (microns w) ^ 2 < 41.
