(** C99: vignetting in double precision. *)
From Coq Require Import Reals ZArith List Bool Floats.SpecFloat.
From Verif Require Import Num NumR NumF Vec CoordSys Ray Bundle Obscuration ObscSpec FloatSpec FloatCmp EdgeSpec EdgeProofs SamplesFloat SamplesEdge.
Import ListNotations.
Open Scope R_scope.

(** Doubles compare as the numbers they stand for. *)
Theorem C99_compare : forall A B a b, double A a -> double B b ->
  (nltb a b = true <-> valF a < valF b) /\ (nleb a b = true <-> valF a <= valF b) /\ (neqb a b = true <-> valF a = valF b).
Proof. intros A B a b [[Fa _] Va] [[Fb _] Vb]. split; [|split]; [apply ltb_ok|apply leb_ok|apply eqb_ok]; assumption. Qed.
Print Assumptions C99_compare.

(** Further than 16 units in the last place of the scale from every edge, contains answers as in exact arithmetic. *)
Theorem C99_contains : forall S x y o, midrange S -> double S x -> double S y -> built S o -> clear_of (16 * ulp * S) o (valF x) (valF y) ->
  contains o x y = contains (exactO o) (exact x) (exact y).
Proof. intros S x y o M X Y. apply contains_same; assumption. Qed.
Print Assumptions C99_contains.

(** A circle, in plain geometry. *)
Theorem C99_circle : forall S x y r a b, midrange S -> double S x -> double S y -> double S r -> double S a -> double S b ->
  let D := dist2 (valF x, valF y) (valF a, valF b) in 16 * ulp * S < Rabs (D - valF r) ->
  (contains (ObscCircle r a b) x y = true <-> D < valF r).
Proof. exact circle_same. Qed.
Print Assumptions C99_circle.

(** Obscuration.obscure flags a ray that is clear of the edges exactly if the exact obscuration contains it, and changes nothing else. *)
Theorem C99_obscure : forall S o rv i r, midrange S -> built S o -> nth_error (rays rv) i = Some r ->
  double S (cx (pos r)) -> double S (cy (pos r)) -> clear_of (16 * ulp * S) o (valF (cx (pos r))) (valF (cy (pos r))) ->
  exists r', nth_error (rays (rv_obscure o rv)) i = Some r' /\
    vignetted r' = vignetted r || contains (exactO o) (exact (cx (pos r))) (exact (cy (pos r))) /\
    pos r' = pos r /\ vel r' = vel r /\ time r' = time r /\ wavelength r' = wavelength r /\ flux r' = flux r /\ failed r' = failed r.
Proof. exact obscure_same. Qed.
Print Assumptions C99_obscure.

Example C99_example : midrange 8 /\ built 8 epupil /\ double 8 (fz 3) /\ double 8 (fz 4) /\ clear_of (16 * ulp * 8) epupil (valF (fz 3)) (valF (fz 4)) /\
  contains epupil (fz 3) (fz 4) = true /\ contains epupil (fz 1) (fz 1) = false.
Proof. split; [exact mid8|split; [exact epupil_built|split; [dbls|split; [dbls|split; [exact epupil_clear|exact epupil_in]]]]]. Qed.
Example C99_example_obscure : nth_error (rays (RV [Ray (V3 (fz 3) (fz 4) (fz 0)) (V3 (fz 0) f35 f45) (fz 2) (fz 1) (fz 1) false false] feye)) 0 =
  Some (Ray (V3 (fz 3) (fz 4) (fz 0)) (V3 (fz 0) f35 f45) (fz 2) (fz 1) (fz 1) false false).
Proof. reflexivity. Qed.

(** On an edge rounding decides: a point inside the unit circle that doubles take to be outside. *)
Theorem C99_edge_refuted : exists S o x y, midrange S /\ built S o /\ double S x /\ double S y /\
  contains o x y = false /\ contains (exactO o) (exact x) (exact y) = true.
Proof. exists 1, ecircle, ex, ey. exact (conj mid1 edge_wrong). Qed.
Print Assumptions C99_edge_refuted.
