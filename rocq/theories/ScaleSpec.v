(** Specification vocabulary for dkdu and for the scale of the images. *)
From Coq Require Import Reals List Bool.
From Verif Require Import Num NumR Vec Ray Bundle Spec OpticsSpec GenSpec FitSpec.
Import ListNotations.
Open Scope R_scope.

(** The function a + b x + c y, compared with values given at points. *)
Definition plane_residual (data : list (R * R * R)) (a b c : R) : R :=
  sumR (map (fun d => (a + b * fst (fst d) + c * snd (fst d) - snd d) * (a + b * fst (fst d) + c * snd (fst d) - snd d)) data).
(** No other such function is as close to the values in the sense of least squares. *)
Definition plane_fit (data : list (R * R * R)) (a b c : R) : Prop :=
  forall a' b' c', (a', b', c') <> (a, b, c) -> plane_residual data a b c < plane_residual data a' b' c'.
(** The points lie on a line (or there are none). *)
Definition on_a_line (pts : list (R * R)) : Prop :=
  exists a b c, (a, b, c) <> (0, 0, 0) /\ Forall (fun u => a + b * fst u + c * snd u = 0) pts.
(** np.linalg.lstsq does its job on this matrix with n columns and these two right hand sides. *)
Definition answers2 (lstsq : list (list XR) -> list (list XR) -> list (list XR)) (n : nat) (A : list (list R)) (b1 b2 : list R) : Prop :=
  exists x y, lstsq (map (map Fin) A) (map (fun p => [Fin (fst p); Fin (snd p)]) (combine b1 b2))
                = map (fun p => [Fin (fst p); Fin (snd p)]) (combine x y) /\
    solves n A b1 x /\ solves n A b2 y.
(** The matrix of a fit of such functions. *)
Definition plane_rows (pts : list (R * R)) : list (list R) := map (fun u => [1; fst u; snd u]) pts.
(** The positions from which the rays that end up not vignetted started. *)
Definition launched_at (rv : rayvec XR) (rs0 : list (ray R)) : list (R * R) :=
  map (fun x => (cx (pos (snd x)), cy (pos (snd x)))) (filter (fun x => negb (vignetted (fst x))) (combine (rays rv) rs0)).
