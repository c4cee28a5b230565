(** Specification vocabulary for hexapolar grids, lattices and lines in space. *)
From Coq Require Import Reals List ZArith.
From Verif Require Import Num NumR Vec Spec.
Import ListNotations.
Open Scope R_scope.

(** Entry i of n values evenly spaced from a (i = 0) to b (i = n - 1). *)
Definition evenly (a b : R) (n i : nat) : R := a + INR i / INR (n - 1) * (b - a).
(** n points at radius rho, evenly spaced in azimuth, starting at azimuth 0: pairs
    (radius, azimuth). *)
Definition circle_points (rho : R) (n : nat) : list (R * R) :=
  map (fun j => (rho, 2 * PI * (INR j / INR n))) (seq 0 n).
(** Rings of the radii (outermost first) with these numbers of points. *)
Definition rings (outer inner : R) (ns : list nat) : list (R * R) :=
  flat_map (fun ic => circle_points (evenly outer inner (length ns) (fst ic)) (snd ic))
           (combine (seq 0 (length ns)) ns).
(** The number of points promised for a ring whose share of naz is [share]: the largest
    multiple of kfold that does not exceed the share, but at least kfold. *)
Definition ring_size (kfold : Z) (share : R) (n : nat) : Prop :=
  (exists m, 1 <= m /\ Z.of_nat n = m * kfold)%Z /\
  (INR n <= share \/ Z.of_nat n = kfold) /\ share < INR n + IZR kfold.
(** The rectangular point of a polar one. *)
Definition cartesian (p : R * R) : R * R := (fst p * cos (snd p), fst p * sin (snd p)).
Definition Fpair (p : R * R) : XR * XR := (Fin (fst p), Fin (snd p)).

(** A vector of any dimension as a function of the component. *)
Definition component (l : list R) (j : nat) : R := nth j l 0.
(** The point sum_k (i_k - N_k div 2) a_k. *)
Fixpoint lattice_point (Ns idx : list nat) (pv : list (list R)) (j : nat) : R :=
  match Ns, idx, pv with
  | N :: Ns, i :: idx, a :: pv =>
      (INR i - INR (N / 2)) * component a j + lattice_point Ns idx pv j
  | _, _, _ => 0
  end.
(** The position of the multi-index idx in a row-major array of shape Ns. *)
Fixpoint row_major (Ns idx : list nat) : nat :=
  match Ns, idx with
  | N :: Ns, i :: idx => i * fold_right Nat.mul 1%nat Ns + row_major Ns idx
  | _, _ => 0
  end.
(** Valid multi-indices. *)
Definition in_shape (Ns idx : list nat) : Prop := Forall2 (fun N i => (i < N)%nat) Ns idx.
(** A square system of primitive vectors. *)
Definition square (d : nat) (pv : list (list R)) : Prop := length pv = d /\ Forall (fun a => length a = d) pv.

Definition dot2 (a b : R * R) : R := fst a * fst b + snd a * snd b.
Definition det2 (a b : R * R) : R := fst a * snd b - snd a * fst b.
(** b1, b2 is the reciprocal basis of a1, a2 for an N-point transform. *)
Definition dual (a1 a2 b1 b2 : R * R) (N : R) : Prop :=
  dot2 a1 b1 = 2 * PI / N /\ dot2 a2 b2 = 2 * PI / N /\ dot2 a1 b2 = 0 /\ dot2 a2 b1 = 0.
(** Distance squared. *)
Definition dist2 (p q : vR) : R := dotR (minusR p q) (minusR p q).
