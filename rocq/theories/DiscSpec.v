(** Specification vocabulary for polynomials on a disc: integrals, Zernike bases, double Zernike
    expansions. *)
From Coq Require Import Reals List Bool Arith.
From Verif Require Import GenSpec.
Import ListNotations.
Open Scope R_scope.

(** A polynomial in x and y: coefficient, power of x, power of y. *)
Definition poly2 := list (R * nat * nat).
Definition mono (t : R * nat * nat) (x y : R) : R := fst (fst t) * x ^ snd (fst t) * y ^ snd t.
Definition at2 (p : poly2) (x y : R) : R := sumR (map (fun t => mono t x y) p).
(** Every term has degree at most d. *)
Definition degree2 (d : nat) (p : poly2) : Prop := Forall (fun t => snd (fst t) + snd t <= d)%nat p.

(** The integral of a function that has an antiderivative. *)
Definition integral (f : R -> R) (a b I : R) : Prop :=
  exists F, (forall x, derivable_pt_lim F x (f x)) /\ I = F b - F a.
(** The integral of f(x, y) over the annulus between radius eps and radius 1. *)
Definition annulus_integral (eps : R) (f : R -> R -> R) (I : R) : Prop :=
  exists ring, (forall th, integral (fun r => r * f (r * cos th) (r * sin th)) eps 1 (ring th)) /\
    integral ring 0 (2 * PI) I.

(** Polynomials of mean square 1 over the annulus, any two of them orthogonal. *)
Definition orthonormal_family (eps : R) (Z : list poly2) : Prop :=
  forall j k p q, nth_error Z j = Some p -> nth_error Z k = Some q ->
    annulus_integral eps (fun x y => at2 p x y * at2 q x y) (if (j =? k)%nat then PI * (1 - eps * eps) else 0).
(** The combination of the polynomials Z with the coefficients c. *)
Definition combination (c : list R) (Z : list poly2) (x y : R) : R :=
  sumR (map (fun cp => fst cp * at2 (snd cp) x y) (combine c Z)).
