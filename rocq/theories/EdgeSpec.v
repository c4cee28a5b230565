(** The vocabulary of C99. *)
From Coq Require Import Reals ZArith List Floats.SpecFloat.
From Verif Require Import Num NumR NumF Obscuration ObscSpec FloatSpec.
Import ListNotations.
Open Scope R_scope.

(** A finite double (53 digits, or the least exponent) of size at most [B]. *)
Definition double (B : R) (a : F64) : Prop := sized B a /\ valid_binary prec emax a = true.
(** Neither extremely small nor extremely large. *)
Definition midrange (S : R) : Prop := two (-400) <= S <= two 400.

(** The obscuration in exact arithmetic: the same numbers. *)
Definition exact (a : F64) : XR := Fin (valF a).
Definition exact2 (p : F64 * F64) : XR * XR := (exact (fst p), exact (snd p)).
Fixpoint exactO (o : obsc F64) : obsc XR :=
  match o with
  | ObscCircle r x y => ObscCircle (exact r) (exact x) (exact y)
  | ObscAnnulus i r x y => ObscAnnulus (exact i) (exact r) (exact x) (exact y)
  | ObscRectangle w h x y s c => ObscRectangle (exact w) (exact h) (exact x) (exact y) (exact s) (exact c)
  | ObscRay w x y s c => ObscRay (exact w) (exact x) (exact y) (exact s) (exact c)
  | ObscPolygon v => ObscPolygon (map exact2 v)
  | ObscNegation o => ObscNegation (exactO o)
  | ObscUnion l => ObscUnion (map exactO l)
  | ObscIntersection l => ObscIntersection (map exactO l)
  end.

(** Lengths and coordinates of size at most [S], a sine and a cosine; no edge of a polygon with a tiny rise. *)
Fixpoint built (S : R) (o : obsc F64) : Prop :=
  match o with
  | ObscCircle r x y => double S r /\ double S x /\ double S y
  | ObscAnnulus i r x y => double S i /\ double S r /\ double S x /\ double S y
  | ObscRectangle w h x y s c => double S w /\ double S h /\ double S x /\ double S y /\ double 1 s /\ double 1 c
  | ObscRay w x y s c => double S w /\ double S x /\ double S y /\ double 1 s /\ double 1 c
  | ObscPolygon v => (forall p, In p v -> double S (fst p) /\ double S (snd p)) /\
      (forall p q, In (p, q) (edges v) -> valF (snd p) = valF (snd q) \/ two (-400) <= Rabs (valF (snd q) - valF (snd p)))
  | ObscNegation o => built S o
  | ObscUnion l | ObscIntersection l => fold_right (fun o P => built S o /\ P) True l
  end.

(** The point (x, y) is further than [m] from the edges: from the circles; from the lines that the sides of a
    rectangle or of a ray lie on; along x, from the sides of a polygon that are level with it. *)
Definition hyp (x y : R) : R := sqrt (x * x + y * y).
Fixpoint clear_of (m : R) (o : obsc F64) (x y : R) : Prop :=
  match o with
  | ObscCircle r x0 y0 => m < Rabs (hyp (x - valF x0) (y - valF y0) - valF r)
  | ObscAnnulus i r x0 y0 => m < Rabs (hyp (x - valF x0) (y - valF y0) - valF i) /\ m < Rabs (hyp (x - valF x0) (y - valF y0) - valF r)
  | ObscRectangle w h x0 y0 s c =>
      let u := (x - valF x0) * valF c + (y - valF y0) * valF s in
      let v := - (x - valF x0) * valF s + (y - valF y0) * valF c in
      m < Rabs (u - valF w / 2) /\ m < Rabs (u + valF w / 2) /\ m < Rabs (v - valF h / 2) /\ m < Rabs (v + valF h / 2)
  | ObscRay w x0 y0 s c =>
      let u := (x - valF x0) * valF c + (y - valF y0) * valF s in
      let v := - (x - valF x0) * valF s + (y - valF y0) * valF c in
      m < Rabs u /\ m < Rabs (v - valF w / 2) /\ m < Rabs (v + valF w / 2)
  | ObscPolygon vs => forall p q, In (p, q) (edges vs) ->
      let x1 := valF (fst p) in let y1 := valF (snd p) in let x2 := valF (fst q) in let y2 := valF (snd q) in
      Rmin y1 y2 < y <= Rmax y1 y2 -> x1 <> x2 -> m < Rabs (x - ((y - y1) * (x2 - x1) / (y2 - y1) + x1))
  | ObscNegation o => clear_of m o x y
  | ObscUnion l | ObscIntersection l => fold_right (fun o P => clear_of m o x y /\ P) True l
  end.
