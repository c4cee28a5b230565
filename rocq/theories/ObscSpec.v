(** Specification vocabulary for obscurations: plane geometry over the reals. *)
From Coq Require Import Reals List Bool.
From Verif Require Import Num NumR Obscuration.
Import ListNotations.
Open Scope R_scope.

Definition pt : Type := (R * R)%type.
Definition Fpt (p : pt) : XR * XR := (Fin (fst p), Fin (snd p)).
Definition dist2 (a b : pt) : R :=
  sqrt ((fst a - fst b) * (fst a - fst b) + (snd a - snd b) * (snd a - snd b)).
(** The point c + a e + b f, where e = (cos th, sin th) and f is e turned by 90 degrees. *)
Definition turned (c : pt) (th a b : R) : pt :=
  (fst c + a * cos th - b * sin th, snd c + a * sin th + b * cos th).

(** The edges of a polygon, the last vertex being joined to the first. *)
Definition edges {A} (l : list A) : list (A * A) :=
  match l with [] => [] | a :: r => combine l (r ++ [a]) end.
(** Abscissa at height y of the line through a and b. *)
Definition abscissa (a b : pt) (y : R) : R := fst a + (y - snd a) * (fst b - fst a) / (snd b - snd a).
(** The edge meets the horizontal half-line going right from (x, y); lower ends of
    edges do not count, upper ends do. *)
Definition crosses (x y : R) (e : pt * pt) : bool :=
  let '(a, b) := e in
  (if Rlt_dec (Rmin (snd a) (snd b)) y then true else false) &&
  (if Rle_dec y (Rmax (snd a) (snd b)) then true else false) &&
  (if Rle_dec x (abscissa a b y) then true else false).
Definition crossing_number (verts : list pt) (x y : R) : nat :=
  length (filter (crosses x y) (edges verts)).

(** Signed area: positive when p lies to the left of the line from a to b. *)
Definition left_of (a b p : pt) : R :=
  (fst b - fst a) * (snd p - snd a) - (snd b - snd a) * (fst p - fst a).
(** Counter-clockwise, without repeated vertices, every vertex strictly to the left
    of every edge it does not belong to. *)
Definition convex_polygon (verts : list pt) : Prop :=
  NoDup verts /\
  forall a b c, In (a, b) (edges verts) -> In c verts -> c <> a -> c <> b -> 0 < left_of a b c.
Definition inside (verts : list pt) (p : pt) : Prop :=
  verts <> [] /\ forall a b, In (a, b) (edges verts) -> 0 < left_of a b p.
Definition outside (verts : list pt) (p : pt) : Prop :=
  exists a b, In (a, b) (edges verts) /\ left_of a b p < 0.
(** The corners of a turned rectangle, counter-clockwise. *)
Definition corners (w h : R) (c : pt) (th : R) : list pt :=
  [turned c th (- w / 2) (- h / 2); turned c th (w / 2) (- h / 2);
   turned c th (w / 2) (h / 2); turned c th (- w / 2) (h / 2)].

(** ** Grids *)
(** The edge meets the horizontal line at height y. *)
Definition at_level (y : R) (e : pt * pt) : bool :=
  let '(a, b) := e in
  (if Rlt_dec (Rmin (snd a) (snd b)) y then true else false) &&
  (if Rle_dec y (Rmax (snd a) (snd b)) then true else false).
(** Number of edges met by the open horizontal half-line to the left of (x, y). *)
Definition left_count (verts : list pt) (y x : R) : nat :=
  length (filter (fun e => at_level y e && if Rlt_dec (abscissa (fst e) (snd e) y) x then true else false)
                 (edges verts)).
(** Ascending columns, at most one more edge to the left at each step. *)
Fixpoint fine_row (verts : list pt) (y : R) (k : nat) (xs : list R) : Prop :=
  match xs with
  | [] => True
  | x :: r => (left_count verts y x <= S k)%nat /\ fine_row verts y (left_count verts y x) r
  end.
Fixpoint ascending (xs : list R) : Prop :=
  match xs with
  | [] => True
  | x :: r => (forall x', In x' r -> x <= x') /\ ascending r
  end.
(** A vertex list that returns to its first vertex. *)
Definition closed_list (v : pt) (l : list pt) : list pt := v :: l ++ [v].
