(** Specification vocabulary for surfaces: slopes, polynomials, conics. *)
From Coq Require Import Reals List.
From Verif Require Import Num NumR Vec Surface Spec.
Import ListNotations.
Open Scope R_scope.

(** A surface with real parameters, as the program sees it. *)
Definition Ftab (tb : table R) : table XR :=
  Tab (Fin (tb_x0 tb)) (Fin (tb_y0 tb)) (Fin (tb_dx tb)) (Fin (tb_dy tb)) (tb_nx tb) (tb_ny tb)
      (map Fin (tb_z tb)) (map Fin (tb_dzdx tb)) (map Fin (tb_dzdy tb)) (map Fin (tb_d2 tb)) (tb_use_nan tb).
Fixpoint Fsurf (s : surface R) : surface XR :=
  match s with
  | Plane => Plane
  | Tilted tx ty => Tilted (Fin tx) (Fin ty)
  | Sphere rad => Sphere (Fin rad)
  | Paraboloid rad => Paraboloid (Fin rad)
  | Quadric rad k => Quadric (Fin rad) (Fin k)
  | Asphere rad k cs => Asphere (Fin rad) (Fin k) (map Fin cs)
  | Poly cs gx gy x0 y0 xs ys => Poly (map Fin cs) (map Fin gx) (map Fin gy) (Fin x0) (Fin y0) xs ys
  | Bicubic tb => Bicubic (Ftab tb)
  | Sum l => Sum (map Fsurf l)
  end.

(** sum of f 0 .. f (n-1) *)
Fixpoint sumn (n : nat) (f : nat -> R) : R :=
  match n with O => 0 | S k => sumn k f + f k end.
(** sum of a list *)
Definition sumR (l : list R) : R := fold_right Rplus 0 l.

(** Along the direction (ex, ey) the published sag is real near (x, y) and has
    derivative d there. *)
Definition sag_slope (s : surface XR) (x y ex ey d : R) : Prop :=
  exists f delta, 0 < delta /\
    (forall t, Rabs t < delta -> sag s (Fin (x + t * ex)) (Fin (y + t * ey)) = Fin (f t)) /\
    derivable_pt_lim f 0 d.

(** Along the curve (X, Y) the published sag is real near parameter 0 and has
    derivative d there. *)
Definition sag_curve (s : surface XR) (X Y : R -> R) (d : R) : Prop :=
  exists f delta, 0 < delta /\
    (forall t, Rabs t < delta -> sag s (Fin (X t)) (Fin (Y t)) = Fin (f t)) /\
    derivable_pt_lim f 0 d.

(** Entry (i, j) of an n by n array stored by rows. *)
Definition entry (n : nat) (a : list R) (i j : nat) : R := nth (i * n + j) a 0.
(** The polynomial with coefficient a[i,j] at x^i y^j. *)
Definition poly2 (n : nat) (a : list R) (x y : R) : R :=
  sumn n (fun i => sumn n (fun j => entry n a i j * x ^ i * y ^ j)).
(** gx and gy hold the coefficients of the partial derivatives, in arrays one row and
    one column smaller; the entries that do not fit are zero (true of every
    polynomial of total degree below n, in particular of Zernike polynomials). *)
Definition derivative_arrays (n : nat) (a gx gy : list R) : Prop :=
  length a = (n * n)%nat /\ length gx = ((n - 1) * (n - 1))%nat /\ length gy = ((n - 1) * (n - 1))%nat /\
  (forall i j, (i < n - 1)%nat -> (j < n - 1)%nat ->
     entry (n - 1) gx i j = INR (S i) * entry n a (S i) j /\
     entry (n - 1) gy i j = INR (S j) * entry n a i (S j)) /\
  (forall i, (0 < i < n)%nat -> entry n a i (n - 1) = 0 /\ entry n a (n - 1) i = 0).

(** The conic of revolution with vertex radius rad and conic constant k, as a function
    of r^2. *)
Definition conicR (rad k r2 : R) : R := r2 / (rad * (1 + sqrt (1 - (1 + k) * r2 / (rad * rad)))).

(** Surfaces whose normal is claimed to be right: everything except a Tilted plane
    (see C15_tilted_refuted) and a Bicubic (see C19). *)
Fixpoint smooth (s : surface R) : Prop :=
  match s with
  | Tilted _ _ | Bicubic _ => False
  | Poly a gx gy _ _ xs ys => xs = ys /\ (0 < xs)%nat /\ derivative_arrays xs a gx gy
  | Sum l => fold_right (fun s P => smooth s /\ P) True l
  | _ => True
  end.

(** ** Hermite interpolation on a grid *)
(** The tent function, and the two C1 cardinal functions of cubic Hermite
    interpolation on the integers: [herm] has value 1 at 0, [slop] has slope 1 at 0;
    value and slope vanish at every other integer. *)
Definition tent (t : R) : R := Rmax 0 (1 - Rabs t).
Definition herm (t : R) : R := tent t * tent t * (1 + 2 * Rabs t).
Definition slop (t : R) : R := t * (tent t * tent t).
Definition herm' (t : R) : R := -6 * t * tent t.
Definition slop' (t : R) : R := tent t * (1 - 3 * Rabs t).

(** Entry of a table array: column i, row j. *)
Definition tabat (tb : table R) (l : list R) (i j : nat) : R := nth (tb_nx tb * j + i) l 0.
(** Sum over the grid of the four arrays against cardinal functions a, b in x and
    c, d in y. *)
Definition hsum (tb : table R) (a b c d : R -> R) (u v : R) : R :=
  sumn (tb_ny tb) (fun j => sumn (tb_nx tb) (fun i =>
    tabat tb (tb_z tb) i j * a (u - INR i) * c (v - INR j)
    + tabat tb (tb_dzdx tb) i j * tb_dx tb * b (u - INR i) * c (v - INR j)
    + tabat tb (tb_dzdy tb) i j * tb_dy tb * a (u - INR i) * d (v - INR j)
    + tabat tb (tb_d2 tb) i j * tb_dx tb * tb_dy tb * b (u - INR i) * d (v - INR j))).
(** Grid coordinates of a point; the interpolant and its two partial derivatives. *)
Definition gu (tb : table R) (x : R) : R := (x - tb_x0 tb) / tb_dx tb.
Definition gv (tb : table R) (y : R) : R := (y - tb_y0 tb) / tb_dy tb.
Definition interp (tb : table R) (x y : R) : R := hsum tb herm slop herm slop (gu tb x) (gv tb y).
Definition interp_x (tb : table R) (x y : R) : R := hsum tb herm' slop' herm slop (gu tb x) (gv tb y) / tb_dx tb.
Definition interp_y (tb : table R) (x y : R) : R := hsum tb herm slop herm' slop' (gu tb x) (gv tb y) / tb_dy tb.

(** A table whose arrays have the stated shape, on a grid with non-zero spacing. *)
Definition good_table (tb : table R) : Prop :=
  tb_dx tb <> 0 /\ tb_dy tb <> 0 /\
  length (tb_z tb) = (tb_nx tb * tb_ny tb)%nat /\ length (tb_dzdx tb) = (tb_nx tb * tb_ny tb)%nat /\
  length (tb_dzdy tb) = (tb_nx tb * tb_ny tb)%nat /\ length (tb_d2 tb) = (tb_nx tb * tb_ny tb)%nat.
(** Inside the grid: the last row and column are excluded, as in the code. *)
Definition in_grid (tb : table R) (x y : R) : Prop :=
  0 <= gu tb x /\ gu tb x < INR (tb_nx tb) - 1 /\ 0 <= gv tb y /\ gv tb y < INR (tb_ny tb) - 1.
Definition within_grid (tb : table R) (x y : R) : Prop :=
  0 < gu tb x /\ gu tb x < INR (tb_nx tb) - 1 /\ 0 < gv tb y /\ gv tb y < INR (tb_ny tb) - 1.
(** Joint continuity at a point. *)
Definition cont2 (f : R -> R -> R) (x y : R) : Prop :=
  forall eps, 0 < eps -> exists delta, 0 < delta /\
    forall a b, Rabs (a - x) < delta -> Rabs (b - y) < delta -> Rabs (f a b - f x y) < eps.

(** Equally spaced abscissae, and a grid of samples of a function (rows of constant y). *)
Definition spaced (x0 h : R) (n : nat) : list R := map (fun i => x0 + INR i * h) (seq 0 n).
Definition samples (f : R -> R -> R) (xs ys : list R) : list R := flat_map (fun y => map (fun x => f x y) xs) ys.

(** Points where every part of a surface has a slope. *)
Fixpoint regular (s : surface R) (x y : R) : Prop :=
  match s with
  | Sphere rad => rad = 0 \/ x * x + y * y < rad * rad
  | Quadric rad k | Asphere rad k _ => rad = 0 \/ (1 + k) * (x * x + y * y) < rad * rad
  | Sum l => fold_right (fun s P => regular s x y /\ P) True l
  | _ => True
  end.
(** The documented asphere. *)
Definition aspheric (rad k : R) (coefs : list R) (imin : nat) (x y : R) : R :=
  conicR rad k (x * x + y * y) +
  sumn (length coefs) (fun i => nth i coefs 0 * sqrt (x * x + y * y) ^ (2 * (i + imin))).
