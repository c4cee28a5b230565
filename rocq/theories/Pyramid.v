(** The layout of the panels of the Zernike pyramid plot (batoid/plotUtils.py). *)
From Coq Require Import List ZArith Bool.
From Verif Require Import Num Optic.
Import ListNotations.
Local Open Scope Z_scope.

(** galsim.zernike.noll_to_zern (called at batoid/plotUtils.py:68, 69, 88, 103; not in the repository): the loop
    that subtracts 1, 2, 3, … from j - 1 until what is left fits in the row.  [fuel] bounds its turns. *)
Fixpoint noll_row (fuel : nat) (n j1 : Z) : Z * Z :=
  match fuel with
  | O => (n, j1)
  | S fuel => if n <? j1 then noll_row fuel (n + 1) (j1 - (n + 1)) else (n, j1)
  end.
(** The radial order and the azimuthal index of the Zernike polynomial number [j]; ValueError for j < 1. *)
Definition noll_to_zern (j : Z) : res (Z * Z) :=
  if j <? 1 then Err ValueError else
  let (n, k) := noll_row (Z.to_nat j) 0 (j - 1) in
  let m := n mod 2 + 2 * ((k + (n + 1) mod 2) / 2) in
  Ok (n, if Z.even j then m else - m).

Section Pyramid.
  Context {T : Type} {NT : Num T}.
  Local Open Scope num_scope.

  (** A panel: its Zernike index, its cell, its left edge when the figure is returned and its colour limits. *)
  Record panel := Panel { p_j : Z; p_row : Z; p_col : Z; p_x : T; p_min : T; p_max : T }.

  (** The cell of a panel (batoid/plotUtils.py:88-92). *)
  Definition cell (nmin nmax n m : Z) : Z * Z :=
    let ncol := (nmax + 1)%Z in
    if (n mod 2 =? 0)%Z then ((n - nmin)%Z, (m / 2 + ncol / 2)%Z)
    else ((n - nmin)%Z, ((m - 1) / 2 + ncol / 2)%Z).
  (** To which side a panel moves: membership of shiftRight, shiftLeft (batoid/plotUtils.py:96-99). *)
  Definition moves (nmax n : Z) : Z :=
    if ((nmax mod 2 =? 0) && ((nmax - n) mod 2 =? 1))%Z%bool then 1%Z
    else if ((nmax mod 2 =? 1) && ((nmax - n) mod 2 =? 1))%Z%bool then (-1)%Z else 0%Z.
  (** matplotlib's grid (GridSpec, tight_layout): columns of equal width, [left] the left edge of the first.
      This stands for what matplotlib computes; it is not code of the repository. *)
  Definition column_x (left width : T) (col : Z) : T := left + nofZ col * width.
  (** ax.get_position().x0 shifted by [amt] to a side (batoid/plotUtils.py:75-80, 131-132). *)
  Definition shifted (side : Z) (x amt : T) : T :=
    if (side =? 1)%Z then x + amt else if (side =? -1)%Z then x + (- amt) else x.

  (** The loop over the indices (batoid/plotUtils.py:87-99): the dict axes, as the list of its items; a cell
      outside the grid raises IndexError (matplotlib wraps some negative indices; [cells] shows that no cell
      is outside). *)
  Fixpoint place (nmin nmax : Z) (js : list Z) : res (list (Z * (Z * Z) * (Z * Z))) :=
    match js with
    | [] => Ok []
    | j :: js =>
        do nm <- noll_to_zern j;
        let rc := cell nmin nmax (fst nm) (snd nm) in
        if ((0 <=? fst rc) && (fst rc <? nmax - nmin + 1) && (0 <=? snd rc) && (snd rc <? nmax + 1))%Z%bool
        then do rest <- place nmin nmax js; Ok ((j, nm, rc) :: rest)
        else Err IndexError
    end.
  (** The colour limits (batoid/plotUtils.py:102-110): with vdim they are divided by the radial order, a Python int. *)
  Definition limits (vdim : bool) (vmin vmax : T) (n : Z) : res (T * T) :=
    if vdim then if (n =? 0)%Z then Err ZeroDivisionError else Ok (vmin / nofZ n, vmax / nofZ n)
    else Ok (vmin, vmax).
  Fixpoint paint (vdim : bool) (vmin vmax : T) (axes : list (Z * (Z * Z) * (Z * Z))) : res (list (T * T)) :=
    match axes with
    | [] => Ok []
    | (_, (n, _), _) :: axes =>
        do l <- limits vdim vmin vmax n; do rest <- paint vdim vmin vmax axes; Ok (l :: rest)
    end.
  (** axes[j]: KeyError if it is missing. *)
  Definition axis (axes : list (Z * (Z * Z) * (Z * Z))) (j : Z) : res (Z * Z) :=
    match find (fun a => (fst (fst a) =? j)%Z) axes with Some a => Ok (snd a) | None => Err KeyError end.

  (** zernikePyramid (batoid/plotUtils.py:20-137) with title None: [nz] is zs.shape[0].  The scatter plots,
      colour bars, callback and file are left out; a title raises DeprecationWarning (line 119). *)
  Definition zernikePyramid (left width : T) (nz jmin : Z) (vmin vmax : T) (vdim : bool) : res (list panel) :=
    let jmax := (nz + jmin - 1)%Z in
    do nmmax <- noll_to_zern jmax;
    do nmmin <- noll_to_zern jmin;
    let nmax := fst nmmax in
    let nmin := fst nmmin in
    if (nmax - nmin + 1 <? 1)%Z then Err ValueError else   (* GridSpec(nrow, ncol) *)
    do axes <- place nmin nmax (map (fun k => jmin + Z.of_nat k)%Z (seq 0 (Z.to_nat nz)));
    do cols <- paint vdim vmin vmax axes;
    do a4 <- axis axes 4;
    do a5 <- axis axes 5;
    let amt := nfrac 1 2 * (column_x left width (snd a4) - column_x left width (snd a5)) in
    Ok (map (fun ac : (Z * (Z * Z) * (Z * Z)) * (T * T) =>
               let '((j, (n, _), (row, col)), (lo, hi)) := ac in
               Panel j row col (shifted (moves nmax n) (column_x left width col) amt) lo hi)
            (combine axes cols)).
End Pyramid.
Arguments panel T : clear implicits.
