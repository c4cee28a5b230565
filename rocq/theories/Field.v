(** Field-angle projections, hexapolar grids (batoid/utils.py), lattices
    (batoid/lattice.py) and two helpers of batoid/analysis.py. *)
From Coq Require Import List ZArith Bool String.
From Verif Require Import Num Vec Ray Trig Optic.
Import ListNotations.

Section Field.
  Context {T : Type} {NT : Num T} {TT : Trig T}.
  Local Open Scope num_scope.

  (** The projections take scalars here.  For arrays the code computes the same
      expressions element by element and then overwrites the entries where
      [wZero] holds with the values the scalar branch returns. *)
  (** gnomonicToDirCos (batoid/utils.py:40-44). *)
  Definition gnomonicToDirCos (u v : T) : T * T * T :=
    let gamma := n1 / nsqrt (n1 + u * u + v * v) in
    (u * gamma, v * gamma, - gamma).
  (** dirCosToGnomonic (batoid/utils.py:66-69). *)
  Definition dirCosToGnomonic (alpha beta gamma : T) : T * T := (- alpha / gamma, - beta / gamma).
  (** postelToDirCos (batoid/utils.py:92-109). *)
  Definition postelToDirCos (u v : T) : T * T * T :=
    let rho := nsqrt (u * u + v * v) in
    if rho =? n0 then (n0, n0, nofZ (-1)) else
    let srho := nsin rho in
    (u / rho * srho, v / rho * srho, - ncos rho).
  (** dirCosToPostel (batoid/utils.py:132-146). *)
  Definition dirCosToPostel (alpha beta gamma : T) : T * T :=
    if gamma =? nofZ (-1) then (n0, n0) else
    let rho := nacos (- gamma) in
    let srho := nsin rho in
    (alpha * rho / srho, beta * rho / srho).
  (** zemaxToDirCos (batoid/utils.py:172-175). *)
  Definition zemaxToDirCos (u v : T) : T * T * T :=
    let tanu := ntan u in
    let tanv := ntan v in
    let norm := nsqrt (n1 + tanu * tanu + tanv * tanv) in
    (tanu / norm, tanv / norm, nofZ (-1) / norm).
  (** dirCosToZemax (batoid/utils.py:202). *)
  Definition dirCosToZemax (alpha beta gamma : T) : T * T := (natan (- alpha / gamma), natan (- beta / gamma)).
  (** stereographicToDirCos (batoid/utils.py:224-241). *)
  Definition stereographicToDirCos (u v : T) : T * T * T :=
    let rho := nsqrt (u * u + v * v) in
    if rho =? n0 then (n0, n0, nofZ (-1)) else
    let theta := n2 * natan (rho / n2) in
    let stheta := nsin theta in
    (u / rho * stheta, v / rho * stheta, - ncos theta).
  (** dirCosToStereographic (batoid/utils.py:263-278). *)
  Definition dirCosToStereographic (alpha beta gamma : T) : T * T :=
    if gamma =? nofZ (-1) then (n0, n0) else
    let theta := nacos (- gamma) in
    let rho := n2 * ntan (theta / n2) in
    let stheta := nsin theta in
    (alpha * rho / stheta, beta * rho / stheta).
  (** orthographicToDirCos (batoid/utils.py:300-305). *)
  Definition orthographicToDirCos (u v : T) : T * T * T :=
    let rho := nsqrt (u * u + v * v) in
    let theta := nasin rho in
    (u, v, - ncos theta).
  (** dirCosToOrthographic (batoid/utils.py:327-329). *)
  Definition dirCosToOrthographic (alpha beta gamma : T) : T * T := (alpha, beta).
  (** lambertToDirCos (batoid/utils.py:352-369). *)
  Definition lambertToDirCos (u v : T) : T * T * T :=
    let rhosqr := u * u + v * v in
    if rhosqr =? n0 then (n0, n0, nofZ (-1)) else
    let rho := nsqrt rhosqr in
    let gamma := (n2 - rhosqr) / n2 in
    let r := nsqrt (n1 - gamma * gamma) in
    (u * r / rho, v * r / rho, - gamma).
  (** dirCosToLambert (batoid/utils.py:392-406). *)
  Definition dirCosToLambert (alpha beta gamma : T) : T * T :=
    if gamma =? nofZ (-1) then (n0, n0) else
    let rho := nsqrt (n2 + n2 * gamma) in
    let norm := nsqrt (n1 - gamma * gamma) in
    (alpha * rho / norm, beta * rho / norm).
  (** fieldToDirCos (batoid/utils.py:430-443). *)
  Definition fieldToDirCos (u v : T) (projection : string) : res (T * T * T) :=
    if (projection =? "postel")%string then Ok (postelToDirCos u v)
    else if (projection =? "zemax")%string then Ok (zemaxToDirCos u v)
    else if (projection =? "gnomonic")%string then Ok (gnomonicToDirCos u v)
    else if (projection =? "stereographic")%string then Ok (stereographicToDirCos u v)
    else if (projection =? "lambert")%string then Ok (lambertToDirCos u v)
    else if (projection =? "orthographic")%string then Ok (orthographicToDirCos u v)
    else Err ValueError.
  (** dirCosToField (batoid/utils.py:467-480). *)
  Definition dirCosToField (alpha beta gamma : T) (projection : string) : res (T * T) :=
    if (projection =? "postel")%string then Ok (dirCosToPostel alpha beta gamma)
    else if (projection =? "zemax")%string then Ok (dirCosToZemax alpha beta gamma)
    else if (projection =? "gnomonic")%string then Ok (dirCosToGnomonic alpha beta gamma)
    else if (projection =? "stereographic")%string then Ok (dirCosToStereographic alpha beta gamma)
    else if (projection =? "lambert")%string then Ok (dirCosToLambert alpha beta gamma)
    else if (projection =? "orthographic")%string then Ok (dirCosToOrthographic alpha beta gamma)
    else Err ValueError.

  (** np.linspace (numpy): [i * step + start], with the last entry replaced by
      [stop] when endpoint is set. *)
  Definition linspace_at (start delta : T) (div : nat) (i : nat) : T :=
    match div with
    | O => nofZ (Z.of_nat i) * delta + start
    | S _ =>
        let step := delta / nofZ (Z.of_nat div) in
        if step =? n0 then nofZ (Z.of_nat i) / nofZ (Z.of_nat div) * delta + start
        else nofZ (Z.of_nat i) * step + start
    end.
  Definition linspace (start stop : T) (num : nat) (endpoint : bool) : list T :=
    let delta := stop - start in
    let div := if endpoint then (num - 1)%nat else num in
    map (fun i => if endpoint && (1 <? num)%nat && (i =? num - 1)%nat then stop
                  else linspace_at start delta div i) (seq 0 num).
  (** The number of points on a ring (batoid/utils.py:514-518).  Simplification:
      Python's [a // b] on floats is the floor of the quotient.  None: int() of a
      NaN or infinity, an exception. *)
  Definition ring_count (outer rho : T) (naz kfold : Z) : option Z :=
    match nfloor ((nofZ naz * rho / outer) / nofZ kfold) with
    | None => None
    | Some k => let nphi := (k * kfold)%Z in Some (if (nphi =? 0)%Z then kfold else nphi)
    end.
  (** The whole list, [nphis[-1] = 1] when inner is 0 (batoid/utils.py:512-520). *)
  Fixpoint ring_counts (outer : T) (rhos : list T) (naz kfold : Z) : option (list Z) :=
    match rhos with
    | [] => Some []
    | rho :: rhos =>
        match ring_count outer rho naz kfold, ring_counts outer rhos naz kfold with
        | Some c, Some cs => Some (c :: cs)
        | _, _ => None
        end
    end.
  Definition set_last {A} (a : A) (l : list A) : list A := removelast l ++ [a].
  (** hexapolar with rth=True (batoid/utils.py:512-533), as a list of (rr, th).
      Simplification: consecutive slices of the output arrays are appended lists.  A
      ring count that is negative or not a number raises ValueError; nrad = 0 raises
      IndexError (inner = 0) or TypeError, here one error. *)
  Definition ring (rho : T) (nphi : Z) : list (T * T) :=
    map (fun th => (rho, th)) (linspace n0 (n2 * npi) (Z.to_nat nphi) false).
  Definition hexapolar_rth (outer inner : T) (nrad : nat) (naz kfold : Z) : res (list (T * T)) :=
    let rhos := linspace outer inner nrad true in
    match ring_counts outer rhos naz kfold with
    | None => Err ValueError
    | Some nphis =>
        match rhos with
        | [] => Err IndexError
        | _ =>
            let nphis := if inner =? n0 then set_last 1%Z nphis else nphis in
            if forallb (fun c => (0 <=? c)%Z) nphis then
              let pts := flat_map (fun rc => ring (fst rc) (snd rc)) (combine rhos nphis) in
              Ok (if inner =? n0 then set_last (n0, n0) pts else pts)
            else Err ValueError
        end
    end.
  (** hexapolar (batoid/utils.py:534-535): x, y. *)
  Definition polar_xy (p : T * T) : T * T := let '(rr, th) := p in (rr * ncos th, rr * nsin th).
  Definition hexapolar (outer inner : T) (nrad : nat) (naz kfold : Z) : res (list (T * T)) :=
    do pts <- hexapolar_rth outer inner nrad naz kfold; Ok (map polar_xy pts).

  (** _reciprocalLatticeVectors (batoid/analysis.py:8-12). *)
  Definition reciprocalLatticeVectors (a1 a2 : T * T) (N : T) : (T * T) * (T * T) :=
    let norm := n2 * npi / (fst a1 * snd a2 - snd a1 * fst a2) / N in
    ((norm * snd a2, norm * fst a2), (norm * snd a1, norm * fst a1)).
  (** _closestApproach (batoid/analysis.py:977-1003). *)
  Definition closestApproach (P u Q v : vec3 T) : res (vec3 T) :=
    let a := dot3 u u in
    let b := dot3 u v in
    let c := dot3 v v in
    let w0 := vsub P Q in
    let d := dot3 u w0 in
    let e := dot3 v w0 in
    let den := a * c - b * b in
    if den =? n0 then Err ValueError
    else let sc := (b * e - c * d) / den in
         Ok (vadd P (V3 (sc * cx u) (sc * cy u) (sc * cz u))).
End Field.

(** *** Lattice (batoid/lattice.py) *)
Section Lattice.
  Context {T : Type} {NT : Num T}.
  Local Open Scope num_scope.

  (** np.arange(-(N//2), -(-N//2)) (batoid/lattice.py:12). *)
  Definition arangeZ (lo hi : Z) : list Z := map (fun k => (lo + Z.of_nat k)%Z) (seq 0 (Z.to_nat (hi - lo))).
  Definition lattice_axis (N : nat) : list Z :=
    arangeZ (- (Z.of_nat N / 2)) (- (- Z.of_nat N / 2)).
  (** np.meshgrid(..., indexing='ij') followed by moveaxis (batoid/lattice.py:13-14): the
      integer vectors in row-major order. *)
  Fixpoint mesh (axes : list (list Z)) : list (list Z) :=
    match axes with
    | [] => [[]]
    | ax :: axes => flat_map (fun k => map (cons k) (mesh axes)) ax
    end.
  (** One row of np.matmul with the primitive vectors (batoid/lattice.py:14): component j
      is the sum over d of k_d * primitiveVectors[d][j]. *)
  Definition scale_row (k : Z) (row : list T) : list T := map (fun a => nofZ k * a) row.
  Fixpoint add_rows (a b : list T) : list T :=
    match a, b with x :: a, y :: b => (x + y) :: add_rows a b | _, _ => [] end.
  Definition matmul_row (dim : nat) (ks : list Z) (pv : list (list T)) : list T :=
    fold_left (fun acc p => add_rows acc (scale_row (fst p) (snd p))) (combine ks pv) (repeat n0 dim).
  (** primitiveToLattice (batoid/lattice.py:6-14), row-major. *)
  Definition primitiveToLattice (pv : list (list T)) (Ns : list nat) : list (list T) :=
    map (fun ks => matmul_row (List.length (hd [] pv)) ks pv) (mesh (map lattice_axis Ns)).
  (** Lattice: the array, kept as its shape and its row-major elements, with its
      primitive vectors (batoid/lattice.py:50-61). *)
  Record lattice A := Lat { l_shape : list nat; l_array : list A; l_pv : list (list T) }.
  Definition mkLattice {A} (shape : list nat) (array : list A) (pv : list (list T)) : res (lattice A) :=
    if negb (List.length shape =? List.length pv)%nat then Err ValueError
    else if negb (List.length shape =? List.length (hd [] pv))%nat then Err ValueError
    else Ok (Lat A shape array pv).
  (** Lattice.coords (batoid/lattice.py:63-65). *)
  Definition coords {A} (l : lattice A) : list (list T) := primitiveToLattice (l_pv A l) (l_shape A l).
End Lattice.
