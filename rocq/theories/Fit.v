(** batoid/analysis.py: the functions that fit Zernike polynomials to wavefronts and to ray
    aberrations, and double Zernike coefficients.

    Parameters: np.linalg.lstsq, as the function from the rows of the matrix and the right hand
    side to the solution and the rank (or the exception); galsim's zernikeBasis and the gradient
    of one Zernike polynomial, gradX and gradY of galsim.zernike.Zernike; leggauss.
    Simplifications: as in Analysis.v; jmax, kmax, rings and spokes are natural numbers, rings
    not 0. *)
From Coq Require Import List ZArith Bool String.
From Verif Require Import Num Vec CoordSys Surface Medium Ray Bundle Trig Optic Arrays Field RayGen Wave Analysis.
Import ListNotations.

Section Fit.
  Context {T : Type} {NT : Num T} {TT : Trig T} (niter : nat).
  Local Open Scope num_scope.

  (** B.T of an array with k columns. *)
  Definition columns (k : nat) (m : list (list T)) : list (list T) :=
    map (fun i => map (fun row => nth i row n0) m) (seq 0 k).
  (** coefs[0] = 0.0 *)
  Definition zero_first (l : list T) : res (list T) :=
    match l with [] => Err IndexError | _ :: l => Ok (n0 :: l) end.
  (** The points where the rays meet the stop surface (544-547, 774-777, 873-876). *)
  Definition stop_points_of (stop : surface T * coordsys T) (rv : rayvec T) : list (T * T) :=
    map (fun r => (cx (pos r), cy (pos r)))
        (rays (rv_intersect niter (fst stop) None None (rv_toCoordSys (snd stop) rv))).

  (** zernike (batoid/analysis.py:477-565). *)
  Definition zernike (lstsq : list (list T) -> list T -> res (list T * nat))
      (basis : nat -> list (T * T) -> T -> T -> list (list T)) (tel : telescope T) (tx ty w : T)
      (projection : string) (nx : nat) (sphereRadius : option T) (reference : string)
      (jmax : nat) (eps : T) : res (list T) :=
    do d <- fieldToDirCos tx ty projection;
    do rv <- asGrid (generator tel w d) (Some (Z.of_nat nx)) None None None None None n1 None;
    do stop <- need_attr None (oa_stop (tl_attr tel));
    let pts := stop_points_of stop rv in
    do wf <- wavefront niter tel tx ty w projection nx sphereRadius reference;
    let mask := map (fun e => negb (snd e)) (l_array _ wf) in
    do pupil <- need_attr None (oa_pupil (tl_attr tel));
    let pts := select pts mask in
    let b := basis jmax pts (pupil / n2) (pupil / n2 * eps) in
    do (coefs, rank) <- lstsq (columns (List.length pts) b) (select (map fst (l_array _ wf)) mask);
    if (rank <? jmax)%nat then Err RuntimeError else zero_first coefs.

  (** _dZernikeBasis (707-717): the arrays of x and of y derivatives, one row for each j from 0
      to jmax.  [zgrad j p outer inner]: Zernike([0]*j+[1], outer, inner).gradX and .gradY at p. *)
  Definition dZernikeBasis (zgrad : nat -> T * T -> T -> T -> T * T) (jmax : nat) (pts : list (T * T))
      (outer inner : T) : list (list T) * list (list T) :=
    let out (f : T * T -> T) :=
      map (fun j => map (fun p => if (j <? 2)%nat then n0 else f (zgrad j p outer inner)) pts) (seq 0 (jmax + 1)) in
    (out fst, out snd).
  (** The rays of zernikeTA (766-777) and zernikeXYAberrations (865-876): points of the stop
      surface, the traced bundle, and the point that positions are measured from. *)
  Definition aberrations (tel : telescope T) (tx ty w : T) (projection : string) (nrad : nat) (naz : Z)
      (reference : string) : res (list (T * T) * rayvec T * vec3 T) :=
    do d <- fieldToDirCos tx ty projection;
    do rv <- asPolar (generator tel w d) None None nrad naz 6 n1 None;
    do stop <- need_attr None (oa_stop (tl_attr tel));
    let pts := stop_points_of stop rv in
    let rv := trace niter (tl_optic tel) false rv in
    do point <- (if String.eqb reference "mean" then Ok (mean3 (select (map pos (rays rv)) (lit rv)))
                 else if String.eqb reference "chief" then
                   do ch <- fromStop (generator tel w d) n1 [(n0, n0)];
                   match rays (trace niter (tl_optic tel) false ch) with r :: _ => Ok (pos r) | [] => Err IndexError end
                 else Err NameError);
    Ok (pts, rv, point).
  (** zernikeTA (720-814). *)
  Definition zernikeTA (lstsq : list (list T) -> list T -> res (list T * nat))
      (zgrad : nat -> T * T -> T -> T -> T * T) (tel : telescope T) (tx ty w : T)
      (projection : string) (nrad : nat) (naz : Z) (reference : string)
      (jmax : nat) (eps : T) (focal_length : option T) : res (list T) :=
    do (pts, rv, point) <- aberrations tel tx ty w projection nrad naz reference;
    let x := map (fun r => cx (pos r) - cx point) (rays rv) in
    let y := map (fun r => cy (pos r) - cy point) (rays rv) in
    do f <- match focal_length with
            | Some f => Ok f
            | None => do (a, b, c, d) <- drdth niter tel tx ty w 6 36 projection; Ok (nsqrt (a * d - b * c))
            end;
    do pupil <- need_attr None (oa_pupil (tl_attr tel));
    let pts := select pts (lit rv) in
    let (dx, dy) := dZernikeBasis zgrad jmax pts (pupil / n2) (eps * pupil / n2) in
    let k := List.length pts in
    do (r, rank) <- lstsq (columns k dx ++ columns k dy) (select x (lit rv) ++ select y (lit rv));
    if (rank <? jmax - 1)%nat then Err RuntimeError
    else do r <- zero_first r; Ok (map (fun a => - a / f / w) r).
  (** zernikeXYAberrations (817-906). *)
  Definition zernikeXYAberrations (lstsq : list (list T) -> list T -> res (list T * nat))
      (basis : nat -> list (T * T) -> T -> T -> list (list T)) (tel : telescope T) (tx ty w : T)
      (projection : string) (nrad : nat) (naz : Z) (reference : string)
      (jmax : nat) (eps : T) (include_vignetted : bool) : res (list T * list T) :=
    do (pts, rv, point) <- aberrations tel tx ty w projection nrad naz reference;
    let x := map (fun r => cx (pos r) - cx point) (rays rv) in
    let y := map (fun r => cy (pos r) - cy point) (rays rv) in
    let keep {A} (l : list A) := if include_vignetted then l else select l (lit rv) in
    do pupil <- need_attr None (oa_pupil (tl_attr tel));
    let b := columns (List.length (keep pts)) (basis jmax (keep pts) (pupil / n2) (pupil / n2 * eps)) in
    do (xc, xrank) <- lstsq b (keep x);
    do (yc, yrank) <- lstsq b (keep y);
    if (Nat.min xrank yrank <? jmax)%nat then Err RuntimeError
    else do xc <- zero_first xc; do yc <- zero_first yc; Ok (xc, yc).

  (** doubleZernike (909-974).  An integer 0 for spokes divides by zero. *)
  Definition doubleZernike (leggauss : nat -> list (T * T))
      (basis : nat -> list (T * T) -> T -> T -> list (list T)) (tel : telescope T) (field w : T)
      (rings : nat) (spokes : option nat) (kmax : nat)
      (projection : string) (sphereRadius : option T) (reference : string) (jmax : nat) (eps : T)
      : res (list (list T)) :=
    let spokes := or_else spokes (2 * rings + 1)%nat in
    let Lw := leggauss rings in
    let radii := map (fun lw => nsqrt ((n1 + fst lw) / n2) * field) Lw in
    if (spokes =? 0)%nat then Err ZeroDivisionError else
    let weights := map (fun lw => snd lw * (npi / nofZ (Z.of_nat (2 * spokes)))) Lw in
    let azs := linspace n0 (n2 * npi) spokes false in
    let thetas := map polar_xy (meshgrid radii azs) in
    let ws := map fst (meshgrid weights azs) in
    do coefs <- all_ok (fun th => zernikeGQ niter leggauss basis tel (fst th) (snd th) w projection rings (Some spokes)
                                    sphereRadius reference jmax eps) thetas;
    let b := basis kmax thetas field n0 in
    let weighted := map (fun cw => map (fun c => c * snd cw) (fst cw)) (combine coefs ws) in
    Ok (map (fun row => map (fun j => ndot row (map (fun c => nth j c n0) weighted) / npi)
                            (seq 0 (List.length (hd [] coefs)))) b).
End Fit.
