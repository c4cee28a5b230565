(** batoid/analysis.py: spots, wavefronts, point-spread functions, Jacobians, the exit pupil.

    Simplifications.  nx, nxOut, pad_factor, nrad are natural numbers; naz is an integer.  Sums
    and means of numpy are taken from left to right.  np.fft.fft2 is the defining double sum.
    np.linalg.lstsq, galsim's zernikeBasis and leggauss are parameters.  zernike,
    zernikeTA, zernikeXYAberrations and doubleZernike are in Fit.v. *)
From Coq Require Import List ZArith Bool String.
From Verif Require Import Num Vec CoordSys Surface Medium Ray Bundle Trig Optic Arrays Field RayGen Wave.
Import ListNotations.

(** The argument [optic]: what is traced, the attributes the generators read, and sphereRadius. *)
Record telescope (T : Type) := Tel {
  tl_optic : optic T; tl_attr : oattr T; tl_radius : option T }.
Arguments Tel {T}. Arguments tl_optic {T}. Arguments tl_attr {T}. Arguments tl_radius {T}.

Section Analysis.
  Context {T : Type} {NT : Num T} {TT : Trig T} (niter : nat).
  Local Open Scope num_scope.

  (** np.sum, np.mean. *)
  Definition nsum (l : list T) : T := fold_left nadd l n0.
  Definition mean (l : list T) : T := nsum l / nofZ (Z.of_nat (List.length l)).
  (** np.mean(..., axis=0) of an (n, 3) array. *)
  Definition mean3 (l : list (vec3 T)) : vec3 T := V3 (mean (map cx l)) (mean (map cy l)) (mean (map cz l)).
  (** a[w] with a boolean array w. *)
  Definition select {A} (l : list A) (w : list bool) : list A := map fst (filter snd (combine l w)).
  (** ~rays.vignetted, also np.where(1-rays.vignetted)[0]. *)
  Definition lit (rv : rayvec T) : list bool := map (fun r => negb (vignetted r)) (rays rv).

  (** The grid of rays of huygensPSF (270-275, 286), wavefront (342-346, 350) and spot (393-398),
      and its trace. *)
  Definition generator (tel : telescope T) (w : T) (d : T * T * T) : gen T :=
    let '(a, b, c) := d in Gen (Some (tl_attr tel)) None None None None (Some w) (DirCos (V3 a b c)).
  Definition traced_grid (tel : telescope T) (tx ty w : T) (projection : string) (nx : nat)
      : res (rayvec T) :=
    do d <- fieldToDirCos tx ty projection;
    do rv <- asGrid (generator tel w d) (Some (Z.of_nat nx)) None None None None None n1 None;
    Ok (trace niter (tl_optic tel) false rv).
  (** cridx (291, 355, 403). *)
  Definition chief_index (nx : nat) : nat :=
    (if Nat.even nx then nx / 2 * nx + nx / 2 else (nx * nx - 1) / 2)%nat.
  (** point (287-292, 351-356); an unknown reference leaves the variable unbound. *)
  Definition reference_point (reference : string) (nx : nat) (rv : rayvec T) : res (vec3 T) :=
    if String.eqb reference "mean" then Ok (mean3 (select (map pos (rays rv)) (lit rv)))
    else if String.eqb reference "chief" then
      match nth_error (rays rv) (chief_index nx) with Some r => Ok (pos r) | None => Err IndexError end
    else Err NameError.

  (** spot (batoid/analysis.py:389-411).  An unknown reference is the origin here. *)
  Definition spot (tel : telescope T) (tx ty w : T) (projection : string) (nx : nat) (reference : string)
      : res (list T * list T) :=
    do rv <- traced_grid tel tx ty w projection nx;
    do point <- match reference_point reference nx rv with
                | Err NameError => Ok vzero
                | r => r
                end;
    let rv := rv_toCoordSys (shiftLocal (rvcs rv) point) rv in
    Ok (select (map (fun r => cx (pos r)) (rays rv)) (lit rv),
        select (map (fun r => cy (pos r)) (rays rv)) (lit rv)).

  (** The rays on the reference sphere (357-365, 683-691). *)
  Definition to_sphere (point : vec3 T) (radius : T) (rv : rayvec T) : rayvec T :=
    let target := shiftLocal (rvcs rv) (vadd point (V3 n0 n0 radius)) in
    rv_intersect niter (Sphere (- radius)) None None (rv_toCoordSys target rv).
  (** t0 (367-371). *)
  Definition reference_time (reference : string) (nx : nat) (rv : rayvec T) : res T :=
    if String.eqb reference "mean" then Ok (mean (select (map time (rays rv)) (lit rv)))
    else if String.eqb reference "chief" then
      match nth_error (rays rv) (chief_index nx) with Some r => Ok (time r) | None => Err IndexError end
    else Err NameError.
  (** primitiveU (238-247, 376-385): division by zero of Python numbers. *)
  Definition pupil_step (tel : telescope T) (nx : nat) : res T :=
    let d := (nx - (if Nat.even nx then 2 else 1))%nat in
    match oa_pupil (tl_attr tel), d with
    | None, _ => Err AttributeError
    | Some _, O => Err ZeroDivisionError
    | Some p, _ => Ok (p / nofZ (Z.of_nat d))
    end.
  Definition need_attr {A} (arg attr : option A) : res A :=
    match arg, attr with Some a, _ => Ok a | None, Some a => Ok a | None, None => Err AttributeError end.
  (** wavefront (batoid/analysis.py:306-386).  A masked array is the list of (value, mask). *)
  Definition wavefront (tel : telescope T) (tx ty w : T) (projection : string) (nx : nat)
      (sphereRadius : option T) (reference : string) : res (lattice (T:=T) (T * bool)) :=
    do d <- fieldToDirCos tx ty projection;
    do rv <- asGrid (generator tel w d) (Some (Z.of_nat nx)) None None None None None n1 None;
    do radius <- need_attr sphereRadius (tl_radius tel);
    let rv := trace niter (tl_optic tel) false rv in
    do point <- reference_point reference nx rv;
    let rv := to_sphere point radius rv in
    do t0 <- reference_time reference nx rv;
    let arr := map (fun r => ((t0 - time r) / w, vignetted r)) (rays rv) in
    do u <- pupil_step tel nx;
    mkLattice [nx; nx] arr [[u; n0]; [n0; u]].

  (** bilinear_fit (batoid/utils.py:9-18). *)
  Definition bilinear_fit (lstsq : list (list T) -> list (list T) -> list (list T))
      (u k : list (T * T)) : list (list T) :=
    lstsq (map (fun p => [n1; fst p; snd p]) u) (map (fun p => [fst p; snd p]) k).
  (** dkdu (batoid/analysis.py:15-54): a list of rows. *)
  Definition dkdu (lstsq : list (list T) -> list (list T) -> list (list T)) (tel : telescope T)
      (tx ty w : T) (nrad : nat) (naz : Z) (projection : string) : res (list (list T)) :=
    do rv <- asPolar (Gen (Some (tl_attr tel)) None None None None (Some w) (FieldAngle tx ty projection))
               None None nrad naz 6 n1 None;
    let u := map (fun r => (cx (pos r), cy (pos r))) (rays rv) in
    let rv := trace niter (tl_optic tel) false rv in
    let k := map (fun r => let k := ray_k r in (cx k, cy k)) (rays rv) in
    Ok (tl (bilinear_fit lstsq (select u (lit rv)) (select k (lit rv)))).
  (** A.dot(B) with B = [[u, 0], [0, u]]; rows of length 2. *)
  Definition dot_diag (m : list (list T)) (u : T) : list (list T) :=
    map (fun r => let a := nth 0 r n0 in let b := nth 1 r n0 in [a * u + b * n0; a * n0 + b * u]) m.
  Definition pair_of (m : list (list T)) (i : nat) : T * T :=
    let r := nth i m [] in (nth 0 r n0, nth 1 r n0).
  (** primitiveX of fftPSF and of huygensPSF without dx (248-257, 465-472). *)
  Definition fft_lattice (lstsq : list (list T) -> list (list T) -> list (list T)) (tel : telescope T)
      (tx ty w : T) (projection : string) (u : T) (pad_size : nat) : res (list (list T)) :=
    do j <- dkdu lstsq tel tx ty w 6 36 projection;
    let k := dot_diag j u in
    let '(b1, b2) := reciprocalLatticeVectors (pair_of k 0) (pair_of k 1) (nofZ (Z.of_nat pad_size)) in
    Ok [[fst b1; snd b1]; [fst b2; snd b2]].

  (** primitiveX and pad_factor (236-265). *)
  Definition huygens_lattice (lstsq : list (list T) -> list (list T) -> list (list T))
      (tel : telescope T) (tx ty w : T) (projection : string) (nx : nat) (dx dy : option (size T))
      : res (list (list T) * nat) :=
    match dx, dy with
    | None, _ =>
        do u <- pupil_step tel nx;
        do l <- fft_lattice lstsq tel tx ty w projection u (2 * nx);
        Ok (l, 2%nat)
    | Some (Sc a), None => Ok ([[a; n0]; [n0; a]], 1%nat)
    | Some (Sc a), Some (Sc b) => Ok ([[a; n0]; [n0; b]], 1%nat)
    | Some (Ve a b), Some (Ve c d) => Ok ([[a; b]; [c; d]], 1%nat)
    | Some _, _ => Err ValueError
    end.
  (** The transpose of an n by n array in row-major order. *)
  Definition transpose {A} (n : nat) (l : list A) : list A :=
    flat_map (fun i => flat_map (fun j => match nth_error l (j * n + i) with Some a => [a] | None => [] end) (seq 0 n))
             (seq 0 n).
  (** np.abs(z)**2. *)
  Definition abs2 (z : T * T) : T := let m := nhypot (fst z) (snd z) in m * m.
  (** huygensPSF (batoid/analysis.py:179-303). *)
  Definition huygensPSF (lstsq : list (list T) -> list (list T) -> list (list T))
      (tel : telescope T) (tx ty w : T) (projection : string) (nx : nat) (dx dy : option (size T))
      (nxOut : option nat) (reference : string) : res (lattice (T:=T) T) :=
    do (primitiveX, pad) <- huygens_lattice lstsq tel tx ty w projection nx dx dy;
    let n := (or_else nxOut nx * pad)%nat in
    do rv <- traced_grid tel tx ty w projection nx;
    do point <- reference_point reference nx rv;
    let coords := transpose n (primitiveToLattice primitiveX [n; n]) in
    let points := map (fun c => V3 (nth 0 c n0 + cx point) (nth 1 c n0 + cy point) n0) coords in
    do t <- match rays rv with r :: _ => Ok (time r) | [] => Err IndexError end;
    mkLattice [n; n] (map (fun p => abs2 (sumAmplitude p t true rv)) points) primitiveX.

  (** *** fftPSF (batoid/analysis.py:414-474) *)
  Definition cadd (a b : T * T) : T * T := (fst a + fst b, snd a + snd b).
  Definition cmul (a b : T * T) : T * T := (fst a * fst b - snd a * snd b, fst a * snd b + snd a * fst b).
  Definition cexp (th : T) : T * T := (ncos th, nsin th).
  Definition csum (l : list (T * T)) : T * T := fold_left cadd l (n0, n0).
  (** np.fft.fft2 of an n by n array of rows: entry (k, l) is the sum over (a, b) of
      z[a][b] exp(-2 pi i (a k + b l) / n). *)
  Definition fft2 (n : nat) (z : list (list (T * T))) : list (list (T * T)) :=
    map (fun k => map (fun l =>
      csum (flat_map (fun ar => map (fun bz =>
          cmul (snd bz) (cexp (- (n2 * npi * nofZ (Z.of_nat (fst ar * k + fst bz * l))) / nofZ (Z.of_nat n))))
        (combine (seq 0 n) (snd ar))) (combine (seq 0 n) z)))
      (seq 0 n)) (seq 0 n).
  (** np.fft.fftshift over both axes. *)
  Definition fftshift2 {A} (z : list (list A)) : list (list A) := map fftshift (fftshift z).
  (** expwf (457-463): row and column numbers outside start:stop stay 0.  A mask whose shape is
      not that of the slice is an IndexError. *)
  Definition expwf (nx pad_size : nat) (wf : list (T * bool)) : res (list (list (T * T))) :=
    let start := (pad_size / 2 - nx / 2)%nat in
    let stop := (pad_size / 2 + nx / 2)%nat in
    if (Nat.min stop pad_size - start =? nx)%nat then
      Ok (map (fun i => map (fun j =>
            if ((start <=? i) && (i <? stop) && (start <=? j) && (j <? stop))%nat then
              match nth_error wf ((i - start) * nx + (j - start)) with
              | Some (v, false) => cexp (n2 * npi * v)
              | _ => (n0, n0)
              end
            else (n0, n0)) (seq 0 pad_size)) (seq 0 pad_size))
    else Err IndexError.
  Definition fftPSF (lstsq : list (list T) -> list (list T) -> list (list T)) (tel : telescope T)
      (tx ty w : T) (projection : string) (nx pad_factor : nat) (sphereRadius : option T)
      (reference : string) : res (lattice (T:=T) T) :=
    do wf <- wavefront tel tx ty w projection nx sphereRadius reference;
    let pad_size := (nx * pad_factor)%nat in
    do e <- expwf nx pad_size (l_array _ wf);
    let psf := map (map abs2) (fftshift2 (fft2 pad_size e)) in
    do u <- pupil_step tel nx;
    do primitiveX <- fft_lattice lstsq tel tx ty w projection u pad_size;
    mkLattice [pad_size; pad_size] (List.concat psf) primitiveX.

  (** *** Jacobians *)
  (** drdth (batoid/analysis.py:57-134): drx_dthx, drx_dthy, dry_dthx, dry_dthy. *)
  Definition drdth (tel : telescope T) (tx ty w : T) (nrad : nat) (naz : Z) (projection : string)
      : res (T * T * T * T) :=
    let dth := nfrac 1 100000 in
    let polar d := asPolar (generator tel w d) None None nrad naz 6 n1 None in
    do d0 <- fieldToDirCos tx ty projection;
    do dx <- fieldToDirCos (tx + dth) ty projection;
    do dy <- fieldToDirCos tx (ty + dth) projection;
    do r0 <- polar d0;
    do rx <- polar dx;
    do ry <- polar dy;
    let all := trace niter (tl_optic tel) false (RV (rays r0 ++ rays rx ++ rays ry) (rvcs r0)) in
    let n := List.length (rays r0) in
    let l0 := firstn n (rays all) in
    let lx := firstn n (skipn n (rays all)) in
    let ly := firstn n (skipn (2 * n) (rays all)) in
    let v := map (fun r => negb (vignetted r)) l0 in
    let mx l := mean (select (map (fun r => cx (pos r)) l) v) in
    let my l := mean (select (map (fun r => cy (pos r)) l) v) in
    Ok ((mx lx - mx l0) / dth, (mx ly - mx l0) / dth, (my lx - my l0) / dth, (my ly - my l0) / dth).
  (** dthdr (137-176): np.linalg.inv of a 2 by 2 matrix. *)
  Definition dthdr (tel : telescope T) (tx ty w : T) (nrad : nat) (naz : Z) (projection : string)
      : res (T * T * T * T) :=
    do (a, b, c, d) <- drdth tel tx ty w nrad naz projection;
    let det := a * d - b * c in
    if det =? n0 then Err LinAlgError else Ok (d / det, - b / det, - c / det, a / det).
  (** focalLength (1049-1083). *)
  Definition focalLength (tel : telescope T) (tx ty w : T) (nrad : nat) (naz : Z) (projection : string)
      : res T :=
    do (a, b, c, d) <- drdth tel tx ty w nrad naz projection;
    Ok (nsqrt (a * d - b * c)).

  (** exitPupilPos (1006-1046). *)
  Definition exitPupilPos (tel : telescope T) (w smallAngle : T) (projection : string) : res (vec3 T) :=
    do rv <- fromFieldAngles (Some (tl_attr tel)) None None None (Some w)
               [(n0, smallAngle); (n0, - smallAngle); (smallAngle, n0); (- smallAngle, n0)]
               projection n0 n0 n1;
    let rv := rv_toCoordSys cs_default (trace niter (tl_optic tel) false rv) in
    do ps <- all_ok (fun r => closestApproach (pos r) (vel r) (V3 n0 n0 n0) (V3 n0 n0 n1)) (rays rv);
    Ok (mean3 ps).

  (** *** zernikeGQ (568-704) *)
  (** [basis jmax points outer inner]: galsim.zernike.zernikeBasis, rows 0 to jmax. *)
  Definition ndot (a b : list T) : T := nsum (map (fun p => fst p * snd p) (combine a b)).
  Definition zernikeGQ (leggauss : nat -> list (T * T))
      (basis : nat -> list (T * T) -> T -> T -> list (list T)) (tel : telescope T) (tx ty w : T)
      (projection : string) (rings : nat) (spokes : option nat) (sphereRadius : option T)
      (reference : string) (jmax : nat) (eps : T) : res (list T) :=
    do d <- fieldToDirCos tx ty projection;
    let at_ := tl_attr tel in
    do pupil <- need_attr None (oa_pupil at_);
    let inner := eps * pupil / n2 in
    do rv <- asSpokes leggauss (generator tel w d) None inner (option_map CInt spokes) (CInt rings) "GQ" n1;
    do stop <- need_attr None (oa_stop at_);
    let ep := rv_intersect niter (fst stop) None None (rv_toCoordSys (snd stop) rv) in
    let b := basis jmax (map (fun r => (cx (pos r), cy (pos r))) (rays ep)) (pupil / n2) inner in
    do radius <- need_attr sphereRadius (tl_radius tel);
    let rv := trace niter (tl_optic tel) false rv in
    if existsb failed (rays rv) then Err ValueError else
    do bd <- need_attr None (oa_backDist at_);
    do pc <- if String.eqb reference "mean"
             then Ok (mean3 (select (map pos (rays rv)) (lit rv)), None)
             else if String.eqb reference "chief" then
               let '(a, b, c) := d in
               do ch <- fromStop (Gen None (Some bd) (Some (oa_in at_)) (Some stop) None (Some w) (DirCos (V3 a b c)))
                          n1 [(n0, n0)];
               let ch := trace niter (tl_optic tel) false ch in
               match rays ch with r :: _ => Ok (pos r, Some ch) | [] => Err IndexError end
             else Err NameError;
    let '(point, chief) := pc in
    let target := shiftLocal (rvcs rv) (vadd point (V3 n0 n0 radius)) in
    let land rv := rv_intersect niter (Sphere (- radius)) None None (rv_toCoordSys target rv) in
    let rv := land rv in
    do t0 <- match chief with
             | None => Ok (mean (select (map time (rays rv)) (lit rv)))
             | Some ch => match rays (land ch) with r :: _ => Ok (time r) | [] => Err IndexError end
             end;
    let area := npi * (n1 - eps * eps) in
    let v := map (fun r => (t0 - time r) / w * flux r) (rays rv) in
    Ok (map (fun row => ndot row v / area) b).
End Analysis.
