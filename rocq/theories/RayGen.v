(** The RayVector generators (batoid/rayVector.py:220-1081).
    Not modelled: [source] other than None (the code then returns None), and the
    random number generator, whose output is a parameter. *)
From Coq Require Import List ZArith Bool String.
From Verif Require Import Num Vec CoordSys Surface Medium Ray Bundle Trig Optic Arrays Field.
Import ListNotations.

(** The attributes of the argument [optic] that the generators read.  inMedium and
    coordSys always exist (batoid/optic.py:40-43); the others only if they were given
    when the optic was made. *)
Record oattr (T : Type) := OA {
  oa_backDist : option T; oa_in : medium T; oa_stop : option (surface T * coordsys T);
  oa_pupil : option T; oa_pobsc : option T; oa_cs : coordsys T }.
Arguments OA {T}. Arguments oa_backDist {T}. Arguments oa_in {T}. Arguments oa_stop {T}.
Arguments oa_pupil {T}. Arguments oa_pobsc {T}. Arguments oa_cs {T}.

(** dirCos, or theta_x, theta_y and projection. *)
Inductive dirarg (T : Type) := DirCos (d : vec3 T) | FieldAngle (tx ty : T) (projection : string).
Arguments DirCos {T}. Arguments FieldAngle {T}.

(** The keyword arguments common to asGrid, asPolar, asSpokes and fromStop. *)
Record gen (T : Type) := Gen {
  g_optic : option (oattr T); g_backDist : option T; g_medium : option (medium T);
  g_stop : option (surface T * coordsys T); g_cs : option (coordsys T);
  g_wavelength : option T; g_dir : dirarg T }.
Arguments Gen {T}. Arguments g_optic {T}. Arguments g_backDist {T}. Arguments g_medium {T}.
Arguments g_stop {T}. Arguments g_cs {T}. Arguments g_wavelength {T}. Arguments g_dir {T}.

(** dx, lx etc.: a float or an array of two floats. *)
Inductive size (T : Type) := Sc (a : T) | Ve (a b : T).
Arguments Sc {T}. Arguments Ve {T}.

(** rings, spokes of asSpokes: an int or an array. *)
Inductive count (T : Type) := CInt (n : nat) | CList (l : list T).
Arguments CInt {T}. Arguments CList {T}.

Section RayGen.
  Context {T : Type} {NT : Num T} {TT : Trig T}.
  Local Open Scope num_scope.

  (** *** RayVector._finish (batoid/rayVector.py:817-846) *)
  (** vv /= n*np.sqrt(np.dot(vv, vv)) (822-823). *)
  Definition finish_vel (d : vec3 T) (n : T) : vec3 T :=
    let k := n * nsqrt (dot3 d d) in V3 (cx d / k) (cy d / k) (cz d / k).
  (** np.cross (825, 827). *)
  Definition cross3 (a b : vec3 T) : vec3 T :=
    V3 (cy a * cz b - cz a * cy b) (cz a * cx b - cx a * cz b) (cx a * cy b - cy a * cx b).
  (** origin and rot (824-829). *)
  Definition finish_frame (backDist n : T) (vv : vec3 T) : vec3 T * mat3 T :=
    let zhat := V3 (- n * cx vv) (- n * cy vv) (- n * cz vv) in
    let x := cross3 (V3 n1 n0 n0) zhat in
    let k := nsqrt (dot3 x x) in
    let xhat := V3 (cx x / k) (cy x / k) (cz x / k) in
    let yhat := cross3 xhat zhat in
    (V3 (cx zhat * backDist) (cy zhat * backDist) (cz zhat * backDist),
     M3 (cx xhat) (cx yhat) (cx zhat) (cy xhat) (cy yhat) (cy zhat) (cz xhat) (cz yhat) (cz zhat)).
  (** finishParallel, loop body (src/batoid.cpp:44-68). *)
  Definition finishParallel (dr : vec3 T) (d : mat3 T) (vv p : vec3 T) : vec3 T :=
    let vx := - cx vv * m00 d - cy vv * m10 d - cz vv * m20 d in
    let vy := - cx vv * m01 d - cy vv * m11 d - cz vv * m21 d in
    let vz := - cx vv * m02 d - cy vv * m12 d - cz vv * m22 d in
    let q := fwd_point dr d p in
    let dt := - cz q / vz in
    rev_point dr d (V3 (cx q + dt * vx) (cy q + dt * vy) (cz q + dt * vz)).
  (** The rays (830-846); fluxes and points have the same length. *)
  Definition finish (backDist : T) (dirCos : vec3 T) (n w : T) (fluxes : list T)
      (pts : list (vec3 T)) (cs : coordsys T) : rayvec T :=
    let vv := finish_vel dirCos n in
    let '(dr, d) := finish_frame backDist n vv in
    RV (map (fun fp => Ray (finishParallel dr d vv (snd fp)) vv n0 w (fst fp) false false)
            (combine fluxes pts)) cs.

  (** *** Common arguments *)
  (** [if arg is None: arg = optic.attr] (335-350 etc.). *)
  Definition from_optic {A} (arg : option A) (o : option (oattr T)) (f : oattr T -> option A)
      : res (option A) :=
    match arg, o with
    | Some a, _ => Ok (Some a)
    | None, None => Ok None
    | None, Some o => match f o with Some a => Ok (Some a) | None => Err AttributeError end
    end.
  Definition or_else {A} (a : option A) (d : A) : A := match a with Some a => a | None => d end.
  (** Interface(Plane()), vacuum, globalCoordSys, 40.0 (352-359). *)
  Definition default_stop : surface T * coordsys T := (Plane, cs_default).
  Definition default_medium : medium T := ConstM n1.
  Record settled := Settled {
    s_backDist : T; s_medium : medium T; s_stop : surface T * coordsys T;
    s_cs : coordsys T; s_dir : vec3 T; s_w : T }.
  (** asGrid alone tolerates an optic without stopSurface (339-343). *)
  Definition settle (tolerant : bool) (g : gen T) : res settled :=
    do bd <- from_optic (g_backDist g) (g_optic g) oa_backDist;
    do m <- from_optic (g_medium g) (g_optic g) (fun o => Some (oa_in o));
    do st <- match from_optic (g_stop g) (g_optic g) oa_stop with
             | Err AttributeError => if tolerant then Ok None else Err AttributeError
             | r => r
             end;
    do cs <- from_optic (g_cs g) (g_optic g) (fun o => Some (oa_cs o));
    do d <- match g_dir g with
            | DirCos d => Ok d
            | FieldAngle tx ty p => do (a, b, c) <- fieldToDirCos tx ty p; Ok (V3 a b c)
            end;
    match g_wavelength g with
    | None => Err ValueError
    | Some w => Ok (Settled (or_else bd (nofZ 40)) (or_else m default_medium)
                            (or_else st default_stop) (or_else cs cs_default) d w)
    end.
  (** Stop points to rays: sag, change of frame, _finish (434-444 etc.). *)
  Definition stop_point (st : surface T * coordsys T) (cs : coordsys T) (p : T * T) : vec3 T :=
    let ct := mkCT (snd st) cs in
    fwd_point (ct_dr ct) (ct_drot ct) (V3 (fst p) (snd p) (sag (fst st) (fst p) (snd p))).
  Definition launch (s : settled) (fluxes : list T) (xy : list (T * T)) : rayvec T :=
    finish (s_backDist s) (s_dir s) (getN (s_medium s) (s_w s)) (s_w s) fluxes
           (map (stop_point (s_stop s) (s_cs s)) xy) (s_cs s).
  (** flux = np.full(len(x), float(flux)) (820-821). *)
  Definition launch_flux (s : settled) (flux : T) (xy : list (T * T)) : rayvec T :=
    launch s (repeat flux (List.length xy)) xy.

  (** fromStop (861-982); x and y of equal length. *)
  Definition fromStop (g : gen T) (flux : T) (xy : list (T * T)) : res (rayvec T) :=
    do s <- settle false g; Ok (launch_flux s flux xy).

  (** *** asGrid (220-444) *)
  (** np.fft.fftfreq(n, d), np.fft.fftshift. *)
  Definition fftfreq (n : nat) (d : T) : list T :=
    let val := n1 / (nofZ (Z.of_nat n) * d) in
    map (fun k => nofZ k * val)
        (arangeZ 0 ((Z.of_nat n - 1) / 2 + 1) ++ arangeZ (- (Z.of_nat n / 2)) 0).
  Definition fftshift {A} (l : list A) : list A :=
    let k := (List.length l - List.length l / 2)%nat in skipn k l ++ firstn k l.
  (** x_d, xx (418-427): a negative size is a ValueError of numpy, 0 divides by 0. *)
  Definition grid_axis (n : Z) : res (list T) :=
    if (n <? 0)%Z then Err ValueError
    else if (n =? 0)%Z then Err ZeroDivisionError
    else let d := if (n <=? 2)%Z then n1
                  else nofZ (n - (if (n mod 2 =? 0)%Z then 2 else 1)) / nofZ n in
         Ok (fftshift (fftfreq (Z.to_nat n) d)).
  (** np.meshgrid(xx, yy) and ravel (428-430). *)
  Definition meshgrid {A B} (xx : list A) (yy : list B) : list (A * B) :=
    flat_map (fun y => map (fun x => (x, y)) xx) yy.
  (** dx*(nx-2), dx*(nx-1) (381-388). *)
  Definition size_times (s : size T) (k : Z) : size T :=
    match s with Sc a => Sc (a * nofZ k) | Ve a b => Ve (a * nofZ k) (b * nofZ k) end.
  Definition span (d : size T) (n : Z) : size T :=
    size_times d (if (n mod 2 =? 0)%Z then n - 2 else n - 1)%Z.
  (** int((lx/dx+slop)//2)*2+2 (389-395): arrays cannot be converted; an infinite
      or undefined quotient is an error of int(). *)
  Definition infer_n (l d : size T) : res Z :=
    match l, d with
    | Sc l, Sc d => match nfloor ((l / d + nfrac 1 10) / n2) with
                    | Some k => Ok (k * 2 + 2)%Z
                    | None => Err ValueError
                    end
    | _, _ => Err TypeError
    end.
  (** np.dot([[0,-1],[1,0]], lx) (373-377). *)
  Definition default_ly (l : size T) : size T :=
    match l with
    | Sc a => Sc a
    | Ve a b => Ve (n0 * a + - n1 * b) (n1 * a + n0 * b)
    end.
  (** 402-405. *)
  Definition vec_x (l : size T) : T * T := match l with Sc a => (a, n0) | Ve a b => (a, b) end.
  Definition vec_y (l : size T) : T * T := match l with Sc a => (n0, a) | Ve a b => (a, b) end.
  (** x = np.dot(lx, stack), y = np.dot(ly, stack) (431-433). *)
  Definition grid_point (lx ly : T * T) (p : T * T) : T * T :=
    (fst lx * fst p + snd lx * snd p, fst ly * fst p + snd ly * snd p).
  Definition is_some {A} (o : option A) : bool := match o with Some _ => true | None => false end.
  Definition two_of (a b c : bool) : bool :=
    (List.length (filter (fun x => x) [a; b; c]) =? 2)%nat.
  (** 365-400: the sizes nx, ny, lx, ly. *)
  Definition grid_sizes (nx ny : option Z) (dx dy lx ly : option (size T))
      : res (Z * Z * size T * size T) :=
    if negb (two_of (is_some nx) (is_some dx) (is_some lx)) then Err ValueError
    else match nx, dx, lx with
         | Some nx, Some dx, _ =>
             let ny := or_else ny nx in
             let dy := or_else dy dx in
             Ok (nx, ny, span dx nx, span dy ny)
         | _, Some dx, Some lx =>
             let dy := or_else dy dx in
             let ly := or_else ly (default_ly lx) in
             do nx <- infer_n lx dx;
             do ny <- infer_n ly dy;
             Ok (nx, ny, lx, ly)
         | Some nx, _, Some lx => Ok (nx, or_else ny nx, lx, or_else ly (default_ly lx))
         | _, _, _ => Err ValueError
         end.
  (** lx from the optic (344-348). *)
  Definition grid_lx (o : option (oattr T)) (nx : option Z) (dx lx : option (size T))
      : res (option (size T)) :=
    match lx, o with
    | None, Some o =>
        if is_some nx && is_some dx then Ok None
        else match oa_pupil o with Some p => Ok (Some (Sc p)) | None => Err AttributeError end
    | _, _ => Ok lx
    end.
  (** [random]: the numbers drawn when nrandom is given (407-413). *)
  Definition asGrid (g : gen T) (nx ny : option Z) (dx dy lx ly : option (size T)) (flux : T)
      (random : option (list (T * T))) : res (rayvec T) :=
    do s <- settle true g;
    do lx <- grid_lx (g_optic g) nx dx lx;
    do (nx, ny, lx, ly) <- grid_sizes nx ny dx dy lx ly;
    do uv <- match random with
             | Some l => Ok l
             | None => do xx <- grid_axis nx; do yy <- grid_axis ny; Ok (meshgrid xx yy)
             end;
    Ok (launch_flux s flux (map (grid_point (vec_x lx) (vec_y ly)) uv)).

  (** asFan (447-457). *)
  Definition asFan (g : gen T) (nx ny : Z) (dx dy lx ly : option (size T)) (flux : T)
      : res (arrays T) :=
    do a <- (if (1 <? nx)%Z
             then do rv <- asGrid g (Some nx) (Some 1%Z) dx dy lx ly flux None; Ok [to_arrays rv]
             else Ok []);
    do b <- (if (1 <? ny)%Z
             then do rv <- asGrid g (Some 1%Z) (Some ny) dx dy lx ly flux None; Ok [to_arrays rv]
             else Ok []);
    concatenateRayVectors (a ++ b).

  (** *** asPolar (460-643) *)
  (** outer, inner (586-600); hexapolar(outer=None) is a TypeError. *)
  Definition polar_radii (o : option (oattr T)) (outer inner : option T) : res (T * T) :=
    match o with
    | None => match outer with Some a => Ok (a, or_else inner n0) | None => Err TypeError end
    | Some o =>
        do outer <- match outer, oa_pupil o with
                    | Some a, _ => Ok a
                    | None, Some p => Ok (p / n2)
                    | None, None => Err AttributeError
                    end;
        do inner <- match inner, oa_pobsc o, oa_pupil o with
                    | Some a, _, _ => Ok a
                    | None, None, _ => Ok n0
                    | None, Some e, Some p => Ok (p * e / n2)
                    | None, Some _, None => Err AttributeError
                    end;
        Ok (outer, inner)
    end.
  (** [random]: the squared radii and the angles drawn when nrandom is given (625-631). *)
  Definition asPolar (g : gen T) (outer inner : option T) (nrad : nat) (naz kfold : Z) (flux : T)
      (random : option (list (T * T))) : res (rayvec T) :=
    do s <- settle false g;
    do (outer, inner) <- polar_radii (g_optic g) outer inner;
    do rth <- match random with
              | Some l => Ok (map (fun p => (nsqrt (fst p), snd p)) l)
              | None => hexapolar_rth outer inner nrad naz kfold
              end;
    Ok (launch_flux s flux (map polar_xy rth)).

  (** *** asSpokes (646-814) *)
  (** [leggauss n]: np.polynomial.legendre.leggauss(n), a parameter, as (Li, w) pairs. *)
  Definition as_array (c : count T) : list T :=
    match c with CInt n => [nofZ (Z.of_nat n)] | CList l => l end.
  Definition spoke_list (c : count T) : list T :=
    match c with CInt n => linspace n0 (n2 * npi) n false | CList l => l end.
  (** 783-797: rings, spokes and the flux of each ring (None: the flux argument).  [outer]
      may be None if it is not used.  Simplification: spacing GQ with an array of spokes,
      which numpy may or may not broadcast, is an error here. *)
  Definition need {A} (a : option A) : res A := match a with Some a => Ok a | None => Err TypeError end.
  Definition spoke_layout (leggauss : nat -> list (T * T)) (outer : option T) (inner : T)
      (spokes : option (count T)) (rings : count T) (spacing : string)
      : res (list T * list T * option (list T)) :=
    match rings with
    | CList r => do c <- need spokes; Ok (r, as_array c, None)
    | CInt n =>
        if String.eqb spacing "uniform" then
          do outer <- need outer;
          do c <- need spokes;
          Ok (linspace inner outer n true, spoke_list c, None)
        else if String.eqb spacing "GQ" then
          let ns := or_else spokes (CInt (2 * n + 1)) in
          match ns with
          | CList _ => Err TypeError
          | CInt m =>
              do outer <- need outer;
              let eps := inner / outer in
              let area := npi * (n1 - eps * eps) in
              let Lw := leggauss n in
              Ok (map (fun lw => nsqrt (eps * eps + (n1 + fst lw) * (n1 - eps * eps) / n2) * outer) Lw,
                  spoke_list ns,
                  Some (map (fun lw => snd lw * area / (n2 * nofZ (Z.of_nat m))) Lw))
          end
        else do c <- need spokes; Ok ([nofZ (Z.of_nat n)], spoke_list c, None)
    end.
  Definition asSpokes (leggauss : nat -> list (T * T)) (g : gen T) (outer : option T) (inner : T)
      (spokes : option (count T)) (rings : count T) (spacing : string) (flux : T)
      : res (rayvec T) :=
    do s <- settle false g;
    do outer <- from_optic outer (g_optic g) (fun o => option_map (fun p => p / n2) (oa_pupil o));
    do (rr, th, fl) <- spoke_layout leggauss outer inner spokes rings spacing;
    let rth := meshgrid rr th in
    let fluxes := match fl with
                  | None => repeat flux (List.length rth)
                  | Some f => map fst (meshgrid f th)
                  end in
    Ok (launch s fluxes (map polar_xy rth)).

  (** *** fromFieldAngles (985-1081) *)
  (** Simplification: theta_x, theta_y one-dimensional, of equal length; x, y scalars. *)
  Fixpoint all_ok {A B} (f : A -> res B) (l : list A) : res (list B) :=
    match l with
    | [] => Ok []
    | a :: l => do b <- f a; do bs <- all_ok f l; Ok (b :: bs)
    end.
  Definition fromFieldAngles (optic : option (oattr T)) (backDist : option T)
      (med : option (medium T)) (stop : option (surface T * coordsys T)) (w : option T)
      (thetas : list (T * T)) (projection : string) (x y flux : T) : res (rayvec T) :=
    do bd <- from_optic backDist optic oa_backDist;
    do m <- from_optic med optic (fun o => Some (oa_in o));
    do st <- from_optic stop optic oa_stop;
    let bd := or_else bd (nofZ 40) in
    let m := or_else m default_medium in
    let st := or_else st default_stop in
    match w with
    | None => Err ValueError
    | Some w =>
        do ds <- all_ok (fun t => fieldToDirCos (fst t) (snd t) projection) thetas;
        let n := getN m w in
        let rs := map (fun abg => let '(a, b, c) := abg in
                         Ray (V3 x y (sag (fst st) x y)) (V3 (a / n) (b / n) (c / n)) n0 w flux
                             false false) ds in
        Ok (rv_propagate (- bd * n) (RV rs (snd st)))
    end.
End RayGen.
Arguments settled T : clear implicits.
