(** All surfaces: src/{surface,plane,tilted,sphere,paraboloid,quadric,asphere,
    polynomialSurface,table,bicubic,sum}.cpp and the constructors of
    batoid/surface.py.

    Arrays are lists; an out-of-bounds read (undefined behaviour in C++) yields
    NaN.  The output parameter [dt] of timeToIntersect is returned beside the
    success flag. *)
From Coq Require Import List ZArith Bool.
From Verif Require Import Num Vec.
Import ListNotations.

(** The data a Table holds (src/table.cpp:10-27, batoid/surface.py:539-584).
    Arrays are row-major [ny][nx], flattened. *)
Record table (T : Type) := Tab {
  tb_x0 : T; tb_y0 : T; tb_dx : T; tb_dy : T; tb_nx : nat; tb_ny : nat;
  tb_z : list T; tb_dzdx : list T; tb_dzdy : list T; tb_d2 : list T;
  tb_use_nan : bool }.
Arguments Tab {T}. Arguments tb_x0 {T}. Arguments tb_y0 {T}. Arguments tb_dx {T}.
Arguments tb_dy {T}. Arguments tb_nx {T}. Arguments tb_ny {T}. Arguments tb_z {T}.
Arguments tb_dzdx {T}. Arguments tb_dzdy {T}. Arguments tb_d2 {T}. Arguments tb_use_nan {T}.

(** The surfaces.  [Asphere] carries the padded coefficient list handed to C++
    (see [mkAsphere]); [Poly] is PolynomialSurface, the C++ class behind
    batoid.Zernike (batoid/surface.py:463-480). *)
Inductive surface (T : Type) :=
| Plane
| Tilted (tanx tany : T)
| Sphere (R : T)
| Paraboloid (R : T)
| Quadric (R conic : T)
| Asphere (R conic : T) (coefs : list T)
| Poly (coefs gradx grady : list T) (x0 y0 : T) (xsize ysize : nat)
| Bicubic (tb : table T)
| Sum (l : list (surface T)).
Arguments Plane {T}. Arguments Tilted {T}. Arguments Sphere {T}. Arguments Paraboloid {T}.
Arguments Quadric {T}. Arguments Asphere {T}. Arguments Poly {T}. Arguments Bicubic {T}.
Arguments Sum {T}.

Section Surf.
  Context {T : Type} {NT : Num T}.
  Local Open Scope num_scope.

  (** Plane::normal (src/plane.cpp:17-21) and the apex case of the others. *)
  Definition zhat : vec3 T := V3 n0 n0 n1.

  (** Shared root finding: src/sphere.cpp:51-62, src/paraboloid.cpp:54-64,
      src/quadric.cpp:53-64 are the same lines.  None: discriminant < 0. *)
  Definition roots (a b c : T) : option (T * T) :=
    let disc := b * b - n4 * a * c in
    if disc <? n0 then None else
    let dt1 := if n0 <? b then (- b - nsqrt disc) / (n2 * a)
               else (n2 * c) / (- b + nsqrt disc) in
    let dt2 := c / (a * dt1) in
    Some (dt1, dt2).

  (** Tilted (src/tilted.cpp:14-37). *)
  Definition tilted_sag (tanx tany x y : T) : T := x * tanx + y * tany.
  Definition tilted_normal (tanx tany x y : T) : vec3 T :=
    V3 (- tanx) (- tany) (nsqrt (n1 - tanx * tanx - tany * tany)).
  Definition tilted_tti (tanx tany x y z vx vy vz dt : T) : bool * T :=
    let num := z - x * tanx - y * tany in
    let den := vx * tanx + vy * tany - vz in
    if den =? n0 then (false, dt) else (true, num / den).

  (** Plane (src/plane.cpp:23-30). *)
  Definition plane_tti (x y z vx vy vz dt : T) : bool * T :=
    if vz =? n0 then (false, dt) else (true, - z / vz).

  (** Sphere (src/sphere.cpp:9-72). *)
  Definition sphere_sag (R x y : T) : T :=
    if negb (R =? n0) then R * (n1 - nsqrt (n1 - (x * x + y * y) * (n1 / R / R))) else n0.
  Definition sphere_dzdr (R r : T) : T :=
    let rat := r * (n1 / R) in rat / nsqrt (n1 - rat * rat).
  Definition sphere_normal (R x y : T) : vec3 T :=
    let rsqr := x * x + y * y in
    if (R =? n0) || (rsqr =? n0) then zhat else
    let r := nsqrt rsqr in
    let dzdr := sphere_dzdr R r in
    let nz := n1 / nsqrt (n1 + dzdr * dzdr) in
    V3 (- x / r * dzdr * nz) (- y / r * dzdr * nz) nz.
  Definition sphere_tti (R x y z vx vy vz dt : T) : bool * T :=
    let vr2 := vx * vx + vy * vy in
    let vz2 := vz * vz in
    let vrr0 := vx * x + vy * y in
    let r02 := x * x + y * y in
    let z0term := z - R in
    let a := vz2 + vr2 in
    let b := n2 * vz * z0term + n2 * vrr0 in
    let c := z0term * z0term - R * R + r02 in
    match roots a b c with
    | None => (false, dt)
    | Some (dt1, dt2) => (true, if vz * R <? n0 then nmax dt1 dt2 else nmin dt1 dt2)
    end.

  (** Paraboloid (src/paraboloid.cpp:9-71). *)
  Definition paraboloid_sag (R x y : T) : T :=
    if negb (R =? n0) then (x * x + y * y) * (n1 / n2 / R) else n0.
  Definition paraboloid_normal (R x y : T) : vec3 T :=
    if R =? n0 then zhat else
    let Rinv := n1 / R in
    let nz := n1 / nsqrt (n1 + (x * x + y * y) * Rinv * Rinv) in
    V3 (- x * Rinv * nz) (- y * Rinv * nz) nz.
  Definition paraboloid_tti (R x y z vx vy vz dt : T) : bool * T :=
    let Rinv := n1 / R in
    let R2inv := n1 / n2 / R in
    let a := (vx * vx + vy * vy) * R2inv in
    let b := (x * vx + y * vy) * Rinv - vz in
    let c := (x * x + y * y) * R2inv - z in
    if a =? n0 then (true, - c / b) else
    match roots a b c with
    | None => (false, dt)
    | Some (dt1, dt2) => (true, if vz * R <? n0 then nmax dt1 dt2 else nmin dt1 dt2)
    end.

  (** Quadric (src/quadric.cpp:9-77). *)
  Definition quadric_sag (R conic x y : T) : T :=
    let r2 := x * x + y * y in
    let cp1RR := (conic + n1) / R / R in
    if negb (R =? n0) then r2 / (R * (n1 + nsqrt (n1 - r2 * cp1RR))) else n0.
  Definition quadric_dzdr (R conic r : T) : T :=
    let cp1RR := (conic + n1) / R / R in
    if negb (R =? n0) then r / (R * nsqrt (n1 - r * r * cp1RR)) else n0.
  (** The normal computed from a radial slope: src/quadric.cpp:28-38 and
      src/asphere.cpp:52-62 are the same lines with the virtual _dzdr. *)
  Definition radial_normal (dzdr_ : T -> T) (x y : T) : vec3 T :=
    let r := nsqrt (x * x + y * y) in
    if r =? n0 then zhat else
    let dzdr := dzdr_ r in
    let nz := n1 / nsqrt (n1 + dzdr * dzdr) in
    V3 (- x / r * dzdr * nz) (- y / r * dzdr * nz) nz.
  Definition quadric_tti (R conic x y z vx vy vz dt : T) : bool * T :=
    let cp1 := conic + n1 in
    let cp1inv := n1 / cp1 in
    let Rcp1 := R / cp1 in
    let RRcp1cp1 := R * R / cp1 / cp1 in
    let z0term := z - Rcp1 in
    let vrr0 := vx * x + vy * y in
    let a := vz * vz + (vx * vx + vy * vy) * cp1inv in
    let b := n2 * (vz * z0term + vrr0 * cp1inv) in
    let c := z0term * z0term - RRcp1cp1 + (x * x + y * y) * cp1inv in
    match roots a b c with
    | None => (false, dt)
    | Some (dt1, dt2) =>
        let z1 := z + vz * dt1 in
        let z2 := z + vz * dt2 in
        (true, if nabs z1 <? nabs z2 then dt1 else dt2)
    end.

  (** Asphere::sag loop (src/asphere.cpp:38-45). *)
  Fixpoint asphere_loop (coefs : list T) (r2 rr result : T) : T :=
    match coefs with
    | [] => result
    | c :: cs => let rr := rr * r2 in asphere_loop cs r2 rr (result + c * rr)
    end.
  Definition asphere_sag (R conic : T) (coefs : list T) (x y : T) : T :=
    asphere_loop coefs (x * x + y * y) n1 (quadric_sag R conic x y).
  (** Asphere::_computeDzDrCoefs (src/asphere.cpp:10-16): i starts at 2, step 2. *)
  Fixpoint asphere_dzdr_coefs (i : Z) (coefs : list T) : list T :=
    match coefs with
    | [] => []
    | c :: cs => (c * nofZ i) :: asphere_dzdr_coefs (i + 2)%Z cs
    end.
  (** Asphere::_dzdr loop (src/asphere.cpp:65-74). *)
  Fixpoint asphere_dzdr_loop (dcoefs : list T) (rr rrr result : T) : T :=
    match dcoefs with
    | [] => result
    | c :: cs => asphere_dzdr_loop cs rr (rrr * rr) (result + c * rrr)
    end.
  Definition asphere_dzdr (R conic : T) (coefs : list T) (r : T) : T :=
    asphere_dzdr_loop (asphere_dzdr_coefs 2 coefs) (r * r) r (quadric_dzdr R conic r).

  (** horner, horner2d (src/polynomialSurface.cpp:50-66): loops from n-1 down to 0. *)
  Fixpoint horner_loop (n : nat) (x : T) (coefs : list T) (off : nat) (result : T) : T :=
    match n with
    | O => result
    | S i => horner_loop i x coefs off (result * x + nth (off + i)%nat coefs nnan)
    end.
  Definition horner (x : T) (coefs : list T) (off n : nat) : T := horner_loop n x coefs off n0.
  Fixpoint horner2d_loop (n : nat) (x y : T) (coefs : list T) (nx : nat) (result : T) : T :=
    match n with
    | O => result
    | S i => horner2d_loop i x y coefs nx (result * x + horner y coefs (i * nx)%nat nx)
    end.
  Definition horner2d (x y : T) (coefs : list T) (nx ny : nat) : T :=
    horner2d_loop ny x y coefs nx n0.
  (** PolynomialSurface::sag, normal (src/polynomialSurface.cpp:35-48). *)
  Definition poly_sag (coefs : list T) (x0 y0 : T) (xs ys : nat) (x y : T) : T :=
    horner2d (x - x0) (y - y0) coefs xs ys.
  Definition poly_normal (gx gy : list T) (x0 y0 : T) (xs ys : nat) (x y : T) : vec3 T :=
    let nx := - horner2d (x - x0) (y - y0) gx (xs - 1) (ys - 1) in
    let ny := - horner2d (x - x0) (y - y0) gy (xs - 1) (ys - 1) in
    let nz := n1 / nsqrt (nx * nx + ny * ny + n1) in
    V3 (nx * nz) (ny * nz) nz.

  (** oneDSpline, oneDGrad (src/table.cpp:42-56). *)
  Definition oneDSpline (x val0 val1 der0 der1 : T) : T :=
    let a := n2 * (val0 - val1) + der0 + der1 in
    let b := n3 * (val1 - val0) - n2 * der0 - der1 in
    let c := der0 in
    let d := val0 in
    d + x * (c + x * (b + x * a)).
  Definition oneDGrad (x val0 val1 der0 der1 : T) : T :=
    let a := n2 * (val0 - val1) + der0 + der1 in
    let b := n3 * (val1 - val0) - n2 * der0 - der1 in
    let c := der0 in
    c + x * (n2 * b + x * n3 * a).

  (** The cell test shared by Table::eval and Table::grad (src/table.cpp:59-63,
      96-98).  None: outside.  int(floor(NaN or inf)) is undefined behaviour in
      C++ and on the usual platforms gives INT_MIN, i.e. outside. *)
  Definition table_cell (tb : table T) (x y : T) : option (nat * nat) :=
    match nfloor ((x - tb_x0 tb) / tb_dx tb), nfloor ((y - tb_y0 tb) / tb_dy tb) with
    | Some ix, Some iy =>
        if ((Z.of_nat (tb_nx tb) - 1 <=? ix) || (ix <? 0) ||
            (Z.of_nat (tb_ny tb) - 1 <=? iy) || (iy <? 0))%Z then None
        else Some (Z.to_nat ix, Z.to_nat iy)
    | _, _ => None
    end.
  (** Table::eval (src/table.cpp:58-90). *)
  Definition table_eval (tb : table T) (x y : T) : T :=
    match table_cell tb x y with
    | None => if tb_use_nan tb then nnan else n0
    | Some (ix, iy) =>
        let dx := tb_dx tb in
        let dy := tb_dy tb in
        let xgrid := tb_x0 tb + nofZ (Z.of_nat ix) * dx in
        let ygrid := tb_y0 tb + nofZ (Z.of_nat iy) * dy in
        let xfrac := (x - xgrid) / dx in
        let yfrac := (y - ygrid) / dy in
        let at_ (l : list T) jy jx := nth (tb_nx tb * jy + jx)%nat l nnan in
        let val0 := oneDSpline xfrac (at_ (tb_z tb) iy ix) (at_ (tb_z tb) iy (S ix))
                      (at_ (tb_dzdx tb) iy ix * dx) (at_ (tb_dzdx tb) iy (S ix) * dx) in
        let val1 := oneDSpline xfrac (at_ (tb_z tb) (S iy) ix) (at_ (tb_z tb) (S iy) (S ix))
                      (at_ (tb_dzdx tb) (S iy) ix * dx) (at_ (tb_dzdx tb) (S iy) (S ix) * dx) in
        let der0 := oneDSpline xfrac (at_ (tb_dzdy tb) iy ix) (at_ (tb_dzdy tb) iy (S ix))
                      (at_ (tb_d2 tb) iy ix * dx) (at_ (tb_d2 tb) iy (S ix) * dx) in
        let der1 := oneDSpline xfrac (at_ (tb_dzdy tb) (S iy) ix) (at_ (tb_dzdy tb) (S iy) (S ix))
                      (at_ (tb_d2 tb) (S iy) ix * dx) (at_ (tb_d2 tb) (S iy) (S ix) * dx) in
        oneDSpline yfrac val0 val1 (der0 * dy) (der1 * dy)
    end.
  (** Table::grad (src/table.cpp:92-158). *)
  Definition table_grad (tb : table T) (x y : T) : T * T :=
    match table_cell tb x y with
    | None => if tb_use_nan tb then (nnan, nnan) else (n0, n0)
    | Some (ix, iy) =>
        let dx := tb_dx tb in
        let dy := tb_dy tb in
        let xgrid := tb_x0 tb + nofZ (Z.of_nat ix) * dx in
        let ygrid := tb_y0 tb + nofZ (Z.of_nat iy) * dy in
        let xfrac := (x - xgrid) / dx in
        let yfrac := (y - ygrid) / dy in
        let at_ (l : list T) jy jx := nth (tb_nx tb * jy + jx)%nat l nnan in
        let val0 := oneDGrad xfrac (at_ (tb_z tb) iy ix) (at_ (tb_z tb) iy (S ix))
                      (at_ (tb_dzdx tb) iy ix * dx) (at_ (tb_dzdx tb) iy (S ix) * dx) in
        let val1 := oneDGrad xfrac (at_ (tb_z tb) (S iy) ix) (at_ (tb_z tb) (S iy) (S ix))
                      (at_ (tb_dzdx tb) (S iy) ix * dx) (at_ (tb_dzdx tb) (S iy) (S ix) * dx) in
        let der0 := oneDGrad xfrac (at_ (tb_dzdy tb) iy ix) (at_ (tb_dzdy tb) iy (S ix))
                      (at_ (tb_d2 tb) iy ix * dx) (at_ (tb_d2 tb) iy (S ix) * dx) in
        let der1 := oneDGrad xfrac (at_ (tb_dzdy tb) (S iy) ix) (at_ (tb_dzdy tb) (S iy) (S ix))
                      (at_ (tb_d2 tb) (S iy) ix * dx) (at_ (tb_d2 tb) (S iy) (S ix) * dx) in
        let dzdx := oneDSpline yfrac val0 val1 (der0 * dy) (der1 * dy) / dx in
        let wal0 := oneDGrad yfrac (at_ (tb_z tb) iy ix) (at_ (tb_z tb) (S iy) ix)
                      (at_ (tb_dzdy tb) iy ix * dy) (at_ (tb_dzdy tb) (S iy) ix * dy) in
        let wal1 := oneDGrad yfrac (at_ (tb_z tb) iy (S ix)) (at_ (tb_z tb) (S iy) (S ix))
                      (at_ (tb_dzdy tb) iy (S ix) * dy) (at_ (tb_dzdy tb) (S iy) (S ix) * dy) in
        let eer0 := oneDGrad yfrac (at_ (tb_dzdx tb) iy ix) (at_ (tb_dzdx tb) (S iy) ix)
                      (at_ (tb_d2 tb) iy ix * dy) (at_ (tb_d2 tb) (S iy) ix * dy) in
        let eer1 := oneDGrad yfrac (at_ (tb_dzdx tb) iy (S ix)) (at_ (tb_dzdx tb) (S iy) (S ix))
                      (at_ (tb_d2 tb) iy (S ix) * dy) (at_ (tb_d2 tb) (S iy) (S ix) * dy) in
        let dzdy := oneDSpline xfrac wal0 wal1 (eer0 * dx) (eer1 * dx) / dy in
        (dzdx, dzdy)
    end.
  (** Bicubic::normal (src/bicubic.cpp:23-40). *)
  Definition bicubic_normal (tb : table T) (x y : T) : vec3 T :=
    let '(dx, dy) := table_grad tb x y in
    if nisnan dx then V3 nnan nnan nnan else
    let nz := n1 / nsqrt (n1 + dx * dx + dy * dy) in
    V3 (- dx * nz) (- dy * nz) nz.

  (** Surface::sag, dispatched on the class; Sum::sag is src/sum.cpp:23-28. *)
  Fixpoint sag (s : surface T) (x y : T) {struct s} : T :=
    match s with
    | Plane => n0                                          (* src/plane.cpp:13-15 *)
    | Tilted tx ty => tilted_sag tx ty x y
    | Sphere R => sphere_sag R x y
    | Paraboloid R => paraboloid_sag R x y
    | Quadric R k => quadric_sag R k x y
    | Asphere R k cs => asphere_sag R k cs x y
    | Poly cs _ _ x0 y0 xs ys => poly_sag cs x0 y0 xs ys x y
    | Bicubic tb => table_eval tb x y                      (* src/bicubic.cpp:19-21 *)
    | Sum l => fold_left (fun acc s => acc + sag s x y) l n0
    end.

  (** Surface::normal, dispatched; Sum::normal is src/sum.cpp:30-45. *)
  Fixpoint normal (s : surface T) (x y : T) {struct s} : vec3 T :=
    match s with
    | Plane => zhat
    | Tilted tx ty => tilted_normal tx ty x y
    | Sphere R => sphere_normal R x y
    | Paraboloid R => paraboloid_normal R x y
    | Quadric R k => radial_normal (quadric_dzdr R k) x y
    | Asphere R k cs => radial_normal (asphere_dzdr R k cs) x y
    | Poly _ gx gy x0 y0 xs ys => poly_normal gx gy x0 y0 xs ys x y
    | Bicubic tb => bicubic_normal tb x y
    | Sum l =>
        let '(nx, ny) :=
          fold_left (fun '(ax, ay) s =>
                       let n := normal s x y in (ax + cx n / cz n, ay + cy n / cz n))
                    l (n0, n0) in
        let nz := n1 / nsqrt (nx * nx + ny * ny + n1) in
        V3 (nx * nz) (ny * nz) nz
    end.

  (** Surface::grad (src/surface.cpp:51-64). *)
  Definition grad (s : surface T) (x y : T) : T * T :=
    let n := normal s x y in
    if nisnan (cx n) then (nnan, nnan) else (- cx n / cz n, - cy n / cz n).

  (** Base-class Newton iteration Surface::timeToIntersect (src/surface.cpp:22-49).
      [newton_loop] is the for loop; its state is (dt, rPx, rPy, rPz, sz). *)
  Fixpoint newton_loop (sg : T -> T -> T) (nm : T -> T -> vec3 T)
      (x y z vx vy vz : T) (niter : nat) (dt rPx rPy rPz sz : T) : bool * T :=
    match niter with
    | O => (nabs (sz - rPz) <? nfrac 1 1000000000000, dt)
    | S k =>
        let n := nm rPx rPy in
        let dt := (rPx - x) * cx n + (rPy - y) * cy n + (sz - z) * cz n in
        let dt := dt / (cx n * vx + cy n * vy + cz n * vz) in
        let rPx := x + vx * dt in
        let rPy := y + vy * dt in
        let rPz := z + vz * dt in
        let sz := sg rPx rPy in
        newton_loop sg nm x y z vx vy vz k dt rPx rPy rPz sz
    end.
  Definition newton (sg : T -> T -> T) (nm : T -> T -> vec3 T)
      (x y z vx vy vz dt : T) (niter : nat) : bool * T :=
    let rPx := x + vx * dt in
    let rPy := y + vy * dt in
    let rPz := z + vz * dt in
    newton_loop sg nm x y z vx vy vz niter dt rPx rPy rPz (sg rPx rPy).

  (** Surface::timeToIntersect, dispatched.  Asphere: src/asphere.cpp:76-85;
      Sum: src/sum.cpp:47-56; Poly and Bicubic inherit the base class.
      [Sum []] reads _surfaces[0] out of bounds in C++; a miss here. *)
  Fixpoint tti (s : surface T) (x y z vx vy vz dt : T) (niter : nat) {struct s} : bool * T :=
    match s with
    | Plane => plane_tti x y z vx vy vz dt
    | Tilted tx ty => tilted_tti tx ty x y z vx vy vz dt
    | Sphere R => sphere_tti R x y z vx vy vz dt
    | Paraboloid R => paraboloid_tti R x y z vx vy vz dt
    | Quadric R k => quadric_tti R k x y z vx vy vz dt
    | Asphere R k cs =>
        let '(ok, dt) := quadric_tti R k x y z vx vy vz dt in
        if negb ok then (false, dt)
        else newton (asphere_sag R k cs) (radial_normal (asphere_dzdr R k cs))
                    x y z vx vy vz dt niter
    | Poly cs gx gy x0 y0 xs ys =>
        newton (poly_sag cs x0 y0 xs ys) (poly_normal gx gy x0 y0 xs ys) x y z vx vy vz dt niter
    | Bicubic tb => newton (table_eval tb) (bicubic_normal tb) x y z vx vy vz dt niter
    | Sum l =>
        match l with
        | [] => (false, dt)
        | s0 :: _ =>
            let '(ok, dt) := tti s0 x y z vx vy vz dt niter in
            if negb ok then (false, dt)
            else newton (sag (Sum l)) (normal (Sum l)) x y z vx vy vz dt niter
        end
    end.

  (** Asphere.__init__ (batoid/surface.py:378-399): coefficients are padded with
      imin-1 zeros; imin <= 0 raises ValueError. *)
  Definition mkAsphere (R conic : T) (coefs : list T) (imin : Z) : option (surface T) :=
    if (imin <=? 0)%Z then None
    else Some (Asphere R conic (repeat n0 (Z.to_nat (imin - 1)) ++ coefs)).
End Surf.
