(** One ray and the bodies of the per-ray loops of src/batoid.cpp and
    src/rayVector.cpp. *)
From Coq Require Import List ZArith Bool.
From Verif Require Import Num Vec CoordSys Surface Medium Obscuration.
Import ListNotations.

(** Element i of the eleven parallel arrays of a RayVector
    (include/rayVector.h:50-60).  Simplification: array of structs. *)
Record ray (T : Type) := Ray {
  pos : vec3 T; vel : vec3 T; time : T; wavelength : T; flux : T;
  vignetted : bool; failed : bool }.
Arguments Ray {T}. Arguments pos {T}. Arguments vel {T}. Arguments time {T}.
Arguments wavelength {T}. Arguments flux {T}. Arguments vignetted {T}. Arguments failed {T}.

Section Loops.
  Context {T : Type} {NT : Num T}.
  Local Open Scope num_scope.

  (** failptr[i] = true; vigptr[i] = true (src/batoid.cpp:265-266 etc.): nothing
      else is written, in particular the position stays in the old frame. *)
  Definition mark_failed (r : ray T) : ray T :=
    Ray (pos r) (vel r) (time r) (wavelength r) (flux r) true true.

  (** x += vx*dt etc. (src/batoid.cpp:240-242, 339-341, 449-451, 599-601, 738-740). *)
  Definition advance (p v : vec3 T) (dt : T) : vec3 T :=
    V3 (cx p + cx v * dt) (cy p + cy v * dt) (cz p + cz v * dt).
  (** vx*nx, += vy*ny, += vz*nz (src/batoid.cpp:347-349 etc.). *)
  Definition dot3 (a b : vec3 T) : T := cx a * cx b + cy a * cy b + cz a * cz b.
  (** n1 = vx*vx; += ...; n1 = 1/sqrt(n1) (src/batoid.cpp:254-257, 455-458). *)
  Definition invspeed (v : vec3 T) : T := n1 / nsqrt (dot3 v v).

  (** tti called with dt = 0.0 on local coordinates. *)
  Definition hit (s : surface T) (niter : nat) (p v : vec3 T) : bool * T :=
    tti s (cx p) (cy p) (cz p) (cx v) (cy v) (cz v) n0 niter.

  (** applyForwardTransform loop body (src/batoid.cpp:94-107). *)
  Definition ray_forward (dr : vec3 T) (d : mat3 T) (r : ray T) : ray T :=
    Ray (fwd_point dr d (pos r)) (fwd_vel d (vel r)) (time r) (wavelength r) (flux r)
        (vignetted r) (failed r).
  (** applyReverseTransform loop body (src/batoid.cpp:134-147). *)
  Definition ray_reverse (dr : vec3 T) (d : mat3 T) (r : ray T) : ray T :=
    Ray (rev_point dr d (pos r)) (rev_vel d (vel r)) (time r) (wavelength r) (flux r)
        (vignetted r) (failed r).

  (** obscure loop body (src/batoid.cpp:169-171). *)
  Definition ray_obscure (o : obsc T) (r : ray T) : ray T :=
    Ray (pos r) (vel r) (time r) (wavelength r) (flux r)
        (vignetted r || contains o (cx (pos r)) (cy (pos r))) (failed r).

  (** intersect loop body (src/batoid.cpp:223-269). *)
  Definition ray_intersect (s : surface T) (dr : vec3 T) (d : mat3 T)
      (c : option (coating T)) (niter : nat) (r : ray T) : ray T :=
    let p := fwd_point dr d (pos r) in
    let v := fwd_vel d (vel r) in
    if failed r then r else
    let '(success, dt) := hit s niter p v in
    if success then
      let p := advance p v dt in
      let t := time r + dt in
      let fl := match c with
                | None => flux r
                | Some c =>
                    let n := normal s (cx p) (cy p) in
                    let alpha := dot3 v n * invspeed v in
                    flux r * getTransmit c (wavelength r) alpha
                end in
      Ray p v t (wavelength r) fl (vignetted r) (failed r)
    else mark_failed r.

  (** v -= 2*alpha*n (src/batoid.cpp:345-353). *)
  Definition reflect_vel (v n : vec3 T) : vec3 T :=
    let alpha := dot3 v n in
    V3 (cx v - n2 * alpha * cx n) (cy v - n2 * alpha * cy n) (cz v - n2 * alpha * cz n).

  (** reflect loop body (src/batoid.cpp:321-377). *)
  Definition ray_reflect (s : surface T) (dr : vec3 T) (d : mat3 T)
      (c : option (coating T)) (niter : nat) (r : ray T) : ray T :=
    let p := fwd_point dr d (pos r) in
    let v := fwd_vel d (vel r) in
    if failed r then r else
    let '(success, dt) := hit s niter p v in
    if success then
      let p := advance p v dt in
      let t := time r + dt in
      let n := normal s (cx p) (cy p) in
      let alpha := dot3 v n in
      let v' := reflect_vel v n in
      let fl := match c with
                | None => flux r
                | Some c => flux r * getReflect c (wavelength r) (alpha * invspeed v')
                end in
      Ray p v' t (wavelength r) fl (vignetted r) (failed r)
    else mark_failed r.

  (** if (alpha > 0) flip the normal (src/batoid.cpp:465-473, 615-623);
      returns (n, alpha). *)
  Definition orient (nv n : vec3 T) : vec3 T * T :=
    let alpha := dot3 nv n in
    if n0 <? alpha then
      (V3 (cx n * nofZ (-1)) (cy n * nofZ (-1)) (cz n * nofZ (-1)), alpha * nofZ (-1))
    else (n, alpha).
  Definition scale (v : vec3 T) (k : T) : vec3 T := V3 (cx v * k) (cy v * k) (cz v * k).
  (** The refraction arithmetic (src/batoid.cpp:474-496, 643-664); None is total
      internal reflection (sinsqr > 1). *)
  Definition refract_vel (nv n : vec3 T) (alpha n1_ n2_ : T) : option (vec3 T) :=
    let eta := n1_ / n2_ in
    let sinsqr := eta * eta * (n1 - alpha * alpha) in
    if n1 <? sinsqr then None else
    let nfactor := eta * alpha + nsqrt (n1 - sinsqr) in
    Some (V3 ((eta * cx nv - nfactor * cx n) / n2_)
             ((eta * cy nv - nfactor * cy n) / n2_)
             ((eta * cz nv - nfactor * cz n) / n2_)).

  Definition vnan : vec3 T := V3 nnan nnan nnan.

  (** refract loop body (src/batoid.cpp:431-505); m1 is not used by the code. *)
  Definition ray_refract (s : surface T) (dr : vec3 T) (d : mat3 T) (m2 : medium T)
      (c : option (coating T)) (niter : nat) (r : ray T) : ray T :=
    let p := fwd_point dr d (pos r) in
    let v := fwd_vel d (vel r) in
    if failed r then r else
    let '(success, dt) := hit s niter p v in
    if success then
      let p := advance p v dt in
      let t := time r + dt in
      let n1_ := invspeed v in
      let nv := scale v n1_ in
      let '(n, alpha) := orient nv (normal s (cx p) (cy p)) in
      let n2_ := getN m2 (wavelength r) in
      let fl := match c with
                | None => flux r
                | Some c => flux r * getTransmit c (wavelength r) alpha
                end in
      match refract_vel nv n alpha n1_ n2_ with
      | None => Ray p vnan t (wavelength r) fl true true
      | Some v' => Ray p v' t (wavelength r) fl (vignetted r) (failed r)
      end
    else mark_failed r.

  (** rSplit loop body (src/batoid.cpp:581-673): (refracted in place, reflected).
      The reflected ray lives in rvSplit = rv.copy() (batoid/trace.py:125), so a
      ray that is skipped keeps a copy of the input there. *)
  Definition ray_rsplit (s : surface T) (dr : vec3 T) (d : mat3 T) (m2 : medium T)
      (c : coating T) (niter : nat) (r : ray T) : ray T * ray T :=
    let p := fwd_point dr d (pos r) in
    let v := fwd_vel d (vel r) in
    if failed r then (r, r) else
    let '(success, dt) := hit s niter p v in
    if success then
      let p := advance p v dt in
      let t := time r + dt in
      let n1_ := invspeed v in
      let nv := scale v n1_ in
      let '(n, alpha) := orient nv (normal s (cx p) (cy p)) in
      let '(rf, tr) := getCoefs c (wavelength r) alpha in
      let vrefl := V3 (cx v - n2 * alpha * cx n / n1_)
                      (cy v - n2 * alpha * cy n / n1_)
                      (cz v - n2 * alpha * cz n / n1_) in
      let r2 := Ray p vrefl t (wavelength r) (flux r * rf) (vignetted r) (failed r) in
      let n2_ := getN m2 (wavelength r) in
      match refract_vel nv n alpha n1_ n2_ with
      | None => (Ray p vnan t (wavelength r) (flux r * tr) true true, r2)
      | Some v' => (Ray p v' t (wavelength r) (flux r * tr) (vignetted r) (failed r), r2)
      end
    else (mark_failed r, mark_failed r).

  (** The change of direction of refractScreen (src/batoid.cpp:744-821). *)
  Definition screen_vel (s screen : surface T) (p v : vec3 T) : vec3 T :=
    let norm := nsqrt (cx v * cx v + cy v * cy v + cz v * cz v) in
    let ninv := n1 / norm in
    let e3 := normal s (cx p) (cy p) in
    let e1norm := nsqrt (cz e3 * cz e3 + cx e3 * cx e3) in
    let e1 := V3 (cz e3 / e1norm) n0 (- cx e3 / e1norm) in
    let e2 := V3 (cy e3 * cz e1 - cz e3 * cy e1)
                 (cz e3 * cx e1 - cx e3 * cz e1)
                 (cx e3 * cy e1 - cy e3 * cx e1) in
    let cosi e := cx v * ninv * cx e + cy v * ninv * cy e + cz v * ninv * cz e in
    let cos1 := cosi e1 in
    let cos2 := cosi e2 in
    let cos3 := cosi e3 in
    let '(dPdx, dPdy) := grad screen (cx p) (cy p) in
    let dPd1 := dPdx * cx e1 + dPdy * cy e1 in
    let dPd2 := dPdx * cx e2 + dPdy * cy e2 in
    let '(cos1, cos2, cos3) :=
      if cos3 <? n0 then
        let cos1 := cos1 + dPd1 in
        let cos2 := cos2 + dPd2 in
        (cos1, cos2, - nsqrt (n1 - cos1 * cos1 - cos2 * cos2))
      else
        let cos1 := cos1 - dPd1 in
        let cos2 := cos2 - dPd2 in
        (cos1, cos2, nsqrt (n1 - cos1 * cos1 - cos2 * cos2)) in
    let comp (f : vec3 T -> T) := cos1 * norm * f e1 + cos2 * norm * f e2 + cos3 * norm * f e3 in
    V3 (comp cx) (comp cy) (comp cz).

  (** refractScreen loop body (src/batoid.cpp:720-844). *)
  Definition ray_screen (s screen : surface T) (dr : vec3 T) (d : mat3 T)
      (niter : nat) (r : ray T) : ray T :=
    let p := fwd_point dr d (pos r) in
    let v := fwd_vel d (vel r) in
    if failed r then r else
    let '(success, dt) := hit s niter p v in
    if success then
      let p := advance p v dt in
      let t := time r + dt in
      let v' := screen_vel s screen p v in
      let t := t + sag screen (cx p) (cy p) in
      Ray p v' t (wavelength r) (flux r) (vignetted r) (failed r)
    else mark_failed r.

  (** propagateInPlace loop body (src/rayVector.cpp:56-82): no failed check. *)
  Definition ray_propagate (t : T) (r : ray T) : ray T :=
    let dt := t - time r in
    Ray (V3 (cx (pos r) + cx (vel r) * dt)
            (cy (pos r) + cy (vel r) * dt)
            (cz (pos r) + cz (vel r) * dt))
        (vel r) t (wavelength r) (flux r) (vignetted r) (failed r).
  (** positionAtTime loop body (src/rayVector.cpp:26-54). *)
  Definition ray_positionAtTime (t : T) (r : ray T) : vec3 T :=
    V3 (cx (pos r) + cx (vel r) * (t - time r))
       (cy (pos r) + cy (vel r) * (t - time r))
       (cz (pos r) + cz (vel r) * (t - time r)).
End Loops.
