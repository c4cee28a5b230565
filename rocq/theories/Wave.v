(** Plane waves attached to rays: wavevector, phase, amplitude. *)
From Coq Require Import List ZArith Bool.
From Verif Require Import Num Vec CoordSys Ray Bundle Trig.
Import ListNotations.

Section Wave.
  Context {T : Type} {NT : Num T} {TT : Trig T}.
  Local Open Scope num_scope.

  (** Body of the loop of RayVector::phase (src/rayVector.cpp:112-123), also in
      amplitude (154-160) and sumAmplitude (206-212). *)
  Definition ray_phase (p : vec3 T) (t : T) (r : ray T) : T :=
    let v := vel r in
    let v2 := cx v * cx v + cy v * cy v + cz v * cz v in
    let out := (cx p - cx (pos r)) * cx v in
    let out := out + (cy p - cy (pos r)) * cy v in
    let out := out + (cz p - cz (pos r)) * cz v in
    let out := out / v2 in
    let out := out - (t - time r) in
    out * (n2 * npi / wavelength r).
  (** RayVector.phase (batoid/rayVector.py:192-210). *)
  Definition rv_phase (p : vec3 T) (t : T) (rv : rayvec T) : list T :=
    map (ray_phase p t) (rays rv).
  (** Loop body of RayVector::amplitude (src/rayVector.cpp:153-163): (real, imag). *)
  Definition ray_amplitude (p : vec3 T) (t : T) (r : ray T) : T * T :=
    let phase := ray_phase p t r in (ncos phase, nsin phase).
  Definition rv_amplitude (p : vec3 T) (t : T) (rv : rayvec T) : list (T * T) :=
    map (ray_amplitude p t) (rays rv).
  (** Loop body and loop of RayVector::sumAmplitude (src/rayVector.cpp:196-219),
      iterations in index order. *)
  Definition add_amplitude (p : vec3 T) (t : T) (ignoreVignetted : bool) (acc : T * T) (r : ray T)
      : T * T :=
    let phase := ray_phase p t r in
    if negb (failed r) && negb (ignoreVignetted && vignetted r)
    then (fst acc + ncos phase * flux r, snd acc + nsin phase * flux r)
    else acc.
  Definition sumAmplitude (p : vec3 T) (t : T) (ignoreVignetted : bool) (rv : rayvec T) : T * T :=
    fold_left (add_amplitude p t ignoreVignetted) (rays rv) (n0, n0).
  (** RayVector.k (batoid/rayVector.py:1179-1190) for one ray. *)
  Definition ray_k (r : ray T) : vec3 T :=
    let v := vel r in
    let out := vmap (fun c => n2 * npi * c) v in
    let out := vmap (fun c => c / wavelength r) out in
    vmap (fun c => c / (cx v * cx v + cy v * cy v + cz v * cz v)) out.
  (** RayVector.omega (batoid/rayVector.py:1207-1213) for one ray. *)
  Definition ray_omega (r : ray T) : T := n2 * npi / wavelength r.
End Wave.
