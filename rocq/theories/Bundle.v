(** RayVector as a list of rays with a coordinate system, and the batch
    operations of batoid/trace.py and batoid/rayVector.py on it. *)
From Coq Require Import List ZArith Bool.
From Verif Require Import Num Vec CoordSys Surface Medium Obscuration Ray.
Import ListNotations.

(** class RayVector (batoid/rayVector.py:13-150): the arrays and .coordSys. *)
Record rayvec (T : Type) := RV { rays : list (ray T); rvcs : coordsys T }.
Arguments RV {T}. Arguments rays {T}. Arguments rvcs {T}.

Section Bundle.
  Context {T : Type} {NT : Num T}.

  (** [if coordSys is None: coordSys = rv.coordSys] (batoid/trace.py:69-70 etc.). *)
  Definition dest (cs : option (coordsys T)) (rv : rayvec T) : coordsys T :=
    match cs with None => rvcs rv | Some c => c end.

  (** The frame argument of the C++ loops: ct = CoordTransform(rv.coordSys,
      coordSys) (batoid/trace.py:71), then one loop body per ray, then
      rv.coordSys = coordSys (batoid/trace.py:80). *)
  Definition batch (body : vec3 T -> mat3 T -> ray T -> ray T)
      (cs : option (coordsys T)) (rv : rayvec T) : rayvec T :=
    let c := dest cs rv in
    let ct := mkCT (rvcs rv) c in
    RV (map (body (ct_dr ct) (ct_drot ct)) (rays rv)) c.

  (** trace.intersect (batoid/trace.py:47-81). *)
  Definition rv_intersect (niter : nat) (s : surface T) (cs : option (coordsys T))
      (c : option (coating T)) (rv : rayvec T) : rayvec T :=
    batch (fun dr d => ray_intersect s dr d c niter) cs rv.
  (** trace.reflect (batoid/trace.py:84-98). *)
  Definition rv_reflect (niter : nat) (s : surface T) (cs : option (coordsys T))
      (c : option (coating T)) (rv : rayvec T) : rayvec T :=
    batch (fun dr d => ray_reflect s dr d c niter) cs rv.
  (** trace.refract (batoid/trace.py:101-116). *)
  Definition rv_refract (niter : nat) (s : surface T) (m1 m2 : medium T)
      (cs : option (coordsys T)) (c : option (coating T)) (rv : rayvec T) : rayvec T :=
    batch (fun dr d => ray_refract s dr d m2 c niter) cs rv.
  (** trace.rSplit (batoid/trace.py:119-136): (refracted, reflected). *)
  Definition rv_rsplit (niter : nat) (s : surface T) (m1 m2 : medium T) (c : coating T)
      (cs : option (coordsys T)) (rv : rayvec T) : rayvec T * rayvec T :=
    let k := dest cs rv in
    let ct := mkCT (rvcs rv) k in
    let l := map (ray_rsplit s (ct_dr ct) (ct_drot ct) m2 c niter) (rays rv) in
    (RV (map fst l) k, RV (map snd l) k).
  (** trace.refractScreen (batoid/trace.py:139-153). *)
  Definition rv_screen (niter : nat) (s screen : surface T) (cs : option (coordsys T))
      (rv : rayvec T) : rayvec T :=
    batch (fun dr d => ray_screen s screen dr d niter) cs rv.
  (** Obscuration.obscure (batoid/obscuration.py:27-43 -> batoid/trace.py:41-44). *)
  Definition rv_obscure (o : obsc T) (rv : rayvec T) : rayvec T :=
    RV (map (ray_obscure o) (rays rv)) (rvcs rv).
  (** RayVector.toCoordSys (batoid/rayVector.py:1272-1287) through
      applyForwardTransform (batoid/trace.py:5-11). *)
  Definition rv_toCoordSys (cs : coordsys T) (rv : rayvec T) : rayvec T :=
    batch ray_forward (Some cs) rv.
  (** CoordTransform.applyForward / applyReverse on a RayVector
      (batoid/coordTransform.py:38-68, batoid/trace.py:5-20).  The transform is
      applied whatever frame the rays claim to be in. *)
  Definition rv_applyForward (ct : coordtransform T) (rv : rayvec T) : rayvec T :=
    RV (map (ray_forward (ct_dr ct) (ct_drot ct)) (rays rv)) (toSys ct).
  Definition rv_applyReverse (ct : coordtransform T) (rv : rayvec T) : rayvec T :=
    RV (map (ray_reverse (ct_dr ct) (ct_drot ct)) (rays rv)) (fromSys ct).
  (** RayVector.propagate (batoid/rayVector.py:171-190). *)
  Definition rv_propagate (t : T) (rv : rayvec T) : rayvec T :=
    RV (map (ray_propagate t) (rays rv)) (rvcs rv).
  (** RayVector.copy (batoid/rayVector.py:1254-1270): a new object with equal
      arrays; the identity on values. *)
  Definition rv_copy (rv : rayvec T) : rayvec T := rv.
End Bundle.
