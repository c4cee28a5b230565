(** Specification vocabulary for the derivative of the image position with field angle. *)
From Coq Require Import Reals String List ZArith Bool.
From Verif Require Import Num NumR Vec CoordSys Ray Bundle Trig Optic Field RayGen Spec WaveSpec AnalysisSpec Analysis.
Import ListNotations.
Open Scope R_scope.

(** The hexapolar bundle of rays for a field angle. *)
Definition polar_rays (tel : telescope XR) (lam : R) (nrad : nat) (naz : Z) (projection : string) (tx ty : R) (rv : rayvec XR) : Prop :=
  exists a b c, fieldToDirCos (Fin tx) (Fin ty) projection = Ok (a, b, c) /\
    asPolar (Gen (Some (tl_attr tel)) None None None None (Some (Fin lam)) (DirCos (V3 a b c))) None None nrad naz 6 (Fin 1) None = Ok rv.
Definition dtheta : R := 1 / 100000.
(** The rays that are not vignetted at the nominal field angle, each with the ray of the same
    number at the field angle changed by dtheta in x and in y. *)
Definition lit_triples (l0 lx ly : list (ray XR)) (q : list (ray R * ray R * ray R)) : Prop :=
  filter (fun t => negb (vignetted (fst (fst t)))) (combine (combine l0 lx) ly)
  = map (fun t => (Fray (fst (fst t)), Fray (snd (fst t)), Fray (snd t))) q.
Definition moved_rays (niter : nat) (tel : telescope XR) (tx ty lam : R) (nrad : nat) (naz : Z) (projection : string)
    (q : list (ray R * ray R * ray R)) : Prop :=
  exists r0 rx ry,
    polar_rays tel lam nrad naz projection tx ty r0 /\
    polar_rays tel lam nrad naz projection (tx + dtheta) ty rx /\
    polar_rays tel lam nrad naz projection tx (ty + dtheta) ry /\
    lit_triples (rays (trace niter (tl_optic tel) false r0)) (rays (trace niter (tl_optic tel) false rx))
                (rays (trace niter (tl_optic tel) false ry)) q.
(** The mean of the rate at which the rays move. *)
Definition mean_rate (g : vR -> R) (with_ : ray R * ray R * ray R -> ray R) (q : list (ray R * ray R * ray R)) : R :=
  averageR (map (fun t => (g (pos (with_ t)) - g (pos (fst (fst t)))) / dtheta) q).
Definition by_x (t : ray R * ray R * ray R) : ray R := snd (fst t).
Definition by_y (t : ray R * ray R * ray R) : ray R := snd t.
(** The image moves by the matrix a b c d applied to the change of the field angle. *)
Definition moves_by (a b c d : R) (t : ray R * ray R * ray R) : Prop :=
  cx (pos (by_x t)) - cx (pos (fst (fst t))) = a * dtheta /\ cx (pos (by_y t)) - cx (pos (fst (fst t))) = b * dtheta /\
  cy (pos (by_x t)) - cy (pos (fst (fst t))) = c * dtheta /\ cy (pos (by_y t)) - cy (pos (fst (fst t))) = d * dtheta.
(** Product of two by two matrices, row by row. *)
Definition times2 (m k : R * R * R * R) : R * R * R * R :=
  let '(a, b, c, d) := m in let '(e, f, g, h) := k in
  (a * e + b * g, a * f + b * h, c * e + d * g, c * f + d * h).
