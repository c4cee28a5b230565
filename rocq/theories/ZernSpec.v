(** Specification vocabulary for the decomposition of wavefronts into polynomials over the pupil. *)
From Coq Require Import Reals String List ZArith Bool.
From Verif Require Import Num NumR Vec CoordSys Surface Ray Bundle Trig Optic Field RayGen Spec OpticsSpec GenSpec AnalysisSpec Analysis DiscSpec.
Import ListNotations.
Open Scope R_scope.

(** The function basis returns the values of the polynomials Z at the points, in units of the
    outer radius. *)
Definition evaluates (basis : nat -> list (XR * XR) -> XR -> XR -> list (list XR)) (jmax : nat) (ro ri : R) (Z : list poly2) : Prop :=
  forall pts, basis jmax (map (fun u => (Fin (fst u), Fin (snd u))) pts) (Fin ro) (Fin ri)
    = map (fun p => map (fun u => Fin (at2 p (fst u / ro) (snd u / ro))) pts) Z.
(** The wave is not parallel to the plane of the stop. *)
Definition meets_stop (b : beam) : Prop := cz (local_dir (b_sframe b) (global_dir (b_frame b) (b_dir b))) <> 0.
(** The rays of the quadrature before and after the optic. *)
Definition spoke_rays (niter : nat) (lg : nat -> list (XR * XR)) (tel : telescope XR) (lam : R) (d : vR)
    (D eps : R) (rings : nat) (spokes : option nat) (rs0 : list (ray R)) (F : frame) (rs : list (ray R)) (A : frame) : Prop :=
  asSpokes lg (Gen (Some (tl_attr tel)) None None None None (Some (Fin lam)) (DirCos (F3 d)))
     None (Fin (eps * D / 2)) (option_map CInt spokes) (CInt rings) "GQ" (Fin 1) = Ok (Frv (RV rs0 F)) /\
  trace niter (tl_optic tel) false (Frv (RV rs0 F)) = Frv (RV rs A) /\ good_frame A.
(** The centre of the reference sphere and the time the wavefront is referred to.  "mean": the
    mean over the rays that are not vignetted; "chief": the ray launched towards the origin of
    the stop surface with the direction read in the global frame. *)
Inductive gq_reference (niter : nat) (tel : telescope XR) (lam : R) (d : vR) (rs : list (ray R)) (A : frame) (radius : R)
    : string -> vR -> R -> Prop :=
| gq_mean q ts : filter (fun r => negb (vignetted r)) rs = q -> q <> [] ->
    Forall2 (crosses (centroid (map pos q)) radius) q ts ->
    gq_reference niter tel lam d rs A radius "mean" (centroid (map pos q)) (averageR ts)
| gq_chief bd stop ch0 ch rest t : oa_backDist (tl_attr tel) = Some bd -> oa_stop (tl_attr tel) = Some stop ->
    fromStop (Gen None (Some bd) (Some (oa_in (tl_attr tel))) (Some stop) None (Some (Fin lam)) (DirCos (F3 d)))
       (Fin 1) [(Fin 0, Fin 0)] = Ok ch0 ->
    trace niter (tl_optic tel) false ch0 = RV (Fray ch :: rest) (Fcs A) ->
    inside (pos ch) radius ch -> crosses (pos ch) radius ch t ->
    gq_reference niter tel lam d rs A radius "chief" (pos ch) t.
(** The wavefront: at the point u of the unit disc it is the lead, in waves, over the reference
    of the ray aimed at that point of the stop. *)
Definition wavefront_is (b : beam) (ro : R) (P : vR) (radius t0 lam : R) (rs0 rs : list (ray R)) (W : R -> R -> R) : Prop :=
  forall i r0 r x y t, nth_error rs0 i = Some r0 -> nth_error rs i = Some r -> aimed b x y r0 ->
    crosses P radius r t -> (t0 - t) / lam = W (x / ro) (y / ro).
(** The quadrature: the sum over the rays of flux times the polynomial p at the point of the pupil
    times the lead in waves. *)
Definition gq_sum (fl : list R) (pts : list (R * R)) (ts : list R) (t0 lam : R) (p : poly2) : R :=
  sumR (map (fun x => fst (fst x) * at2 p (fst (snd (fst x))) (snd (snd (fst x))) * ((t0 - snd x) / lam)) (combine (combine fl pts) ts)).
(** What zernikeGQ is given: a field angle in the direction d of a beam b that meets the plane of
    the stop, a pupil of diameter D, a Gauss-Legendre rule exact for polynomials of degree below
    N, m spokes; and rays that all end up inside the reference sphere about P. *)
Definition gq_setting (niter : nat) (lg : nat -> list (XR * XR)) (tel : telescope XR) (tx ty : XR) (lam : R) (projection : string)
    (rings : nat) (spokes : option nat) (sphereRadius : option XR) (radius : R) (reference : string) (eps D : R)
    (d : vR) (b : beam) (m N : nat) (rs0 rs : list (ray R)) (A : frame) (P : vR) (t0 : R) : Prop :=
  fieldToDirCos tx ty projection = Ok (Fin (cx d), Fin (cy d), Fin (cz d)) /\
  describes true (Gen (Some (tl_attr tel)) None None None None (Some (Fin lam)) (DirCos (F3 d))) b /\
  b_surf b = Plane /\ proper b [] /\ meets_stop b /\
  oa_pupil (tl_attr tel) = Some (Fin D) /\ 0 < D /\ 0 <= eps < 1 /\ lam <> 0 /\
  (exists rule, lg rings = map (fun lw => (Fin (fst lw), Fin (snd lw))) rule /\
     Forall (fun lw => -1 <= fst lw <= 1) rule /\ exact_rule N rule) /\
  (1 <= m)%nat /\ (spokes = Some m \/ spokes = None /\ m = (2 * rings + 1)%nat) /\
  spoke_rays niter lg tel lam d D eps rings spokes rs0 (b_frame b) rs A /\
  (sphereRadius = Some (Fin radius) \/ sphereRadius = None /\ tl_radius tel = Some (Fin radius)) /\
  gq_reference niter tel lam d rs A radius reference P t0 /\ Forall (inside P radius) rs.

(** The optic without its obscurations. *)
Fixpoint unobscured {T} (o : optic T) : optic T :=
  match o with
  | Iface i => Iface (IF (i_kind i) (i_surf i) (i_name i) (i_cs i) None (i_in i) (i_out i) (i_fwd i) (i_rev i) (i_skip i))
  | Compound a items => Compound a (map unobscured items)
  end.
(** The rays agree in everything but the vignetted flag. *)
Definition same_but_vignetted {T} (r r' : ray T) : Prop :=
  pos r' = pos r /\ vel r' = vel r /\ time r' = time r /\ wavelength r' = wavelength r /\ flux r' = flux r /\ failed r' = failed r.
