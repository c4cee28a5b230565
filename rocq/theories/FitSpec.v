(** Specification vocabulary for least-squares fits of polynomials and for double Zernike
    coefficients. *)
From Coq Require Import Reals String List ZArith Bool.
From Verif Require Import Num NumR Vec CoordSys Surface Ray Bundle Trig Optic Field RayGen Spec OpticsSpec GenSpec AnalysisSpec Analysis DiscSpec ZernSpec JacSpec.
Import ListNotations.
Open Scope R_scope.

(** ** Least squares *)
Definition dotl (a b : list R) : R := sumR (map (fun p => fst p * snd p) (combine a b)).
Definition misfit (A : list (list R)) (b c : list R) : R :=
  sumR (map (fun p => (dotl (fst p) c - snd p) * (dotl (fst p) c - snd p)) (combine A b)).
(** x has the smallest misfit of all vectors of length n, and is the shortest such. *)
Definition solves (n : nat) (A : list (list R)) (b x : list R) : Prop :=
  length x = n /\ forall y, length y = n ->
    misfit A b x <= misfit A b y /\ (misfit A b y = misfit A b x -> dotl x x <= dotl y y).
(** The columns with these numbers are independent. *)
Definition independent (n : nat) (A : list (list R)) (S : list nat) : Prop :=
  forall c, length c = n -> (forall i, ~ In i S -> nth i c 0 = 0) -> Forall (fun row => dotl row c = 0) A ->
    Forall (fun a => a = 0) c.
Definition columns_of (n : nat) (S : list nat) : Prop := NoDup S /\ Forall (fun i => (i < n)%nat) S.
(** r is the largest number of independent columns. *)
Definition rank_is (n : nat) (A : list (list R)) (r : nat) : Prop :=
  (exists S, columns_of n S /\ length S = r /\ independent n A S) /\
  (forall S, columns_of n S -> independent n A S -> (length S <= r)%nat).
(** np.linalg.lstsq does its job on this matrix with n columns and this right hand side. *)
Definition answers (lstsq : list (list XR) -> list XR -> res (list XR * nat)) (n : nat) (A : list (list R)) (b : list R) : Prop :=
  exists x r, lstsq (map (map Fin) A) (map Fin b) = Ok (map Fin x, r) /\ solves n A b x /\ rank_is n A r.

(** ** Fits by polynomials *)
(** Values w at points u. *)
Definition sample := (R * R * R)%type.
Definition residual (Z : list poly2) (data : list sample) (c : list R) : R :=
  sumR (map (fun d => (combination c Z (fst (fst d)) (snd (fst d)) - snd d) * (combination c Z (fst (fst d)) (snd (fst d)) - snd d)) data).
(** c is the only vector of coefficients with the smallest residual. *)
Definition best_fit (Z : list poly2) (data : list sample) (c : list R) : Prop :=
  length c = length Z /\ forall c', length c' = length Z -> c' <> c -> residual Z data c < residual Z data c'.
(** Some combination of the polynomials that is not trivial vanishes at all these points. *)
Definition dependent (Z : list poly2) (pts : list (R * R)) : Prop :=
  exists c, length c = length Z /\ ~ Forall (fun a => a = 0) c /\
    Forall (fun u => combination c Z (fst u) (snd u) = 0) pts.
(** The matrix of the fit: the polynomials at the points, a column of zeros in front. *)
Definition fit_rows (Z : list poly2) (pts : list (R * R)) : list (list R) :=
  map (fun u => 0 :: map (fun p => at2 p (fst u) (snd u)) Z) pts.

(** The bundle rv0 is a plane wave aimed at the points xys of a stop that is a plane. *)
Definition through_stop (tel : telescope XR) (b : beam) (xys : list (R * R)) (rs0 : list (ray R)) : Prop :=
  Forall2 (fun r xy => aimed b (fst xy) (snd xy) r) rs0 xys /\
  b_surf b = Plane /\ proper b [] /\ meets_stop b /\ oa_stop (tl_attr tel) = Some (Plane, Fcs (b_sframe b)).
(** The points that the rays which are not vignetted were aimed at, in units of ro. *)
Definition lit_points (ro : R) (rv : rayvec XR) (xys : list (R * R)) : list (R * R) :=
  map (fun x => (fst (snd x) / ro, snd (snd x) / ro)) (filter (fun x => negb (vignetted (fst x))) (combine (rays rv) xys)).

(** ** Fits to ray aberrations *)
(** The point that positions on the last surface are measured from: the mean over the rays that
    are not vignetted, or the position of the chief ray. *)
Inductive aberration_reference (niter : nat) (tel : telescope XR) (lam : R) (d : vR) (rv : rayvec XR) : string -> vR -> Prop :=
| from_mean q : lit_rays rv q -> q <> [] -> aberration_reference niter tel lam d rv "mean" (centroid (map pos q))
| from_chief ch0 ch rest cs :
    fromStop (Gen (Some (tl_attr tel)) None None None None (Some (Fin lam)) (DirCos (F3 d))) (Fin 1) [(Fin 0, Fin 0)] = Ok ch0 ->
    trace niter (tl_optic tel) false ch0 = RV (Fray ch :: rest) cs -> aberration_reference niter tel lam d rv "chief" (pos ch).
(** The hexapolar bundle, aimed at the points xys of the stop, and what becomes of it. *)
Definition polar_setting (niter : nat) (tel : telescope XR) (tx ty : XR) (lam : R) (projection : string) (nrad : nat) (naz : Z)
    (reference : string) (D : R) (d : vR) (b : beam) (xys : list (R * R)) (rv : rayvec XR) (P : vR) : Prop :=
  fieldToDirCos tx ty projection = Ok (Fin (cx d), Fin (cy d), Fin (cz d)) /\
  (exists rs0, asPolar (Gen (Some (tl_attr tel)) None None None None (Some (Fin lam)) (DirCos (F3 d)))
       None None nrad naz 6 (Fin 1) None = Ok (Frv (RV rs0 (b_frame b))) /\
     through_stop tel b xys rs0 /\ trace niter (tl_optic tel) false (Frv (RV rs0 (b_frame b))) = rv) /\
  oa_pupil (tl_attr tel) = Some (Fin D) /\ aberration_reference niter tel lam d rv reference P.
(** The derivatives of a polynomial. *)
Definition dx2 (p : poly2) : poly2 := map (fun t => (fst (fst t) * INR (snd (fst t)), pred (snd (fst t)), snd t)) p.
Definition dy2 (p : poly2) : poly2 := map (fun t => (fst (fst t) * INR (snd t), snd (fst t), pred (snd t))) p.
(** zgrad (2 + j) is the gradient of the polynomial number j, taken in units of ro. *)
Definition gradients (zgrad : nat -> XR * XR -> XR -> XR -> XR * XR) (ro ri : R) (Z : list poly2) : Prop :=
  forall j p x y, nth_error Z j = Some p ->
    zgrad (2 + j)%nat (Fin x, Fin y) (Fin ro) (Fin ri) = (Fin (at2 (dx2 p) (x / ro) (y / ro) / ro), Fin (at2 (dy2 p) (x / ro) (y / ro) / ro)).
(** The matrix of the fit of slopes: two columns of zeros in front. *)
Definition slope_rows (ro : R) (Z : list poly2) (pts : list (R * R)) : list (list R) :=
  map (fun u => 0 :: 0 :: map (fun p => at2 (dx2 p) (fst u) (snd u) / ro) Z) pts ++
  map (fun u => 0 :: 0 :: map (fun p => at2 (dy2 p) (fst u) (snd u) / ro) Z) pts.
(** The wavefront with coefficients c, in waves of length lam, tilted by its slopes: an optic of
    focal length f moves the ray through the point u of the pupil by - f times the slope. *)
Definition slope_x (ro : R) (Z : list poly2) (c : list R) (u : R * R) : R := combination c (map dx2 Z) (fst u) (snd u) / ro.
Definition slope_y (ro : R) (Z : list poly2) (c : list R) (u : R * R) : R := combination c (map dy2 Z) (fst u) (snd u) / ro.
Definition slope_residual (ro f lam : R) (Z : list poly2) (data : list (R * R * (R * R))) (c : list R) : R :=
  sumR (map (fun e => (fst (snd e) + f * lam * slope_x ro Z c (fst e)) * (fst (snd e) + f * lam * slope_x ro Z c (fst e)) +
                      (snd (snd e) + f * lam * slope_y ro Z c (fst e)) * (snd (snd e) + f * lam * slope_y ro Z c (fst e))) data).
Definition best_slopes (ro f lam : R) (Z : list poly2) (data : list (R * R * (R * R))) (c : list R) : Prop :=
  length c = length Z /\ forall c', length c' = length Z -> c' <> c -> slope_residual ro f lam Z data c < slope_residual ro f lam Z data c'.
(** Some wavefront that is not trivial has no slope at any of these points. *)
Definition slopes_dependent (Z : list poly2) (pts : list (R * R)) : Prop :=
  exists c, length c = length Z /\ ~ Forall (fun a => a = 0) c /\
    Forall (fun u => combination c (map dx2 Z) (fst u) (snd u) = 0 /\ combination c (map dy2 Z) (fst u) (snd u) = 0) pts.

(** ** Double Zernike coefficients *)
(** The rule with this number of nodes is exact for polynomials of degree below N. *)
Definition gauss_rule (lg : nat -> list (XR * XR)) (rings N : nat) : Prop :=
  exists rule, lg rings = map (fun lw => (Fin (fst lw), Fin (snd lw))) rule /\
    Forall (fun lw => -1 <= fst lw <= 1) rule /\ exact_rule N rule.
Definition spoke_count (rings : nat) (spokes : option nat) (m : nat) : Prop :=
  (1 <= m)%nat /\ (spokes = Some m \/ spokes = None /\ m = (2 * rings + 1)%nat).
(** The points of the unit disc that the rule puts on m spokes. *)
Definition field_node (lg : nat -> list (XR * XR)) (rings m : nat) (x y : R) : Prop :=
  exists L w j, In (Fin L, Fin w) (lg rings) /\ (j < m)%nat /\
    x = sqrt ((1 + L) / 2) * cos (2 * PI * (INR j / INR m)) /\ y = sqrt ((1 + L) / 2) * sin (2 * PI * (INR j / INR m)).
