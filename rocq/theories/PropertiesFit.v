(** C82, C83, C84: double Zernike coefficients; fits of polynomials to wavefronts and to ray
    aberrations. *)
From Coq Require Import Reals String List ZArith Bool Lra Lia.
From Verif Require Import Num NumR Vec CoordSys Surface Medium Ray Bundle Trig Optic Field RayGen Spec OpticsSpec
  GenSpec AnalysisSpec Analysis DiscSpec ZernSpec JacSpec Fit FitSpec AnalysisBad SamplesZern SamplesJac LinExist FitProofs FitSlopes DoubleZern SamplesFit.
Import ListNotations.
Open Scope R_scope.

(** The double coefficients are the projections of the coefficients, as functions of the field, on
    the polynomials of the basis. *)
Theorem C82_projects : forall niter lg basis tel field lam rings spokes m N kmax projection sphereRadius reference jmax eps Zf As k e,
  0 < field -> gauss_rule lg rings N -> spoke_count rings spokes m ->
  (forall x y, field_node lg rings m x y ->
     zernikeGQ niter lg basis tel (Fin (field * x)) (Fin (field * y)) (Fin lam) projection rings (Some m) sphereRadius reference jmax eps
     = Ok (map (fun a => Fin (at2 a x y)) As)) ->
  evaluates basis kmax field 0 Zf ->
  Forall (degree2 k) Zf -> Forall (degree2 e) As -> (k + e < 2 * N)%nat -> (k + e < m)%nat ->
  exists M, doubleZernike niter lg basis tel (Fin field) (Fin lam) rings spokes kmax projection sphereRadius reference jmax eps = Ok (map (map Fin) M) /\
    Forall2 (fun p row => Forall2 (fun a v => annulus_integral 0 (fun x y => at2 p x y * at2 a x y) (v * PI)) As row) Zf M.
Proof. exact double_projects. Qed.
Print Assumptions C82_projects.

(** Coefficients that are combinations of orthonormal polynomials of the field come back. *)
Theorem C82_recovers : forall niter lg basis tel field lam rings spokes m N kmax projection sphereRadius reference jmax eps Z C k,
  0 < field -> gauss_rule lg rings N -> spoke_count rings spokes m ->
  (forall x y, field_node lg rings m x y ->
     zernikeGQ niter lg basis tel (Fin (field * x)) (Fin (field * y)) (Fin lam) projection rings (Some m) sphereRadius reference jmax eps
     = Ok (map (fun c => Fin (combination c Z x y)) C)) ->
  Forall (fun c => List.length c = List.length Z) C ->
  evaluates basis kmax field 0 ([] :: Z) -> orthonormal_family 0 Z ->
  Forall (degree2 k) Z -> (2 * k < 2 * N)%nat -> (2 * k < m)%nat ->
  doubleZernike niter lg basis tel (Fin field) (Fin lam) rings spokes kmax projection sphereRadius reference jmax eps
  = Ok (map (fun c => Fin 0) C :: map (fun i => map (fun c => Fin (nth i c 0)) C) (seq 0 (List.length Z))).
Proof. exact double_recovers. Qed.
Print Assumptions C82_recovers.

(** The same from the wavefronts. *)
Theorem C82_wavefronts : forall niter lg basis tel field lam rings spokes m N kmax projection sphereRadius radius reference jmax eps D Zp Z C k,
  0 < field -> gauss_rule lg rings N -> spoke_count rings spokes m ->
  (forall x y, field_node lg rings m x y -> exists d b rs0 rs A P t0,
     gq_setting niter lg tel (Fin (field * x)) (Fin (field * y)) lam projection rings (Some m) sphereRadius radius reference eps D d b m N rs0 rs A P t0 /\
     wavefront_is b (D / 2) P radius t0 lam rs0 rs (combination (map (fun c => combination c Z x y) C) Zp)) ->
  List.length C = List.length Zp -> Forall (fun c => List.length c = List.length Z) C ->
  evaluates basis jmax (D / 2) (eps * D / 2) ([] :: Zp) -> orthonormal_family eps Zp ->
  evaluates basis kmax field 0 ([] :: Z) -> orthonormal_family 0 Z ->
  Forall (degree2 k) Zp -> Forall (degree2 k) Z -> (2 * k < 2 * N)%nat -> (2 * k < m)%nat ->
  doubleZernike niter lg basis tel (Fin field) (Fin lam) rings spokes kmax projection sphereRadius reference jmax (Fin eps)
  = Ok (map Fin (0 :: map (fun c => 0) C) :: map (fun i => map Fin (0 :: map (fun c => nth i c 0) C)) (seq 0 (List.length Z))).
Proof. exact double_wavefronts. Qed.
Print Assumptions C82_wavefronts.

(** One ray at one field angle, behind a stop: its lead at the reference sphere. *)
Example C82_example : forall niter,
  (forall x y, field_node midpoint 1 1 x y -> x = x0 /\ y = 0) /\
  (exists rs0 rs,
    gq_setting niter midpoint (gap 3 1) (Fin (3 / 4)) (Fin 0) 1 "gnomonic" 1 (Some 1%nat) (Some (Fin 10)) 10 "chief" 0 2 (slant (3 / 4) 0) (gap_beam 1 (3 / 4) 0) 1 2 rs0 rs
      (screen_frame 3 1) (V3 (3 * (3 / 4)) (3 * 0) 0) (sphere_time 3 (3 / 4) 0 0 0) /\
    wavefront_is (gap_beam 1 (3 / 4) 0) (2 / 2) (V3 (3 * (3 / 4)) (3 * 0) 0) 10 (sphere_time 3 (3 / 4) 0 0 0) 1 rs0 rs (combination [oblique_lead] unit_piston)) /\
  doubleZernike niter midpoint (zbasis ([] :: unit_piston)) (gap 3 1) (Fin (3 / 4 / x0)) (Fin 1) 1 (Some 1%nat) 1 "gnomonic" (Some (Fin 10)) "chief" 1 (Fin 0)
  = Ok [map Fin [0; 0]; map Fin [0; oblique_lead]].
Proof. intros niter. exact (conj node1 (conj (gap_gq niter) (gap_double niter))). Qed.

(** zernike returns the best fit to the wavefront, or raises an error if there is more than one. *)
Theorem C83_fits : forall niter lstsq basis tel tx ty lam projection nx sphereRadius radius reference jmax eps D Z d b xys rs0 rv A q P,
  fieldToDirCos tx ty projection = Ok (Fin (cx d), Fin (cy d), Fin (cz d)) ->
  asGrid (Gen (Some (tl_attr tel)) None None None None (Some (Fin lam)) (DirCos (F3 d)))
    (Some (Z.of_nat nx)) None None None None None (Fin 1) None = Ok (Frv (RV rs0 (b_frame b))) ->
  through_stop tel b xys rs0 ->
  trace niter (tl_optic tel) false (Frv (RV rs0 (b_frame b))) = rv ->
  rvcs rv = Fcs A -> good_frame A -> lit_rays rv q -> referred nx rv q reference P ->
  (forall r, concerned nx rv q reference r -> inside P radius r) ->
  radius_used sphereRadius (tl_radius tel) radius -> lam <> 0 ->
  oa_pupil (tl_attr tel) = Some (Fin D) -> (3 <= nx)%nat ->
  evaluates basis jmax (D / 2) (D / 2 * eps) ([] :: Z) -> List.length Z = jmax ->
  exists ts t0, Forall2 (crosses P radius) q ts /\ timed nx rv P radius ts reference t0 /\
    let pts := lit_points (D / 2) rv xys in let vals := map (fun t => (t0 - t) / lam) ts in
    let result := zernike niter lstsq basis tel tx ty (Fin lam) projection nx sphereRadius reference jmax (Fin eps) in
    List.length pts = List.length vals /\
    (answers lstsq (S jmax) (fit_rows Z pts) vals ->
     (dependent Z pts -> result = Err RuntimeError) /\
     (~ dependent Z pts -> exists c, result = Ok (map Fin (0 :: c)) /\ best_fit Z (combine pts vals) c)).
Proof. exact zernike_fits. Qed.
Print Assumptions C83_fits.

(** A wavefront that is a combination of the polynomials comes back. *)
Theorem C83_exact : forall Z data c c', best_fit Z data c -> List.length c' = List.length Z ->
  Forall (fun d => combination c' Z (fst (fst d)) (snd (fst d)) = snd d) data -> c = c'.
Proof. exact best_fit_exact. Qed.
Print Assumptions C83_exact.

(** There is a solver that does what is asked of np.linalg.lstsq. *)
Theorem C83_solvable : forall n A b, Forall (fun row => length row = n) A -> length A = length b -> exists lstsq, answers lstsq n A b.
Proof. exact answers_exist. Qed.
Print Assumptions C83_solvable.

(** Nine rays behind a stop, one polynomial. *)
Example C83_example : forall niter, exists lstsq c,
  zernike niter lstsq (zbasis ([] :: bowl)) (gap 3 1) (Fin 0) (Fin 0) (Fin 1) "gnomonic" 3 (Some (Fin 10)) "chief" 1 (Fin 0) = Ok (map Fin [0; c]) /\
  best_fit bowl (map (fun xy => (xy, sqrt (100 - (fst xy * fst xy + snd xy * snd xy)) - 10)) (grid_points 3 3 1 1)) [c].
Proof. exact gap_zernike. Qed.

(** zernikeXYAberrations returns the best fits to the two components of the ray aberrations. *)
Theorem C84_xy : forall niter lstsq basis tel tx ty lam projection nrad naz reference jmax eps (include : bool) D Z d b xys rv P q,
  polar_setting niter tel tx ty lam projection nrad naz reference D d b xys rv P ->
  (if include then rays rv = map Fray q else lit_rays rv q) ->
  evaluates basis jmax (D / 2) (D / 2 * eps) ([] :: Z) -> List.length Z = jmax ->
  let pts := if include then map (fun xy => (fst xy / (D / 2), snd xy / (D / 2))) xys else lit_points (D / 2) rv xys in
  let xs := map (fun r => cx (pos r) - cx P) q in let ys := map (fun r => cy (pos r) - cy P) q in
  let result := zernikeXYAberrations niter lstsq basis tel tx ty (Fin lam) projection nrad naz reference jmax (Fin eps) include in
  List.length pts = List.length q /\
  (answers lstsq (S jmax) (fit_rows Z pts) xs -> answers lstsq (S jmax) (fit_rows Z pts) ys ->
   (dependent Z pts -> result = Err RuntimeError) /\
   (~ dependent Z pts -> exists c e, result = Ok (map Fin (0 :: c), map Fin (0 :: e)) /\
      best_fit Z (combine pts xs) c /\ best_fit Z (combine pts ys) e)).
Proof. exact zernikeXY_fits. Qed.
Print Assumptions C84_xy.

(** zernikeTA returns the wavefront whose slopes fit the ray aberrations best. *)
Theorem C84_slopes : forall niter lstsq zgrad tel tx ty lam projection nrad naz reference jmax eps focal_length f D Z d b xys rv P q,
  polar_setting niter tel tx ty lam projection nrad naz reference D d b xys rv P -> lit_rays rv q ->
  gradients zgrad (D / 2) (eps * D / 2) Z -> (1 <= jmax)%nat -> List.length Z = (jmax - 1)%nat -> D <> 0 ->
  focal_length = Some (Fin f) \/ focal_length = None /\ focalLength niter tel tx ty (Fin lam) 6 36 projection = Ok (Fin f) ->
  f <> 0 -> lam <> 0 ->
  let pts := lit_points (D / 2) rv xys in
  let xs := map (fun r => cx (pos r) - cx P) q in let ys := map (fun r => cy (pos r) - cy P) q in
  let result := zernikeTA niter lstsq zgrad tel tx ty (Fin lam) projection nrad naz reference jmax (Fin eps) focal_length in
  List.length pts = List.length q /\
  (answers lstsq (S jmax) (slope_rows (D / 2) Z pts) (xs ++ ys) ->
   (slopes_dependent Z pts -> result = Err RuntimeError) /\
   (~ slopes_dependent Z pts -> exists c, result = Ok (map Fin (0 :: 0 :: c)) /\
      best_slopes (D / 2) f lam Z (combine pts (combine xs ys)) c)).
Proof. exact zernikeTA_fits. Qed.
Print Assumptions C84_slopes.

(** Aberrations that are the slopes of a combination give its coefficients. *)
Theorem C84_slopes_exact : forall ro f lam Z data c c', best_slopes ro f lam Z data c -> List.length c' = List.length Z ->
  Forall (fun e => fst (snd e) = - f * lam * slope_x ro Z c' (fst e) /\ snd (snd e) = - f * lam * slope_y ro Z c' (fst e)) data -> c = c'.
Proof. exact best_slopes_exact. Qed.
Print Assumptions C84_slopes_exact.

(** The slopes are derivatives. *)
Theorem C84_dx : forall p x y, derivable_pt_lim (fun s => at2 p s y) x (at2 (dx2 p) x y).
Proof. exact dx2_derivative. Qed.
Print Assumptions C84_dx.

(** The slopes are derivatives. *)
Theorem C84_dy : forall p x y, derivable_pt_lim (fun s => at2 p x s) y (at2 (dy2 p) x y).
Proof. exact dy2_derivative. Qed.
Print Assumptions C84_dy.

(** Parallel rays on a screen, as if they were to converge: tilt and defocus. *)
Example C84_xy_example : forall niter lam, exists lstsq c,
  zernikeXYAberrations niter lstsq (zbasis ([] :: tiltx)) (gap 3 1) (Fin 0) (Fin 0) (Fin lam) "gnomonic" 2 6 "chief" 1 (Fin 0) false
  = Ok (map Fin [0; 1 / 2], map Fin (0 :: c)).
Proof. exact gap_xy. Qed.
Example C84_slopes_example : forall niter lam, lam <> 0 -> exists lstsq,
  zernikeTA niter lstsq (zgrads bowl) (gap 3 1) (Fin 0) (Fin 0) (Fin lam) "gnomonic" 2 6 "chief" 2 (Fin 0) None
  = Ok (map Fin [0; 0; - 1 / (6 * lam)]).
Proof. exact gap_ta. Qed.
