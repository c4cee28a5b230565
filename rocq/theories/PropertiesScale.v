(** C85: what dkdu returns, and the scale of the images. *)
From Coq Require Import Reals String List ZArith Bool Lra Lia.
From Verif Require Import Num NumR Vec CoordSys Surface Medium Ray Bundle Trig Optic Field RayGen Spec OpticsSpec WaveSpec GenSpec PatternSpec
  AnalysisSpec Analysis SamplesJac FitSpec ScaleSpec ScaleProofs SamplesScale.
Import ListNotations.
Open Scope R_scope.

(** Row by row, dkdu returns the slopes in x and in y of the best fits to the components of the
    wave vectors. *)
Theorem C85_fits : forall niter lstsq tel tx ty lam nrad naz projection rs0 A rv q,
  asPolar (Gen (Some (tl_attr tel)) None None None None (Some (Fin lam)) (FieldAngle tx ty projection))
    None None nrad naz 6 (Fin 1) None = Ok (Frv (RV rs0 A)) ->
  trace niter (tl_optic tel) false (Frv (RV rs0 A)) = rv -> lit_rays rv q -> Forall has_wave q ->
  let pts := launched_at rv rs0 in
  let kx := map (fun r => cx (wavevector r)) q in let ky := map (fun r => cy (wavevector r)) q in
  List.length pts = List.length q /\
  (answers2 lstsq 3 (plane_rows pts) kx ky -> ~ on_a_line pts ->
   exists kx0 ky0 xx xy yx yy,
     dkdu niter lstsq tel tx ty (Fin lam) nrad naz projection = Ok [[Fin xx; Fin yx]; [Fin xy; Fin yy]] /\
     plane_fit (combine pts kx) kx0 xx xy /\ plane_fit (combine pts ky) ky0 yx yy).
Proof. exact dkdu_fits. Qed.
Print Assumptions C85_fits.

(** Components that depend on the position in this way are fitted exactly. *)
Theorem C85_exact : forall data a b c a' b' c', plane_fit data a b c ->
  Forall (fun d => a' + b' * fst (fst d) + c' * snd (fst d) = snd d) data -> (a, b, c) = (a', b', c').
Proof. exact plane_fit_exact. Qed.
Print Assumptions C85_exact.

(** The lattice of fftPSF: a step along the first (second) vector changes the phase between pupil points
    a step apart in x (y) by one n-th of a turn, provided that dkdu is diagonal, and only then. *)
Theorem C85_fft : forall niter lstsq tel tx ty lam projection nx pad sphereRadius reference psf D p q s t,
  fftPSF niter lstsq tel tx ty (Fin lam) projection nx pad sphereRadius reference = Ok psf ->
  dkdu niter lstsq tel tx ty (Fin lam) 6 36 projection = Ok [[Fin p; Fin q]; [Fin s; Fin t]] -> p * t - q * s <> 0 ->
  oa_pupil (tl_attr tel) = Some (Fin D) -> D <> 0 -> (3 <= nx)%nat -> (1 <= pad)%nat ->
  let u := D / INR (nx - if Nat.even nx then 2 else 1) in
  exists b1 b2, l_pv _ psf = map (map Fin) [[fst b1; snd b1]; [fst b2; snd b2]] /\
    (dual (u * p, u * q) (u * s, u * t) b1 b2 (INR (nx * pad)) <-> q = 0 /\ s = 0) /\
    (q = 0 -> s = 0 -> b1 = (2 * PI / (INR (nx * pad) * (u * p)), 0) /\ b2 = (0, 2 * PI / (INR (nx * pad) * (u * t)))).
Proof. exact fft_scale. Qed.
Print Assumptions C85_fft.

(** The same for huygensPSF without dx. *)
Theorem C85_huygens : forall niter lstsq tel tx ty lam projection nx dy D p q s t,
  dkdu niter lstsq tel tx ty (Fin lam) 6 36 projection = Ok [[Fin p; Fin q]; [Fin s; Fin t]] -> p * t - q * s <> 0 ->
  oa_pupil (tl_attr tel) = Some (Fin D) -> D <> 0 -> (3 <= nx)%nat ->
  let u := D / INR (nx - if Nat.even nx then 2 else 1) in
  exists b1 b2, huygens_lattice niter lstsq tel tx ty (Fin lam) projection nx None dy = Ok (map (map Fin) [[fst b1; snd b1]; [fst b2; snd b2]], 2%nat) /\
    (dual (u * p, u * q) (u * s, u * t) b1 b2 (INR (2 * nx)) <-> q = 0 /\ s = 0) /\
    (q = 0 -> s = 0 -> b1 = (2 * PI / (INR (2 * nx) * (u * p)), 0) /\ b2 = (0, 2 * PI / (INR (2 * nx) * (u * t)))).
Proof. exact huygens_scale. Qed.
Print Assumptions C85_huygens.

(** A plate that delays the light by a quadratic function: dkdu is its matrix of second derivatives. *)
Theorem C85_plate : forall niter lam a b c nrad naz, a * a + 2 * (b * b) + c * c <= 1 -> lam <> 0 -> (2 <= nrad)%nat -> (0 <= naz)%Z ->
  exists pts, ~ on_a_line pts /\
    let kx := map (fun u => 2 * PI / lam * (a * fst u + b * snd u)) pts in let ky := map (fun u => 2 * PI / lam * (b * fst u + c * snd u)) pts in
    (exists lstsq, answers2 lstsq 3 (plane_rows pts) kx ky) /\
    forall lstsq, answers2 lstsq 3 (plane_rows pts) kx ky ->
      dkdu niter lstsq (plate a b c) (Fin 0) (Fin 0) (Fin lam) nrad naz "gnomonic"
      = Ok [[Fin (2 * PI / lam * a); Fin (2 * PI / lam * b)]; [Fin (2 * PI / lam * b); Fin (2 * PI / lam * c)]].
Proof. exact plate_dkdu. Qed.
Print Assumptions C85_plate.

(** A plate that mixes x and y: the lattice of fftPSF is not the reciprocal one. *)
Theorem C85_reciprocal_refuted : exists a b c lam, forall niter, exists lstsq psf b1 b2,
  dkdu niter lstsq (plate a b c) (Fin 0) (Fin 0) (Fin lam) 6 36 "gnomonic"
    = Ok [[Fin (2 * PI / lam * a); Fin (2 * PI / lam * b)]; [Fin (2 * PI / lam * b); Fin (2 * PI / lam * c)]] /\
  fftPSF niter lstsq (plate a b c) (Fin 0) (Fin 0) (Fin lam) "gnomonic" 4 2 (Some (Fin 10)) "mean" = Ok psf /\
  oa_pupil (tl_attr (plate a b c)) = Some (Fin 2) /\
  l_pv _ psf = map (map Fin) [[fst b1; snd b1]; [fst b2; snd b2]] /\
  let u := 2 / INR (4 - 2) in
  ~ dual (u * (2 * PI / lam * a), u * (2 * PI / lam * b)) (u * (2 * PI / lam * b), u * (2 * PI / lam * c)) b1 b2 (INR (4 * 2)).
Proof. exact scale_refuted. Qed.
Print Assumptions C85_reciprocal_refuted.

Example C85_example : forall niter, exists lstsq psf,
  dkdu niter lstsq (plate (1 / 2) 0 (1 / 4)) (Fin 0) (Fin 0) (Fin 1) 6 36 "gnomonic" = Ok [[Fin PI; Fin 0]; [Fin 0; Fin (PI / 2)]] /\
  fftPSF niter lstsq (plate (1 / 2) 0 (1 / 4)) (Fin 0) (Fin 0) (Fin 1) "gnomonic" 4 2 (Some (Fin 10)) "mean" = Ok psf /\
  l_pv _ psf = [[Fin (1 / 4); Fin 0]; [Fin 0; Fin (1 / 2)]].
Proof. exact plate_scale. Qed.
