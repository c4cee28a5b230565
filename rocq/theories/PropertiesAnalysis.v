(** C68 to C71: spots, wavefronts and point-spread functions. *)
From Coq Require Import Reals String List ZArith Bool Lra Lia.
From Verif Require Import Num NumR Vec CoordSys Surface Ray Bundle Trig Optic Field RayGen Wave Spec OpticsSpec FieldSpec
  PatternSpec GenSpec WaveSpec Analysis AnalysisSpec AnalysisProofs AnalysisFocus AnalysisPSF AnalysisFFT SamplesAnalysis.
Import ListNotations.
Open Scope R_scope.

(** C68 *)
Theorem C68_spot : forall niter tel tx ty w projection nx rv A q reference P,
  traced niter tel tx ty w projection nx rv -> rvcs rv = Fcs A -> good_frame A -> lit_rays rv q ->
  referred nx rv q reference P ->
  spot niter tel tx ty w projection nx reference
  = Ok (map (fun r => Fin (cx (pos r) - cx P)) q, map (fun r => Fin (cy (pos r) - cy P)) q).
Proof. exact spot_about. Qed.
Print Assumptions C68_spot.
Theorem C68_mean : forall niter tel tx ty w projection nx rv A q,
  traced niter tel tx ty w projection nx rv -> rvcs rv = Fcs A -> good_frame A -> lit_rays rv q -> q <> [] ->
  exists xs ys, spot niter tel tx ty w projection nx "mean" = Ok (map Fin xs, map Fin ys) /\
    length xs = length q /\ length ys = length q /\ sumR xs = 0 /\ sumR ys = 0.
Proof. exact spot_mean. Qed.
Print Assumptions C68_mean.
(** Any other word is accepted silently and means the origin of the detector. *)
Theorem C68_other : forall niter tel tx ty w projection nx rv A q reference,
  traced niter tel tx ty w projection nx rv -> rvcs rv = Fcs A -> good_frame A -> lit_rays rv q ->
  reference <> "mean"%string -> reference <> "chief"%string ->
  spot niter tel tx ty w projection nx reference
  = Ok (map (fun r => Fin (cx (pos r))) q, map (fun r => Fin (cy (pos r))) q).
Proof. exact spot_other. Qed.
Print Assumptions C68_other.
(** From the field angle to the result: a paraboloid has a point for a spot. *)
Theorem C68_paraboloid : forall niter tel lam p nx reference, newtonian tel lam nx -> (1 <= nx)%nat ->
  spot niter tel (Fin 0) (Fin 0) (Fin lam) (proj_name p) nx reference
  = Ok (repeat (Fin 0) (nx * nx), repeat (Fin 0) (nx * nx)).
Proof. exact newtonian_spot. Qed.
Print Assumptions C68_paraboloid.
Example C68_example : newtonian newton20 1 4 /\ forall niter, exists q rv A,
  traced niter newton20 (Fin 0) (Fin 0) (Fin 1) "postel" 4 rv /\ rvcs rv = Fcs A /\
  good_frame A /\ lit_rays rv q /\ q <> [] /\ exists ch, referred 4 rv q "chief" (pos ch).
Proof.
  split; [exact newton20_on_axis|]. intros niter.
  destruct (newton20_traced niter) as (q & rv & A & H1 & H2 & H3 & H4 & _ & H5 & H6 & _).
  exists q, rv, A. repeat (split; [assumption|]). exact H6.
Qed.

(** C69 *)
Theorem C69_wavefront : forall niter tel tx ty lam projection nx rv A q reference P sphereRadius radius D,
  traced niter tel tx ty (Fin lam) projection nx rv -> rvcs rv = Fcs A -> good_frame A -> lit_rays rv q ->
  referred nx rv q reference P -> (forall r, concerned nx rv q reference r -> inside P radius r) ->
  radius_used sphereRadius (tl_radius tel) radius -> lam <> 0 ->
  oa_pupil (tl_attr tel) = Some (Fin D) -> (3 <= nx)%nat ->
  exists arr ts t0,
    wavefront niter tel tx ty (Fin lam) projection nx sphereRadius reference
    = Ok (Lat (T:=XR) _ [nx; nx] arr
        [[Fin (D / INR (nx - if Nat.even nx then 2 else 1)); Fin 0]; [Fin 0; Fin (D / INR (nx - if Nat.even nx then 2 else 1))]]) /\
    Forall2 (wave_entry P radius lam t0) (rays rv) arr /\
    Forall2 (crosses P radius) q ts /\ timed nx rv P radius ts reference t0 /\
    map fst (filter (fun e => negb (snd e)) arr) = map (fun t => Fin ((t0 - t) / lam)) ts /\
    (forall ch, reference = "chief"%string -> nth_error (rays rv) (central nx) = Some (Fray ch) ->
       nth_error arr (central nx) = Some (Fin 0, vignetted ch)).
Proof. setoid_rewrite radius_used_iff. exact wavefront_entries. Qed.
Print Assumptions C69_wavefront.
(** The crossing of the reference sphere is determined. *)
Theorem C69_crossing : forall P radius r t t', inside P radius r -> crosses P radius r t -> crosses P radius r t' -> t = t'.
Proof. exact crosses_unique. Qed.
Print Assumptions C69_crossing.
Theorem C69_mean : forall niter tel tx ty lam projection nx rv A q P sphereRadius radius D,
  traced niter tel tx ty (Fin lam) projection nx rv -> rvcs rv = Fcs A -> good_frame A -> lit_rays rv q ->
  referred nx rv q "mean" P -> Forall (inside P radius) q ->
  radius_used sphereRadius (tl_radius tel) radius -> lam <> 0 ->
  oa_pupil (tl_attr tel) = Some (Fin D) -> (3 <= nx)%nat ->
  exists wf vs, wavefront niter tel tx ty (Fin lam) projection nx sphereRadius "mean" = Ok wf /\
    map fst (filter (fun e => negb (snd e)) (l_array _ wf)) = map Fin vs /\ length vs = length q /\ sumR vs = 0.
Proof. setoid_rewrite radius_used_iff. exact wavefront_mean. Qed.
Print Assumptions C69_mean.
(** Rays that meet at the reference point at one time have no wavefront error. *)
Theorem C69_focus : forall niter tel tx ty lam projection nx rv A q reference P sphereRadius radius D T0 s,
  traced niter tel tx ty (Fin lam) projection nx rv -> rvcs rv = Fcs A -> good_frame A -> lit_rays rv q ->
  referred nx rv q reference P ->
  (forall r, concerned nx rv q reference r -> inside P radius r /\ focused P T0 s r) ->
  ((forall r, concerned nx rv q reference r -> 0 < cz (vel r) * radius) \/
   (forall r, concerned nx rv q reference r -> cz (vel r) * radius <= 0)) ->
  radius_used sphereRadius (tl_radius tel) radius -> lam <> 0 ->
  oa_pupil (tl_attr tel) = Some (Fin D) -> (3 <= nx)%nat ->
  exists wf, wavefront niter tel tx ty (Fin lam) projection nx sphereRadius reference = Ok wf /\
    map snd (l_array _ wf) = map vignetted (rays rv) /\
    forall e, In e (l_array _ wf) -> snd e = false -> fst e = Fin 0.
Proof. setoid_rewrite radius_used_iff. exact wavefront_focus. Qed.
Print Assumptions C69_focus.
Theorem C69_paraboloid : forall niter tel lam p nx reference sphereRadius radius,
  newtonian tel lam nx -> (3 <= nx)%nat -> reference = "mean"%string \/ reference = "chief"%string ->
  radius_used sphereRadius (tl_radius tel) radius -> radius <> 0 -> lam <> 0 ->
  exists wf, wavefront niter tel (Fin 0) (Fin 0) (Fin lam) (proj_name p) nx sphereRadius reference = Ok wf /\
    l_shape _ wf = [nx; nx] /\ l_array _ wf = repeat (Fin 0, false) (nx * nx).
Proof. setoid_rewrite radius_used_iff. exact newtonian_wavefront. Qed.
Print Assumptions C69_paraboloid.
(** What wavefront cannot do: one or two points across, or another word for the reference. *)
Theorem C69_small : forall (T : Type) (NT : Num T) (TT : Trig T) niter (tel : telescope T) tx ty w projection nx sphereRadius reference D wf,
  oa_pupil (tl_attr tel) = Some D -> (1 <= nx <= 2)%nat ->
  wavefront niter tel tx ty w projection nx sphereRadius reference <> Ok wf.
Proof. exact @wavefront_small. Qed.
Print Assumptions C69_small.
Theorem C69_reference : forall (T : Type) (NT : Num T) (TT : Trig T) niter (tel : telescope T) tx ty w projection nx sphereRadius reference wf,
  reference <> "mean"%string -> reference <> "chief"%string ->
  wavefront niter tel tx ty w projection nx sphereRadius reference <> Ok wf.
Proof. exact @wavefront_reference. Qed.
Print Assumptions C69_reference.
Example C69_example : newtonian newton20 1 4 /\ (forall niter, exists q rv A,
    traced niter newton20 (Fin 0) (Fin 0) (Fin 1) "postel" 4 rv /\ rvcs rv = Fcs A /\ good_frame A /\ lit_rays rv q /\
    exists P, referred 4 rv q "chief" P /\ forall r, concerned 4 rv q "chief" r -> inside P 10 r) /\
  radius_used None (tl_radius newton20) 10 /\ oa_pupil (tl_attr newton20) = Some (Fin 4).
Proof. exact (conj newton20_on_axis (conj newton20_inside (conj (or_intror (conj eq_refl eq_refl)) eq_refl))). Qed.

(** C70 *)
Theorem C70_huygens : forall lstsq niter tel tx ty lam projection nx dx dy nxOut reference rv q P pv pad r0 l0 t0,
  traced niter tel tx ty (Fin lam) projection nx rv -> lit_rays rv q -> Forall (shines lam) q -> lam <> 0 ->
  referred nx rv q reference P ->
  huygens_lattice niter lstsq tel tx ty (Fin lam) projection nx dx dy = Ok (map (map Fin) pv, pad) -> square 2 pv ->
  rays rv = r0 :: l0 -> time r0 = Fin t0 ->
  let n := (or_else nxOut nx * pad)%nat in
  exists psf, huygensPSF niter lstsq tel tx ty (Fin lam) projection nx dx dy nxOut reference = Ok psf /\
    l_shape _ psf = [n; n] /\ l_pv _ psf = map (map Fin) pv /\ length (l_array _ psf) = (n * n)%nat /\
    forall i j t, (i < n)%nat -> (j < n)%nat ->
      nth_error (l_array _ psf) (i * n + j)
      = Some (Fin (intensity q (V3 (lattice_point [n; n] [j; i] pv 0 + cx P) (lattice_point [n; n] [j; i] pv 1 + cy P) 0) t)).
Proof. exact huygens_entries. Qed.
Print Assumptions C70_huygens.
(** With dx given: the steps of the lattice, and the point each row and column belongs to. *)
Theorem C70_steps : forall lstsq niter tel tx ty lam projection nx dx dy nxOut reference rv q P r0 l0 t0 a b,
  traced niter tel tx ty (Fin lam) projection nx rv -> lit_rays rv q -> Forall (shines lam) q -> lam <> 0 ->
  referred nx rv q reference P -> given_steps dx dy a b -> rays rv = r0 :: l0 -> time r0 = Fin t0 ->
  let n := or_else nxOut nx in
  exists psf, huygensPSF niter lstsq tel tx ty (Fin lam) projection nx (Some dx) dy nxOut reference = Ok psf /\
    l_shape _ psf = [n; n] /\ l_pv _ psf = [[Fin (fst a); Fin (snd a)]; [Fin (fst b); Fin (snd b)]] /\
    forall row column t, (row < n)%nat -> (column < n)%nat ->
      let i := INR column - INR (n / 2) in let j := INR row - INR (n / 2) in
      nth_error (l_array _ psf) (row * n + column)
      = Some (Fin (intensity q (V3 (cx P + i * fst a + j * fst b) (cy P + i * snd a + j * snd b) 0) t)).
Proof. exact huygens_steps. Qed.
Print Assumptions C70_steps.
Example C70_example_steps : given_steps (Sc (Fin 2)) (Some (Sc (Fin 3))) (2, 0) (0, 3).
Proof. constructor. Qed.
(** Rays that meet in phase at the reference point: the centre of the array has the greatest
    possible value, the square of the total flux. *)
Theorem C70_peak : forall lstsq niter tel tx ty lam projection nx dx dy nxOut reference rv q P pv pad r0 l0 t0 T0 s,
  traced niter tel tx ty (Fin lam) projection nx rv -> lit_rays rv q -> Forall (shines lam) q -> lam <> 0 ->
  referred nx rv q reference P -> cz P = 0 -> Forall (focused P T0 s) q -> Forall (fun r => 0 <= flux r) q ->
  huygens_lattice niter lstsq tel tx ty (Fin lam) projection nx dx dy = Ok (map (map Fin) pv, pad) -> square 2 pv ->
  rays rv = r0 :: l0 -> time r0 = Fin t0 ->
  let n := (or_else nxOut nx * pad)%nat in (1 <= n)%nat ->
  exists psf, huygensPSF niter lstsq tel tx ty (Fin lam) projection nx dx dy nxOut reference = Ok psf /\
    nth_error (l_array _ psf) (central n) = Some (Fin (sumR (map flux q) * sumR (map flux q))) /\
    forall e, In e (l_array _ psf) -> exists x, e = Fin x /\ 0 <= x <= sumR (map flux q) * sumR (map flux q).
Proof. exact huygens_peak. Qed.
Print Assumptions C70_peak.
(** The intensity does not depend on the time at which the waves are added. *)
Theorem C70_time : forall q p lam t t', lam <> 0 -> Forall (shines lam) q -> intensity q p t = intensity q p t'.
Proof. exact intensity_time. Qed.
Print Assumptions C70_time.
Theorem C70_paraboloid : forall lstsq niter tel lam p nx reference d nxOut,
  newtonian tel lam nx -> (1 <= nx)%nat -> reference = "mean"%string \/ reference = "chief"%string -> lam <> 0 ->
  let n := or_else nxOut nx in (1 <= n)%nat ->
  exists psf, huygensPSF niter lstsq tel (Fin 0) (Fin 0) (Fin lam) (proj_name p) nx (Some (Sc (Fin d))) None nxOut reference = Ok psf /\
    nth_error (l_array _ psf) (central n) = Some (Fin (INR (nx * nx) * INR (nx * nx))) /\
    forall e, In e (l_array _ psf) -> exists x, e = Fin x /\ 0 <= x <= INR (nx * nx) * INR (nx * nx).
Proof. exact newtonian_huygens. Qed.
Print Assumptions C70_paraboloid.
Example C70_example : newtonian newton20 1 4 /\ (forall niter, exists q rv P r0 l0 t0,
    traced niter newton20 (Fin 0) (Fin 0) (Fin 1) "postel" 4 rv /\ lit_rays rv q /\ Forall (shines 1) q /\
    referred 4 rv q "chief" P /\ rays rv = r0 :: l0 /\ time r0 = Fin t0) /\
  (forall niter lstsq, huygens_lattice niter lstsq newton20 (Fin 0) (Fin 0) (Fin 1) "postel" 4 (Some (Ve (Fin 1) (Fin 2))) (Some (Ve (Fin 0) (Fin 3)))
    = Ok (map (map Fin) [[1; 2]; [0; 3]], 1%nat)) /\ square 2 [[1; 2]; [0; 3]].
Proof. exact (conj newton20_on_axis (conj newton20_shines (conj (fun _ _ => eq_refl) skew_square))). Qed.

(** C71 *)
Theorem C71_fft : forall lstsq niter tel tx ty lam projection nx pad sphereRadius reference wf j,
  wavefront niter tel tx ty (Fin lam) projection nx sphereRadius reference = Ok wf -> finite_wf (l_array _ wf) ->
  dkdu niter lstsq tel tx ty (Fin lam) 6 36 projection = Ok j ->
  Nat.even nx = true -> (1 <= nx)%nat -> (1 <= pad)%nat ->
  let n := (nx * pad)%nat in
  exists psf, fftPSF niter lstsq tel tx ty (Fin lam) projection nx pad sphereRadius reference = Ok psf /\
    l_shape _ psf = [n; n] /\
    l_array _ psf = map Fin (flat_map (fun i => map (fun k =>
       diffracted n (INR i - INR (n / 2)) (INR k - INR (n / 2)) (unmasked nx (l_array _ wf))) (seq 0 n)) (seq 0 n)).
Proof. exact fft_entries. Qed.
Print Assumptions C71_fft.
(** The total is that of the pupil (Parseval) and no pixel exceeds the square of the number of
    pupil points. *)
Theorem C71_total : forall lstsq niter tel tx ty lam projection nx pad sphereRadius reference wf j,
  wavefront niter tel tx ty (Fin lam) projection nx sphereRadius reference = Ok wf -> finite_wf (l_array _ wf) ->
  dkdu niter lstsq tel tx ty (Fin lam) 6 36 projection = Ok j ->
  Nat.even nx = true -> (1 <= nx)%nat -> (1 <= pad)%nat ->
  let n := (nx * pad)%nat in let N := length (unmasked nx (l_array _ wf)) in
  exists psf xs, fftPSF niter lstsq tel tx ty (Fin lam) projection nx pad sphereRadius reference = Ok psf /\
    l_array _ psf = map Fin xs /\ length xs = (n * n)%nat /\ sumR xs = INR (n * n) * INR N /\
    Forall (fun x => 0 <= x <= INR N * INR N) xs.
Proof. exact fft_total. Qed.
Print Assumptions C71_total.
Theorem C71_peak : forall lstsq niter tel tx ty lam projection nx pad sphereRadius reference wf j,
  wavefront niter tel tx ty (Fin lam) projection nx sphereRadius reference = Ok wf ->
  (forall e, In e (l_array _ wf) -> snd e = false -> fst e = Fin 0) ->
  dkdu niter lstsq tel tx ty (Fin lam) 6 36 projection = Ok j ->
  Nat.even nx = true -> (1 <= nx)%nat -> (1 <= pad)%nat ->
  let n := (nx * pad)%nat in let N := length (unmasked nx (l_array _ wf)) in
  exists psf, fftPSF niter lstsq tel tx ty (Fin lam) projection nx pad sphereRadius reference = Ok psf /\
    nth_error (l_array _ psf) (central n) = Some (Fin (INR N * INR N)).
Proof. exact fft_peak. Qed.
Print Assumptions C71_peak.
Theorem C71_paraboloid : forall lstsq niter tel lam p nx pad reference sphereRadius radius j,
  newtonian tel lam nx -> (3 <= nx)%nat -> Nat.even nx = true -> (1 <= pad)%nat ->
  reference = "mean"%string \/ reference = "chief"%string ->
  radius_used sphereRadius (tl_radius tel) radius -> radius <> 0 -> lam <> 0 ->
  dkdu niter lstsq tel (Fin 0) (Fin 0) (Fin lam) 6 36 (proj_name p) = Ok j ->
  let n := (nx * pad)%nat in
  exists psf xs, fftPSF niter lstsq tel (Fin 0) (Fin 0) (Fin lam) (proj_name p) nx pad sphereRadius reference = Ok psf /\
    l_array _ psf = map Fin xs /\ length xs = (n * n)%nat /\
    nth_error xs (central n) = Some (INR (nx * nx) * INR (nx * nx)) /\
    sumR xs = INR (n * n) * INR (nx * nx) /\ Forall (fun x => 0 <= x <= INR (nx * nx) * INR (nx * nx)) xs.
Proof. setoid_rewrite radius_used_iff. exact newtonian_fft. Qed.
Print Assumptions C71_paraboloid.
(** An odd number of points across raises IndexError, in any arithmetic. *)
Theorem C71_odd : forall (T : Type) (NT : Num T) (TT : Trig T) lstsq niter (tel : telescope T) tx ty w projection nx pad sphereRadius reference wf,
  wavefront niter tel tx ty w projection nx sphereRadius reference = Ok wf -> Nat.even nx = false ->
  fftPSF niter lstsq tel tx ty w projection nx pad sphereRadius reference = Err IndexError.
Proof. exact @fft_odd. Qed.
Print Assumptions C71_odd.
Example C71_example : newtonian newton20 1 4 /\
  (forall niter lstsq, exists j, dkdu niter lstsq newton20 (Fin 0) (Fin 0) (Fin 1) 6 36 "postel" = Ok j) /\
  (forall niter, exists wf, wavefront niter newton20 (Fin 0) (Fin 0) (Fin 1) "postel" 4 None "chief" = Ok wf /\
     finite_wf (l_array _ wf) /\ length (unmasked 4 (l_array _ wf)) = 16%nat).
Proof. exact (conj newton20_on_axis (conj (fun n l => newton20_dkdu n l Postel) newton20_wf)). Qed.
