(** C64, C78, C79: Zernike coefficients by quadrature; obscurations only mark rays. *)
From Coq Require Import Reals String List ZArith Bool Lra Lia.
From Verif Require Import Num NumR Vec CoordSys Surface Medium Obscuration Ray Bundle Trig Optic Field RayGen Spec OpticsSpec
  GenSpec GenMore Analysis AnalysisSpec AnalysisBad PatternSpec DiscSpec ZernSpec ZernProofs VignetteProofs SamplesZern.
Import ListNotations.
Open Scope R_scope.

(** asSpokes with Gaussian quadrature integrates polynomials over the annulus exactly. *)
Theorem C64_exact : forall lg g b outer ro ri n m f N (rule : list (R * R)) spokes,
  describes true g b -> outer_from g outer ro -> lg n = map Fxy rule ->
  Forall (fun lw => -1 <= fst lw <= 1) rule -> exact_rule N rule -> 0 <= ri < ro -> (1 <= m)%nat ->
  spokes = Some (CInt m) \/ spokes = None /\ m = (2 * n + 1)%nat ->
  proper_disc b ro ->
  exists fl pts rv, asSpokes lg g outer (Fin ri) spokes (CInt n) "GQ" (Fin f) = Ok rv /\
    plane_wave b fl (map (fun u => (ro * fst u, ro * snd u)) pts) rv /\ List.length fl = List.length pts /\
    forall p d, degree2 d p -> (d < 2 * N)%nat -> (d < m)%nat ->
      annulus_integral (ri / ro) (at2 p) (weighted fl pts (at2 p)).
Proof. exact asSpokes_exact. Qed.
Print Assumptions C64_exact.

Example C64_exact_example : exists fl pts rv,
  asSpokes midpoint (Gen (Some flat_attr) None None None None (Some (Fin 1)) (DirCos (F3 (V3 0 0 (-1))))) None (Fin (1 / 2)) None (CInt 1) "GQ" (Fin 1) = Ok rv /\
  plane_wave flat_beam fl (map (fun u => (1 * fst u, 1 * snd u)) pts) rv /\
  annulus_integral (1 / 2) (fun x y => 3 * x ^ 1 * y ^ 1 + (2 * x ^ 0 * y ^ 0 + 0)) (weighted fl pts (fun x y => 3 * x ^ 1 * y ^ 1 + (2 * x ^ 0 * y ^ 0 + 0))).
Proof.
  destruct (C64_exact midpoint _ flat_beam None 1 (1 / 2) 1 3 1 2 [(0, 2)] None (flat_describes None)) as (fl & pts & rv & E & W & _ & X).
  - right. split; [reflexivity|]. exists flat_attr, 2. split; [reflexivity|]. split; [reflexivity|lra].
  - reflexivity.
  - constructor; [cbn; lra|constructor].
  - exact midpoint_rule.
  - lra.
  - lia.
  - right. split; reflexivity.
  - split; [apply hproper; exact half1|]. intros x y _. exists 0. reflexivity.
  - exists fl, pts, rv. split; [exact E|]. split; [exact W|].
    specialize (X [(3, 1%nat, 1%nat); (2, 0%nat, 0%nat)] 2%nat). replace (1 / 2 / 1) with (1 / 2) in X by field.
    apply X; [repeat constructor|lia|lia].
Qed.

(** The coefficients are the quadrature sums, divided by the area of the annulus. *)
Theorem C78_value : forall niter lg basis tel tx ty lam projection rings spokes sphereRadius radius reference jmax eps D
    d b m N Z rs0 rs A P t0,
  gq_setting niter lg tel tx ty lam projection rings spokes sphereRadius radius reference eps D d b m N rs0 rs A P t0 ->
  evaluates basis jmax (D / 2) (eps * D / 2) Z ->
  exists fl pts ts,
    Forall2 (fun r u => aimed b (D / 2 * fst u) (D / 2 * snd u) r) rs0 pts /\
    Forall2 (crosses P radius) rs ts /\ List.length fl = List.length pts /\ List.length ts = List.length pts /\ map flux rs0 = fl /\
    (forall p k, degree2 k p -> (k < 2 * N)%nat -> (k < m)%nat -> annulus_integral eps (at2 p) (weighted fl pts (at2 p))) /\
    zernikeGQ niter lg basis tel tx ty (Fin lam) projection rings spokes sphereRadius reference jmax (Fin eps)
    = Ok (map (fun p => Fin (gq_sum fl pts ts t0 lam p / (PI * (1 - eps * eps)))) Z).
Proof. exact zernikeGQ_value. Qed.
Print Assumptions C78_value.

(** For a polynomial wavefront they are the projections on the polynomials of the basis. *)
Theorem C78_projects : forall niter lg basis tel tx ty lam projection rings spokes sphereRadius radius reference jmax eps D
    d b m N Z rs0 rs A P t0 W k e,
  gq_setting niter lg tel tx ty lam projection rings spokes sphereRadius radius reference eps D d b m N rs0 rs A P t0 ->
  evaluates basis jmax (D / 2) (eps * D / 2) Z ->
  wavefront_is b (D / 2) P radius t0 lam rs0 rs (at2 W) ->
  Forall (degree2 k) Z -> degree2 e W -> (k + e < 2 * N)%nat -> (k + e < m)%nat ->
  exists a, zernikeGQ niter lg basis tel tx ty (Fin lam) projection rings spokes sphereRadius reference jmax (Fin eps) = Ok (map Fin a) /\
    Forall2 (fun p a => annulus_integral eps (fun x y => at2 p x y * at2 W x y) (a * (PI * (1 - eps * eps)))) Z a.
Proof. exact zernikeGQ_projects. Qed.
Print Assumptions C78_projects.

(** A wavefront composed of the polynomials is taken apart again. *)
Theorem C78_recovers : forall niter lg basis tel tx ty lam projection rings spokes sphereRadius radius reference jmax eps D
    d b m N Z rs0 rs A P t0 c k,
  gq_setting niter lg tel tx ty lam projection rings spokes sphereRadius radius reference eps D d b m N rs0 rs A P t0 ->
  evaluates basis jmax (D / 2) (eps * D / 2) ([] :: Z) -> orthonormal_family eps Z ->
  List.length c = List.length Z -> wavefront_is b (D / 2) P radius t0 lam rs0 rs (combination c Z) ->
  Forall (degree2 k) Z -> (2 * k < 2 * N)%nat -> (2 * k < m)%nat ->
  zernikeGQ niter lg basis tel tx ty (Fin lam) projection rings spokes sphereRadius reference jmax (Fin eps) = Ok (map Fin (0 :: c)).
Proof. exact zernikeGQ_recovers. Qed.
Print Assumptions C78_recovers.

Example C78_recovers_example : forall niter,
  zernikeGQ niter midpoint (zbasis ([] :: low_order)) (flat None) (Fin 0) (Fin 0) (Fin 1) "postel" 1 (Some 3%nat) None "chief" 3 (Fin 0)
  = Ok (map Fin [0; 10 - sqrt (199 / 2); 0; 0]).
Proof. exact flat_piston. Qed.
Example C78_value_example : forall niter, exists rs0 rs,
  gq_setting niter midpoint (flat None) (Fin 0) (Fin 0) 1 "postel" 1 (Some 3%nat) None (-10) "chief" 0 2 (V3 0 0 (-1)) flat_beam 3 2 rs0 rs (half 1) (V3 0 0 0) 11 /\
  List.length rs = 3%nat.
Proof.
  intros niter. destruct (flat_spokes None 3 ltac:(lia)) as (rs0 & E & F & A).
  pose proof (flat_setting niter None 3 "chief" (V3 0 0 0) 11 rs0 E A ltac:(lia) (ring_near 3)) as HS. cbv zeta in HS. specialize (HS (flat_chief niter None _)).
  eexists. eexists. split; [exact HS|]. rewrite map_length, combine_length. apply (f_equal (@List.length R)) in F. rewrite !map_length in F.
  cbn [seq List.length] in F. rewrite F. reflexivity.
Qed.

(** Any ray that fails is reported. *)
Theorem C78_failed : forall {T} {NT : Num T} {TT : Trig T} niter lg basis tel tx ty w projection rings spokes sphereRadius reference jmax eps d pupil rv stop radius,
    fieldToDirCos tx ty projection = Ok d -> oa_pupil (tl_attr tel) = Some pupil ->
    asSpokes lg (generator tel w d) None (ndiv (nmul eps pupil) n2) (option_map CInt spokes) (CInt rings) "GQ" n1 = Ok rv ->
    oa_stop (tl_attr tel) = Some stop -> sphereRadius = Some radius \/ sphereRadius = None /\ tl_radius tel = Some radius ->
    (exists r, In r (rays (trace niter (tl_optic tel) false rv)) /\ failed r = true) ->
    zernikeGQ niter lg basis tel tx ty w projection rings spokes sphereRadius reference jmax eps = Err ValueError.
Proof. exact @zernikeGQ_failed. Qed.
Print Assumptions C78_failed.

(** More polynomials leave the first coefficients as they are. *)
Theorem C78_jmax : forall {T} {NT : Num T} {TT : Trig T} niter lg basis tel tx ty w projection rings spokes sphereRadius reference j k eps a,
    (forall pts outer inner, exists rest, basis k pts outer inner = basis j pts outer inner ++ rest) ->
    zernikeGQ niter lg basis tel tx ty w projection rings spokes sphereRadius reference j eps = Ok a ->
    exists b, zernikeGQ niter lg basis tel tx ty w projection rings spokes sphereRadius reference k eps = Ok (a ++ b).
Proof. exact @zernikeGQ_jmax. Qed.
Print Assumptions C78_jmax.

Example C78_jmax_example : forall pts outer inner, exists rest,
  zbasis ([] :: low_order) 3 pts outer inner = zbasis [[]; [(1, 0%nat, 0%nat)]] 1 pts outer inner ++ rest.
Proof. intros. eexists. reflexivity. Qed.

(** About the chief ray the result does not depend on the obscurations. *)
Theorem C78_vignetting : forall {T} {NT : Num T} {TT : Trig T} niter lg basis o attr radius tx ty w projection rings spokes sphereRadius reference jmax eps,
    reference <> "mean"%string ->
    zernikeGQ niter lg basis (Tel (unobscured o) attr radius) tx ty w projection rings spokes sphereRadius reference jmax eps
    = zernikeGQ niter lg basis (Tel o attr radius) tx ty w projection rings spokes sphereRadius reference jmax eps.
Proof. exact @zernikeGQ_unobscured. Qed.
Print Assumptions C78_vignetting.

(** About the mean of the rays it does. *)
Theorem C78_vignetting_refuted : exists niter lg basis o attr radius tx ty w projection rings spokes jmax eps a b,
  zernikeGQ niter lg basis (Tel (unobscured o) attr radius) tx ty w projection rings spokes None "mean" jmax eps = Ok [a] /\
  zernikeGQ niter lg basis (Tel o attr radius) tx ty w projection rings spokes None "mean" jmax eps = Ok [b] /\ a <> b.
Proof. exact vignetting_moves_mean. Qed.
Print Assumptions C78_vignetting_refuted.

Example C78_vignetting_example : forall niter, unobscured (baffle blot) <> baffle blot /\
  zernikeGQ niter midpoint (zbasis ([] :: low_order)) (Tel (baffle blot) flat_attr (Some (Fin (-10)))) (Fin 0) (Fin 0) (Fin 1) "postel" 1 (Some 3%nat) None "chief" 3 (Fin 0)
  = Ok (map Fin [0; 10 - sqrt (199 / 2); 0; 0]).
Proof.
  intros niter. split; [discriminate|]. rewrite <- C78_vignetting by discriminate. exact (flat_piston niter).
Qed.

Theorem C79_obscurations : forall {T} {NT : Num T} niter o reverse rv,
    let a := trace niter o reverse rv in let b := trace niter (unobscured o) reverse rv in
    Forall2 same_but_vignetted (rays a) (rays b) /\ rvcs a = rvcs b.
Proof. exact @obscurations_mark. Qed.
Print Assumptions C79_obscurations.

Example C79_example : forall niter, exists r, failed r = false /\
  map vignetted (rays (trace niter (baffle blot) false (RV [r] (Fcs (half 1))))) = [true] /\
  map vignetted (rays (trace niter (unobscured (baffle blot)) false (RV [r] (Fcs (half 1))))) = [false].
Proof.
  intros niter. destruct (flat_spokes blot 2 ltac:(lia)) as (rs0 & E & F & A). destruct (two_aimed rs0 A) as (a & b & -> & _ & Ab).
  exists (Fray b). split; [apply aimed_flat in Ab; rewrite Ab; reflexivity|].
  pose proof (fun ob => trace_flat niter ob [b] [(- x0, 0)] ltac:(constructor; [exact Ab|constructor])) as TF.
  change (RV [Fray b] (Fcs (half 1))) with (Frv (RV [b] (half 1))).
  split; [rewrite (TF blot)|change (unobscured (baffle blot)) with (baffle None); rewrite (TF None); reflexivity].
  cbn [map combine fst snd Frv rays]. rewrite blot_left. reflexivity.
Qed.
