(** dkdu is a least-squares fit; the lattices of the images. *)
From Coq Require Import Reals String List ZArith Bool Lra Psatz Lia.
From Verif Require Import Num NumR Vec CoordSys Surface Medium Ray Bundle Trig Optic Field RayGen Spec OpticsSpec XRFacts Wave WaveSpec WaveProofs
  GenSpec PatternSpec PatternProofs AnalysisSpec Analysis AnalysisProofs AnalysisFFT FitSpec LinFit LinExist FitProofs ScaleSpec.
Import ListNotations.
Open Scope R_scope.

Lemma plane_misfit pts : forall vals a b c, misfit (plane_rows pts) vals [a; b; c] = plane_residual (combine pts vals) a b c.
Proof.
  induction pts as [|u pts IH]; intros [|v vals] a b c; try reflexivity.
  unfold plane_rows in *. cbn [map]. rewrite misfit_cons, IH. unfold plane_residual, sumR, dotl, sumR. cbn [combine map fold_right fst snd].
  f_equal. ring.
Qed.
Lemma plane_full pts : ~ on_a_line pts -> full 3 (plane_rows pts).
Proof.
  intros H c L F. destruct c as [|a [|b [|c [|? ?]]]]; try discriminate L.
  assert (Q : (a, b, c) = (0, 0, 0)).
  { destruct (Req_EM_T a 0) as [Ea|Ea]; [destruct (Req_EM_T b 0) as [Eb|Eb]; [destruct (Req_EM_T c 0) as [Ec|Ec]; [congruence|]|]|];
      exfalso; apply H; exists a, b, c; (split; [congruence|]); unfold plane_rows in F; apply Forall_map in F;
      refine (Forall_impl _ _ F); intros u Hu; unfold dotl, sumR in Hu; cbn in Hu; lra. }
  injection Q as -> -> ->. repeat constructor.
Qed.
Lemma plane_solution pts vals x : List.length pts = List.length vals -> ~ on_a_line pts -> solves 3 (plane_rows pts) vals x ->
  exists a b c, x = [a; b; c] /\ plane_fit (combine pts vals) a b c.
Proof.
  intros L H S. destruct (full_solution 0 3 (plane_rows pts) vals x) as (c & -> & Lc & Hm); [unfold plane_rows; rewrite map_length; exact L|apply plane_full, H| |].
  { unfold padded. cbn [repeat]. rewrite (map_ext _ (fun l => l)), map_id by reflexivity. exact S. }
  destruct c as [|a [|b [|c [|? ?]]]]; try discriminate Lc. exists a, b, c. split; [reflexivity|].
  intros a' b' c' N. rewrite <- !plane_misfit. apply Hm; [reflexivity|congruence].
Qed.
(** Values that are such a function are fitted by it. *)
Theorem plane_fit_exact : forall data a b c a' b' c', plane_fit data a b c ->
  Forall (fun d => a' + b' * fst (fst d) + c' * snd (fst d) = snd d) data -> (a, b, c) = (a', b', c').
Proof.
  intros data a b c a' b' c' H E. destruct (Req_EM_T a a') as [Ea|Ea]; [destruct (Req_EM_T b b') as [Eb|Eb]; [destruct (Req_EM_T c c') as [Ec|Ec]; [congruence|]|]|];
  exfalso; (assert (K : (a', b', c') <> (a, b, c)) by congruence); specialize (H _ _ _ K);
  (assert (Z : plane_residual data a' b' c' = 0) by (unfold plane_residual; clear -E; induction E as [|d data E0 E IH]; [reflexivity|]; unfold sumR in *; cbn [map fold_right]; rewrite IH, E0; ring));
  (assert (0 <= plane_residual data a b c); [|lra]); unfold plane_residual; clear; (induction data as [|d data IH]; [cbn; lra|]); unfold sumR in *; cbn [map fold_right];
  pose proof (Rle_0_sqr (a + b * fst (fst d) + c * snd (fst d) - snd d)) as Q; unfold Rsqr in Q; lra.
Qed.
Lemma lit_select {A} (g : ray XR -> A) rv : select (map g (rays rv)) (lit rv) = map g (filter (fun r => negb (vignetted r)) (rays rv)).
Proof.
  unfold select, lit. induction (rays rv) as [|r rs IH]; [reflexivity|]. cbn [map combine filter fst snd].
  destruct (negb (vignetted r)); cbn [map fst]; rewrite IH; reflexivity.
Qed.
Theorem dkdu_fits : forall niter lstsq tel tx ty lam nrad naz projection rs0 A rv q,
  asPolar (Gen (Some (tl_attr tel)) None None None None (Some (Fin lam)) (FieldAngle tx ty projection))
    None None nrad naz 6 (Fin 1) None = Ok (Frv (RV rs0 A)) ->
  trace niter (tl_optic tel) false (Frv (RV rs0 A)) = rv -> lit_rays rv q -> Forall has_wave q ->
  let pts := launched_at rv rs0 in
  let kx := map (fun r => cx (wavevector r)) q in let ky := map (fun r => cy (wavevector r)) q in
  List.length pts = List.length q /\
  (answers2 lstsq 3 (plane_rows pts) kx ky -> ~ on_a_line pts ->
   exists kx0 ky0 xx xy yx yy,
     dkdu niter lstsq tel tx ty (Fin lam) nrad naz projection = Ok [[Fin xx; Fin yx]; [Fin xy; Fin yy]] /\
     plane_fit (combine pts kx) kx0 xx xy /\ plane_fit (combine pts ky) ky0 yx yy).
Proof.
  intros niter lstsq tel tx ty lam nrad naz projection rs0 A rv q HP HT HL HW. cbv zeta.
  assert (LR : List.length (rays rv) = List.length rs0) by (rewrite <- HT, traced_length; unfold Frv; cbn [rays]; apply map_length).
  assert (LP : List.length (launched_at rv rs0) = List.length q).
  { unfold launched_at. rewrite map_length. unfold lit_rays in HL. rewrite <- (map_length Fray q), <- HL. clear -LR. revert rs0 LR.
    induction (rays rv) as [|r rs IH]; intros [|p xys] L; try discriminate; [reflexivity|].
    cbn [combine filter fst]. destruct (negb (vignetted r)); cbn [List.length]; rewrite IH by (injection L; auto); reflexivity. }
  split; [exact LP|]. intros (x & y & EL & S1 & S2) NL.
  destruct (plane_solution _ _ _ (eq_trans LP (eq_sym (map_length _ q))) NL S1) as (a1 & b1 & c1 & -> & F1).
  destruct (plane_solution _ _ _ (eq_trans LP (eq_sym (map_length _ q))) NL S2) as (a2 & b2 & c2 & -> & F2).
  exists a1, a2, b1, c1, b2, c2. split; [|split; assumption].
  unfold dkdu. change (n1 (T:=XR)) with (Fin 1). rewrite HP. cbn [bind]. rewrite HT.
  replace (bilinear_fit lstsq _ _) with (map (fun p : R * R => [Fin (fst p); Fin (snd p)]) (combine [a1; b1; c1] [a2; b2; c2])); [reflexivity|].
  rewrite <- EL. unfold bilinear_fit. symmetry. f_equal.
  - rewrite <- (map_map pos (fun p => (cx p, cy p))). unfold Frv; cbn [rays]. rewrite !map_map.
    unfold lit. rewrite (select_by (fun r => (cx (pos (Fray r)), cy (pos (Fray r))))). unfold plane_rows, launched_at. rewrite !map_map. apply map_ext. intros u. reflexivity.
  - rewrite (lit_select (fun r => let k := ray_k r in (cx k, cy k))). unfold lit_rays in HL. rewrite HL. clear -HW.
    induction HW as [|r q H HW IH]; [reflexivity|]. cbn [map combine fst snd]. rewrite (k_F r H). cbn [fst snd]. f_equal; exact IH.
Qed.

(** ** Lattices *)
Lemma fft_lattice_F niter lstsq tel tx ty lam projection u n p q s t :
  dkdu niter lstsq tel tx ty (Fin lam) 6 36 projection = Ok [[Fin p; Fin q]; [Fin s; Fin t]] ->
  u <> 0 -> (1 <= n)%nat -> p * t - q * s <> 0 ->
  exists b1 b2, fft_lattice niter lstsq tel tx ty (Fin lam) projection (Fin u) n = Ok (map (map Fin) [[fst b1; snd b1]; [fst b2; snd b2]]) /\
    (dual (u * p, u * q) (u * s, u * t) b1 b2 (INR n) <-> q = 0 /\ s = 0) /\
    (q = 0 -> s = 0 -> b1 = (2 * PI / (INR n * (u * p)), 0) /\ b2 = (0, 2 * PI / (INR n * (u * t)))).
Proof.
  intros HD Hu Hn Hdet. assert (N0 : INR n <> 0) by (apply not_0_INR; lia).
  assert (D0 : det2 (u * p, u * q) (u * s, u * t) <> 0).
  { unfold det2; cbn [fst snd]. replace (_ - _) with (u * u * (p * t - q * s)) by ring. apply Rmult_integral_contrapositive_currified; [nra|exact Hdet]. }
  pose (k := 2 * PI / det2 (u * p, u * q) (u * s, u * t) / INR n).
  exists (k * (u * t), k * (u * s)), (k * (u * q), k * (u * p)). split; [|split].
  - unfold fft_lattice. rewrite HD. cbn [bind dot_diag map nth]. unfold pair_of. cbn [nth].
    assert (E1 : (nadd (nmul (Fin p) (Fin u)) (nmul (Fin q) n0), nadd (nmul (Fin p) n0) (nmul (Fin q) (Fin u))) = Fpair (u * p, u * q)).
    { unfold Fpair; cbn [fst snd]. xunf. cbn [xadd xmul]. f_equal; f_equal; ring. }
    assert (E2 : (nadd (nmul (Fin s) (Fin u)) (nmul (Fin t) n0), nadd (nmul (Fin s) n0) (nmul (Fin t) (Fin u))) = Fpair (u * s, u * t)).
    { unfold Fpair; cbn [fst snd]. xunf. cbn [xadd xmul]. f_equal; f_equal; ring. }
    change (nofZ (T:=XR) (Z.of_nat n)) with (Fin (IZR (Z.of_nat n))). rewrite <- INR_IZR_INZ. rewrite E1, E2.
    rewrite (reciprocal_F _ _ (INR n) D0 N0). reflexivity.
  - pose proof (dual_iff _ _ (INR n) D0 N0) as DI. cbv zeta in DI. fold k in DI. cbn [fst snd] in DI. rewrite DI. split; intros [H1 H2].
    + split; [destruct (Rmult_integral _ _ H1)|destruct (Rmult_integral _ _ H2)]; lra.
    + rewrite H1, H2. split; ring.
  - intros -> ->. unfold k, det2; cbn [fst snd]. assert (p <> 0) by (intros ->; apply Hdet; ring). assert (t <> 0) by (intros ->; apply Hdet; ring).
    split; f_equal; field; repeat split; try assumption; ring_simplify; intros Z; apply Rmult_integral in Z; destruct Z as [Z|Z]; nra.
Qed.
Theorem fft_scale : forall niter lstsq tel tx ty lam projection nx pad sphereRadius reference psf D p q s t,
  fftPSF niter lstsq tel tx ty (Fin lam) projection nx pad sphereRadius reference = Ok psf ->
  dkdu niter lstsq tel tx ty (Fin lam) 6 36 projection = Ok [[Fin p; Fin q]; [Fin s; Fin t]] -> p * t - q * s <> 0 ->
  oa_pupil (tl_attr tel) = Some (Fin D) -> D <> 0 -> (3 <= nx)%nat -> (1 <= pad)%nat ->
  let u := D / INR (nx - if Nat.even nx then 2 else 1) in
  exists b1 b2, l_pv _ psf = map (map Fin) [[fst b1; snd b1]; [fst b2; snd b2]] /\
    (dual (u * p, u * q) (u * s, u * t) b1 b2 (INR (nx * pad)) <-> q = 0 /\ s = 0) /\
    (q = 0 -> s = 0 -> b1 = (2 * PI / (INR (nx * pad) * (u * p)), 0) /\ b2 = (0, 2 * PI / (INR (nx * pad) * (u * t)))).
Proof.
  intros niter lstsq tel tx ty lam projection nx pad sphereRadius reference psf D p q s t HF HD Hdet HP D0 Hx Hp u.
  assert (Hu : u <> 0).
  { unfold u, Rdiv. apply Rmult_integral_contrapositive_currified; [exact D0|]. apply Rinv_neq_0_compat, not_0_INR. destruct (Nat.even nx); lia. }
  destruct (fft_lattice_F niter lstsq tel tx ty lam projection u (nx * pad) p q s t HD Hu ltac:(nia) Hdet) as (b1 & b2 & E & H).
  exists b1, b2. split; [|exact H]. unfold fftPSF in HF. destruct (wavefront _ _ _ _ _ _ _ _ _) as [wf|]; [|discriminate]. cbn [bind] in HF.
  destruct (expwf _ _ _) as [e|]; [|discriminate]. cbn [bind] in HF. rewrite (pupil_step_F tel nx D HP Hx) in HF. fold u in HF. cbn [bind] in HF.
  rewrite E in HF. cbn [bind] in HF. injection HF as <-. reflexivity.
Qed.
Theorem huygens_scale : forall niter lstsq tel tx ty lam projection nx dy D p q s t,
  dkdu niter lstsq tel tx ty (Fin lam) 6 36 projection = Ok [[Fin p; Fin q]; [Fin s; Fin t]] -> p * t - q * s <> 0 ->
  oa_pupil (tl_attr tel) = Some (Fin D) -> D <> 0 -> (3 <= nx)%nat ->
  let u := D / INR (nx - if Nat.even nx then 2 else 1) in
  exists b1 b2, huygens_lattice niter lstsq tel tx ty (Fin lam) projection nx None dy = Ok (map (map Fin) [[fst b1; snd b1]; [fst b2; snd b2]], 2%nat) /\
    (dual (u * p, u * q) (u * s, u * t) b1 b2 (INR (2 * nx)) <-> q = 0 /\ s = 0) /\
    (q = 0 -> s = 0 -> b1 = (2 * PI / (INR (2 * nx) * (u * p)), 0) /\ b2 = (0, 2 * PI / (INR (2 * nx) * (u * t)))).
Proof.
  intros niter lstsq tel tx ty lam projection nx dy D p q s t HD Hdet HP D0 Hx u.
  assert (Hu : u <> 0).
  { unfold u, Rdiv. apply Rmult_integral_contrapositive_currified; [exact D0|]. apply Rinv_neq_0_compat, not_0_INR. destruct (Nat.even nx); lia. }
  destruct (fft_lattice_F niter lstsq tel tx ty lam projection u (2 * nx) p q s t HD Hu ltac:(lia) Hdet) as (b1 & b2 & E & H).
  exists b1, b2. split; [|exact H]. unfold huygens_lattice. rewrite (pupil_step_F tel nx D HP Hx). fold u. cbn [bind]. rewrite E. reflexivity.
Qed.
