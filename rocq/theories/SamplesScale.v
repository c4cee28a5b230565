(** A plate that delays the light by a quadratic function of the position: sample data for dkdu
    and the scale of the images. *)
From Coq Require Import Reals String List ZArith Bool Lra Psatz Lia.
From Verif Require Import Num NumR Vec CoordSys Surface Medium Ray Bundle Trig Optic Field RayGen Spec OpticsSpec XRFacts CoordFacts RayFacts RootFacts IntersectProofs
  TreeSpec FieldSpec FieldProofs GenSpec GenProofs GenMore GenLast PatternSpec PatternProofs Wave WaveSpec AnalysisSpec Analysis AnalysisProofs AnalysisFocus AnalysisFFT AnalysisBad AxialSpec AxialProofs AxialTrace
  JacSpec JacProofs PupilProofs SamplesJac FitSpec LinFit LinExist FitProofs ScaleSpec ScaleProofs.
Import ListNotations.
Open Scope R_scope.

(** The delay a x^2 / 2 + b x y + c y^2 / 2. *)
Definition delay (a b c : R) : surface XR :=
  Poly (map Fin [0; 0; c / 2; 0; b; 0; a / 2; 0; 0]) (map Fin [0; b; a; 0]) (map Fin [0; c; b; 0]) (Fin 0) (Fin 0) 3 3.
Definition plate (a b c : R) : telescope XR :=
  Tel (Iface (IF (KScreen (delay a b c)) Plane "S" (Fcs global_frame) None (ConstM (Fin 1)) (ConstM (Fin 1)) None None false)) gap_attr None.
Lemma bilinear p q x y : horner2d (nsub (Fin x) (Fin 0)) (nsub (Fin y) (Fin 0)) (map Fin [0; p; q; 0]) (3 - 1) (3 - 1) = Fin (q * x + p * y).
Proof. cbv [horner2d horner2d_loop horner horner_loop nth map Nat.add Nat.mul Nat.sub]. xunf. cbn [xadd xsub xmul]. f_equal. ring. Qed.
Lemma delay_slopes a b c x y : grad (delay a b c) (Fin x) (Fin y) = (Fin (a * x + b * y), Fin (b * x + c * y)).
Proof.
  unfold grad. set (gx := a * x + b * y). set (gy := b * x + c * y). assert (Q : 0 < gx * gx + gy * gy + 1) by nra.
  assert (S : 0 < sqrt (gx * gx + gy * gy + 1)) by (apply sqrt_lt_R0, Q).
  assert (E : normal (delay a b c) (Fin x) (Fin y) = F3 (V3 (- gx * / sqrt (gx * gx + gy * gy + 1)) (- gy * / sqrt (gx * gx + gy * gy + 1)) (/ sqrt (gx * gx + gy * gy + 1)))).
  { cbn [normal delay]. unfold poly_normal. rewrite !bilinear. replace (b * x + c * y) with gy by reflexivity. fold gx. clearbody gx gy. xunf. cbn [xadd xmul xopp].
    replace (- gx * - gx + - gy * - gy + 1) with (gx * gx + gy * gy + 1) by ring. rewrite xsqrt_fin by lra. rewrite xdiv_fin by lra. cbn [xmul]. unfold F3, vmap; cbn [cx cy cz].
    repeat f_equal; unfold Rdiv; ring. }
  rewrite E. unfold F3, vmap; cbn [cx cy cz nisnan]. xunf. cbn [xisnan xopp]. rewrite !xdiv_fin by (apply Rinv_neq_0_compat; lra). f_equal; f_equal; field; lra.
Qed.
Lemma delay_sag a b c x y : exists h, sag (delay a b c) (Fin x) (Fin y) = Fin h.
Proof.
  cbn [sag delay]. unfold poly_sag. cbv [horner2d horner2d_loop horner horner_loop nth map Nat.add Nat.mul]. xunf. cbn [xadd xsub xmul]. eexists. reflexivity.
Qed.
(** A ray along the axis is tilted by the slopes of the delay. *)
Definition tilted (lam a b c : R) (xy : R * R) (r : ray R) : Prop :=
  let gx := a * fst xy + b * snd xy in let gy := b * fst xy + c * snd xy in
  vel r = V3 gx gy (- sqrt (1 - gx * gx - gy * gy)) /\ vignetted r = false /\ wavelength r = lam.
Lemma slant_axis : slant 0 0 = V3 0 0 (-1).
Proof. unfold slant. replace (1 + 0 * 0 + 0 * 0) with 1 by ring. rewrite sqrt_1, Rinv_1. apply vec3_eq; cbn; ring. Qed.
Lemma screen_tilts a b c x y : let gx := a * x + b * y in let gy := b * x + c * y in gx * gx + gy * gy <= 1 ->
  screen_vel Plane (delay a b c) (F3 (V3 x y 0)) (F3 (V3 0 0 (-1))) = F3 (V3 gx gy (- sqrt (1 - gx * gx - gy * gy))).
Proof.
  intros gx gy H. unfold screen_vel. change (cx (F3 (V3 x y 0))) with (Fin x). change (cy (F3 (V3 x y 0))) with (Fin y). rewrite delay_slopes. fold gx gy. clearbody gx gy.
  unfold F3, vmap; cbn [cx cy cz normal]. unfold zhat. xunf. cbn [cx cy cz xadd xmul xopp xsub].
  replace (0 * 0 + 0 * 0 + -1 * -1) with 1 by ring. rewrite xsqrt_fin by lra. rewrite sqrt_1. rewrite (xdiv_fin 1 1) by lra. replace (1 / 1) with 1 by field.
  replace (1 * 1 + 0 * 0) with 1 by ring. rewrite xsqrt_fin by lra. rewrite sqrt_1. rewrite !xdiv_fin by lra. replace (1 / 1) with 1 by field.
  cbn [xadd xmul xopp xsub]. rewrite xltb_t by lra. cbn [xadd xmul xopp xsub].
  match goal with |- context [xsqrt (Fin ?u)] => replace u with (1 - gx * gx - gy * gy) by (unfold Rdiv; field) end.
  rewrite xsqrt_fin by lra. cbn [xadd xmul xopp xsub]. f_equal; f_equal; field.
Qed.
Lemma plate_ray niter lam a b c x y r : let gx := a * x + b * y in let gy := b * x + c * y in gx * gx + gy * gy <= 1 ->
  aimed (gap_beam lam 0 0) x y r -> (cx (pos r), cy (pos r)) = (x, y) /\
  exists r1, gets_through niter (tl_optic (plate a b c)) false global_frame (Fray r) global_frame r1 /\ tilted lam a b c (x, y) r1.
Proof.
  intros gx gy Hg (V & T & W & Vg & Fl & D & t & z & Ez & G). cbn [gap_beam b_n b_dir b_dist b_frame b_sframe b_surf b_w] in *.
  rewrite slant_unit in *. cbn in Ez. assert (z = 0) by congruence. subst z.
  assert (V' : vel r = V3 0 0 (-1)) by (rewrite <- slant_axis, <- V; apply vec3_eq; cbn; ring). clear V.
  assert (E : on_line (pos r) (vel r) t = V3 x y 0).
  { rewrite <- (local_of_global global_frame (on_line _ _ _)), G, local_of_global by exact global_good. reflexivity. }
  assert (P : pos r = V3 x y t).
  { rewrite V' in E. destruct (pos r) as [p1 p2 p3]. pose proof (f_equal cx E) as E1. pose proof (f_equal cy E) as E2. pose proof (f_equal cz E) as E3. cbn in E1, E2, E3. apply vec3_eq; cbn; lra. }
  split; [rewrite P; reflexivity|].
  destruct (delay_sag a b c x y) as (h & Eh).
  exists (Ray (V3 x y 0) (V3 gx gy (- sqrt (1 - gx * gx - gy * gy))) (time r + t + h) (wavelength r) (flux r) (vignetted r) false).
  split; [|split; [reflexivity|split; [exact Vg|exact W]]]. split; [|reflexivity].
  cbn [trace tl_optic plate iface_trace i_obsc apply_obsc interact i_kind i_cs i_surf]. unfold rv_screen, batch, dest; cbn [rvcs rays map]. rewrite mkCT_F; cbn [ct_dr ct_drot].
  do 2 f_equal. unfold ray_screen. change (failed (Fray r)) with (failed r). rewrite Fl.
  change (pos (Fray r)) with (F3 (pos r)). change (vel (Fray r)) with (F3 (vel r)). rewrite fwd_point_F, fwd_vel_F.
  fold (chg_pt global_frame global_frame (pos r)). fold (chg_vec global_frame global_frame (vel r)).
  assert (CP : chg_pt global_frame global_frame (pos r) = V3 x y t).
  { rewrite chg_pt_local by exact global_good. rewrite P. unfold local_point, global_point. apply vec3_eq; cbn; ring. }
  assert (CV : chg_vec global_frame global_frame (vel r) = V3 0 0 (-1)).
  { rewrite chg_vec_local. rewrite V'. unfold local_dir, global_dir. apply vec3_eq; cbn; ring. }
  rewrite CP, CV. change (hit Plane) with (hit (Fshape ShPlane)). rewrite hit_plane. cbn [cz]. destruct (Req_EM_T (-1) 0) as [Z|Z]; [lra|].
  replace (- t / -1) with t by field. rewrite advance_F. cbn [plusR timesR cx cy cz].
  replace (plusR (V3 x y t) (timesR t (V3 0 0 (-1)))) with (V3 x y 0) by (apply vec3_eq; cbn; ring).
  pose proof (screen_tilts a b c x y Hg) as ST. cbv zeta in ST. fold gx gy in ST. rewrite ST. change (cx (F3 (V3 x y 0))) with (Fin x). change (cy (F3 (V3 x y 0))) with (Fin y). rewrite Eh. reflexivity.
Qed.
(** All rays of the hexapolar pattern. *)
Lemma plate_trace niter lam a b c rs xys : xys <> [] -> (forall xy, In xy xys -> (a * fst xy + b * snd xy) * (a * fst xy + b * snd xy) + (b * fst xy + c * snd xy) * (b * fst xy + c * snd xy) <= 1) ->
  Forall2 (fun r xy => aimed (gap_beam lam 0 0) (fst xy) (snd xy) r) rs xys ->
  map (fun r => (cx (pos r), cy (pos r))) rs = xys /\
  exists rs1, trace niter (tl_optic (plate a b c)) false (Frv (RV rs global_frame)) = Frv (RV rs1 global_frame) /\ Forall2 (tilted lam a b c) xys rs1.
Proof.
  intros Ne Hg H.
  assert (K : map (fun r => (cx (pos r), cy (pos r))) rs = xys /\
    exists rs1, Forall2 (fun r r1 => gets_through niter (tl_optic (plate a b c)) false global_frame (Fray r) global_frame r1) rs rs1 /\ Forall2 (tilted lam a b c) xys rs1).
  { clear Ne. induction H as [|r [x y] rs xys A H IH]; [split; [reflexivity|exists []; split; constructor]|].
    destruct (plate_ray niter lam a b c x y r (Hg _ (or_introl eq_refl)) A) as (P & r1 & G1 & L1). destruct IH as (Ps & rs1 & G & Ld); [intros xy Hin; apply Hg; right; exact Hin|].
    split; [cbn [map]; rewrite P, Ps; reflexivity|]. exists (r1 :: rs1). split; constructor; assumption. }
  destruct K as (Ps & rs1 & G & Ld). split; [exact Ps|]. exists rs1. split; [|exact Ld]. apply trace_list; [|exact G]. intros ->. inversion H. congruence.
Qed.
Lemma polar_directions a nrad naz z : 
  asPolar (Gen (Some a) None None None None z (FieldAngle (Fin 0) (Fin 0) "gnomonic")) None None nrad naz 6 (Fin 1) None
  = asPolar (Gen (Some a) None None None None z (DirCos (F3 (slant 0 0)))) None None nrad naz 6 (Fin 1) None.
Proof.
  pose proof (fwd_gnomonic 0 0) as G. cbv zeta in G. unfold asPolar.
  replace (settle false (Gen (Some a) None None None None z (FieldAngle (Fin 0) (Fin 0) "gnomonic"))) with (settle false (Gen (Some a) None None None None z (DirCos (F3 (slant 0 0))))).
  - reflexivity.
  - unfold settle. cbn [g_dir]. rewrite G. reflexivity.
Qed.
Lemma hexagon_spreads xys : (forall j, (j < 6)%nat -> In (cos (2 * PI * (INR j / 6)), sin (2 * PI * (INR j / 6))) xys) -> ~ on_a_line xys.
Proof.
  intros H (a & b & c & N & F). apply N. rewrite Forall_forall in F.
  pose proof (F _ (H 0%nat ltac:(lia))) as H0. pose proof (F _ (H 1%nat ltac:(lia))) as H1. pose proof (F _ (H 3%nat ltac:(lia))) as H3. cbn [fst snd] in *.
  replace (2 * PI * (INR 0 / 6)) with 0 in H0 by (cbn; field). replace (2 * PI * (INR 1 / 6)) with (PI / 3) in H1 by (cbn; field).
  replace (2 * PI * (INR 3 / 6)) with PI in H3 by (cbn; field).
  rewrite cos_0, sin_0 in H0. rewrite cos_PI, sin_PI in H3. assert (a = 0) by lra. assert (b = 0) by lra. subst.
  assert (S : 0 < sin (PI / 3)) by (apply sin_gt_0; pose proof PI_RGT_0; lra).
  assert (c = 0) by (apply (Rmult_eq_reg_r (sin (PI / 3))); lra). congruence.
Qed.
Lemma tilted_length lam a b c xy r : lam <> 0 ->
  (a * fst xy + b * snd xy) * (a * fst xy + b * snd xy) + (b * fst xy + c * snd xy) * (b * fst xy + c * snd xy) <= 1 ->
  tilted lam a b c xy r -> has_wave r /\ cx (wavevector r) = 2 * PI / lam * (a * fst xy + b * snd xy) /\ cy (wavevector r) = 2 * PI / lam * (b * fst xy + c * snd xy).
Proof.
  intros Hl Hg (V & _ & W). set (gx := a * fst xy + b * snd xy) in *. set (gy := b * fst xy + c * snd xy) in *.
  assert (L : dotR (vel r) (vel r) = 1).
  { rewrite V. unfold dotR; cbn. pose proof (sqrt_sqrt (1 - gx * gx - gy * gy) ltac:(lra)) as Q. nra. }
  split; [split|].
  - intros Z. rewrite Z in L. unfold dotR, zeroR in L; cbn in L. lra.
  - rewrite W. exact Hl.
  - unfold wavevector. rewrite L, W, V. cbn. split; field; exact Hl.
Qed.
Lemma answers2_exist n A b1 b2 : Forall (fun row => List.length row = n) A -> List.length A = List.length b1 -> List.length A = List.length b2 -> exists lstsq, answers2 lstsq n A b1 b2.
Proof.
  intros HA L1 L2. destruct (solution_exists n A b1 HA L1) as (x & Hx). destruct (solution_exists n A b2 HA L2) as (y & Hy).
  exists (fun _ _ => map (fun p => [Fin (fst p); Fin (snd p)]) (combine x y)), x, y. auto.
Qed.
(** dkdu of the plate, exactly. *)
Theorem plate_dkdu : forall niter lam a b c nrad naz, a * a + 2 * (b * b) + c * c <= 1 -> lam <> 0 -> (2 <= nrad)%nat -> (0 <= naz)%Z ->
  exists pts, ~ on_a_line pts /\
    let kx := map (fun u => 2 * PI / lam * (a * fst u + b * snd u)) pts in let ky := map (fun u => 2 * PI / lam * (b * fst u + c * snd u)) pts in
    (exists lstsq, answers2 lstsq 3 (plane_rows pts) kx ky) /\
    forall lstsq, answers2 lstsq 3 (plane_rows pts) kx ky ->
      dkdu niter lstsq (plate a b c) (Fin 0) (Fin 0) (Fin lam) nrad naz "gnomonic"
      = Ok [[Fin (2 * PI / lam * a); Fin (2 * PI / lam * b)]; [Fin (2 * PI / lam * b); Fin (2 * PI / lam * c)]].
Proof.
  intros niter lam a b c nrad naz Hn Hl Hr Hz. destruct (polar_points nrad naz Hr Hz) as (xys & Hex & Hin & Hp).
  destruct (Hp lam 3 1 0 0) as (rs0 & E0 & A0).
  assert (Hg : forall xy, In xy xys -> (a * fst xy + b * snd xy) * (a * fst xy + b * snd xy) + (b * fst xy + c * snd xy) * (b * fst xy + c * snd xy) <= 1).
  { intros [x y] Hi. specialize (Hin _ Hi). cbn [fst snd] in *.
    assert (Q : (a * x + b * y) * (a * x + b * y) + (b * x + c * y) * (b * x + c * y) + (a * y - b * x) * (a * y - b * x) + (b * y - c * x) * (b * y - c * x) = (a * a + 2 * (b * b) + c * c) * (x * x + y * y)) by ring.
    pose proof (Rle_0_sqr (a * y - b * x)) as Q1. pose proof (Rle_0_sqr (b * y - c * x)) as Q2. unfold Rsqr in *. nra. }
  assert (Ne : xys <> []) by (intros ->; destruct (Hex 0%nat); lia).
  destruct (plate_trace niter lam a b c rs0 xys Ne Hg A0) as (Ps & rs1 & Tr & Ti).
  exists xys. split; [apply hexagon_spreads, Hex|]. cbv zeta. split.
  { apply answers2_exist; unfold plane_rows; rewrite ?map_length; [|reflexivity|reflexivity]. apply Forall_map, Forall_forall. reflexivity. }
  intros lstsq HA.
  assert (HL : lit_rays (Frv (RV rs1 global_frame)) rs1).
  { unfold lit_rays, Frv; cbn [rays]. clear -Ti. induction Ti as [|xy r xys rs (_ & Vg & _) H IH]; [reflexivity|].
    cbn [map filter]. change (vignetted (Fray r)) with (vignetted r). rewrite Vg. cbn [negb]. f_equal. exact IH. }
  assert (HW : Forall has_wave rs1 /\ map (fun r => cx (wavevector r)) rs1 = map (fun u => 2 * PI / lam * (a * fst u + b * snd u)) xys /\
    map (fun r => cy (wavevector r)) rs1 = map (fun u => 2 * PI / lam * (b * fst u + c * snd u)) xys).
  { clear -Ti Hg Hl. induction Ti as [|xy r xys rs T H IH]; [repeat constructor|]. destruct IH as (I1 & I2 & I3); [intros; apply Hg; right; assumption|].
    destruct (tilted_length lam a b c xy r Hl (Hg _ (or_introl eq_refl)) T) as (K1 & K2 & K3). cbn [map]. rewrite I2, I3, K2, K3. split; [constructor; assumption|split; reflexivity]. }
  destruct HW as (HW & Kx & Ky).
  assert (HP : launched_at (Frv (RV rs1 global_frame)) rs0 = xys).
  { rewrite <- Ps. unfold launched_at, Frv; cbn [rays]. pose proof (Forall2_len _ _ _ A0) as L0. pose proof (Forall2_len _ _ _ Ti) as L1.
    assert (L : List.length rs1 = List.length rs0) by lia. assert (VV : Forall (fun r => vignetted r = false) rs1).
    { clear -Ti. induction Ti as [|? ? ? ? (_ & V & _)]; constructor; assumption. }
    clear -L VV. revert rs0 L. induction VV as [|r rs1 V VV IH]; intros [|r0 rs0] L; try discriminate; [reflexivity|].
    cbn [map combine filter fst]. change (vignetted (Fray r)) with (vignetted r). rewrite V. cbn [negb map snd]. rewrite IH by (injection L; auto). reflexivity. }
  destruct (dkdu_fits niter lstsq (plate a b c) (Fin 0) (Fin 0) lam nrad naz "gnomonic" rs0 global_frame _ rs1 (eq_trans (polar_directions _ _ _ _) E0) Tr HL HW) as (_ & K).
  rewrite HP, Kx, Ky in K. destruct (K HA (hexagon_spreads _ Hex)) as (k1 & k2 & xx & xy & yx & yy & E & F1 & F2). rewrite E.
  assert (X1 : (k1, xx, xy) = (0, 2 * PI / lam * a, 2 * PI / lam * b)).
  { apply (plane_fit_exact _ _ _ _ _ _ _ F1). clear. induction xys as [|u xys IH]; [constructor|]. cbn [map combine]. constructor; [cbn [fst snd]; ring|exact IH]. }
  assert (X2 : (k2, yx, yy) = (0, 2 * PI / lam * b, 2 * PI / lam * c)).
  { apply (plane_fit_exact _ _ _ _ _ _ _ F2). clear. induction xys as [|u xys IH]; [constructor|]. cbn [map combine]. constructor; [cbn [fst snd]; ring|exact IH]. }
  injection X1 as _ -> ->. injection X2 as _ -> ->. reflexivity.
Qed.
Lemma plate_grid a b c lam : exists rv, asGrid (Gen (Some (tl_attr (plate a b c))) None None None None (Some (Fin lam)) (DirCos (F3 (slant 0 0)))) (Some (Z.of_nat 4)) None None None None None (Fin 1) None = Ok rv.
Proof.
  destruct (asGrid_grid (Gen (Some (tl_attr (plate a b c))) None None None None (Some (Fin lam)) (DirCos (F3 (slant 0 0)))) (gap_beam lam 0 0) (Some (Z.of_nat 4)) None None None None (Some (Sc (Fin 2))) None 1 4 4 (spacing_of 4 2) (spacing_of 4 2)) as (rv0 & E0 & _).
  { repeat split.
    - apply by_optic; reflexivity.
    - exists (ConstM (Fin 1)). split; [apply by_optic; reflexivity|reflexivity].
    - left. apply by_optic; reflexivity.
    - apply by_optic; reflexivity. }
  { right. right. split; [reflexivity|]. split; [right; reflexivity|]. eexists _, _. split; [reflexivity|]. split; reflexivity. }
  { apply (by_number_and_length _ _ _ _ _ _ 4 4 2 2); try reflexivity; try lia; right; split; reflexivity. }
  { refine (conj global_good (conj global_good (conj _ (conj _ _)))); cbn [b_n b_dir gap_beam b_surf]; [lra|right; cbn; pose proof (slant_pos 0 0); lra|].
    apply Forall_forall. intros p _. exists 0. reflexivity. }
  exists rv0. exact E0.
Qed.
Lemma plate_psf niter lstsq a b c lam j : dkdu niter lstsq (plate a b c) (Fin 0) (Fin 0) (Fin lam) 6 36 "gnomonic" = Ok j ->
  exists psf, fftPSF niter lstsq (plate a b c) (Fin 0) (Fin 0) (Fin lam) "gnomonic" 4 2 (Some (Fin 10)) "mean" = Ok psf.
Proof.
  intros HJ. destruct (plate_grid a b c lam) as (rv & E).
  assert (W : exists wf, wavefront niter (plate a b c) (Fin 0) (Fin 0) (Fin lam) "gnomonic" 4 (Some (Fin 10)) "mean" = Ok wf).
  { unfold wavefront. pose proof (fwd_gnomonic 0 0) as G. cbv zeta in G. rewrite G. cbn [bind generator].
    change (V3 (Fin _) (Fin _) (Fin _)) with (F3 (slant 0 0)). change (n1 (T:=XR)) with (Fin 1). rewrite E. cbn [bind need_attr reference_point String.eqb Ascii.eqb Bool.eqb].
    unfold reference_time. cbn [String.eqb Ascii.eqb Bool.eqb bind]. unfold pupil_step. cbn [oa_pupil tl_attr plate gap_attr bind Nat.even Nat.sub]. eexists. reflexivity. }
  destruct W as (wf & W). unfold fftPSF. rewrite W. cbn [bind].
  assert (exists e, expwf 4 (4 * 2) (l_array _ wf) = Ok e) as (e & Ee).
  { unfold expwf. cbn [Nat.mul Nat.add Nat.div fst snd Nat.divmod Nat.sub Nat.min Nat.eqb]. eexists. reflexivity. }
  rewrite Ee. cbn [bind]. destruct (wavefront_step _ _ _ _ _ _ _ _ _ _ W) as (u & Hu). rewrite Hu. cbn [bind].
  unfold fft_lattice. rewrite HJ. cbn [bind]. destruct (reciprocalLatticeVectors _ _ _) as [b1 b2]. cbn [bind]. eexists. reflexivity.
Qed.
(** A plate that tilts x and y together: the lattice of the image is not the reciprocal one. *)
Theorem scale_refuted : exists a b c lam, forall niter, exists lstsq psf b1 b2,
  dkdu niter lstsq (plate a b c) (Fin 0) (Fin 0) (Fin lam) 6 36 "gnomonic"
    = Ok [[Fin (2 * PI / lam * a); Fin (2 * PI / lam * b)]; [Fin (2 * PI / lam * b); Fin (2 * PI / lam * c)]] /\
  fftPSF niter lstsq (plate a b c) (Fin 0) (Fin 0) (Fin lam) "gnomonic" 4 2 (Some (Fin 10)) "mean" = Ok psf /\
  oa_pupil (tl_attr (plate a b c)) = Some (Fin 2) /\
  l_pv _ psf = map (map Fin) [[fst b1; snd b1]; [fst b2; snd b2]] /\
  let u := 2 / INR (4 - 2) in
  ~ dual (u * (2 * PI / lam * a), u * (2 * PI / lam * b)) (u * (2 * PI / lam * b), u * (2 * PI / lam * c)) b1 b2 (INR (4 * 2)).
Proof.
  exists (1 / 2), (1 / 4), (1 / 2), 1. intros niter.
  destruct (plate_dkdu niter 1 (1 / 2) (1 / 4) (1 / 2) 6 36 ltac:(lra) ltac:(lra) ltac:(lia) ltac:(lia)) as (pts & _ & (lstsq & HA) & K).
  specialize (K lstsq HA). destruct (plate_psf _ _ _ _ _ _ _ K) as (psf & E).
  pose proof PI_RGT_0 as HP.
  destruct (fft_scale _ _ _ _ _ _ _ _ _ _ _ _ 2 _ _ _ _ E K ltac:(nra) eq_refl ltac:(lra) ltac:(lia) ltac:(lia)) as (b1 & b2 & E2 & H & _).
  exists lstsq, psf, b1, b2. split; [exact K|]. split; [exact E|]. split; [reflexivity|]. split; [exact E2|]. cbv zeta.
  change (if Nat.even 4 then 2%nat else 1%nat) with 2%nat in H. rewrite H. intros [Q _]. nra.
Qed.
Lemma plate_scale niter : exists lstsq psf,
  dkdu niter lstsq (plate (1 / 2) 0 (1 / 4)) (Fin 0) (Fin 0) (Fin 1) 6 36 "gnomonic" = Ok [[Fin PI; Fin 0]; [Fin 0; Fin (PI / 2)]] /\
  fftPSF niter lstsq (plate (1 / 2) 0 (1 / 4)) (Fin 0) (Fin 0) (Fin 1) "gnomonic" 4 2 (Some (Fin 10)) "mean" = Ok psf /\
  l_pv _ psf = [[Fin (1 / 4); Fin 0]; [Fin 0; Fin (1 / 2)]].
Proof.
  destruct (plate_dkdu niter 1 (1 / 2) 0 (1 / 4) 6 36 ltac:(lra) ltac:(lra) ltac:(lia) ltac:(lia)) as (pts & _ & (lstsq & HA) & K).
  specialize (K lstsq HA). destruct (plate_psf _ _ _ _ _ _ _ K) as (psf & E). pose proof PI_RGT_0 as HP.
  destruct (fft_scale _ _ _ _ _ _ _ _ _ _ _ _ 2 _ _ _ _ E K ltac:(nra) eq_refl ltac:(lra) ltac:(lia) ltac:(lia)) as (b1 & b2 & E2 & _ & H).
  exists lstsq, psf. split; [|split; [exact E|]].
  - rewrite K. replace (2 * PI / 1 * (1 / 2)) with PI by field. replace (2 * PI / 1 * 0) with 0 by field.
    replace (2 * PI / 1 * (1 / 4)) with (PI / 2) by field. reflexivity.
  - rewrite E2. destruct H as [-> ->]; [ring|ring|]. cbn [map fst snd]. change (INR (4 - if Nat.even 4 then 2 else 1)) with 2. change (INR (4 * 2)) with (INR 8).
    replace (INR 8) with 8 by (cbn; ring). 
    match goal with |- [[Fin ?a; _]; [_; Fin ?b]] = _ => replace a with (1 / 4) by (field; lra); replace b with (1 / 2) by (field; lra) end. reflexivity.
Qed.
