(** Families of rays through a tilting screen and a plane mirror, and on a paraboloid. *)
From Coq Require Import Reals String List ZArith Bool Lra Psatz Lia.
From Verif Require Import Num NumR Vec CoordSys Surface Medium Obscuration Ray Bundle Optic Spec OpticsSpec TreeSpec SurfSpec SlopeProofs
  XRFacts CoordFacts RayFacts NormalFacts RefractProofs OpticsProofs RootFacts IntersectProofs IntersectMore TreeProofs AxialSpec AxialProofs AxialTrace
  SamplesJac MalusSpec MalusProofs MalusFocus.
Import ListNotations.
Open Scope R_scope.

(** A screen that delays the light by 3/5 of x, then a flat mirror. *)
Definition tilt_r : surface R := Poly [0; 0; 3/5; 0] [3/5] [0] 0 0 2 2.
Definition tilt : surface XR := Fsurf tilt_r.
Definition m_screen : iface XR := IF (KScreen tilt) Plane "S" (Fcs global_frame) None (ConstM (Fin 1)) (ConstM (Fin 1)) None None false.
Definition m_frame : frame := CS (V3 0 0 (-4)) eyeR.
Definition m_flat : iface XR := IF KMirror Plane "M" (Fcs m_frame) None (ConstM (Fin 1)) (ConstM (Fin 1)) None None false.
Definition m_optic : optic XR :=
  Compound (CA false "O" (Fcs global_frame) (ConstM (Fin 1)) (ConstM (Fin 1)) false None) [Iface m_screen; Iface m_flat].
(** Light along the axis at the speed w, up if e = 1 and down if e = -1. *)
Definition m_in (e w x : R) : ray R := Ray (V3 x 0 (- e)) (V3 0 0 (e * w)) 0 (1/2) 1 false false.
Definition m_mid (e w x : R) : ray R := Ray (V3 x 0 0) (V3 (- e * w * (3/5)) 0 (e * w * (4/5))) (/ w + 3/5 * x) (1/2) 1 false false.
Definition m_out (x : R) : ray R := Ray (V3 (x + 3) 0 0) (V3 (3/5) 0 (4/5)) (6 + 3/5 * x) (1/2) 1 false false.

Lemma tilt_grad x y : grad tilt (Fin x) (Fin y) = (Fin (3/5), Fin 0).
Proof.
  assert (S : 0 < sqrt (- (3/5) * - (3/5) + - 0 * - 0 + 1)) by (apply sqrt_lt_R0; lra).
  unfold grad, tilt, tilt_r. cbn [Fsurf normal]. unfold poly_normal. cbv [horner2d horner2d_loop horner horner_loop nth map Nat.add Nat.mul Nat.sub]. xunf. cbn [xadd xmul xopp xsub].
  replace (0 * (x - 0) + (0 * (y - 0) + 3 / 5)) with (3/5) by ring. replace (0 * (x - 0) + (0 * (y - 0) + 0)) with 0 by ring.
  rewrite xsqrt_fin by lra. rewrite xdiv_fin by lra. cbn [xmul cx cy cz xadd].
  cbn [xisnan xopp]. rewrite !xdiv_fin by (apply Rgt_not_eq; unfold Rdiv; rewrite Rmult_1_l; apply Rinv_0_lt_compat; lra). f_equal; f_equal; field; lra.
Qed.
Lemma tilt_sag x y : sag tilt (Fin x) (Fin y) = Fin (3/5 * x).
Proof. unfold tilt, tilt_r; cbn [Fsurf sag]. unfold poly_sag. cbv [horner2d horner2d_loop horner horner_loop nth map Nat.add Nat.mul]. xunf. cbn [xadd xmul xsub]. f_equal. ring. Qed.
Lemma tilt_smooth : smooth tilt_r.
Proof.
  cbn [smooth tilt_r]. split; [reflexivity|]. split; [lia|]. unfold derivative_arrays, entry. split; [reflexivity|]. split; [reflexivity|]. split; [reflexivity|]. split.
  - intros i j Hi Hj. destruct i; destruct j; try (cbn in *; lia); cbn; lra.
  - intros i Hi. destruct i as [|[|i]]; try lia; cbn; lra.
Qed.
Lemma tilt_vel e w x : e = 1 \/ e = -1 -> 0 < w ->
  screen_vel Plane tilt (F3 (V3 x 0 0)) (F3 (V3 0 0 (e * w))) = F3 (V3 (- e * w * (3/5)) 0 (e * w * (4/5))).
Proof.
  intros He Hw. unfold screen_vel. change (cx (F3 (V3 x 0 0))) with (Fin x). change (cy (F3 (V3 x 0 0))) with (Fin 0). rewrite tilt_grad.
  unfold F3, vmap; cbn [cx cy cz normal]. unfold zhat. xunf. cbn [cx cy cz xadd xmul xopp xsub].
  assert (E2 : e * e = 1) by (destruct He; subst; ring).
  replace (0 * 0 + 0 * 0 + e * w * (e * w)) with (w * w) by (transitivity (e * e * (w * w)); [rewrite E2; ring|ring]). rewrite xsqrt_fin by nra. rewrite sqrt_square by lra.
  rewrite (xdiv_fin 1 w) by lra. 
  replace (1 * 1 + 0 * 0) with 1 by ring. rewrite xsqrt_fin by lra. rewrite sqrt_1. rewrite !xdiv_fin by lra. replace (1 / 1) with 1 by field.
  cbn [xadd xmul xopp xsub].
  match goal with |- context [xltb (Fin ?u) _] => replace u with e by (field; lra) end.
  destruct He as [-> | ->]; [rewrite xltb_f by lra|rewrite xltb_t by lra]; cbn [xadd xmul xopp xsub];
    match goal with |- context [xsqrt (Fin ?u)] => replace u with (4/5 * (4/5)) by (field; lra) end;
    rewrite xsqrt_fin by lra; rewrite sqrt_square by lra; cbn [xadd xmul xopp xsub]; (f_equal; f_equal; field; lra).
Qed.
Lemma chg_id p : chg_pt global_frame global_frame p = p /\ chg_vec global_frame global_frame p = p.
Proof. split; [rewrite chg_pt_local by exact global_good|rewrite chg_vec_local]; unfold local_point, global_point, local_dir, global_dir; apply vec3_eq; cbn; ring. Qed.
Lemma screen_ray niter b e w x : e = 1 \/ e = -1 -> 0 < w ->
  iface_trace niter m_screen b (Frv (RV [m_in e w x] global_frame)) = Frv (RV [m_mid e w x] global_frame).
Proof.
  intros He Hw. change (Frv (RV [m_in e w x] global_frame)) with (RV [Fray (m_in e w x)] (Fcs global_frame)).
  change (Frv (RV [m_mid e w x] global_frame)) with (RV [Fray (m_mid e w x)] (Fcs global_frame)).
  cbn [iface_trace i_obsc apply_obsc interact i_kind i_cs i_surf m_screen]. unfold rv_screen, batch, dest; cbn [rvcs rays map]. rewrite mkCT_F; cbn [ct_dr ct_drot].
  do 2 f_equal. unfold ray_screen. change (failed (Fray (m_in e w x))) with false. cbv iota.
  change (pos (Fray (m_in e w x))) with (F3 (pos (m_in e w x))). change (vel (Fray (m_in e w x))) with (F3 (vel (m_in e w x))). rewrite fwd_point_F, fwd_vel_F.
  fold (chg_pt global_frame global_frame (pos (m_in e w x))). fold (chg_vec global_frame global_frame (vel (m_in e w x))).
  rewrite (proj1 (chg_id _)), (proj2 (chg_id _)). cbn [pos vel m_in].
  change (hit Plane) with (hit (Fshape ShPlane)). rewrite hit_plane. cbn [cz]. 
  assert (e * w <> 0) by (destruct He; subst; lra). destruct (Req_EM_T (e * w) 0) as [Z|Z]; [contradiction|].
  replace (- - e / (e * w)) with (/ w) by (field; destruct He; subst; lra). rewrite advance_F.
  replace (plusR (V3 x 0 (- e)) (timesR (/ w) (V3 0 0 (e * w)))) with (V3 x 0 0) by (apply vec3_eq; cbn; field; lra).
  rewrite (tilt_vel e w x He Hw). change (cx (F3 (V3 x 0 0))) with (Fin x). change (cy (F3 (V3 x 0 0))) with (Fin 0). rewrite tilt_sag.
  unfold m_mid, Fray. cbn [pos vel time wavelength flux vignetted failed m_in]. f_equal. xunf. cbn [xadd]. f_equal. ring.
Qed.
Lemma flat_ray niter b x : iface_trace niter m_flat b (Frv (RV [m_mid (-1) 1 x] global_frame)) = Frv (RV [m_out x] m_frame).
Proof.
  set (r := m_mid (-1) 1 x).
  assert (P : chg_pt global_frame m_frame (pos r) = V3 x 0 4) by (apply vec3_eq; cbn; ring).
  assert (V : chg_vec global_frame m_frame (vel r) = V3 (3/5) 0 (-4/5)) by (apply vec3_eq; cbn; field).
  assert (X : plusR (V3 x 0 4) (timesR 5 (V3 (3/5) 0 (-4/5))) = V3 (x + 3) 0 0) by (apply vec3_eq; cbn; field).
  change (Frv (RV [r] global_frame)) with (RV [Fray r] (Fcs global_frame)).
  rewrite (iface_do niter m_flat b global_frame m_frame r 5 (V3 (3/5) 0 (4/5)) ltac:(discriminate) eq_refl eq_refl).
  - rewrite P, V. unfold after. rewrite X. change (vignetted r || hidden m_flat (V3 (x + 3) 0 0))%bool with false.
    cbn [time wavelength flux r m_mid]. unfold Frv, m_out. cbn. replace (/ 1 + 3 / 5 * x + 5) with (6 + 3/5 * x) by field. reflexivity.
  - rewrite P, V. change (i_surf m_flat) with (Fshape ShPlane). rewrite hit_plane. cbn [cz]. destruct (Req_EM_T _ _); [lra|]. do 2 f_equal. field.
  - rewrite P, V, X. cbn [bends m_flat i_kind i_surf cx cy]. exists (V3 0 0 1). split; [reflexivity|]. unfold reflR, dotR. apply vec3_eq; cbn; field.
Qed.

(** ** The families have rates of change *)
Lemma dl_lin a b x : derivable_pt_lim (fun t => a + b * t) x b.
Proof. eapply dl_val; [apply dl_plus; [apply dl_const|apply dl_mult; [apply dl_const|apply derivable_pt_lim_id]]|cbv beta; ring]. Qed.
Lemma dl_same f g x d : (forall t, f t = g t) -> derivable_pt_lim f x d -> derivable_pt_lim g x d.
Proof. intros E H eps He. destruct (H eps He) as [al Hal]. exists al. intros h H1 H2. rewrite <- !E. apply Hal; assumption. Qed.
Lemma dl_affine f a b : (forall t, f t = a + b * t) -> derivable_pt_lim f 0 b.
Proof. intros E. eapply dl_same; [|apply (dl_lin a b)]. intros t. symmetry. apply E. Qed.
Lemma near_all (P : R -> Prop) : (forall t, P t) -> near P.
Proof. intros H. exists 1. split; [lra|]. auto. Qed.
Lemma changes_still f : (forall t : R, f t = f 0) -> changes f zeroR.
Proof.
  intros E. unfold changes, zeroR; cbn [cx cy cz].
  split; [|split]; [apply (dl_same (fun _ => cx (f 0)))|apply (dl_same (fun _ => cy (f 0)))|apply (dl_same (fun _ => cz (f 0)))]; try apply dl_const; intros t; rewrite (E t); reflexivity.
Qed.
Lemma in_smooth e w s : smooth_rays (fun t => m_in e w (s + t)).
Proof.
  split; [|split].
  - exists (V3 1 0 0). split; [|split]; cbn; [apply (dl_affine _ s 1)|apply dl_const|apply dl_const]. intros; ring.
  - exists zeroR. apply changes_still. intros t. reflexivity.
  - exists 0. exact (dl_const 0 0).
Qed.
Lemma mid_smooth e w s : smooth_rays (fun t => m_mid e w (s + t)).
Proof.
  split; [|split].
  - exists (V3 1 0 0). split; [|split]; cbn; [apply (dl_affine _ s 1)|apply dl_const|apply dl_const]. intros; ring.
  - exists zeroR. apply changes_still. intros t. reflexivity.
  - exists (3/5). cbn. apply (dl_affine _ (/ w + 3/5 * s)). intros; ring.
Qed.
Lemma out_smooth s : smooth_rays (fun t => m_out (s + t)).
Proof.
  split; [|split].
  - exists (V3 1 0 0). split; [|split]; cbn; [apply (dl_affine _ (s + 3) 1)|apply dl_const|apply dl_const]. intros; ring.
  - exists zeroR. apply changes_still. intros t. reflexivity.
  - exists (3/5). cbn. apply (dl_affine _ (6 + 3/5 * s)). intros; ring.
Qed.
Lemma in_light e w s : e <> 0 -> w <> 0 -> one_light (fun t => m_in e w (s + t)).
Proof. intros He Hw. split; [|apply near_all; intros; split; reflexivity]. intros E. apply (f_equal cz) in E. cbn in E. destruct (Rmult_integral _ _ E); contradiction. Qed.
Lemma mid_light e w s : e <> 0 -> w <> 0 -> one_light (fun t => m_mid e w (s + t)).
Proof. intros He Hw. split; [|apply near_all; intros; split; reflexivity]. intros E. apply (f_equal cz) in E. cbn in E. apply Rmult_integral in E. destruct E as [E|E]; [|lra]. destruct (Rmult_integral _ _ E); contradiction. Qed.
Lemma in_plane e w s : plane_wave (fun t => m_in e w (s + t)).
Proof. apply near_all. intros t. split; [reflexivity|]. unfold slowness, dotR; cbn. ring. Qed.
Lemma in_front e w s : wavefront_at global_frame (fun t => m_in e w (s + t)).
Proof. apply plane_wave_front; [exact global_good|apply in_smooth|apply in_plane]. Qed.
Lemma m_sweeps niter s : sweeps niter false (visit false m_optic) global_frame (fun t => m_in (-1) 1 (s + t)) m_frame (fun t => m_out (s + t)).
Proof.
  change (visit false m_optic) with [m_screen; m_flat].
  eapply (sweeps_on _ _ m_screen _ _ _ global_frame (fun t => m_mid (-1) 1 (s + t)) _ _ Plane); [reflexivity|exact I|reflexivity|exact global_good| | |apply mid_smooth| |].
  - apply near_all. intros t. split; [apply screen_ray; [right; reflexivity|lra]|]. split; reflexivity.
  - intros E. apply (f_equal cz) in E. cbn in E. lra.
  - intros sc E. injection E as <-. exists tilt_r. split; [reflexivity|]. split; [exact tilt_smooth|]. apply near_all. intros t. exists (V3 0 0 1), (3/5), 0.
    split; [reflexivity|]. split; [unfold dotR; cbn; lra|]. split; [unfold dotR; cbn; lra|]. apply tilt_grad.
  - eapply (sweeps_on _ _ m_flat _ _ _ m_frame (fun t => m_out (s + t)) _ _ Plane); [reflexivity|exact I|reflexivity| | | |apply out_smooth| |constructor].
    + unfold good_frame, orthonormal, dotR; cbn; lra.
    + apply near_all. intros t. split; [apply flat_ray|]. split; reflexivity.
    + intros E. apply (f_equal cz) in E. cbn in E. lra.
    + intros sc E. discriminate.
Qed.
(** Light that comes from behind the screen, or travels in a medium. *)
Lemma screen_lag e w s : e * w <> 0 -> e * e = 1 -> lag global_frame (fun t => m_mid e w (s + t)) (3/5 + 3/5 * (e / w)).
Proof.
  intros Hw E2. assert (w <> 0 /\ e <> 0) as [Hw' He] by (split; intros ->; lra). apply (lag_local global_frame _ _ global_good).
  exists (V3 1 0 0), (3/5). split; [|split].
  - repeat split; cbn; [apply (dl_affine _ s 1)|apply dl_const|apply dl_const]. intros; ring.
  - cbn. apply (dl_affine _ (/ w + 3/5 * s)). intros; ring.
  - assert (D : dotR (V3 (- e * w * (3/5)) 0 (e * w * (4/5))) (V3 (- e * w * (3/5)) 0 (e * w * (4/5))) = w * w).
    { transitivity (e * e * (w * w)); [unfold dotR; cbn; field|rewrite E2; ring]. }
    cbn [vel m_mid]. unfold slowness. rewrite D. unfold dotR; cbn. field. exact Hw'.
Qed.
Lemma screen_bad : exists i rs rs1, i_kind i = KScreen tilt /\ i_surf i = Plane /\
  (forall niter b t, iface_trace niter i b (Frv (RV [rs t] global_frame)) = Frv (RV [rs1 t] global_frame)) /\
  (forall t, dotR (vel (rs t)) (vel (rs t)) = 1 /\ failed (rs1 t) = false) /\
  smooth_rays rs /\ one_light rs /\ plane_wave rs /\ smooth_rays rs1 /\ one_light rs1 /\
  wavefront_at global_frame rs /\ lag global_frame rs1 (6/5) /\ ~ wavefront_at global_frame rs1.
Proof.
  exists m_screen, (fun t => m_in 1 1 (0 + t)), (fun t => m_mid 1 1 (0 + t)). split; [reflexivity|]. split; [reflexivity|].
  split; [intros; apply screen_ray; [left; reflexivity|lra]|]. split; [intros; split; [unfold dotR; cbn; ring|reflexivity]|].
  split; [apply in_smooth|]. split; [apply in_light; lra|]. split; [apply in_plane|]. split; [apply mid_smooth|]. split; [apply mid_light; lra|].
  split; [apply in_front|].
  assert (L : lag global_frame (fun t => m_mid 1 1 (0 + t)) (6/5)) by (replace (6/5) with (3/5 + 3/5 * (1 / 1)) by field; apply screen_lag; lra).
  split; [exact L|]. intros W. pose proof (lag_unique _ _ _ _ L W). lra.
Qed.
Lemma screen_medium : exists i rs rs1, i_kind i = KScreen tilt /\ i_surf i = Plane /\
  (forall niter b t, iface_trace niter i b (Frv (RV [rs t] global_frame)) = Frv (RV [rs1 t] global_frame)) /\
  (forall t, cz (vel (rs t)) < 0 /\ dotR (vel (rs t)) (vel (rs t)) = 1/4 /\ failed (rs1 t) = false) /\
  smooth_rays rs /\ one_light rs /\ plane_wave rs /\ smooth_rays rs1 /\ one_light rs1 /\
  wavefront_at global_frame rs /\ lag global_frame rs1 (-3/5) /\ ~ wavefront_at global_frame rs1.
Proof.
  exists m_screen, (fun t => m_in (-1) (1/2) (0 + t)), (fun t => m_mid (-1) (1/2) (0 + t)). split; [reflexivity|]. split; [reflexivity|].
  split; [intros; apply screen_ray; [right; reflexivity|lra]|]. split; [intros; split; [cbn; lra|]; split; [unfold dotR; cbn; field|reflexivity]|].
  split; [apply in_smooth|]. split; [apply in_light; lra|]. split; [apply in_plane|]. split; [apply mid_smooth|]. split; [apply mid_light; lra|].
  split; [apply in_front|].
  assert (L : lag global_frame (fun t => m_mid (-1) (1/2) (0 + t)) (-3/5)) by (replace (-3/5) with (3/5 + 3/5 * (-1 / (1/2))) by field; apply screen_lag; lra).
  split; [exact L|]. intros W. pose proof (lag_unique _ _ _ _ L W). lra.
Qed.

(** ** A paraboloid of focal length 1/2 *)
Definition p_mirror : iface XR := IF KMirror (Paraboloid (Fin 1)) "P" (Fcs global_frame) None (ConstM (Fin 1)) (ConstM (Fin 1)) None None false.
Definition p_in (x : R) : ray R := Ray (V3 x 0 5) (V3 0 0 (-1)) 0 (1/2) 1 false false.
Definition p_out (x : R) : ray R := Ray (V3 x 0 (x * x / 2)) (V3 (- (2 * x) / (1 + x * x)) 0 ((1 - x * x) / (1 + x * x))) (5 - x * x / 2) (1/2) 1 false false.
Lemma p_ray niter b x : iface_trace niter p_mirror b (Frv (RV [p_in x] global_frame)) = Frv (RV [p_out x] global_frame).
Proof.
  assert (Q : 0 < 1 + x * x) by (pose proof (Rle_0_sqr x); unfold Rsqr in *; lra).
  change (Frv (RV [p_in x] global_frame)) with (RV [Fray (p_in x)] (Fcs global_frame)).
  set (nz := / sqrt (1 + (x * x + 0 * 0) / 1 / 1)).
  assert (N2 : nz * nz = / (1 + x * x)).
  { unfold nz. replace (1 + (x * x + 0 * 0) / 1 / 1) with (1 + x * x) by field. rewrite <- Rinv_mult. rewrite sqrt_sqrt by lra. reflexivity. }
  assert (X : plusR (V3 x 0 5) (timesR (5 - x * x / 2) (V3 0 0 (-1))) = V3 x 0 (x * x / 2)) by (apply vec3_eq; cbn; field).
  rewrite (iface_do niter p_mirror b global_frame global_frame (p_in x) (5 - x * x / 2) (vel (p_out x)) ltac:(discriminate) eq_refl eq_refl).
  - rewrite (proj1 (chg_id _)), (proj2 (chg_id _)). cbn [pos vel p_in]. unfold after. rewrite X. change (vignetted (p_in x) || hidden p_mirror (V3 x 0 (x * x / 2)))%bool with false.
    cbn [time wavelength flux p_in]. unfold Frv, p_out; cbn [map rays rvcs vel]. replace (0 + (5 - x * x / 2)) with (5 - x * x / 2) by ring. reflexivity.
  - rewrite (proj1 (chg_id _)), (proj2 (chg_id _)). cbn [pos vel p_in]. change (i_surf p_mirror) with (Fshape (ShParaboloid 1)). rewrite hit_paraboloid by lra.
    unfold coefA, coefB, coefC; cbn [cx cy cz]. destruct (Req_EM_T _ 0) as [E|E]; [|exfalso; apply E; field].
    f_equal. rewrite xdiv_fin by lra. f_equal. field.
  - rewrite (proj1 (chg_id _)), (proj2 (chg_id _)). cbn [pos vel p_in]. rewrite X. cbn [bends p_mirror i_kind i_surf cx cy].
    exists (V3 (- x / 1 * nz) (- 0 / 1 * nz) nz). split; [cbn [normal]; rewrite (paraboloid_normal_F 1 x 0) by lra; reflexivity|].
    unfold reflR, dotR, p_out. apply vec3_eq; cbn [vel cx cy cz plusR timesR minusR].
    + transitivity (- (2 * x) * (nz * nz)); [rewrite N2; field; lra|field].
    + field.
    + transitivity (-1 + 2 * (nz * nz)); [rewrite N2; field; lra|field].
Qed.
Lemma dl_div f g x a b : derivable_pt_lim f x a -> derivable_pt_lim g x b -> g x <> 0 -> exists d, derivable_pt_lim (fun t => f t / g t) x d.
Proof. intros F G N. eexists. apply (derivable_pt_lim_div f g x a b F G N). Qed.
Lemma dl_square s : derivable_pt_lim (fun t => (s + t) * (s + t)) 0 (2 * s).
Proof. assert (L : derivable_pt_lim (fun t => s + t) 0 1) by (apply (dl_affine _ s 1); intros; ring). eapply dl_val; [apply (dl_mult _ _ _ _ _ L L)|cbv beta; ring]. Qed.
Lemma pin_smooth s : smooth_rays (from s p_in).
Proof.
  split; [|split].
  - exists (V3 1 0 0). split; [|split]; cbn; [apply (dl_affine _ s 1)|apply dl_const|apply dl_const]. intros; ring.
  - exists zeroR. apply changes_still. intros t. reflexivity.
  - exists 0. exact (dl_const 0 0).
Qed.
Lemma pout_smooth s : smooth_rays (from s p_out).
Proof.
  assert (L : derivable_pt_lim (fun t => s + t) 0 1) by (apply (dl_affine _ s 1); intros; ring).
  assert (Q : forall t, 1 + (s + t) * (s + t) <> 0) by (intros t; pose proof (Rle_0_sqr (s + t)); unfold Rsqr in *; lra).
  pose proof (dl_square s) as Sq.
  split; [|split].
  - exists (V3 1 0 s). split; [|split]; cbn [cx cy cz pos from p_out]; [exact L|apply dl_const|].
    eapply dl_val; [apply (dl_mult _ (fun _ => / 2)); [exact Sq|apply dl_const]|cbv beta; field].
  - pose proof (dl_plus _ _ _ _ _ (dl_const 1 0) Sq) as D.
    assert (A2 : derivable_pt_lim (fun t => - (2 * (s + t))) 0 (-2)) by (apply (dl_affine _ (- (2 * s)) (-2)); intros; ring).
    destruct (dl_div (fun t => - (2 * (s + t))) _ 0 (-2) _ A2 D (Q 0)) as (d1 & D1).
    destruct (dl_div (fun t => 1 - (s + t) * (s + t)) _ 0 _ _ (dl_minus _ _ _ _ _ (dl_const 1 0) Sq) D (Q 0)) as (d2 & D2).
    exists (V3 d1 0 d2). split; [|split]; cbn [cx cy cz vel from p_out]; [exact D1|apply dl_const|exact D2].
  - exists (- s). eapply dl_val; [apply (dl_minus (fun _ => 5)); [apply dl_const|apply (dl_mult _ (fun _ => / 2)); [exact Sq|apply dl_const]]|cbv beta; field].
Qed.
Lemma pin_light s : one_light (from s p_in).
Proof. split; [|apply near_all; intros; split; reflexivity]. intros E. apply (f_equal cz) in E. cbn in E. lra. Qed.
Lemma pin_front s : wavefront_at global_frame (from s p_in).
Proof. apply plane_wave_front; [exact global_good|apply pin_smooth|]. apply near_all. intros t. split; [reflexivity|]. unfold slowness, dotR; cbn. ring. Qed.
Lemma p_sweeps niter s : sweeps niter false (visit false (Iface p_mirror)) global_frame (from s p_in) global_frame (from s p_out).
Proof.
  change (visit false (Iface p_mirror)) with [p_mirror].
  eapply (sweeps_on _ _ p_mirror _ _ _ global_frame (from s p_out) _ _ (Paraboloid 1)); [reflexivity|exact I|reflexivity|exact global_good| | |apply pout_smooth| |constructor].
  - apply near_all. intros t. split; [apply p_ray|]. split; [reflexivity|]. unfold on_sag, from, p_out; cbn [i_surf p_mirror pos cx cy cz sag]. unfold paraboloid_sag. xunf. rewrite xeqb_f by lra. cbn [negb]. rewrite !xdiv_fin by lra. f_equal. field.
  - unfold from. intros E. pose proof (f_equal cz E) as E3. pose proof (f_equal cx E) as E1. cbn [vel p_out cx cz zeroR] in E1, E3.
    assert (Q : 1 + (s + 0) * (s + 0) <> 0) by (pose proof (Rle_0_sqr (s + 0)); unfold Rsqr in *; lra). set (u := s + 0) in *.
    apply (Rmult_eq_compat_r (1 + u * u)) in E1. apply (Rmult_eq_compat_r (1 + u * u)) in E3. unfold Rdiv in *. rewrite Rmult_assoc, Rinv_l in E1, E3 by exact Q. nra.
  - intros sc E. discriminate.
Qed.
Lemma p_focus s : later global_frame (p_out s) ((1 + s * s) / 2) = V3 0 0 (1/2).
Proof.
  assert (Q : 1 + s * s <> 0) by (pose proof (Rle_0_sqr s); unfold Rsqr in *; lra).
  unfold later, ray_global_pos, ray_global_vel, global_point, global_dir, p_out. apply vec3_eq; cbn; field; exact Q.
Qed.

(** ** Rays stopped on a unit sphere about the origin *)
Definition s_tilted (t : R) : ray R := Ray (V3 (sin t) 0 (cos t)) (V3 (3/5) 0 (-4/5)) (3/5 * t) (1/2) 1 false false.
Definition s_flat1 (t : R) : ray R := Ray (V3 (sin t) 0 (cos t)) (V3 0 0 (-1)) 7 (1/2) 1 false false.
Definition s_flat2 (t : R) : ray R := Ray (V3 0 (sin t) (cos t)) (V3 0 0 (-1)) 7 (1/2) 1 false false.
Lemma dl_sin : derivable_pt_lim sin 0 1.
Proof. eapply dl_val; [apply derivable_pt_lim_sin|apply cos_0]. Qed.
Lemma dl_cos : derivable_pt_lim cos 0 0.
Proof. eapply dl_val; [apply derivable_pt_lim_cos|rewrite sin_0; ring]. Qed.
Lemma global_pos r : ray_global_pos global_frame r = pos r.
Proof. unfold ray_global_pos, global_point. apply vec3_eq; cbn; ring. Qed.
Lemma global_changes rs d : changes (fun t => pos (rs t)) d -> changes (fun t => ray_global_pos global_frame (rs t)) d.
Proof. intros H. eapply changes_near; [|exact H]. apply near_all. intros t. symmetry. apply global_pos. Qed.
Lemma unit_sphere rs : (forall t, dotR (pos (rs t)) (pos (rs t)) = 1) -> on_sphere global_frame rs zeroR.
Proof.
  intros H. apply near_all. intros t. rewrite !global_pos. unfold distR, lenR. f_equal.
  replace (minusR (pos (rs t)) zeroR) with (pos (rs t)) by (apply vec3_eq; cbn; ring). replace (minusR (pos (rs 0)) zeroR) with (pos (rs 0)) by (apply vec3_eq; cbn; ring).
  rewrite !H. reflexivity.
Qed.
Lemma sc1 t : sin t * sin t + cos t * cos t = 1.
Proof. pose proof (sin2_cos2 t). unfold Rsqr in *. assumption. Qed.
Lemma s_circle1 t : changes (fun t => V3 (sin t) 0 (cos t)) (V3 1 0 0) /\ dotR (V3 (sin t) 0 (cos t)) (V3 (sin t) 0 (cos t)) = 1.
Proof. split; [split; [exact dl_sin|split; [exact (dl_const 0 0)|exact dl_cos]]|]. unfold dotR; cbn. pose proof (sc1 t). lra. Qed.
Lemma s_circle2 t : changes (fun t => V3 0 (sin t) (cos t)) (V3 0 1 0) /\ dotR (V3 0 (sin t) (cos t)) (V3 0 (sin t) (cos t)) = 1.
Proof. split; [split; [exact (dl_const 0 0)|split; [exact dl_sin|exact dl_cos]]|]. unfold dotR; cbn. pose proof (sc1 t). lra. Qed.
Lemma s_aberrated : vel (s_tilted 0) <> zeroR /\ wavefront_at global_frame s_tilted /\ on_sphere global_frame s_tilted zeroR /\
  changes (fun t => ray_global_pos global_frame (s_tilted t)) (V3 1 0 0) /\ derivable_pt_lim (fun t => time (s_tilted t)) 0 (3/5) /\
  later global_frame (s_tilted 0) (5/4) = plusR zeroR (V3 (3/4) 0 0).
Proof.
  pose proof (proj1 (s_circle1 0)) as C. change (changes (fun t => pos (s_tilted t)) (V3 1 0 0)) in C.
  assert (D : derivable_pt_lim (fun t => time (s_tilted t)) 0 (3/5)) by (apply (dl_affine _ 0); intros; cbn; ring).
  split; [intros E; apply (f_equal cx) in E; cbn in E; lra|]. split; [|split; [|split; [|split]]].
  - apply (lag_local _ _ _ global_good). exists (V3 1 0 0), (3/5). split; [exact C|]. split; [exact D|]. unfold slowness, dotR; cbn. field.
  - apply unit_sphere. intros t. apply (s_circle1 t).
  - apply global_changes, C.
  - exact D.
  - unfold later. rewrite global_pos. unfold ray_global_vel, global_dir, s_tilted. cbn [pos vel]. rewrite sin_0, cos_0. apply vec3_eq; cbn; field.
Qed.
Lemma s_flat : s_flat2 0 = s_flat1 0 /\ vel (s_flat1 0) <> zeroR /\ wavefront_at global_frame s_flat1 /\ wavefront_at global_frame s_flat2 /\
  on_sphere global_frame s_flat1 zeroR /\ on_sphere global_frame s_flat2 zeroR /\
  changes (fun t => ray_global_pos global_frame (s_flat1 t)) (V3 1 0 0) /\ changes (fun t => ray_global_pos global_frame (s_flat2 t)) (V3 0 1 0) /\
  crossR (V3 1 0 0) (V3 0 1 0) <> zeroR /\
  derivable_pt_lim (fun t => time (s_flat1 t)) 0 0 /\ derivable_pt_lim (fun t => time (s_flat2 t)) 0 0.
Proof.
  pose proof (proj1 (s_circle1 0)) as C1. change (changes (fun t => pos (s_flat1 t)) (V3 1 0 0)) in C1.
  pose proof (proj1 (s_circle2 0)) as C2. change (changes (fun t => pos (s_flat2 t)) (V3 0 1 0)) in C2.
  split; [unfold s_flat1, s_flat2; rewrite sin_0; reflexivity|]. split; [intros E; apply (f_equal cz) in E; cbn in E; lra|].
  split; [|split; [|split; [|split; [|split; [|split; [|split; [|split]]]]]]].
  - apply (lag_local _ _ _ global_good). exists (V3 1 0 0), 0. split; [exact C1|]. split; [exact (dl_const 7 0)|]. unfold slowness, dotR; cbn. field.
  - apply (lag_local _ _ _ global_good). exists (V3 0 1 0), 0. split; [exact C2|]. split; [exact (dl_const 7 0)|]. unfold slowness, dotR; cbn. field.
  - apply unit_sphere. intros t. apply (s_circle1 t).
  - apply unit_sphere. intros t. apply (s_circle2 t).
  - apply global_changes, C1.
  - apply global_changes, C2.
  - intros E. apply (f_equal cz) in E. cbn in E. lra.
  - exact (dl_const 7 0).
  - exact (dl_const 7 0).
Qed.
