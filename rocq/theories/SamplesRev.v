(** A concrete journey: refraction at a plane, reflection at a spherical mirror. *)
From Coq Require Import Reals String List ZArith Bool Lra Psatz.
From Verif Require Import Num NumR Vec CoordSys Surface Medium Obscuration Ray Bundle Optic Spec OpticsSpec TreeSpec
  XRFacts CoordFacts FrameProofs RayFacts NormalFacts RefractProofs OpticsProofs RootFacts IntersectProofs IntersectMore
  RevSpec RevProofs.
Import ListNotations.
Open Scope R_scope.

Definition mirror_frame : frame := CS (V3 3 0 4) eyeR.
Definition window : iface XR :=
  mkIface KRefractive (Fshape ShPlane) "window" (Fcs global_frame) (Some (ObscCircle (Fin 1) (Fin 9) (Fin 9)))
          (ConstM (Fin 1)) (ConstM (Fin (4/3))) None None false.
Definition mirror : iface XR :=
  mkIface KMirror (Fshape (ShSphere 5)) "mirror" (Fcs mirror_frame) None
          (ConstM (Fin (4/3))) (ConstM (Fin (4/3))) None None false.
Definition corner : optic XR :=
  Compound (CA false "corner" (Fcs global_frame) (ConstM (Fin 1)) (ConstM (Fin 1)) false None) [Iface window; Iface mirror].
Definition jray0 : ray R := Ray (V3 (-4) 0 (-3)) (V3 (4/5) 0 (3/5)) 1 (1/2) 1 false false.
Definition jray1 : ray R := Ray (V3 0 0 0) (V3 (9/20) 0 (3/5)) 6 (1/2) 1 false false.
Definition jray2 : ray R := Ray (V3 0 0 0) (V3 (9/20) 0 (-3/5)) (38/3) (1/2) 1 false false.

Lemma good_mirror_frame : good_frame mirror_frame.
Proof. unfold good_frame, orthonormal, mirror_frame, dotR; cbn. lra. Qed.
Lemma good_global_frame : good_frame global_frame.
Proof. unfold good_frame, orthonormal, global_frame, dotR; cbn. lra. Qed.
Lemma in_00 r : pos_in global_frame global_frame r = pos r /\ vel_in global_frame global_frame r = vel r.
Proof. unfold pos_in, vel_in, local_point, local_dir, global_point, global_dir. split; apply vec3_eq; cbn; ring. Qed.
Lemma in_01 r : pos_in global_frame mirror_frame r = minusR (pos r) (V3 3 0 4) /\ vel_in global_frame mirror_frame r = vel r.
Proof. unfold pos_in, vel_in, local_point, local_dir, global_point, global_dir. split; apply vec3_eq; cbn; ring. Qed.
Lemma in_10 r : pos_in mirror_frame global_frame r = plusR (pos r) (V3 3 0 4).
Proof. unfold pos_in, local_point, global_point. apply vec3_eq; cbn; ring. Qed.
Lemma in_11 r : pos_in mirror_frame mirror_frame r = pos r.
Proof. unfold pos_in, local_point, global_point. apply vec3_eq; cbn; ring. Qed.

Lemma len45 : lenR (V3 (4/5) 0 (3/5)) = 1.
Proof. unfold lenR, dotR; cbn. replace (4/5*(4/5)+0*0+3/5*(3/5)) with (1*1) by field. apply sqrt_square; lra. Qed.
Lemma window_step : iface_trace 5 window false (Frv (RV [jray0] global_frame)) = Frv (RV [jray1] global_frame).
Proof.
  rewrite (iface_single 5 window false global_frame global_frame jray0 eq_refl).
  assert (Ha : arrives 5 Plane global_frame global_frame [jray0] 0 jray0
     (Ray (F3 (V3 0 0 0)) (F3 (vel jray0)) (Fin 6) (Fin (1/2)) (Fin 1) false false) (V3 0 0 0)).
  { constructor; try apply good_global_frame; try reflexivity.
    rewrite (intersect_hit Plane 5 global_frame global_frame [jray0] 0 jray0 (Fin 5) good_global_frame good_global_frame eq_refl eq_refl).
    - rewrite (proj1 (in_00 jray0)), (proj2 (in_00 jray0)), advance_F. cbn [time jray0 wavelength flux vignetted pos vel].
      f_equal. f_equal. + f_equal. apply vec3_eq; cbn; field. + cbn. f_equal. lra.
    - rewrite (proj1 (in_00 jray0)), (proj2 (in_00 jray0)). change Plane with (Fshape ShPlane). rewrite hit_plane.
      cbn. destruct (Req_EM_T _ _); [lra|]. do 2 f_equal. field. }
  pose proof (refract_nth 5 Plane (ConstM (Fin 1)) (ConstM (Fin (4/3))) global_frame global_frame [jray0] 0 jray0 _ _ (V3 0 0 1) None (4/3)
     Ha eq_refl) as RN. rewrite (proj2 (in_00 jray0)) in RN.
  specialize (RN ltac:(intros E; apply (f_equal cz) in E; cbn in E; lra) eq_refl ltac:(lra)). cbv zeta in RN.
  cbn [vel jray0] in RN. unfold index_of, unitR in RN. rewrite len45 in RN.
  replace (timesR (/ 1) (V3 (4 / 5) 0 (3 / 5))) with (V3 (4/5) 0 (3/5)) in RN by (apply vec3_eq; cbn; field).
  rewrite Rinv_1 in RN.
  assert (S2 : sin2R (V3 (4/5) 0 (3/5)) (V3 0 0 1) 1 (4/3) = 9/25) by (unfold sin2R, dotR; cbn; field).
  rewrite S2 in RN. destruct (Rlt_dec 1 (9/25)) as [L|L]; [lra|].
  assert (W : refrR (V3 (4/5) 0 (3/5)) (V3 0 0 1) 1 (4/3) = V3 (9/20) 0 (3/5)).
  { unfold refrR. rewrite S2. replace (1 - 9/25) with ((4/5)*(4/5)) by field. rewrite sqrt_square by lra.
    unfold sideR, dotR; cbn. destruct (Rlt_dec _ _); [|lra]. apply vec3_eq; cbn; field. }
  rewrite W in RN. unfold kth, rv_refract in RN. rewrite (batch_nth _ _ _ _ _ _ (ar_k _ _ _ _ _ _ _ _ _ Ha)) in RN.
  injection RN; intros E. unfold kernel. cbn [window mkIface i_kind i_surf i_out i_obsc Fshape]. cbn [option_map] in E. rewrite E.
  unfold Frv, obsc1, ray_obscure. cbn [pos vel time wavelength flux vignetted failed rays rvcs map orb].
  f_equal. f_equal. unfold Fray; cbn [jray1 pos vel time wavelength flux vignetted failed]. f_equal.
  cbn. assert (G : 1 <= sqrt ((0 - 9) * (0 - 9) + (0 - 9) * (0 - 9))) by (rewrite <- sqrt_1 at 1; apply sqrt_le_1_alt; lra).
  destruct (Rlt_dec _ _) as [H|H]; [|reflexivity]. exfalso. lra.
Qed.

Lemma sphere_top : normal_at (Fshape (ShSphere 5)) (V3 0 0 0) (V3 0 0 1).
Proof.
  unfold normal_at; cbn [Fshape normal cx cy]. unfold sphere_normal. xunf. 
  replace (0 * 0 + 0 * 0) with 0 by ring. rewrite (xeqb_t 0 0) by reflexivity. rewrite orb_true_r. reflexivity.
Qed.
Lemma mirror_step : iface_trace 5 mirror false (Frv (RV [jray1] global_frame)) = Frv (RV [jray2] mirror_frame).
Proof.
  rewrite (iface_single 5 mirror false global_frame mirror_frame jray1 eq_refl).
  assert (Ha : arrives 5 (Fshape (ShSphere 5)) global_frame mirror_frame [jray1] 0 jray1
     (Ray (F3 (V3 0 0 0)) (F3 (vel jray1)) (Fin (38/3)) (Fin (1/2)) (Fin 1) false false) (V3 0 0 0)).
  { constructor; try apply good_global_frame; try apply good_mirror_frame; try reflexivity.
    rewrite (intersect_hit (Fshape (ShSphere 5)) 5 global_frame mirror_frame [jray1] 0 jray1 (Fin (20/3)) good_global_frame good_mirror_frame eq_refl eq_refl).
    - rewrite (proj1 (in_01 jray1)), (proj2 (in_01 jray1)), advance_F. cbn [time jray1 wavelength flux vignetted pos vel].
      f_equal. f_equal. + f_equal. apply vec3_eq; cbn; field. + cbn. f_equal. lra.
    - rewrite (proj1 (in_01 jray1)), (proj2 (in_01 jray1)). 
rewrite hit_sphere. unfold by_roots.
      assert (EA : coefA (ShSphere 5) (minusR (pos jray1) (V3 3 0 4)) (vel jray1) = 9/16) by (cbn; field).
      assert (EB : coefB (ShSphere 5) (minusR (pos jray1) (V3 3 0 4)) (vel jray1) = -27/2) by (cbn; field).
      assert (EC : coefC (ShSphere 5) (minusR (pos jray1) (V3 3 0 4)) (vel jray1) = 65) by (cbn; field).
      rewrite EA, EB, EC. unfold roots. xunf. replace (-27/2 * (-27/2) - 4 * (9/16) * 65) with (6 * 6) by field.
      rewrite xltb_f by lra. rewrite xsqrt_fin by lra. rewrite sqrt_square by lra.
      rewrite (xltb_f 0 (-27/2)) by lra. cbn [xadd xsub xmul xopp]. 
      rewrite xdiv_fin by lra. cbn [xmul]. replace (2 * 65 / (- (-27 / 2) + 6)) with (20/3) by field.
      rewrite xdiv_fin by lra. replace (65 / (9 / 16 * (20 / 3))) with (52/3) by field.
      cbn [pick_root]. cbn [vel jray1 cz]. rewrite xltb_f by lra. unfold nmin; cbn [nltb NumXR].
      rewrite xltb_f by lra. reflexivity. }
  pose proof (reflect_nth 5 (Fshape (ShSphere 5)) global_frame mirror_frame [jray1] 0 jray1 _ _ (V3 0 0 1) None Ha
     sphere_top (or_introl eq_refl)) as RN. rewrite (proj2 (in_01 jray1)) in RN.
  assert (W : reflR (vel jray1) (V3 0 0 1) = V3 (9/20) 0 (-3/5)) by (unfold reflR, dotR; apply vec3_eq; cbn; field).
  rewrite W in RN. unfold kth, rv_reflect in RN. rewrite (batch_nth _ _ _ _ _ _ (ar_k _ _ _ _ _ _ _ _ _ Ha)) in RN.
  injection RN; intros E. unfold kernel. cbn [mirror mkIface i_kind i_surf i_out i_obsc]. cbn [option_map] in E.
  change (Fshape (ShSphere 5)) with (Sphere (Fin 5)). rewrite E. reflexivity.
Qed.
Lemma sphere_only : only_here (ShSphere 5) (V3 0 0 0) (V3 (9/20) 0 (-3/5)).
Proof.
  intros t H. apply on_sag_iff in H; [|cbn; lra]. destruct H as [W V]. cbn in W, V.
  assert (E : t * (9/16 * t + 6) = 0) by nra. apply Rmult_integral in E. destruct E as [E|E]; [exact E|]. exfalso.
  nra.
Qed.
Lemma ex_journey : journey 5 (leaves corner) global_frame jray0 [(global_frame, jray1); (mirror_frame, jray2)] /\
  good_frame global_frame /\ failed jray0 = false.
Proof.
  split; [|split; [apply good_global_frame|reflexivity]].
  apply (journey_on 5 window [mirror] global_frame jray0 global_frame jray1 _ ShPlane (V3 0 0 1)).
  - apply good_global_frame.
  - constructor; try reflexivity; try exact I; [apply good_global_frame|discriminate].
  - exact window_step.
  - reflexivity.
  - rewrite (proj2 (in_00 jray0)). intros E; apply (f_equal cz) in E; cbn in E; lra.
  - intros _. rewrite (proj2 (in_00 jray0)). split.
    + cbn [window mkIface i_in getN]. f_equal. unfold index_of, jray0; cbn [vel]. rewrite len45. field.
    + exists (4/3). split; [lra|reflexivity].
  - reflexivity.
  - reflexivity.
  - unfold dotR; cbn; lra.
  - intros t H. apply on_sag_iff in H; [|exact I]. destruct H as [W _]. cbn in W. lra.
  - cbn [hd]. rewrite in_10. intros H; cbn in H. exfalso. lra.
  - apply (journey_on 5 mirror [] global_frame jray1 mirror_frame jray2 _ (ShSphere 5) (V3 0 0 1)).
    + apply good_global_frame.
    + constructor; try reflexivity; try exact I; [cbn; lra|apply good_mirror_frame|discriminate].
    + exact mirror_step.
    + reflexivity.
    + rewrite (proj2 (in_01 jray1)). intros E; apply (f_equal cz) in E; cbn in E; lra.
    + discriminate.
    + apply on_sag_iff; [cbn; lra|]. split; cbn; lra.
    + exact sphere_top.
    + unfold dotR; cbn; lra.
    + exact sphere_only.
    + cbn [hd]. intros _. apply in_11.
    + constructor.
Qed.
