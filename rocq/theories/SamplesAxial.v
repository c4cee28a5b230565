(** A window and a paraboloidal mirror on one axis, and a skew ray. *)
From Coq Require Import Reals String List ZArith Bool Lra Psatz.
From Verif Require Import Num NumR Vec CoordSys Surface Medium Obscuration Ray Bundle Optic Spec OpticsSpec TreeSpec
  XRFacts CoordFacts RayFacts NormalFacts RefractProofs OpticsProofs RootFacts IntersectProofs TreeProofs AxialSpec AxialProofs AxialTrace.
Import ListNotations.
Open Scope R_scope.

Definition ax_frame : frame := CS (V3 0 0 3) (M3 0 (-1) 0 1 0 0 0 0 1).
Definition ax_glass : iface XR :=
  mkIface KRefractive Plane "window" (Fcs global_frame) (Some (ObscAnnulus (Fin 2) (Fin 3) (Fin 0) (Fin 0)))
          (ConstM (Fin 1)) (ConstM (Fin (4/3))) None None false.
Definition ax_mirror : iface XR :=
  mkIface KMirror (Paraboloid (Fin 5)) "mirror" (Fcs ax_frame) None
          (ConstM (Fin (4/3))) (ConstM (Fin (4/3))) None None false.
Definition ax_optic : optic XR :=
  Compound (CA false "pair" (Fcs global_frame) (ConstM (Fin 1)) (ConstM (Fin (4/3))) false None) [Iface ax_glass; Iface ax_mirror].
Definition ax_start (y : R) : ray R := Ray (V3 (-4) y (-3)) (V3 (4/5) 0 (3/5)) 1 (1/2) 1 false false.
Definition ax_ray : ray R := ax_start 1.
(** A half turn. *)
Definition half_turn : mR := M3 (-1) 0 0 0 (-1) 0 0 0 1.
Lemma half_turn_ok : axial_turn half_turn.
Proof. split; [unfold orthonormal, dotR; cbn; lra|cbn; lra]. Qed.
Lemma ax_frames : axial_frame global_frame /\ axial_frame ax_frame.
Proof. split; (split; [unfold good_frame, orthonormal, dotR; cbn; lra|cbn; lra]). Qed.
Lemma ax_round : round_iface ax_glass /\ round_iface ax_mirror.
Proof.
  split; (split; [constructor|]).
  - split; [intros o E; injection E as <-; constructor|]. split; [exists global_frame; split; [reflexivity|apply ax_frames]|discriminate].
  - split; [discriminate|]. split; [exists ax_frame; split; [reflexivity|apply ax_frames]|discriminate].
Qed.
Lemma ax_axial : axial_optic ax_optic.
Proof. intros i H. cbn in H. destruct H as [<-|[<-|[]]]; apply ax_round. Qed.
Lemma ax_len : lenR (V3 (4/5) 0 (3/5)) = 1.
Proof. unfold lenR, dotR; cbn. replace (4/5*(4/5)+0*0+3/5*(3/5)) with (1*1) by field. apply sqrt_square; lra. Qed.
Lemma ax_bent : bent (V3 (4/5) 0 (3/5)) (V3 0 0 1) (Fin (4/3)) (V3 (9/20) 0 (3/5)).
Proof.
  left. exists (4/3). split; [reflexivity|]. split; [lra|]. unfold index_of, unitR. rewrite ax_len, Rinv_1.
  replace (timesR 1 (V3 (4 / 5) 0 (3 / 5))) with (V3 (4/5) 0 (3/5)) by (apply vec3_eq; cbn; field).
  assert (S2 : sin2R (V3 (4/5) 0 (3/5)) (V3 0 0 1) 1 (4/3) = 9/25) by (unfold sin2R, dotR; cbn; field).
  split; [lra|]. unfold refrR. rewrite S2. replace (1 - 9/25) with ((4/5)*(4/5)) by field. rewrite sqrt_square by lra.
  unfold sideR, dotR; cbn. destruct (Rlt_dec _ _); [|lra]. apply vec3_eq; cbn; field.
Qed.
Lemma ax_step1 niter y : exists g, iface_trace niter ax_glass false (RV [Fray (ax_start y)] (Fcs global_frame)) =
  RV [Fray (Ray (V3 0 y 0) (V3 (9/20) 0 (3/5)) 6 (1/2) 1 g false)] (Fcs global_frame).
Proof.
  assert (P : chg_pt global_frame global_frame (pos (ax_start y)) = V3 (-4) y (-3)) by (apply vec3_eq; cbn; ring).
  assert (V : chg_vec global_frame global_frame (vel (ax_start y)) = V3 (4/5) 0 (3/5)) by (apply vec3_eq; cbn; ring).
  assert (X : plusR (V3 (-4) y (-3)) (timesR 5 (V3 (4/5) 0 (3/5))) = V3 0 y 0) by (apply vec3_eq; cbn; field).
  rewrite (iface_do niter ax_glass false global_frame global_frame (ax_start y) 5 (V3 (9/20) 0 (3/5)) ltac:(discriminate) eq_refl eq_refl).
  - rewrite P, V. unfold after. rewrite X. eexists. cbn [time wavelength flux vignetted ax_start]. replace (1 + 5) with 6 by ring. reflexivity.
  - rewrite P, V. change (i_surf ax_glass) with (Fshape ShPlane). rewrite hit_plane. cbn. destruct (Req_EM_T _ _); [lra|]. do 2 f_equal. field.
  - rewrite P, V, X. cbn. exists (V3 0 0 1). split; [reflexivity|]. split; [intros E; apply (f_equal cx) in E; cbn in E; lra|]. exact ax_bent.
Qed.
Lemma ax_step2 niter g : exists r1, iface_trace niter ax_mirror false (RV [Fray (Ray (V3 0 1 0) (V3 (9/20) 0 (3/5)) 6 (1/2) 1 g false)] (Fcs global_frame)) =
  RV [Fray r1] (Fcs ax_frame) /\ failed r1 = false /\ vel r1 <> zeroR.
Proof.
  set (r := Ray (V3 0 1 0) (V3 (9/20) 0 (3/5)) 6 (1/2) 1 g false).
  assert (P : chg_pt global_frame ax_frame (pos r) = V3 1 0 (-3)) by (apply vec3_eq; cbn; ring).
  assert (V : chg_vec global_frame ax_frame (vel r) = V3 0 (-9/20) (3/5)) by (apply vec3_eq; cbn; field).
  assert (X : plusR (V3 1 0 (-3)) (timesR (20/3) (V3 0 (-9/20) (3/5))) = V3 1 (-3) 1) by (apply vec3_eq; cbn; field).
  assert (exists m, normal (Paraboloid (Fin 5)) (Fin 1) (Fin (-3)) = F3 m) as (m & Em).
  { cbn [normal]. unfold paraboloid_normal. xunf. rewrite xeqb_f by lra. rewrite xdiv_fin by lra. cbn [xmul xadd]. rewrite xsqrt_fin by nra. cbn [xdiv].
    assert (0 < sqrt (1 + (1 * 1 + -3 * -3) * (1 / 5) * (1 / 5))) by (apply sqrt_lt_R0; lra). destruct (Req_EM_T _ _); [lra|].
    eexists (V3 _ _ _). apply vec3_eq; cbn; reflexivity. }
  rewrite (iface_do niter ax_mirror false global_frame ax_frame r (20/3) (reflR (V3 0 (-9/20) (3/5)) m) ltac:(discriminate) eq_refl eq_refl).
  - eexists. split; [reflexivity|]. split; [reflexivity|]. cbn [after vel]. intros Z.
    pose proof (refl_len (V3 0 (-9/20) (3/5)) m (proj1 (normal_unit _ _ _ _ Em))) as L. rewrite Z in L. unfold lenR in L.
    apply sqrt_inj in L; unfold dotR in *; cbn in *; lra.
  - rewrite P, V. change (i_surf ax_mirror) with (Fshape (ShParaboloid 5)). rewrite hit_paraboloid by lra. 
    assert (EA : coefA (ShParaboloid 5) (V3 1 0 (-3)) (V3 0 (-9/20) (3/5)) = 81/4000) by (cbn; field).
    assert (EB : coefB (ShParaboloid 5) (V3 1 0 (-3)) (V3 0 (-9/20) (3/5)) = -3/5) by (cbn; field).
    assert (EC : coefC (ShParaboloid 5) (V3 1 0 (-3)) (V3 0 (-9/20) (3/5)) = 31/10) by (cbn; field).
    unfold by_roots. rewrite EA, EB, EC. destruct (Req_EM_T _ _); [lra|]. unfold roots. xunf. replace (-3/5 * (-3/5) - 4 * (81/4000) * (31/10)) with (33/100 * (33/100)) by field.
    rewrite xltb_f by lra. rewrite xsqrt_fin by lra. rewrite sqrt_square by lra.
    rewrite (xltb_f 0 (-3/5)) by lra. cbn [xadd xsub xmul xopp].
    rewrite xdiv_fin by lra. cbn [xmul]. replace (2 * (31/10) / (- (-3 / 5) + 33/100)) with (20/3) by field.
    rewrite xdiv_fin by lra. replace (31/10 / (81 / 4000 * (20 / 3))) with (620/27) by field.
    cbn [pick_root]. cbn [cz]. rewrite xltb_f by lra. unfold nmin; cbn [nltb NumXR]. rewrite xltb_f by lra. reflexivity.
  - rewrite P, V, X. cbn [bends ax_mirror mkIface i_kind i_surf cx cy]. exists m. auto.
Qed.
Lemma ax_through niter : exists r1, gets_through niter ax_optic false global_frame (Fray ax_ray) ax_frame r1 /\ vel r1 <> zeroR.
Proof.
  destruct (ax_step1 niter 1) as (g & E1). destruct (ax_step2 niter g) as (r1 & E2 & F & Nz). exists r1. split; [|exact Nz]. split; [|exact F].
  rewrite trace_in_turn. cbn [visit leaves ax_optic flat_map o_skip app in_turn fold_left ax_glass ax_mirror mkIface i_skip].
  change (iface_trace niter ax_mirror false (iface_trace niter ax_glass false (RV [Fray (ax_start 1)] (Fcs global_frame))) = RV [Fray r1] (Fcs ax_frame)).
  rewrite E1. exact E2.
Qed.
Lemma ax_skew : skewness global_frame ax_ray = - (4/5).
Proof. unfold skewness, dotR; cbn. field. Qed.
Lemma ax_plane niter : exists r1, gets_through niter (Iface ax_glass) false global_frame (Fray (ax_start 0)) global_frame r1 /\ meridional 0 1 global_frame (ax_start 0).
Proof.
  destruct (ax_step1 niter 0) as (g & E1). exists (Ray (V3 0 0 0) (V3 (9/20) 0 (3/5)) 6 (1/2) 1 g false). split; [split; [|reflexivity]; cbn [trace]; exact E1|]. split; cbn; ring.
Qed.
