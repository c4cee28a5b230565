(** A pencil of parallel rays, a paraboloid, and a detector in its focal plane. *)
From Coq Require Import Reals String List ZArith Bool Lra Psatz.
From Verif Require Import Num NumR Vec CoordSys Surface Medium Obscuration Ray Bundle Optic Spec OpticsSpec TreeSpec SurfSpec
  XRFacts CoordFacts RayFacts NormalFacts SurfMore RefractProofs OpticsProofs RootFacts IntersectProofs IntersectMore TreeProofs AxialTrace StigSpec StigProofs SamplesStig
  GaussSpec GaussLimits GaussProofs GaussSurfaces.
Import ListNotations.
Open Scope R_scope.

Definition ga_mirror : iface XR :=
  mkIface KMirror (Paraboloid (Fin 20)) "primary" (Fcs (at_z 0)) None (ConstM (Fin 1)) (ConstM (Fin 1)) None None false.
Definition ga_detector : iface XR :=
  mkIface KDetector Plane "detector" (Fcs (at_z 10)) None (ConstM (Fin 1)) (ConstM (Fin 1)) None None false.
Definition ga_els : list element := [Element ga_mirror 0 (/ 20) 1; Element ga_detector 10 0 1].
Definition ga_start : gauss := Gauss 15 (-1) 1 0 0 0.
Definition ga_ray (s : R) : ray R := Ray (V3 s 0 15) (V3 0 0 (-1)) 0 (1/2) 1 false false.
Definition ga_up (s : R) : vR := V3 (- (40 * s) / (s * s + 400)) 0 ((400 - s * s) / (s * s + 400)).
Definition ga_ray1 (s : R) : ray R := after (V3 s 0 15) (V3 0 0 (-1)) (15 - s * s / 40) (ga_up s) ga_mirror (ga_ray s).
Definition ga_ray2 (s : R) : ray R :=
  after (V3 s 0 (s * s / 40 - 10)) (ga_up s) ((10 - s * s / 40) * (s * s + 400) / (400 - s * s)) (ga_up s) ga_detector (ga_ray1 s).

Lemma ga_centred : centred false (1/2) (-1) ga_els.
Proof.
  cbn [ga_els centred e_n]. split; [|split; [|exact I]]; (split; [reflexivity|]; split; [|cbn; lra]).
  - cbn. apply paraboloid_curved. lra.
  - cbn. apply plane_curved.
Qed.
Lemma ga_pencil : pencil (at_z 0) ga_ray (1/2) ga_start.
Proof.
  unfold pencil, ga_start, ga_ray, global_point, global_dir, at_z; cbn. split; [lra|]. split; [apply nearby_all; reflexivity|].
  repeat split; (eapply tends_ext; [|apply tends_const]); apply nearby_all; intros s N; cbn beta; first [field; exact N|field].
Qed.
Lemma ga_lands1 niter s : Rabs s < 1 -> lands niter ga_mirror false (at_z 0) (ga_ray s) (at_z 0) (ga_ray1 s).
Proof.
  intros Hs.
  assert (P : chg_pt (at_z 0) (at_z 0) (pos (ga_ray s)) = V3 s 0 15) by (apply vec3_eq; cbn; ring).
  assert (V : chg_vec (at_z 0) (at_z 0) (vel (ga_ray s)) = V3 0 0 (-1)) by (apply vec3_eq; cbn; ring).
  set (q := V3 s 0 (s * s / 40)). assert (Q : plusR (V3 s 0 15) (timesR (15 - s * s / 40) (V3 0 0 (-1))) = q) by (apply vec3_eq; cbn; ring).
  assert (On : on_sag (Paraboloid (Fin 20)) q) by (apply (on_sag_iff (ShParaboloid 20)); unfold q; cbn; lra).
  destruct (normals_exist (Paraboloid 20) (cx q) (cy q) I I) as (m & Hm). cbn [Fsurf] in Hm.
  split; [|split; [reflexivity|unfold ga_ray1, after; cbn [pos]; rewrite Q; exact On]].
  pose proof (iface_do niter ga_mirror false (at_z 0) (at_z 0) (ga_ray s) (15 - s * s / 40) (ga_up s) ltac:(intros ?; discriminate) eq_refl eq_refl) as H.
  cbv zeta in H. rewrite P, V in H. apply H.
  - change (i_surf ga_mirror) with (Fshape (ShParaboloid 20)). rewrite hit_paraboloid by lra. unfold coefA, coefB, coefC; cbn [cx cy cz].
    destruct (Req_EM_T _ 0) as [E|E]; [|exfalso; apply E; field]. f_equal. apply xdiv_fin_eq; lra.
  - unfold bends. cbn [i_kind ga_mirror i_surf]. rewrite Q. exists m. split; [exact Hm|].
    destruct (para_normal 20 q ltac:(lra) m Hm) as (c & Em). destruct (normal_unit _ _ _ _ Hm) as (U & _). symmetry.
    assert (N : s * s + 400 <> 0) by (pose proof (Rle_0_sqr s); unfold Rsqr in *; lra).
    apply (refl_char _ _ m (V3 (- s) (- 0) 20) c (- (40 / (s * s + 400)))); [unfold dotR, ga_up; cbn; field; exact N|apply vec3_eq; cbn; field; exact N|unfold Rdiv; intros Z; apply Ropp_eq_0_compat in Z; rewrite Ropp_involutive in Z; apply Rmult_integral in Z; destruct Z as [Z|Z]; [lra|exact (Rinv_neq_0_compat _ N Z)]|exact Em|exact U].
Qed.
Lemma ga_lands2 niter s : Rabs s < 1 -> lands niter ga_detector false (at_z 0) (ga_ray1 s) (at_z 10) (ga_ray2 s) /\ cx (pos (ga_ray2 s)) = 0.
Proof.
  intros Hs. assert (S1 : s * s < 1) by (apply sq_abs in Hs; lra). pose proof (Rle_0_sqr s) as S0. unfold Rsqr in S0.
  assert (P : chg_pt (at_z 0) (at_z 10) (pos (ga_ray1 s)) = V3 s 0 (s * s / 40 - 10)) by (apply vec3_eq; cbn; field).
  assert (V : chg_vec (at_z 0) (at_z 10) (vel (ga_ray1 s)) = ga_up s) by (apply vec3_eq; cbn; ring).
  set (u := (10 - s * s / 40) * (s * s + 400) / (400 - s * s)).
  assert (Z : cz (ga_up s) <> 0).
  { unfold ga_up; cbn. unfold Rdiv. apply Rmult_integral_contrapositive_currified; [lra|]. apply Rinv_neq_0_compat. lra. }
  assert (Q : plusR (V3 s 0 (s * s / 40 - 10)) (timesR u (ga_up s)) = V3 0 0 0) by (unfold u, ga_up; apply vec3_eq; cbn; field; lra).
  split; [|unfold ga_ray2, after; cbn [pos]; fold u; rewrite Q; reflexivity].
  split; [|split; [reflexivity|unfold ga_ray2, after; cbn [pos]; fold u; rewrite Q; reflexivity]].
  pose proof (iface_do niter ga_detector false (at_z 0) (at_z 10) (ga_ray1 s) u (ga_up s) ltac:(intros ?; discriminate) eq_refl eq_refl) as H.
  cbv zeta in H. rewrite P, V in H. apply H.
  - change (i_surf ga_detector) with (Fshape ShPlane). rewrite hit_plane. destruct (Req_EM_T _ 0) as [E|E]; [contradiction|]. do 2 f_equal.
    unfold u, ga_up. cbn [cz]. field. lra.
  - reflexivity.
Qed.
Lemma ga_step niter : nearby (fun s => lands niter ga_mirror false (at_z 0) (ga_ray s) (at_z 0) (ga_ray1 s) /\
  Rabs (cx (pos (ga_ray1 s))) <= 1 /\ Rabs (cy (pos (ga_ray1 s))) <= 1).
Proof.
  exists 1. split; [lra|]. intros s [_ Hs]. split; [apply ga_lands1, Hs|]. unfold ga_ray1, after; cbn. rewrite Rmult_0_r, !Rplus_0_r, Rabs_R0. lra.
Qed.
Lemma ga_guided niter : guided niter false 1 (at_z 0) ga_ray ga_els (at_z 10) ga_ray2.
Proof.
  apply guided_cons with ga_ray1; [exact (ga_step niter)|]. apply guided_cons with ga_ray2; [|apply guided_nil]. exists 1; (split; [lra|]); intros s [_ Hs]; cbn [e_iface e_z].
  destruct (ga_lands2 niter s Hs) as (L & E). split; [exact L|]. rewrite E, Rabs_R0. split; [lra|]. unfold ga_ray2, after, ga_up; cbn. rewrite Rmult_0_r, Rplus_0_r, Rabs_R0. lra.
Qed.
Lemma ga_image : fold_left meet ga_els ga_start = Gauss 10 1 0 0 (- / 10) 0.
Proof. unfold ga_els, ga_start, meet; cbn. f_equal; field. Qed.
(** A lens of glass with spherical faces, 1 thick. *)
Definition ga_front : iface XR :=
  mkIface KRefractive (Sphere (Fin 50)) "front" (Fcs (at_z 0)) None (ConstM (Fin 1)) (ConstM (Fin (3/2))) None None false.
Definition ga_back : iface XR :=
  mkIface KRefractive (Sphere (Fin (-50))) "back" (Fcs (at_z 1)) None (ConstM (Fin (3/2))) (ConstM (Fin 1)) None None false.
Definition ga_lens : list element := [Element ga_front 0 (/ 50) (3/2); Element ga_back 1 (/ -50) 1].
Definition ga_light (s : R) : ray R := Ray (V3 s 0 (-5)) (V3 0 0 1) 0 (1/2) 1 false false.
Definition ga_begin : gauss := Gauss (-5) 1 1 0 0 0.
Lemma ga_lens_centred : centred false (1/2) (g_n ga_begin) ga_lens.
Proof.
  cbn [ga_lens centred e_n ga_begin g_n]. split; [|split; [|exact I]]; (split; [reflexivity|]; split; [cbn; apply sphere_curved; lra|]); cbn; (split; [lra|]); rewrite Rabs_pos_eq by lra; reflexivity.
Qed.
Lemma ga_lens_reachable : reachable (g_z ga_begin) ga_lens.
Proof.
  cbn [ga_lens reachable ga_begin g_z e_z]. split; [|split; [|exact I]].
  - exists (ShSphere 50). split; [reflexivity|]. split; [cbn; lra|]. cbn. lra.
  - exists (ShSphere (-50)). split; [reflexivity|]. split; [cbn; lra|]. cbn. lra.
Qed.
Lemma ga_light_pencil : pencil (at_z 0) ga_light (1/2) ga_begin.
Proof.
  unfold pencil, ga_begin, ga_light, global_point, global_dir, at_z; cbn. split; [lra|]. split; [apply nearby_all; reflexivity|].
  repeat split; (eapply tends_ext; [|apply tends_const]); apply nearby_all; intros s N; cbn beta; first [field; exact N|field].
Qed.
Lemma ga_lens_image : let g := fold_left meet ga_lens ga_begin in g_x g = 149/150 /\ g_px g = - (299/15000).
Proof. unfold ga_lens, ga_begin, meet; cbn. split; field. Qed.
