(** Concrete data meeting the hypotheses of PropertiesOptics.v, and the witnesses of its
    refutations. *)
From Coq Require Import Reals List ZArith Bool Lra Psatz SpecFloat.
From Verif Require Import Num NumR NumF Vec CoordSys Surface Medium Obscuration Ray Bundle Spec OpticsSpec
  XRFacts CoordFacts FrameProofs RayFacts NormalFacts RefractProofs OpticsProofs ScreenProofs RootFacts
  IntersectProofs IntersectMore SamplesFrames.
Import ListNotations.
Open Scope R_scope.

(** A ray of frame frA that has position p and velocity v in frame frB. *)
Definition seen (p v : vR) : ray R :=
  Ray (local_point frA (global_point frB p)) (local_dir frA (global_dir frB v)) 2 (1/2) 1 false false.
Lemma seen_pos p v : pos_in frA frB (seen p v) = p.
Proof. destruct p. apply vec3_eq; cbn; field. Qed.
Lemma seen_vel p v : vel_in frA frB (seen p v) = v.
Proof. destruct v. apply vec3_eq; cbn; field. Qed.
Lemma frA_good : good_frame frA. Proof. apply rotZ345_rot. Qed.
Lemma frB_good : good_frame frB. Proof. apply rotX345_rot. Qed.

Lemma seen_arrives s p v t q : hit s 5 (F3 p) (F3 v) = (true, Fin t) -> q = on_line p v t ->
  exists ri, arrives 5 s frA frB [ray1; seen p v] 1 (seen p v) ri q.
Proof.
  intros Hh Hq.
  assert (H' : hit s 5 (F3 (pos_in frA frB (seen p v))) (F3 (vel_in frA frB (seen p v))) = (true, Fin t))
    by (rewrite seen_pos, seen_vel; exact Hh).
  pose proof (intersect_hit s 5 frA frB [ray1; seen p v] 1 (seen p v) _ frA_good frB_good eq_refl eq_refl H') as Hi.
  rewrite advance_F, seen_pos, seen_vel, <- Hq in Hi.
  eexists. constructor; [apply frA_good|apply frB_good|reflexivity|reflexivity|exact Hi|reflexivity|reflexivity].
Qed.

(** On-axis ray at x = 3/4 meeting the paraboloid of radius 1. *)
Definition pP : vR := V3 (3/4) 0 (-1).
Definition qP : vR := V3 (3/4) 0 (9/32).
Definition nP : vR := V3 (-3/5) 0 (4/5).
Definition rayP (w : R) : ray R := seen pP (V3 0 0 w).
Lemma rayP_arrives w : w <> 0 ->
  exists ri, arrives 5 (Paraboloid (Fin 1)) frA frB [ray1; rayP w] 1 (rayP w) ri qP.
Proof.
  intros Hw. apply seen_arrives with (t := 41/32/w).
  - change (Paraboloid (Fin 1)) with (Fshape (ShParaboloid 1)). rewrite hit_paraboloid by lra.
    unfold coefA, coefB, coefC; cbn. destruct (Req_EM_T _ 0) as [E|E]; [|exfalso; apply E; field].
    f_equal. apply xdiv_fin_eq; [lra|field; lra].
  - apply vec3_eq; cbn; field; lra.
Qed.
Lemma nP_normal : normal_at (Paraboloid (Fin 1)) qP nP.
Proof.
  unfold normal_at. cbn [normal qP cx cy]. rewrite paraboloid_normal_F by lra. cbv zeta.
  replace (1 + (3 / 4 * (3 / 4) + 0 * 0) / 1 / 1) with ((5/4) * (5/4)) by field.
  rewrite sqrt_square by lra. unfold nP. apply f_equal. apply vec3_eq; cbn; field.
Qed.
Lemma vz_nonzero w : w <> 0 -> V3 0 0 w <> zeroR.
Proof. intros H E. apply (f_equal cz) in E. cbn in E. contradiction. Qed.
Lemma rayP_moving w : w <> 0 -> vel_in frA frB (rayP w) <> zeroR.
Proof. intros H. unfold rayP. rewrite seen_vel. apply vz_nonzero, H. Qed.

Lemma ex_reflection : exists ri,
  arrives 5 (Paraboloid (Fin 1)) frA frB [ray1; rayP (2/3)] 1 (rayP (2/3)) ri qP /\
  normal_at (Paraboloid (Fin 1)) qP nP /\ vel_in frA frB (rayP (2/3)) <> zeroR /\
  dotR (vel_in frA frB (rayP (2/3))) nP = 8/15.
Proof.
  destruct (rayP_arrives (2/3)) as [ri H]; [lra|]. exists ri. split; [exact H|]. split; [exact nP_normal|].
  split; [apply rayP_moving; lra|]. unfold rayP. rewrite seen_vel. unfold dotR, nP; cbn. lra.
Qed.
(** The same ray leaving glass of index 3/2 is refracted, of index 2 totally reflected. *)
Lemma index_z w : 0 < w -> index_of (V3 0 0 w) = / w /\ unitR (V3 0 0 w) = V3 0 0 1.
Proof.
  intros Hw. assert (L : lenR (V3 0 0 w) = w).
  { unfold lenR, dotR; cbn. replace (0*0+0*0+w*w) with (w*w) by ring. apply sqrt_square; lra. }
  unfold index_of, unitR. rewrite L. split; [reflexivity|]. apply vec3_eq; cbn; field; lra.
Qed.
Lemma ex_refraction : exists ri r',
  arrives 5 (Paraboloid (Fin 1)) frA frB [ray1; rayP (2/3)] 1 (rayP (2/3)) ri qP /\
  normal_at (Paraboloid (Fin 1)) qP nP /\ vel_in frA frB (rayP (2/3)) <> zeroR /\
  getN (ConstM (Fin 1)) (Fin (wavelength (rayP (2/3)))) = Fin 1 /\ 0 < 1 /\
  kth 1 (rv_refract 5 (Paraboloid (Fin 1)) (ConstM (Fin (3/2))) (ConstM (Fin 1)) (Some (Fcs frB))
           (option_map Fcoat None) (Frv (RV [ray1; rayP (2/3)] frA))) r' /\ failed r' = false.
Proof.
  destruct (rayP_arrives (2/3)) as [ri H]; [lra|].
  assert (Hm : vel_in frA frB (rayP (2/3)) <> zeroR) by (apply rayP_moving; lra).
  pose proof (refract_nth 5 _ (ConstM (Fin (3/2))) (ConstM (Fin 1)) frA frB _ 1 _ ri qP nP None 1
     H nP_normal Hm eq_refl Rlt_0_1) as HR. cbv zeta in HR.
  eexists ri, _. split; [exact H|]. split; [exact nP_normal|]. split; [exact Hm|].
  split; [reflexivity|]. split; [lra|]. split; [exact HR|]. clear HR.
  unfold rayP. rewrite seen_vel. destruct (index_z (2/3)) as [-> ->]; [lra|].
  destruct (Rlt_dec _ _) as [L|L]; [|reflexivity]. exfalso. revert L.
  unfold sin2R, dotR, nP; cbn. lra.
Qed.
Lemma ex_tir : exists ri r',
  arrives 5 (Paraboloid (Fin 1)) frA frB [ray1; rayP (1/2)] 1 (rayP (1/2)) ri qP /\
  normal_at (Paraboloid (Fin 1)) qP nP /\ vel_in frA frB (rayP (1/2)) <> zeroR /\
  getN (ConstM (Fin 1)) (Fin (wavelength (rayP (1/2)))) = Fin 1 /\ 0 < 1 /\
  kth 1 (rv_refract 5 (Paraboloid (Fin 1)) (ConstM (Fin 2)) (ConstM (Fin 1)) (Some (Fcs frB))
           (option_map Fcoat None) (Frv (RV [ray1; rayP (1/2)] frA))) r' /\ failed r' = true.
Proof.
  destruct (rayP_arrives (1/2)) as [ri H]; [lra|].
  assert (Hm : vel_in frA frB (rayP (1/2)) <> zeroR) by (apply rayP_moving; lra).
  pose proof (refract_nth 5 _ (ConstM (Fin 2)) (ConstM (Fin 1)) frA frB _ 1 _ ri qP nP None 1
     H nP_normal Hm eq_refl Rlt_0_1) as HR. cbv zeta in HR.
  eexists ri, _. split; [exact H|]. split; [exact nP_normal|]. split; [exact Hm|].
  split; [reflexivity|]. split; [lra|]. split; [exact HR|]. clear HR.
  unfold rayP. rewrite seen_vel. destruct (index_z (1/2)) as [-> ->]; [lra|].
  destruct (Rlt_dec _ _) as [L|L]; [reflexivity|]. exfalso. apply L.
  unfold sin2R, dotR, nP; cbn. lra.
Qed.
Lemma ex_split : met 5 (Paraboloid (Fin 1)) frA frB [ray1; rayP (2/3)] 1 /\
  reflectivity (SimpleCoating (1/25) (24/25)) + transmissivity (SimpleCoating (1/25) (24/25)) = 1.
Proof.
  split; [|cbn; lra]. destruct (rayP_arrives (2/3)) as [ri H]; [lra|].
  exists ri. destruct H. split; [exact ar_i|]. right. exists qP, nP. split; [exact ar_q|exact nP_normal].
Qed.

(** Intersections. *)
Definition sh_list : list shape := [ShPlane; ShTilted (1/10) 0; ShSphere (-2); ShParaboloid 1; ShQuadric 3 (-2); ShQuadric 3 (-1/2)].
Lemma ex_shapes : Forall good_shape sh_list.
Proof. repeat constructor; cbn; lra. Qed.
Lemma ex_crossing : exists ri q,
  arrives 5 (Fshape (ShSphere 2)) frA frB [ray1; seen (V3 0 0 (-3)) (V3 0 0 1)] 1 (seen (V3 0 0 (-3)) (V3 0 0 1)) ri q.
Proof.
  apply crossing_arrives; auto using frA_good, frB_good; rewrite ?seen_pos, ?seen_vel.
  - cbn; lra. - apply vz_nonzero; lra. - cbn; lra. - exists 3. cbn. lra.
Qed.
Lemma ex_miss : ~ degenerate (ShSphere 2) (V3 5 0 (-3)) (V3 0 0 1) /\
  ~ exists t, whole (ShSphere 2) (on_line (V3 5 0 (-3)) (V3 0 0 1) t).
Proof. split; [cbn; tauto|]. intros [t H]. cbn in H. pose proof (sq_nonneg (-3 + t * 1 - 2)). nra. Qed.
(** Hyperboloid line meeting both sheets, separable at the near one. *)
Lemma ex_meets :
  on_sag (Fshape (ShQuadric 1 (-2))) (on_line (V3 (3/4) 0 1) (V3 0 0 1) (-3/4)) /\
  separable (ShQuadric 1 (-2)) (on_line (V3 (3/4) 0 1) (V3 0 0 1) (-3/4)) /\
  ~ whole (ShQuadric 1 (-2)) (V3 (3/4) 0 1) /\
  whole (ShQuadric 1 (-2)) (on_line (V3 (3/4) 0 1) (V3 0 0 1) (-13/4)).
Proof.
  split; [apply on_sag_iff; cbn; lra|]. cbn. repeat split; try lra.
Qed.

(** Refutation of "the point is always on the sag": the far half of a sphere. *)
Lemma sphere_far_half : exists ri q,
  arrives 5 (Sphere (Fin 1)) frA frB [seen (V3 (-5) 0 (9/5)) (V3 1 0 0)] 0 (seen (V3 (-5) 0 (9/5)) (V3 1 0 0)) ri q /\
  ~ on_sag (Sphere (Fin 1)) q.
Proof.
  destruct (crossing_arrives 5 (ShSphere 1) frA frB [seen (V3 (-5) 0 (9/5)) (V3 1 0 0)] 0 (seen (V3 (-5) 0 (9/5)) (V3 1 0 0)))
    as (ri & q & H); auto using frA_good, frB_good; rewrite ?seen_pos, ?seen_vel.
  - cbn; lra. - intros E; apply (f_equal cx) in E; cbn in E; lra. - cbn; lra.
  - exists (22/5). cbn. lra.
  - exists ri, q. split; [exact H|]. change (Sphere (Fin 1)) with (Fshape (ShSphere 1)).
    rewrite on_sag_iff by (cbn; lra). intros [_ V].
    destruct (on_line_on_whole _ (ShSphere 1) _ _ _ _ _ _ _ ltac:(cbn; lra) H) as (t & Hq & _).
    rewrite seen_pos, seen_vel in Hq. rewrite Hq in V. cbn in V. lra.
Qed.
(** A hyperboloid whose sag surface is crossed, but the other sheet is returned. *)
Lemma hyperboloid_far_sheet : let p := V3 (-3) 0 (-6) in let v := V3 3 0 4 in
  on_sag (Quadric (Fin 1) (Fin (-2))) (on_line p v (15/7)) /\
  exists ri q,
  arrives 5 (Quadric (Fin 1) (Fin (-2))) frA frB [seen p v] 0 (seen p v) ri q /\
  ~ on_sag (Quadric (Fin 1) (Fin (-2))) q.
Proof.
  cbv zeta. change (Quadric (Fin 1) (Fin (-2))) with (Fshape (ShQuadric 1 (-2))).
  set (p := V3 (-3) 0 (-6)). set (v := V3 3 0 4).
  split; [apply on_sag_iff; cbn; lra|].
  assert (Hh : hit (Fshape (ShQuadric 1 (-2))) 5 (F3 p) (F3 v) = (true, Fin 1)).
  { rewrite hit_quadric by lra. unfold by_roots.
    destruct (roots_two (coefA (ShQuadric 1 (-2)) p v) (coefB (ShQuadric 1 (-2)) p v) (coefC (ShQuadric 1 (-2)) p v))
      as (t1 & t2 & E & Q1 & Q2 & S & M); [cbn; lra|unfold discR; cbn; lra|cbn; lra|].
    rewrite E. clear E. unfold quad in *. cbn in Q1, Q2, S, M. f_equal.
    cbn [pick_root p v cz]. cbn [xmul xadd xabs xltb].
    assert (A1 : (t1 - 1) * (t1 - 15/7) = 0) by lra. assert (A2 : (t2 - 1) * (t2 - 15/7) = 0) by lra.
    apply Rmult_integral in A1, A2.
    destruct A1 as [A1|A1], A2 as [A2|A2]; try lra.
    - rewrite (Rabs_left (-6 + 4 * t1)), (Rabs_right (-6 + 4 * t2)) by lra.
      destruct (Rlt_dec _ _); f_equal; lra.
    - rewrite (Rabs_right (-6 + 4 * t1)), (Rabs_left (-6 + 4 * t2)) by lra.
      destruct (Rlt_dec _ _); f_equal; lra. }
  pose proof (intersect_hit (Fshape (ShQuadric 1 (-2))) 5 frA frB [seen p v] 0 (seen p v) (Fin 1) frA_good frB_good eq_refl eq_refl) as Hi.
  rewrite seen_pos, seen_vel in Hi. specialize (Hi Hh). rewrite advance_F in Hi.
  eexists. exists (on_line p v 1). split.
  - constructor; [apply frA_good|apply frB_good|reflexivity|reflexivity|exact Hi|reflexivity|reflexivity].
  - rewrite on_sag_iff by (cbn; lra). intros [_ V]. cbn in V. lra.
Qed.

(** Double-precision witnesses. *)
Definition f1 : F64 := n1.
Definition fz : F64 := n0.
Definition frame0 : coordsys F64 := CS (V3 n0 n0 n0) meye.
Definition fray (p v : vec3 F64) : ray F64 := Ray p v n0 n1 n1 false false.
Definition one_out (o : rayvec F64) (P : ray F64 -> Prop) : Prop :=
  match rays o with [r] => P r | _ => False end.
Definition nan_unflagged (r : ray F64) : Prop :=
  failed r = false /\ f_isnan (cz (pos r)) = true.
Lemma quadric_from_vertex : exists r ri, failed r = false /\
  rays (rv_intersect 5 (Quadric n1 n0) None None (RV [r] frame0)) = [ri] /\ nan_unflagged ri.
Proof. exists (fray (V3 n0 n0 n0) (V3 n0 n0 n1)). eexists. split; [reflexivity|split; [vm_compute; reflexivity|vm_compute; auto]]. Qed.
Lemma paraboloid_tangent : exists r ri, failed r = false /\
  rays (rv_intersect 5 (Paraboloid n1) None None (RV [r] frame0)) = [ri] /\ nan_unflagged ri.
Proof. exists (fray (V3 n0 n0 n0) (V3 n1 n0 n0)). eexists. split; [reflexivity|split; [vm_compute; reflexivity|vm_compute; auto]]. Qed.
Lemma quadric_parabolic : exists r ri, failed r = false /\
  rays (rv_intersect 5 (Quadric n1 (nofZ (-1))) None None (RV [r] frame0)) = [ri] /\ nan_unflagged ri.
Proof. exists (fray (V3 n1 n0 (nofZ (-3))) (V3 n0 n0 n1)). eexists. split; [reflexivity|split; [vm_compute; reflexivity|vm_compute; auto]]. Qed.
Lemma plane_in_plane : exists r ri, failed r = false /\ cz (pos r) = fz /\
  rays (rv_intersect 5 Plane None None (RV [r] frame0)) = [ri] /\ failed ri = true.
Proof. exists (fray (V3 n1 n0 n0) (V3 n1 n0 n0)). eexists. repeat split; vm_compute; reflexivity. Qed.
Lemma screen_nan : exists r ri, failed r = false /\
  rays (rv_screen 5 Plane (Paraboloid n1) None (RV [r] frame0)) = [ri] /\
  failed ri = false /\ vignetted ri = false /\ f_isnan (cx (vel ri)) = true.
Proof. exists (fray (V3 (nofZ 3) n0 (nofZ (-1))) (V3 n0 n0 n1)). eexists. repeat split; vm_compute; reflexivity. Qed.
(** An iterative surface that is met in double precision. *)
Definition asph : surface F64 := Asphere (nofZ 10) n0 [nfrac 1 1000; nfrac 1 10000].
Lemma ex_iterative : iterative asph /\ one_out
  (rv_intersect 5 asph None None (RV [fray (V3 n1 n0 (nofZ (-3))) (V3 n0 n0 n1)] frame0)) (fun r => failed r = false).
Proof. vm_compute. auto. Qed.

(** Reversibility through a plane: 3-4-5 to 4-3-5 with n1 = 4/3, n2 = 1. *)
Definition vIn : vR := V3 (9/20) 0 (3/5).
Definition vOut : vR := V3 (4/5) 0 (3/5).
Definition rIn := seen (V3 0 0 (-3/5)) vIn.
Definition rBack := seen (V3 (25/20) 0 (3/5)) (negR vOut).
Lemma plane_normal_at q : normal_at Plane q (V3 0 0 1).
Proof. reflexivity. Qed.
Lemma vIn_nz : vIn <> zeroR.
Proof. intros E. apply (f_equal cz) in E. cbn in E. lra. Qed.
Lemma vIn_index : index_of vIn = 4/3 /\ unitR vIn = V3 (3/5) 0 (4/5).
Proof.
  assert (L : lenR vIn = 3/4).
  { unfold lenR, dotR, vIn; cbn. replace (9/20*(9/20)+0*0+3/5*(3/5)) with ((3/4)*(3/4)) by field.
    apply sqrt_square; lra. }
  unfold index_of, unitR. rewrite L. split; [field|]. apply vec3_eq; cbn; field.
Qed.
Lemma ex_reversible : exists ri ri' out back q,
  arrives 5 Plane frA frB [ray1; rIn] 1 rIn ri q /\ normal_at Plane q (V3 0 0 1) /\
  vel_in frA frB rIn <> zeroR /\
  getN (ConstM (Fin 1)) (Fin (wavelength rIn)) = Fin 1 /\
  kth 1 (rv_refract 5 Plane (ConstM (Fin (4/3))) (ConstM (Fin 1)) (Some (Fcs frB)) (option_map Fcoat None)
           (Frv (RV [ray1; rIn] frA))) out /\ failed out = false /\ vel out = F3 vOut /\
  dotR vOut (V3 0 0 1) <> 0 /\
  arrives 5 Plane frA frB [ray1; rBack] 1 rBack ri' q /\ vel_in frA frB rBack = negR vOut /\
  getN (ConstM (Fin (4/3))) (Fin (wavelength rBack)) = Fin (index_of (vel_in frA frB rIn)) /\
  kth 1 (rv_refract 5 Plane (ConstM (Fin 1)) (ConstM (Fin (4/3))) (Some (Fcs frB)) (option_map Fcoat None)
           (Frv (RV [ray1; rBack] frA))) back.
Proof.
  assert (H1 : exists ri, arrives 5 Plane frA frB [ray1; rIn] 1 rIn ri (V3 (9/20) 0 0)).
  { apply seen_arrives with (t := 1).
    - change Plane with (Fshape ShPlane). rewrite hit_plane. cbn. destruct (Req_EM_T _ _); [lra|].
      do 2 f_equal. field.
    - apply vec3_eq; cbn; field. }
  assert (H2 : exists ri, arrives 5 Plane frA frB [ray1; rBack] 1 rBack ri (V3 (9/20) 0 0)).
  { apply seen_arrives with (t := 1).
    - change Plane with (Fshape ShPlane). rewrite hit_plane. cbn. destruct (Req_EM_T _ _); [lra|].
      do 2 f_equal. field.
    - apply vec3_eq; cbn; field. }
  destruct H1 as [ri H1], H2 as [ri' H2].
  assert (Hm : vel_in frA frB rIn <> zeroR) by (unfold rIn; rewrite seen_vel; apply vIn_nz).
  pose proof (refract_nth 5 Plane (ConstM (Fin (4/3))) (ConstM (Fin 1)) frA frB _ 1 _ ri _ (V3 0 0 1) None 1
     H1 (plane_normal_at _) Hm eq_refl Rlt_0_1) as HR. cbv zeta in HR.
  assert (HV : vel_in frA frB rIn = vIn) by apply seen_vel. rewrite HV in HR. destruct vIn_index as [I U].
  rewrite I, U in HR.
  assert (S2 : sin2R (V3 (3/5) 0 (4/5)) (V3 0 0 1) (4/3) 1 = 16/25).
  { unfold sin2R, dotR; cbn. field. }
  rewrite S2 in HR. destruct (Rlt_dec 1 (16/25)) as [L|L]; [lra|].
  assert (W : refrR (V3 (3/5) 0 (4/5)) (V3 0 0 1) (4/3) 1 = vOut).
  { unfold refrR. rewrite S2. replace (1 - 16/25) with ((3/5)*(3/5)) by field. rewrite sqrt_square by lra.
    unfold sideR, dotR; cbn. destruct (Rlt_dec _ _); [|lra]. apply vec3_eq; cbn; field. }
  rewrite W in HR.
  do 5 eexists. split; [exact H1|]. split; [apply plane_normal_at|]. split; [exact Hm|].
  split; [reflexivity|]. split; [exact HR|]. split; [reflexivity|]. split; [reflexivity|].
  split; [unfold dotR; cbn; lra|]. split; [exact H2|]. split; [apply seen_vel|].
  split; [rewrite HV, I; reflexivity|]. unfold kth. unfold rv_refract.
  erewrite batch_nth by reflexivity. reflexivity.
Qed.
(** A screen on the plane with gradient (1/10, 0) at the crossing point. *)
Lemma ex_screen : exists ri,
  arrives 5 Plane frA frB [ray1; seen pP (V3 0 0 1)] 1 (seen pP (V3 0 0 1)) ri (V3 (3/4) 0 0) /\
  grad (Paraboloid (Fin 2)) (Fin (3/4)) (Fin 0) = (Fin (3/8), Fin 0) /\
  sag (Paraboloid (Fin 2)) (Fin (3/4)) (Fin 0) = Fin (9/64).
Proof.
  assert (H1 : exists ri, arrives 5 Plane frA frB [ray1; seen pP (V3 0 0 1)] 1 (seen pP (V3 0 0 1)) ri (V3 (3/4) 0 0)).
  { apply seen_arrives with (t := 1).
    - change Plane with (Fshape ShPlane). rewrite hit_plane. cbn. destruct (Req_EM_T _ _); [lra|].
      do 2 f_equal. field.
    - apply vec3_eq; cbn; field. }
  destruct H1 as [ri H1]. exists ri. split; [exact H1|]. split.
  - unfold grad. cbn [normal]. rewrite paraboloid_normal_F by lra. cbv zeta.
    assert (P : 0 < 1 + (3/4 * (3/4) + 0 * 0) / 2 / 2) by lra.
    pose proof (sqrt_lt_R0 _ P) as Q. pose proof (Rinv_0_lt_compat _ Q).
    set (z := / sqrt _) in *. cbn [F3 vmap cx cy cz]. xunf. rewrite !xdiv_fin by lra.
    f_equal; f_equal; field; lra.
  - cbn [sag]. apply paraboloid_sag_iff; lra.
Qed.
Lemma ex_focus : pos_in frA frB (rayP (2/3)) = V3 (3/4) 0 (-1) /\ vel_in frA frB (rayP (2/3)) = V3 0 0 (2/3).
Proof. split; [apply seen_pos|apply seen_vel]. Qed.
