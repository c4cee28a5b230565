(** C07-C14, C57, C59, C60: rays meeting one surface. *)
From Coq Require Import Reals List ZArith Bool.
From Verif Require Import Num NumR NumF Vec CoordSys Surface Medium Obscuration Ray Bundle Spec OpticsSpec
  RayFacts NormalFacts RefractProofs OpticsProofs ScreenProofs IntersectProofs IntersectMore SurfSpec SlopeProofs MalusProofs SamplesFrames SamplesOptics.
Import ListNotations.
Open Scope R_scope.

(** C07 *)
Theorem C07_reflection_law : forall niter s A B l k r ri q n c,
  arrives niter s A B l k r ri q -> normal_at s q n -> (c = None \/ vel_in A B r <> zeroR) ->
  exists v',
    kth k (rv_reflect niter s (Some (Fcs B)) (option_map Fcoat c) (Frv (RV l A)))
      (Ray (pos ri) (F3 v') (time ri) (wavelength ri) (Fin (reflected_flux c (flux r)))
           (vignetted ri) false) /\
    let v := vel_in A B r in
    lenR v' = lenR v /\ dotR v' n = - dotR v n /\ tangR v' n = tangR v n.
Proof. exact reflection_law. Qed.
Print Assumptions C07_reflection_law.
Theorem C07_reflect_twice : forall v n, dotR n n = 1 ->
  reflect_vel (reflect_vel (F3 v) (F3 n)) (F3 n) = F3 v.
Proof. exact reflect_twice. Qed.
Print Assumptions C07_reflect_twice.
Example C07_example : exists ri,
  arrives 5 (Paraboloid (Fin 1)) frA frB [ray1; rayP (2/3)] 1 (rayP (2/3)) ri qP /\
  normal_at (Paraboloid (Fin 1)) qP nP /\ vel_in frA frB (rayP (2/3)) <> zeroR /\
  dotR (vel_in frA frB (rayP (2/3))) nP = 8/15.
Proof. exact ex_reflection. Qed.

(** C08 *)
Theorem C08_snell : forall niter s m1 m2 A B l k r ri q n c n2 r',
  arrives niter s A B l k r ri q -> normal_at s q n -> vel_in A B r <> zeroR ->
  getN m2 (Fin (wavelength r)) = Fin n2 -> 0 < n2 ->
  kth k (rv_refract niter s m1 m2 (Some (Fcs B)) (option_map Fcoat c) (Frv (RV l A))) r' ->
  failed r' = false ->
  exists v',
    r' = Ray (pos ri) (F3 v') (time ri) (wavelength ri) (Fin (transmitted_flux c (flux r)))
             (vignetted ri) false /\
    let v := vel_in A B r in
    lenR v' = / n2 /\
    timesR n2 (tangR (unitR v') n) = timesR (index_of v) (tangR (unitR v) n) /\
    (0 < dotR v n -> 0 <= dotR v' n) /\ (dotR v n < 0 -> dotR v' n <= 0) /\
    (index_of v = n2 -> v' = v).
Proof. exact snell. Qed.
Print Assumptions C08_snell.
Example C08_example : exists ri r',
  arrives 5 (Paraboloid (Fin 1)) frA frB [ray1; rayP (2/3)] 1 (rayP (2/3)) ri qP /\
  normal_at (Paraboloid (Fin 1)) qP nP /\ vel_in frA frB (rayP (2/3)) <> zeroR /\
  getN (ConstM (Fin 1)) (Fin (wavelength (rayP (2/3)))) = Fin 1 /\ 0 < 1 /\
  kth 1 (rv_refract 5 (Paraboloid (Fin 1)) (ConstM (Fin (3/2))) (ConstM (Fin 1)) (Some (Fcs frB))
           (option_map Fcoat None) (Frv (RV [ray1; rayP (2/3)] frA))) r' /\ failed r' = false.
Proof. exact ex_refraction. Qed.

(** C09 *)
Theorem C09_total_internal_reflection : forall niter s m1 m2 A B l k r ri q n c n2 r',
  arrives niter s A B l k r ri q -> normal_at s q n -> vel_in A B r <> zeroR ->
  getN m2 (Fin (wavelength r)) = Fin n2 -> 0 < n2 ->
  kth k (rv_refract niter s m1 m2 (Some (Fcs B)) (option_map Fcoat c) (Frv (RV l A))) r' ->
  let v := vel_in A B r in
  let n1 := index_of v in
  let cos1 := dotR (unitR v) n in
  (failed r' = true <-> 1 < (n1 / n2) * (n1 / n2) * (1 - cos1 * cos1)) /\
  (failed r' = true -> vignetted r' = true /\ pos r' = F3 q) /\
  (failed r' = false -> vignetted r' = vignetted r /\ exists v', vel r' = F3 v').
Proof. exact tir_exact. Qed.
Print Assumptions C09_total_internal_reflection.
Example C09_example : exists ri r',
  arrives 5 (Paraboloid (Fin 1)) frA frB [ray1; rayP (1/2)] 1 (rayP (1/2)) ri qP /\
  normal_at (Paraboloid (Fin 1)) qP nP /\ vel_in frA frB (rayP (1/2)) <> zeroR /\
  getN (ConstM (Fin 1)) (Fin (wavelength (rayP (1/2)))) = Fin 1 /\ 0 < 1 /\
  kth 1 (rv_refract 5 (Paraboloid (Fin 1)) (ConstM (Fin 2)) (ConstM (Fin 1)) (Some (Fcs frB))
           (option_map Fcoat None) (Frv (RV [ray1; rayP (1/2)] frA))) r' /\ failed r' = true.
Proof. exact ex_tir. Qed.

(** C10 *)
Theorem C10_rsplit_refracted : forall (T : Type) (NT : Num T) niter s m1 m2 c cs (rv : rayvec T),
  fst (rv_rsplit niter s m1 m2 c cs rv) = rv_refract niter s m1 m2 cs (Some c) rv.
Proof. exact @rsplit_refracted. Qed.
Print Assumptions C10_rsplit_refracted.
Theorem C10_rsplit_reflected : forall niter s m1 m2 c A B l k r n2,
  good_frame A -> good_frame B -> nth_error l k = Some r -> vel_in A B r <> zeroR ->
  getN m2 (Fin (wavelength r)) = Fin n2 -> 0 < n2 -> met niter s A B l k ->
  nth_error (rays (snd (rv_rsplit niter s m1 m2 (Fcoat c) (Some (Fcs B)) (Frv (RV l A))))) k
  = nth_error (rays (rv_reflect niter s (Some (Fcs B)) (Some (Fcoat c)) (Frv (RV l A)))) k.
Proof. exact rsplit_reflected. Qed.
Print Assumptions C10_rsplit_reflected.
Theorem C10_rsplit_flux : forall niter s m1 m2 c A B l k r ra rb ri q n n2,
  arrives niter s A B l k r ri q -> normal_at s q n -> vel_in A B r <> zeroR ->
  getN m2 (Fin (wavelength r)) = Fin n2 -> 0 < n2 ->
  reflectivity c + transmissivity c = 1 ->
  let out := rv_rsplit niter s m1 m2 (Fcoat c) (Some (Fcs B)) (Frv (RV l A)) in
  kth k (fst out) ra -> kth k (snd out) rb ->
  nadd (flux ra) (flux rb) = Fin (flux r) /\
  wavelength ra = Fin (wavelength r) /\ wavelength rb = Fin (wavelength r).
Proof. exact rsplit_flux. Qed.
Print Assumptions C10_rsplit_flux.
Example C10_example : met 5 (Paraboloid (Fin 1)) frA frB [ray1; rayP (2/3)] 1 /\
  reflectivity (SimpleCoating (1/25) (24/25)) + transmissivity (SimpleCoating (1/25) (24/25)) = 1.
Proof. exact ex_split. Qed.

(** C11: on the ray's own line and on the complete surface; on the published sag
    for surfaces with one sheet, and for the others whenever the line meets the
    sag surface at a separable point. *)
Theorem C11_sag_is_vertex_part : forall sh q, good_shape sh ->
  on_sag (Fshape sh) q <-> whole sh q /\ vertex_part sh q.
Proof. exact on_sag_iff. Qed.
Print Assumptions C11_sag_is_vertex_part.
Theorem C11_on_line_and_surface : forall niter sh A B l k r ri q, good_shape sh ->
  arrives niter (Fshape sh) A B l k r ri q ->
  exists t, q = on_line (pos_in A B r) (vel_in A B r) t /\ whole sh q.
Proof. exact on_line_on_whole. Qed.
Print Assumptions C11_on_line_and_surface.
Theorem C11_one_sheet_on_sag : forall niter sh A B l k r ri q, good_shape sh -> one_sheet sh ->
  arrives niter (Fshape sh) A B l k r ri q -> on_sag (Fshape sh) q.
Proof. exact one_sheet_on_sag. Qed.
Print Assumptions C11_one_sheet_on_sag.
Theorem C11_meets_sag : forall niter sh A B l k r ri q t0, good_shape sh ->
  arrives niter (Fshape sh) A B l k r ri q -> vel_in A B r <> zeroR ->
  let p := pos_in A B r in
  let v := vel_in A B r in
  (whole sh p -> on_sag (Fshape sh) p) ->
  on_sag (Fshape sh) (on_line p v t0) -> separable sh (on_line p v t0) ->
  on_sag (Fshape sh) q.
Proof. exact meets_on_sag. Qed.
Print Assumptions C11_meets_sag.
Theorem C11_crossing_rays_arrive : forall niter sh A B l k r, good_shape sh -> good_frame A -> good_frame B ->
  nth_error l k = Some r -> failed r = false -> vel_in A B r <> zeroR ->
  let p := pos_in A B r in
  let v := vel_in A B r in
  ~ degenerate sh p v -> ~ whole sh p -> (exists t, whole sh (on_line p v t)) ->
  exists ri q, arrives niter (Fshape sh) A B l k r ri q.
Proof. exact crossing_arrives. Qed.
Print Assumptions C11_crossing_rays_arrive.
(** Without the condition on sheets the statement is false. *)
Theorem C11_sphere_sag_refuted : exists ri q,
  arrives 5 (Sphere (Fin 1)) frA frB [seen (V3 (-5) 0 (9/5)) (V3 1 0 0)] 0 (seen (V3 (-5) 0 (9/5)) (V3 1 0 0)) ri q /\
  ~ on_sag (Sphere (Fin 1)) q.
Proof. exact sphere_far_half. Qed.
Print Assumptions C11_sphere_sag_refuted.
Theorem C11_hyperboloid_sag_refuted : let p := V3 (-3) 0 (-6) in let v := V3 3 0 4 in
  on_sag (Quadric (Fin 1) (Fin (-2))) (on_line p v (15/7)) /\
  exists ri q,
  arrives 5 (Quadric (Fin 1) (Fin (-2))) frA frB [seen p v] 0 (seen p v) ri q /\
  ~ on_sag (Quadric (Fin 1) (Fin (-2))) q.
Proof. exact hyperboloid_far_sheet. Qed.
Print Assumptions C11_hyperboloid_sag_refuted.
Example C11_example_shapes : Forall good_shape sh_list.
Proof. exact ex_shapes. Qed.
Example C11_example : exists ri q,
  arrives 5 (Fshape (ShSphere 2)) frA frB [ray1; seen (V3 0 0 (-3)) (V3 0 0 1)] 1 (seen (V3 0 0 (-3)) (V3 0 0 1)) ri q.
Proof. exact ex_crossing. Qed.
Example C11_example_two_sheets :
  on_sag (Fshape (ShQuadric 1 (-2))) (on_line (V3 (3/4) 0 1) (V3 0 0 1) (-3/4)) /\
  separable (ShQuadric 1 (-2)) (on_line (V3 (3/4) 0 1) (V3 0 0 1) (-3/4)) /\
  ~ whole (ShQuadric 1 (-2)) (V3 (3/4) 0 1) /\
  whole (ShQuadric 1 (-2)) (on_line (V3 (3/4) 0 1) (V3 0 0 1) (-13/4)).
Proof. exact ex_meets. Qed.

(** C12 *)
Theorem C12_miss_iff_failed : forall niter sh A B l k r ri, good_shape sh -> good_frame A -> good_frame B ->
  nth_error l k = Some r -> failed r = false -> vel_in A B r <> zeroR ->
  let p := pos_in A B r in
  let v := vel_in A B r in
  ~ degenerate sh p v ->
  kth k (rv_intersect niter (Fshape sh) (Some (Fcs B)) None (Frv (RV l A))) ri ->
  (failed ri = true <-> ~ exists t, whole sh (on_line p v t)) /\
  (failed ri = true -> vignetted ri = true /\ pos ri = F3 (pos r) /\ vel ri = F3 (vel r) /\
                       time ri = Fin (time r)).
Proof. exact miss_iff. Qed.
Print Assumptions C12_miss_iff_failed.
Example C12_example : ~ degenerate (ShSphere 2) (V3 5 0 (-3)) (V3 0 0 1) /\
  ~ exists t, whole (ShSphere 2) (on_line (V3 5 0 (-3)) (V3 0 0 1) t).
Proof. exact ex_miss. Qed.
(** In doubles: unflagged rays with NaN positions, starting on a conic, tangent to a
    paraboloid, and at any conic surface with conic = -1. *)
Theorem C12_quadric_from_surface_refuted : exists r ri : ray F64, failed r = false /\
  rays (rv_intersect 5 (Quadric n1 n0) None None (RV [r] frame0)) = [ri] /\ nan_unflagged ri.
Proof. exact quadric_from_vertex. Qed.
Print Assumptions C12_quadric_from_surface_refuted.
Theorem C12_paraboloid_tangent_refuted : exists r ri : ray F64, failed r = false /\
  rays (rv_intersect 5 (Paraboloid n1) None None (RV [r] frame0)) = [ri] /\ nan_unflagged ri.
Proof. exact paraboloid_tangent. Qed.
Print Assumptions C12_paraboloid_tangent_refuted.
Theorem C12_parabolic_conic_refuted : exists r ri : ray F64, failed r = false /\
  rays (rv_intersect 5 (Quadric n1 (nofZ (-1))) None None (RV [r] frame0)) = [ri] /\ nan_unflagged ri.
Proof. exact quadric_parabolic. Qed.
Print Assumptions C12_parabolic_conic_refuted.
Theorem C12_ray_in_plane_refuted : exists r ri : ray F64, failed r = false /\ cz (pos r) = fz /\
  rays (rv_intersect 5 Plane None None (RV [r] frame0)) = [ri] /\ failed ri = true.
Proof. exact plane_in_plane. Qed.
Print Assumptions C12_ray_in_plane_refuted.

(** C13 *)
Theorem C13_iterative_residual : forall (T : Type) (NT : Num T) n s cs (l : list (ray T)) c0 k r ri,
  iterative s -> nth_error l k = Some r -> failed r = false ->
  nth_error (rays (rv_intersect n s cs None (RV l c0))) k = Some ri -> failed ri = false ->
  nltb (nabs (nsub (sag s (cx (pos ri)) (cy (pos ri))) (cz (pos ri)))) (nfrac 1 1000000000000) = true /\
  exists p v dt, pos ri = advance p v dt /\ vel ri = v /\ time ri = nadd (time r) dt /\
    let ct := mkCT c0 (match cs with None => c0 | Some c => c end) in
    p = fwd_point (ct_dr ct) (ct_drot ct) (pos r) /\ v = fwd_vel (ct_drot ct) (vel r).
Proof. exact @iterative_on_surface. Qed.
Print Assumptions C13_iterative_residual.
Theorem C13_iterative_residual_real : forall niter s A B l k r ri,
  iterative s -> nth_error l k = Some r -> failed r = false ->
  kth k (rv_intersect niter s (Some (Fcs B)) None (Frv (RV l A))) ri -> failed ri = false ->
  exists x y z h, pos ri = V3 x y (Fin z) /\ sag s x y = Fin h /\ Rabs (h - z) < 1 / 1000000000000.
Proof. exact iterative_real. Qed.
Print Assumptions C13_iterative_residual_real.
Example C13_example : iterative asph /\ one_out
  (rv_intersect 5 asph None None (RV [fray (V3 n1 n0 (nofZ (-3))) (V3 n0 n0 n1)] frame0)) (fun r => failed r = false).
Proof. exact ex_iterative. Qed.

(** C14 *)
Theorem C14_clock : forall niter s A B l k r ri q, arrives niter s A B l k r ri q ->
  exists t, time ri = Fin (time r + t) /\ vel ri = F3 (vel_in A B r) /\
    q = on_line (pos_in A B r) (vel_in A B r) t /\
    distR (pos_in A B r) q = Rabs t * lenR (vel_in A B r) /\
    (forall idx, 0 < idx -> lenR (vel_in A B r) = / idx -> 0 <= t -> t = idx * distR (pos_in A B r) q) /\
    forall t', ray_positionAtTime (Fin t') ri
      = F3 (local_point B (global_point A (plusR (pos r) (timesR (t' - time r) (vel r))))).
Proof. exact clock. Qed.
Print Assumptions C14_clock.
Theorem C14_every_kernel_same_point : forall (T : Type) (NT : Num T) s dr d m2 c c' n screen (r : ray T),
  failed r = false ->
  let ri := ray_intersect s dr d None n r in
  failed ri = false ->
  pos (ray_reflect s dr d c n r) = pos ri /\ time (ray_reflect s dr d c n r) = time ri /\
  pos (ray_refract s dr d m2 c n r) = pos ri /\ time (ray_refract s dr d m2 c n r) = time ri /\
  pos (fst (ray_rsplit s dr d m2 c' n r)) = pos ri /\ pos (snd (ray_rsplit s dr d m2 c' n r)) = pos ri /\
  pos (ray_screen s screen dr d n r) = pos ri.
Proof. exact @same_point. Qed.
Print Assumptions C14_every_kernel_same_point.
Example C14_example : exists ri,
  arrives 5 (Paraboloid (Fin 1)) frA frB [ray1; rayP (2/3)] 1 (rayP (2/3)) ri qP.
Proof. exact (let '(ex_intro _ ri (conj H _)) := ex_reflection in ex_intro _ ri H). Qed.

(** C57 *)
Theorem C57_opd_screen : forall niter s screen A B l k r ri q n gx gy h r' v',
  arrives niter s A B l k r ri q -> normal_at s q n -> (cx n <> 0 \/ cz n <> 0) ->
  vel_in A B r <> zeroR ->
  grad screen (Fin (cx q)) (Fin (cy q)) = (Fin gx, Fin gy) ->
  sag screen (Fin (cx q)) (Fin (cy q)) = Fin h ->
  kth k (rv_screen niter s screen (Some (Fcs B)) (Frv (RV l A))) r' -> vel r' = F3 v' ->
  let v := vel_in A B r in
  let dir := dirsign v n in
  r' = Ray (pos ri) (F3 v') (nadd (time ri) (Fin h)) (wavelength ri) (flux ri) (vignetted ri) (failed ri) /\
  lenR v' = lenR v /\
  (forall e, dotR e n = 0 -> dotR (unitR v') e = dotR (unitR v) e - dir * (gx * cx e + gy * cy e)) /\
  0 <= dir * dotR v' n /\
  (gx = 0 -> gy = 0 -> v' = v).
Proof. exact screen_law. Qed.
Print Assumptions C57_opd_screen.
Example C57_example : exists ri,
  arrives 5 Plane frA frB [ray1; seen pP (V3 0 0 1)] 1 (seen pP (V3 0 0 1)) ri (V3 (3/4) 0 0) /\
  grad (Paraboloid (Fin 2)) (Fin (3/4)) (Fin 0) = (Fin (3/8), Fin 0) /\
  sag (Paraboloid (Fin 2)) (Fin (3/4)) (Fin 0) = Fin (9/64).
Proof. exact ex_screen. Qed.
(** The gradient in question is that of the delay. *)
Theorem C57_gradient : forall sc x y gx gy, smooth sc -> grad (Fsurf sc) (Fin x) (Fin y) = (Fin gx, Fin gy) ->
  forall ex ey, sag_slope (Fsurf sc) x y ex ey (gx * ex + gy * ey).
Proof. intros sc x y gx gy S G. apply grad_slope, grad_normal; assumption. Qed.
Print Assumptions C57_gradient.
Example C57_example_gradient : smooth (Paraboloid 2) /\ sag_slope (Paraboloid (Fin 2)) (3/4) 0 1 0 (3/8).
Proof.
  split; [exact I|]. destruct ex_screen as (ri & _ & G & _). pose proof (C57_gradient (Paraboloid 2) (3/4) 0 (3/8) 0 I G 1 0) as H.
  replace (3/8 * 1 + 0 * 0) with (3/8) in H by ring. exact H.
Qed.
(** A screen steeper than a direction cosine allows gives NaN velocity, unflagged. *)
Theorem C57_steep_screen_refuted : exists r ri : ray F64, failed r = false /\
  rays (rv_screen 5 Plane (Paraboloid n1) None (RV [r] frame0)) = [ri] /\
  failed ri = false /\ vignetted ri = false /\ f_isnan (cx (vel ri)) = true.
Proof. exact screen_nan. Qed.
Print Assumptions C57_steep_screen_refuted.

(** C59 *)
Theorem C59_refract_reversible :
  forall niter niter' s m1 m1' m2 m2' A B A' B' l l' k k' r ri r2 ri' q n n2 v' c c' out back,
  arrives niter s A B l k r ri q -> normal_at s q n -> vel_in A B r <> zeroR ->
  getN m2 (Fin (wavelength r)) = Fin n2 -> 0 < n2 ->
  kth k (rv_refract niter s m1 m2 (Some (Fcs B)) (option_map Fcoat c) (Frv (RV l A))) out ->
  failed out = false -> vel out = F3 v' -> dotR v' n <> 0 ->
  arrives niter' s A' B' l' k' r2 ri' q -> vel_in A' B' r2 = negR v' ->
  getN m1' (Fin (wavelength r2)) = Fin (index_of (vel_in A B r)) ->
  kth k' (rv_refract niter' s m2' m1' (Some (Fcs B')) (option_map Fcoat c') (Frv (RV l' A'))) back ->
  failed back = false /\ vel back = F3 (negR (vel_in A B r)).
Proof. exact refract_reversible. Qed.
Print Assumptions C59_refract_reversible.
Theorem C59_reflect_reversible :
  forall niter niter' s A B A' B' l l' k k' r ri r2 ri' q n v' out back,
  arrives niter s A B l k r ri q -> normal_at s q n ->
  kth k (rv_reflect niter s (Some (Fcs B)) None (Frv (RV l A))) out -> vel out = F3 v' ->
  arrives niter' s A' B' l' k' r2 ri' q -> vel_in A' B' r2 = negR v' ->
  kth k' (rv_reflect niter' s (Some (Fcs B')) None (Frv (RV l' A'))) back ->
  vel back = F3 (negR (vel_in A B r)).
Proof. exact reflect_reversible. Qed.
Print Assumptions C59_reflect_reversible.
Example C59_example : exists ri ri' out back q,
  arrives 5 Plane frA frB [ray1; rIn] 1 rIn ri q /\ normal_at Plane q (V3 0 0 1) /\
  vel_in frA frB rIn <> zeroR /\
  getN (ConstM (Fin 1)) (Fin (wavelength rIn)) = Fin 1 /\
  kth 1 (rv_refract 5 Plane (ConstM (Fin (4/3))) (ConstM (Fin 1)) (Some (Fcs frB)) (option_map Fcoat None)
           (Frv (RV [ray1; rIn] frA))) out /\ failed out = false /\ vel out = F3 vOut /\
  dotR vOut (V3 0 0 1) <> 0 /\
  arrives 5 Plane frA frB [ray1; rBack] 1 rBack ri' q /\ vel_in frA frB rBack = negR vOut /\
  getN (ConstM (Fin (4/3))) (Fin (wavelength rBack)) = Fin (index_of (vel_in frA frB rIn)) /\
  kth 1 (rv_refract 5 Plane (ConstM (Fin 1)) (ConstM (Fin (4/3))) (Some (Fcs frB)) (option_map Fcoat None)
           (Frv (RV [ray1; rBack] frA))) back.
Proof. exact ex_reversible. Qed.

(** C60 *)
Theorem C60_paraboloid_focus : forall niter rad A B l k r c x y z0 w,
  rad <> 0 -> good_frame A -> good_frame B ->
  nth_error l k = Some r -> failed r = false ->
  pos_in A B r = V3 x y z0 -> vel_in A B r = V3 0 0 w -> w <> 0 ->
  exists r', kth k (rv_reflect niter (Paraboloid (Fin rad)) (Some (Fcs B)) (option_map Fcoat c) (Frv (RV l A))) r' /\
    failed r' = false /\ vignetted r' = vignetted r /\
    ray_positionAtTime (Fin (time r - (z0 + rad / 2) / w)) r' = F3 (V3 0 0 (rad / 2)).
Proof. exact paraboloid_focus. Qed.
Print Assumptions C60_paraboloid_focus.
Example C60_example : pos_in frA frB (rayP (2/3)) = V3 (3/4) 0 (-1) /\ vel_in frA frB (rayP (2/3)) = V3 0 0 (2/3).
Proof. exact ex_focus. Qed.
