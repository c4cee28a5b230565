(** C72: where moving the telescope does change the result. *)
From Coq Require Import Reals String List ZArith Bool Lra Psatz Lia.
From Verif Require Import Num NumR NumF Vec CoordSys Surface Medium Ray Bundle Trig Optic Field RayGen Wave Spec OpticsSpec
  XRFacts CoordFacts FrameProofs RayFacts TreeSpec TreeProofs MoveSpec MoveProofs CovProofs FieldSpec FieldProofs
  GenSpec GenProofs GenMore GenLast WaveSpec Analysis AnalysisSpec AnalysisProofs AnalysisFocus AnalysisMove.
Import ListNotations.
Open Scope R_scope.

(** A frame at the origin, turned by half a turn about x if e = -1. *)
Definition half (e : R) : frame := CS (V3 0 0 0) (M3 1 0 0 0 e 0 0 0 e).
Lemma half_good e : e * e = 1 -> good_frame (half e).
Proof. intros H. unfold good_frame, half; cbn [rot]. unfold orthonormal, dotR; cbn. repeat split; try ring; lra. Qed.
(** An optic with a stop and nothing to trace through. *)
Definition bare_stop (e : R) : iface XR := IF KDetector Plane "S" (Fcs (half e)) None (ConstM (Fin 1)) (ConstM (Fin 1)) None None false.
Definition bare_optic (st : option (iface XR)) (e : R) : optic XR :=
  Compound (CA false "E" (Fcs (half e)) (ConstM (Fin 1)) (ConstM (Fin 1)) false st) [].
Definition midpoint (n : nat) : list (XR * XR) := [(Fin 0, Fin 2)].
Definition piston (jmax : nat) (pts : list (XR * XR)) (outer inner : XR) : list (list XR) := [[Fin 1]].

Definition hbeam (A S : frame) : beam := Beam 1 (V3 0 0 (-1)) A 1 1 Plane S.
Lemma hproper A S xys : good_frame A -> good_frame S -> proper (hbeam A S) xys.
Proof.
  intros HA HS. refine (conj HA (conj HS (conj _ (conj _ _)))); cbn; [lra|right; lra|].
  apply Forall_forall. intros p _. exists 0. reflexivity.
Qed.
Lemma unit_down : unitR (V3 0 0 (-1)) = V3 0 0 (-1).
Proof.
  unfold unitR. replace (lenR (V3 0 0 (-1))) with 1; [apply vec3_eq; cbn; field|].
  symmetry. unfold lenR, dotR; cbn. replace (0 * 0 + 0 * 0 + -1 * -1) with 1 by ring. apply sqrt_1.
Qed.
Lemma aimed_down A x y r : good_frame A -> aimed (hbeam A A) x y r ->
  pos r = V3 x y 1 /\ vel r = V3 0 0 (-1) /\ time r = 0 /\ failed r = false /\ vignetted r = false.
Proof.
  intros HA (V & T & _ & Vg & F & D & t & z & Ez & G). cbn [hbeam b_n b_dir b_dist b_frame b_sframe b_surf] in *.
  rewrite unit_down in *. cbn in Ez. assert (z = 0) by congruence. subst z.
  assert (E : on_line (pos r) (vel r) t = V3 x y 0).
  { rewrite <- (local_of_global A (on_line _ _ _)), G, local_of_global by exact HA. reflexivity. }
  destruct r as [[px py pz] [vx vy vz] tt w f vg fl]; cbn in *. unfold on_line, plusR, timesR, dotR in *; cbn in *.
  injection V as V1 V2 V3'. injection E as E1 E2 E3.
  assert (vx = 0) by lra. assert (vy = 0) by lra. assert (vz = -1) by lra. subst.
  repeat split; try assumption; try reflexivity; apply vec3_eq; cbn; nra.
Qed.

(** ** zernikeGQ about the chief ray *)
Lemma hdescribes at_ A S d : at_ = OA (Some (Fin 1)) (ConstM (Fin 1)) (Some (Plane, Fcs S)) (Some (Fin 2)) None (Fcs A) -> d = F3 (V3 0 0 (-1)) ->
  describes true (Gen (Some at_) None None None None (Some (Fin 1)) (DirCos d)) (hbeam A S).
Proof.
  intros -> ->. repeat split.
  - apply by_optic; reflexivity.
  - exists (ConstM (Fin 1)). split; [apply by_optic; reflexivity|reflexivity].
  - left. apply by_optic; reflexivity.
  - apply by_optic; reflexivity.
Qed.
Lemma cdescribes S d : d = F3 (V3 0 0 (-1)) ->
  describes true (Gen None (Some (Fin 1)) (Some (ConstM (Fin 1))) (Some (Plane, Fcs S)) None (Some (Fin 1)) (DirCos d)) (hbeam (half 1) S).
Proof.
  intros ->. repeat split.
  - apply by_argument; reflexivity.
  - exists (ConstM (Fin 1)). split; [apply by_argument; reflexivity|reflexivity].
  - left. apply by_argument; reflexivity.
  - replace (half 1) with (CS (V3 0 0 0) eyeR) by reflexivity. apply by_default; reflexivity.
Qed.
Definition x0 : R := sqrt (1 / 2).
Lemma x0_sq : x0 * x0 = 1 / 2.
Proof. apply sqrt_sqrt. lra. Qed.
Lemma spokes_one g A : describes true g (hbeam A A) -> good_frame A -> outer_from g None 1 ->
  exists rv, asSpokes midpoint g None (Fin 0) (Some (CInt 1)) (CInt 1) "GQ" (Fin 1) = Ok rv /\ plane_wave (hbeam A A) [PI] [(x0, 0)] rv.
Proof.
  intros HD HA HO. destruct (settle_ok true g _ HD) as (m & Hm & Hs). cbn [negb] in Hs.
  assert (E : asSpokes midpoint g None (Fin 0) (Some (CInt 1)) (CInt 1) "GQ" (Fin 1)
    = Ok (launch (settled_of (hbeam A A) m) (map Fin [PI]) (map (fun p => (Fin (fst p), Fin (snd p))) [(x0, 0)]))).
  { unfold asSpokes. rewrite Hs. cbn [bind].
    destruct HO as [HO|(_ & o & p & Eo & Ep & E1)]; [discriminate|]. unfold from_optic. rewrite Eo, Ep. cbn [option_map bind].
    unfold spoke_layout. change (("GQ" =? "uniform")%string) with false. change (("GQ" =? "GQ")%string) with true. cbn [or_else need bind].
    assert (P2 : ndiv (Fin p) n2 = Fin 1) by (xunf; rewrite xdiv_fin by lra; f_equal; lra).
    assert (P0 : ndiv (Fin 0) (Fin 1) = Fin 0) by (xunf; rewrite xdiv_fin by lra; f_equal; lra).
    rewrite P2, P0. unfold midpoint; cbn [map fst snd].
    assert (W : ndiv (nmul (Fin 2) (nmul npi (nsub n1 (nmul (Fin 0) (Fin 0))))) (nmul n2 (nofZ (Z.of_nat 1))) = Fin PI).
    { clear. xunf. change npi with (Fin PI). cbn [xmul]. change (IZR (Z.of_nat 1)) with 1. rewrite xdiv_fin by lra. f_equal. field. }
    assert (V : nmul (nsqrt (nadd (nmul (Fin 0) (Fin 0)) (ndiv (nmul (nadd n1 (Fin 0)) (nsub n1 (nmul (Fin 0) (Fin 0)))) n2))) (Fin 1) = Fin x0).
    { clear. xunf. rewrite xdiv_fin by lra. cbn [xadd]. rewrite xsqrt_fin by lra. cbn [xmul]. f_equal. unfold x0. rewrite Rmult_1_r. f_equal. field. }
    rewrite W, V.
    assert (L : spoke_list (CInt 1) = [Fin 0]).
    { clear. unfold spoke_list, linspace, linspace_at. cbn [seq map andb]. xunf. change npi with (Fin PI). cbn [xmul xsub].
      change (IZR (Z.of_nat 1)) with 1. change (IZR (Z.of_nat 0)) with 0. rewrite !xdiv_fin by lra. cbn [xmul xadd xeqb].
      destruct (Req_EM_T _ _); do 2 f_equal; field. }
    rewrite L. cbn [meshgrid flat_map map app fst snd]. f_equal. f_equal.
    unfold polar_xy. cbn [ncos nsin TrigXR nmul NumXR]. cbn. rewrite cos_0, sin_0, Rmult_1_r, Rmult_0_r. reflexivity. }
  eexists. split; [exact E|]. apply launch_plane_wave; [apply hproper; assumption|exact Hm|reflexivity].
Qed.
Lemma one_ray b f p rv : plane_wave b [f] [p] rv -> exists r, rv = Frv (RV [r] (b_frame b)) /\ flux r = f /\ aimed b (fst p) (snd p) r.
Proof.
  intros (rs & -> & L & F & H). destruct rs as [|r [|]]; try discriminate. exists r. split; [reflexivity|].
  split; [cbn in F; congruence|]. apply (H 0%nat); [destruct p; reflexivity|reflexivity].
Qed.
Lemma crosses_main r : pos r = V3 x0 0 1 -> vel r = V3 0 0 (-1) -> time r = 0 -> crosses (V3 0 0 1) (-10) r (sqrt (199 / 2)).
Proof.
  intros P V T. unfold crosses. rewrite P, V, T. assert (S : 0 < sqrt (199 / 2)) by (apply sqrt_lt_R0; lra).
  assert (Q : sqrt (199 / 2) * sqrt (199 / 2) = 199 / 2) by (apply sqrt_sqrt; lra). set (s := sqrt (199 / 2)) in *.
  split; [|cbn; split; lra]. unfold distR, lenR. pose proof x0_sq. 
  replace (dotR _ _) with (10 * 10); [rewrite sqrt_square by lra; symmetry; rewrite Rabs_left; lra|].
  unfold dotR, minusR, on_line, plusR, timesR; cbn. nra.
Qed.
Lemma crosses_chief e r : e * e = 1 -> pos r = V3 0 0 e -> vel r = V3 0 0 (- e) -> time r = 0 -> crosses (V3 0 0 1) (-10) r (1 + 9 * e).
Proof.
  intros He P V T. unfold crosses. rewrite P, V, T. assert (E : e = 1 \/ e = -1) by (destruct (Req_dec e 1); [left; lra|right; nra]).
  split; [|cbn; destruct E as [-> | ->]; split; lra]. unfold distR, lenR.
  replace (dotR _ _) with (10 * 10); [rewrite sqrt_square by lra; symmetry; rewrite Rabs_left; lra|].
  unfold dotR, minusR, on_line, plusR, timesR; cbn. destruct E as [-> | ->]; ring.
Qed.
Lemma inside_main r : pos r = V3 x0 0 1 -> vel r = V3 0 0 (-1) -> failed r = false -> inside (V3 0 0 1) (-10) r.
Proof.
  intros P V F. split; [exact F|]. rewrite P, V. split; [intros E; injection E; lra|]. unfold distR. apply len_lt_iff.
  pose proof x0_sq. unfold dotR; cbn. nra.
Qed.
Lemma inside_chief e r : e * e = 1 -> pos r = V3 0 0 e -> vel r = V3 0 0 (- e) -> failed r = false -> inside (V3 0 0 1) (-10) r.
Proof.
  intros He P V F. split; [exact F|]. rewrite P, V. split; [intros E; injection E; nra|]. unfold distR. apply len_lt_iff.
  unfold dotR; cbn. nra.
Qed.
(** Rays launched in another frame B, landed on the reference sphere of A. *)
Definition landed_from niter (B A : frame) (P : vR) (radius : R) (l : list (ray XR)) : list (ray XR) :=
  rays (rv_intersect niter (Sphere (nopp (Fin radius))) None None
    (rv_toCoordSys (shiftLocal (Fcs A) (vadd (F3 P) (V3 n0 n0 (Fin radius)))) (RV l (Fcs B)))).
Lemma landed_from_self niter A P radius l : landed_from niter A A P radius l = map (sphere_step niter A P radius) l.
Proof. exact (to_sphere_map niter A P radius l). Qed.
Lemma landed_from_turned niter e r P radius : e * e = 1 ->
  landed_from niter (half 1) (half e) P radius [Fray r]
  = [sphere_step niter (half e) P radius
       (Fray (Ray (V3 (cx (pos r)) (e * cy (pos r)) (e * cz (pos r))) (V3 (cx (vel r)) (e * cy (vel r)) (e * cz (vel r)))
                (time r) (wavelength r) (flux r) (vignetted r) (failed r)))].
Proof.
  intros He. unfold landed_from, rv_intersect, rv_toCoordSys, batch; cbn [rays rvcs dest].
  replace (vadd (F3 P) (V3 n0 n0 (Fin radius))) with (F3 (plusR P (V3 0 0 radius)))
    by (unfold F3, vadd; cbn; reflexivity).
  rewrite shiftLocal_F, !mkCT_F; cbn [ct_dr ct_drot map]. unfold sphere_step. cbv zeta. rewrite !ray_forward_F.
  f_equal. f_equal. f_equal. unfold chg_ray; cbn [pos vel time wavelength flux vignetted failed].
  assert (E : e = 1 \/ e = -1) by (destruct (Req_dec e 1); [left; lra|right; nra]).
  f_equal; apply vec3_eq; cbn; destruct E as [-> | ->]; ring.
Qed.
Lemma gq_value niter e tel : e * e = 1 -> visit false (tl_optic tel) = [] ->
  tl_attr tel = OA (Some (Fin 1)) (ConstM (Fin 1)) (Some (Plane, Fcs (half e))) (Some (Fin 2)) None (Fcs (half e)) ->
  tl_radius tel = Some (Fin (-10)) ->
  zernikeGQ niter midpoint piston tel (Fin 0) (Fin 0) (Fin 1) "postel" 1 (Some 1%nat) None "chief" 1 (Fin 0)
  = Ok [Fin (1 + 9 * e - sqrt (199 / 2))].
Proof.
  intros He HV HA HR. pose proof (half_good e He) as GA. unfold zernikeGQ.
  rewrite (axis_down Postel : fieldToDirCos (Fin 0) (Fin 0) "postel" = _). cbn [bind]. rewrite HA, HR.
  cbn [oa_pupil oa_stop oa_backDist oa_in need_attr bind option_map]. unfold generator.
  assert (E0 : ndiv (nmul (Fin 0) (Fin 2)) n2 = Fin 0) by (xunf; rewrite xdiv_fin by lra; f_equal; field). rewrite E0.
  set (g := Gen (Some _) None None None None (Some (Fin 1)) _).
  destruct (spokes_one g (half e)) as (rv & E1 & W1).
  { unfold g. rewrite HA. apply hdescribes; reflexivity. }
  { exact GA. }
  { right. split; [reflexivity|]. exists (tl_attr tel), 2. split; [reflexivity|]. split; [rewrite HA; reflexivity|lra]. }
  change n1 with (Fin 1). rewrite E1. cbn [bind]. destruct (one_ray _ _ _ _ W1) as (r & -> & Fr & Ar). clear W1. cbn [fst snd] in Ar.
  destruct (aimed_down (half e) x0 0 r GA Ar) as (P1 & P2 & P3 & P4 & P5).
  rewrite !(trace_empty niter (tl_optic tel) false) by exact HV.
  cbn [Frv rays existsb map]. change (failed (Fray r)) with (failed r). rewrite P4. cbn [orb].
  change (("chief" =? "mean")%string) with false. change (("chief" =? "chief")%string) with true. cbv iota.
  set (g2 := Gen None (Some (Fin 1)) _ _ None (Some (Fin 1)) _).
  destruct (fromStop_plane_wave g2 (hbeam (half 1) (half e)) 1 [(0, 0)]) as (cv & E2 & W2).
  { unfold g2. apply cdescribes. reflexivity. }
  { apply hproper; [apply half_good; lra|exact GA]. }
  change [(n0, n0)] with (map Fxy [(0, 0)]). rewrite E2. cbn [bind]. destruct (one_ray _ _ _ _ W2) as (c & -> & Fc & Ac). clear W2. cbn [fst snd] in Ac.
  assert (Ac' : aimed (hbeam (half 1) (half 1)) 0 0 c).
  { destruct Ac as (A1 & A2 & A3 & A4 & A5 & A6 & t & z & A7 & A8). refine (conj A1 (conj A2 (conj A3 (conj A4 (conj A5 (conj A6 _)))))).
    exists t, z. split; [exact A7|]. cbn in A8 |- *. etransitivity; [exact A8|]. cbn in A7. assert (z = 0) by congruence. subst z. apply vec3_eq; cbn; ring. }
  destruct (aimed_down (half 1) 0 0 c ltac:(apply half_good; lra) Ac') as (C1 & C2 & C3 & C4 & C5).
  rewrite !(trace_empty niter (tl_optic tel) false) by exact HV. cbn [Frv rays map].
  change (pos (Fray c)) with (F3 (pos c)). rewrite C1. cbv zeta. cbn [rvcs b_frame hbeam].
  (* the chief ray in the frame of the telescope *)
  set (c' := Ray (V3 0 0 e) (V3 0 0 (- e)) (time c) (wavelength c) (flux c) (vignetted c) (failed c)).
  destruct (step_inside niter (half e) (V3 0 0 1) (-10) r GA (inside_main r P1 P2 P4)) as (t1 & p1 & S1 & K1).
  destruct (step_inside niter (half e) (V3 0 0 1) (-10) c' GA) as (t2 & p2 & S2 & K2).
  { apply (inside_chief e); [exact He|reflexivity|reflexivity|exact C4]. }
  assert (t1 = sqrt (199 / 2)) by (apply (crosses_unique _ _ _ _ _ (inside_main r P1 P2 P4) K1); apply crosses_main; assumption).
  assert (t2 = 1 + 9 * e).
  { apply (crosses_unique _ _ _ _ _ (inside_chief e c' He eq_refl eq_refl C4) K2). apply crosses_chief; try reflexivity; assumption. }
  subst t1 t2. cbn [bind].
  match goal with |- context [rays (rv_intersect niter ?S None None (rv_toCoordSys ?X (Frv (RV [c] (half 1)))))] =>
    change (rays (rv_intersect niter S None None (rv_toCoordSys X (Frv (RV [c] (half 1))))))
    with (landed_from niter (half 1) (half e) (V3 0 0 1) (-10) [Fray c]) end.
  match goal with |- context [rays (rv_intersect niter (Sphere ?S) None None (rv_toCoordSys ?X (Frv (RV [r] (half e)))))] =>
    change (rays (rv_intersect niter (Sphere S) None None (rv_toCoordSys X (Frv (RV [r] (half e))))))
    with (landed_from niter (half e) (half e) (V3 0 0 1) (-10) [Fray r]) end.
  rewrite landed_from_turned, landed_from_self by exact He. rewrite C1, C2; cbn [cx cy cz].
  replace (e * 0) with 0 by ring. replace (e * 1) with e by ring. replace (e * -1) with (- e) by ring.
  change (Ray (V3 0 0 e) (V3 0 0 (- e)) (time c) (wavelength c) (flux c) (vignetted c) (failed c)) with c'. rewrite S2.
  cbn [map]. rewrite S1. cbn [bind]. unfold piston. cbn [map]. change npi with (Fin PI).
  cbn [Fray time flux]. rewrite Fr. pose proof PI_neq0. f_equal. f_equal.
  unfold ndot, nsum. cbn [combine map fold_left]. xunf. cbn [xmul xadd xopp].
  rewrite !xdiv_fin by nra. cbn. destruct (Req_EM_T _ _) as [Z|Z]; [nra|]. f_equal. field. exact H.
Qed.

(** The telescope turned upside down about x. *)
Definition upside_down : list motion := [MTurn (M3 1 0 0 0 (-1) 0 0 0 (-1)) (V3 0 0 0) (half 1)].
Lemma upside_down_rigid : Forall rigid upside_down.
Proof. constructor; [|constructor]. cbn. unfold orthonormal, dotR; cbn. repeat split; ring. Qed.
Lemma upside_down_frame : moveF upside_down (half 1) = half (-1).
Proof.
  cbn [fold_left upside_down move_frame]. unfold half. unfold rotG. f_equal; [apply vec3_eq; cbn; ring|].
  unfold mulR; cbn. f_equal; ring.
Qed.
Definition bare_telescope (o : optic XR) : telescope XR := telescope_of o (Some (Fin 1)) (Some (Fin 2)) None (Some (Fin (-10))).
Definition bare : optic XR := bare_optic (Some (bare_stop 1)) 1.
Lemma bare_unskipped : unskipped bare.
Proof. constructor; intros it []. Qed.
Lemma bare_frames : Forall real_frame (frames bare).
Proof. cbn. repeat constructor; eexists; reflexivity. Qed.
Lemma chief_upright niter :
  zernikeGQ niter midpoint piston (bare_telescope bare) (Fin 0) (Fin 0) (Fin 1) "postel" 1 (Some 1%nat) None "chief" 1 (Fin 0)
  = Ok [Fin (10 - sqrt (199 / 2))].
Proof. rewrite (gq_value niter 1) by (reflexivity || ring). f_equal. f_equal. f_equal. ring. Qed.
Lemma chief_upside_down niter :
  zernikeGQ niter midpoint piston (bare_telescope (move_optic upside_down bare)) (Fin 0) (Fin 0) (Fin 1) "postel" 1 (Some 1%nat) None "chief" 1 (Fin 0)
  = Ok [Fin (-8 - sqrt (199 / 2))].
Proof.
  rewrite (gq_value niter (-1)); [f_equal; f_equal; f_equal; ring|ring|reflexivity| |reflexivity].
  destruct (moved_attr upside_down bare (half 1) (half 1) Plane eq_refl eq_refl) as (A1 & A2 & _).
  rewrite upside_down_frame in A1, A2. unfold bare_telescope, telescope_of; cbn [tl_attr]. rewrite A1, A2. reflexivity.
Qed.

(** ** Two double-precision runs *)
Definition still : coordsys F64 := cs_default.
Definition one_right : vec3 F64 := V3 n1 n0 n0.
Definition bare64 (st : option (iface F64)) : optic F64 :=
  Compound (CA false "E" still (ConstM n1) (ConstM n1) false st) [].
Definition stop64 : iface F64 := IF KDetector Plane "S" still None (ConstM n1) (ConstM n1) None None false.
Definition tel64 (o : optic F64) : telescope F64 := telescope_of o (Some n1) (Some n2) None None.
Definition half64 : F64 := nfrac 1 2.
Definition angle64 : F64 := nfrac 3 4.
Section Runs.
  Context (TT : Trig F64).
  Lemma exit_still niter :
    exitPupilPos niter (tel64 (bare64 (Some stop64))) n1 angle64 "gnomonic" = Ok (V3 n0 n0 n0).
  Proof. vm_compute. reflexivity. Qed.
  Lemma exit_right niter :
    exists z, exitPupilPos niter (tel64 (withGlobalShift one_right (bare64 (Some stop64)))) n1 angle64 "gnomonic" = Ok (V3 half64 n0 z).
  Proof. eexists. vm_compute. reflexivity. Qed.
  Lemma stopless_still niter :
    spot niter (tel64 (bare64 None)) n0 n0 n1 "gnomonic" 2 "origin" = Ok ([nopp n1; n0; nopp n1; n0], [nopp n1; nopp n1; n0; n0]).
  Proof. vm_compute. reflexivity. Qed.
  Lemma stopless_right niter :
    spot niter (tel64 (withGlobalShift one_right (bare64 None))) n0 n0 n1 "gnomonic" 2 "origin"
    = Ok ([nopp n2; nopp n1; nopp n2; nopp n1], [nopp n1; nopp n1; n0; n0]).
  Proof. vm_compute. reflexivity. Qed.
End Runs.
