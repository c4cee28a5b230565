(** zernikeGQ: quadrature of the wavefront against the basis. *)
From Coq Require Import Reals String List ZArith Bool Lra Lia Psatz.
From Verif Require Import Num NumR Vec CoordSys Surface Medium Ray Bundle Trig Optic Ops Field RayGen Spec OpticsSpec GenSpec AnalysisSpec
  Analysis XRFacts CoordFacts RayFacts IntersectProofs AnalysisProofs AnalysisFocus AxialTrace StructProofs PatternSpec GenMore GenQuad MoveProofs DiscSpec DiscProofs ZernSpec.
Import ListNotations.
Open Scope R_scope.

(** ** The quadrature of asSpokes over the annulus *)
Definition disc_sum (fl : list R) (pts : list (R * R)) (f : R -> R -> R) : R := weighted fl pts f.
Lemma weighted_cartesian fl pol f :
  weighted fl (map (fun p => cartesian p) pol) f = weighted fl pol (fun r th => f (r * cos th) (r * sin th)).
Proof.
  unfold weighted. f_equal. revert pol. induction fl as [|a fl IH]; intros [|p pol]; cbn [map combine]; try reflexivity.
  f_equal. apply IH.
Qed.
Theorem asSpokes_exact : forall lg g b outer ro ri n m f N (rule : list (R * R)) spokes,
  describes true g b -> outer_from g outer ro -> lg n = map Fxy rule ->
  Forall (fun lw => -1 <= fst lw <= 1) rule -> exact_rule N rule -> 0 <= ri < ro -> (1 <= m)%nat ->
  spokes = Some (CInt m) \/ spokes = None /\ m = (2 * n + 1)%nat ->
  proper_disc b ro ->
  exists fl pts rv, asSpokes lg g outer (Fin ri) spokes (CInt n) "GQ" (Fin f) = Ok rv /\
    plane_wave b fl (map (fun u => (ro * fst u, ro * snd u)) pts) rv /\ List.length fl = List.length pts /\
    forall p d, degree2 d p -> (d < 2 * N)%nat -> (d < m)%nat ->
      annulus_integral (ri / ro) (at2 p) (weighted fl pts (at2 p)).
Proof.
  intros lg g b outer ro ri n m f N rule spokes Hd Ho Hlg Hr He Hi Hm Hs Hp.
  destruct (asSpokes_moments lg g b outer ro ri n m f N rule spokes Hd Ho Hlg Hr He Hi Hm Hs Hp) as (fl & pol & rv & E & W & RAD & ANG).
  exists fl, (map (fun p => cartesian p) pol), rv. split; [exact E|]. split; [|split].
  - rewrite map_map. replace (map (fun x => (ro * fst (cartesian x), ro * snd (cartesian x))) pol) with (map (fun p => cartesian (ro * fst p, snd p)) pol); [exact W|].
    apply map_ext. intros [r th]. unfold cartesian; cbn [fst snd]. f_equal; ring.
  - destruct W as (rs & _ & L & <- & _). rewrite map_length, L, !map_length. reflexivity.
  - intros p d HD HN HM. rewrite weighted_cartesian. apply (weighted_poly fl pol (ri / ro) N m RAD ANG p d); assumption.
Qed.

(** ** Polynomials *)
Definition scale2 (c : R) (p : poly2) : poly2 := map (fun t => (c * fst (fst t), snd (fst t), snd t)) p.
Definition mul1 (t : R * nat * nat) (q : poly2) : poly2 :=
  map (fun u => (fst (fst t) * fst (fst u), (snd (fst t) + snd (fst u))%nat, (snd t + snd u)%nat)) q.
Definition mul2 (p q : poly2) : poly2 := flat_map (fun t => mul1 t q) p.
Lemma at2_cons t p x y : at2 (t :: p) x y = mono t x y + at2 p x y.
Proof. reflexivity. Qed.
Lemma at2_app p q x y : at2 (p ++ q) x y = at2 p x y + at2 q x y.
Proof. induction p as [|t p IH]; [cbn [app]; change (at2 [] x y) with 0; ring|]. cbn [app]. rewrite !at2_cons, IH. ring. Qed.
Lemma at2_mul1 t q x y : at2 (mul1 t q) x y = mono t x y * at2 q x y.
Proof.
  induction q as [|u q IH]; [cbn [mul1 map]; change (at2 [] x y) with 0; ring|]. cbn [mul1 map]. rewrite at2_cons. fold (mul1 t q). rewrite IH, at2_cons.
  unfold mono; cbn [fst snd]. rewrite !pow_add. ring.
Qed.
Lemma at2_mul p q x y : at2 (mul2 p q) x y = at2 p x y * at2 q x y.
Proof.
  induction p as [|t p IH]; [cbn [mul2 flat_map]; change (at2 [] x y) with 0; ring|]. unfold mul2. cbn [flat_map]. fold (mul2 p q). rewrite at2_app, IH, at2_mul1, at2_cons. ring.
Qed.
Lemma degree_mul1 t q d e : (snd (fst t) + snd t <= d)%nat -> degree2 e q -> degree2 (d + e) (mul1 t q).
Proof.
  intros H HQ. apply Forall_map. eapply Forall_impl; [|exact HQ]. intros u Hu. cbn [fst snd] in *. lia.
Qed.
Lemma degree_mul p q d e : degree2 d p -> degree2 e q -> degree2 (d + e) (mul2 p q).
Proof.
  intros HP HQ. induction HP as [|t p Ht HP IH]; [constructor|]. unfold mul2. cbn [flat_map].
  apply Forall_app. split; [apply degree_mul1; assumption|exact IH].
Qed.

(** ** The points at the stop *)
Definition stop_step niter (F S : frame) (r : ray XR) : ray XR :=
  ray_intersect Plane (F3 (drR S S)) (FM (drotR S S)) None niter (ray_forward (F3 (drR F S)) (FM (drotR F S)) r).
Lemma stop_map niter F S l :
  rays (rv_intersect niter Plane None None (rv_toCoordSys (Fcs S) (RV l (Fcs F)))) = map (stop_step niter F S) l.
Proof.
  unfold rv_intersect, rv_toCoordSys, batch; cbn [rays rvcs dest]. rewrite !mkCT_F; cbn [ct_dr ct_drot]. rewrite map_map. reflexivity.
Qed.
Lemma local_line S F p v t : good_frame F -> good_frame S ->
  chg_pt F S (on_line p v t) = on_line (chg_pt F S p) (chg_vec F S v) t.
Proof.
  intros _ _. unfold chg_pt, chg_vec, on_line. apply vec3_eq; cbn; ring.
Qed.
Lemma stop_at niter b x y r : good_frame (b_frame b) -> good_frame (b_sframe b) -> 0 < b_n b -> (cy (b_dir b) <> 0 \/ cz (b_dir b) <> 0) ->
  b_surf b = Plane -> meets_stop b -> aimed b x y r ->
  exists q, stop_step niter (b_frame b) (b_sframe b) (Fray r) = Fray q /\ pos q = V3 x y 0.
Proof.
  intros GF GS Hn Hd Hs Hm (A1 & _ & _ & _ & A5 & _ & t & z & Az & Ag).
  rewrite Hs in Az. cbn in Az. injection Az as <-.
  set (F := b_frame b) in *. set (S := b_sframe b) in *.
  assert (Hdz : 0 < dotR (b_dir b) (b_dir b)).
  { unfold dotR. destruct Hd as [H|H]; pose proof (Rsqr_pos_lt _ H) as Q; unfold Rsqr in Q; nra. }
  assert (Hl : 0 < lenR (b_dir b)) by (unfold lenR; apply sqrt_lt_R0; exact Hdz).
  assert (V : vel r = timesR (/ (b_n b * lenR (b_dir b))) (b_dir b)).
  { assert (E : vel r = timesR (/ b_n b) (unitR (b_dir b))).
    { rewrite <- A1. apply vec3_eq; cbn; field; lra. }
    rewrite E. unfold unitR. apply vec3_eq; cbn; field; lra. }
  assert (Vz : cz (chg_vec F S (vel r)) <> 0).
  { rewrite chg_vec_local, V. unfold meets_stop in Hm. fold F S in Hm.
    replace (cz (local_dir S (global_dir F (timesR (/ (b_n b * lenR (b_dir b))) (b_dir b)))))
      with (/ (b_n b * lenR (b_dir b)) * cz (local_dir S (global_dir F (b_dir b)))) by (unfold local_dir, global_dir; cbn; ring).
    apply Rmult_integral_contrapositive_currified; [|exact Hm]. apply Rinv_neq_0_compat. nra. }
  assert (Q : on_line (chg_pt F S (pos r)) (chg_vec F S (vel r)) t = V3 x y 0).
  { rewrite <- local_line by assumption. rewrite chg_pt_local by assumption. rewrite Ag. apply local_of_global, GS. }
  unfold stop_step.
  set (r1 := Ray (chg_pt F S (pos r)) (chg_vec F S (vel r)) (time r) (wavelength r) (flux r) (vignetted r) false).
  replace (ray_forward (F3 (drR F S)) (FM (drotR F S)) (Fray r)) with (Fray r1).
  2:{ unfold ray_forward, Fray, r1; cbn [pos vel time wavelength flux vignetted failed]. rewrite fwd_point_F, fwd_vel_F, A5. reflexivity. }
  assert (I : chg_pt S S (pos r1) = pos r1 /\ chg_vec S S (vel r1) = vel r1).
  { unfold chg_pt, chg_vec. rewrite same_dr, same_drot, trans_eye, !applyR_eye by exact GS. split; [apply vec3_eq; cbn; ring|reflexivity]. }
  destruct I as [I1 I2].
  pose proof (intersect_do S S Plane niter r1 (- cz (pos r1) / cz (vel r1)) eq_refl) as D. cbv zeta in D. rewrite I1, I2 in D.
  rewrite D.
  - eexists. split; [reflexivity|]. cbn [pos]. rewrite <- Q.
    assert (T : t = - cz (pos r1) / cz (vel r1)).
    { pose proof (f_equal cz Q) as QZ. unfold r1; cbn [pos vel]. cbn in QZ. unfold chg_vec in *. cbn [cz plusR timesR] in QZ.
      set (vz := cz (applyR (transR (drotR F S)) (vel r))) in *. apply (Rmult_eq_reg_r vz); [|exact Vz].
      unfold Rdiv. rewrite Rmult_assoc, Rinv_l by exact Vz. fold (chg_vec F S (vel r)) in *. unfold vz, chg_vec in *. cbn in *. lra. }
    rewrite T. reflexivity.
  - change Plane with (Fshape ShPlane). rewrite hit_plane. destruct (Req_EM_T (cz (vel r1)) 0) as [Z|Z]; [|reflexivity].
    exfalso. apply Vz, Z.
Qed.

(** ** The value of zernikeGQ *)
Lemma Forall2_nth {A B} (P : A -> B -> Prop) l m : List.length l = List.length m ->
  (forall i a b, nth_error m i = Some b -> nth_error l i = Some a -> P a b) -> Forall2 P l m.
Proof.
  revert m. induction l as [|a l IH]; intros [|b m] L H; try discriminate; constructor.
  - apply (H 0%nat); reflexivity.
  - apply IH; [injection L; auto|]. intros i x y E1 E2. apply (H (S i)); assumption.
Qed.
Lemma cons_eq {A} (a b : A) l m : a :: l = b :: m -> a = b /\ l = m.
Proof. intros E. split; congruence. Qed.
Lemma Frv_inj rs F rs' F' : Frv (RV rs F) = Frv (RV rs' F') -> rs = rs' /\ F = F'.
Proof.
  intros E. pose proof (f_equal rays E) as E1. pose proof (f_equal rvcs E) as E2. cbn [Frv rays rvcs] in E1, E2. clear E. split.
  - clear -E1. revert rs' E1. induction rs as [|r rs IH]; intros [|r' rs'] E; try discriminate; [reflexivity|].
    cbn [map] in E. apply cons_eq in E. destruct E as [E0 E1]. f_equal; [apply Fray_inj, E0|apply IH, E1].
  - apply Fcs_inj. exact E2.
Qed.
Lemma stop_points niter b ro rs0 pts : good_frame (b_frame b) -> good_frame (b_sframe b) -> 0 < b_n b -> (cy (b_dir b) <> 0 \/ cz (b_dir b) <> 0) ->
  b_surf b = Plane -> meets_stop b ->
  Forall2 (fun r u => aimed b (ro * fst u) (ro * snd u) r) rs0 pts ->
  map (fun r => (cx (pos r), cy (pos r))) (map (stop_step niter (b_frame b) (b_sframe b)) (map Fray rs0))
  = map (fun u => (Fin (fst u), Fin (snd u))) (map (fun u => (ro * fst u, ro * snd u)) pts).
Proof.
  intros GF GS Hn Hd Hs Hm H. induction H as [|r u rs0 pts Ha H IH]; [reflexivity|].
  cbn [map]. f_equal; [|exact IH].
  destruct (stop_at niter b _ _ r GF GS Hn Hd Hs Hm Ha) as (q & E & P). rewrite E. cbn [pos Fray]. rewrite P. reflexivity.
Qed.
Lemma sphere_times niter A P radius rs : good_frame A -> Forall (inside P radius) rs ->
  exists ts, Forall2 (crosses P radius) rs ts /\
    map (fun r => (time r, flux r)) (map (sphere_step niter A P radius) (map Fray rs)) = map (fun x => (Fin (snd x), Fin (flux (fst x)))) (combine rs ts).
Proof.
  intros GA H. induction H as [|r rs Hi H IH]; [exists []; split; [constructor|reflexivity]|].
  destruct IH as (ts & F2 & E). destruct (step_inside niter A P radius r GA Hi) as (t & p & E1 & C).
  exists (t :: ts). split; [constructor; assumption|]. cbn [map combine fst snd]. f_equal; [|exact E].
  rewrite E1. reflexivity.
Qed.
Lemma ndot_gq (rs : list (ray R)) (fl : list R) (pts : list (R * R)) ts t0 lam p : lam <> 0 ->
  map flux rs = fl -> List.length rs = List.length pts -> List.length rs = List.length ts ->
  ndot (map (fun u => Fin (at2 p (fst u) (snd u))) pts)
       (map (fun x => nmul (ndiv (nsub (Fin t0) (Fin (snd x))) (Fin lam)) (Fin (flux (fst x)))) (combine rs ts))
  = Fin (gq_sum fl pts ts t0 lam p).
Proof.
  intros Hl <- L1 L2. unfold ndot, gq_sum.
  match goal with |- nsum ?a = Fin (sumR ?b) => replace a with (map Fin b); [apply nsum_F|] end.
  revert pts ts L1 L2. induction rs as [|r rs IH]; intros [|u pts] [|t ts] L1 L2; try discriminate; [reflexivity|].
  cbn [map combine fst snd]. f_equal; [|apply IH; [injection L1; auto|injection L2; auto]].
  cbn [nsub NumXR xsub]. change (xsub (Fin t0) (Fin t)) with (Fin (t0 - t)). cbn [ndiv]. 
  rewrite xdiv_fin by exact Hl.
  change (Fin (flux r * at2 p (fst u) (snd u) * ((t0 - t) / lam)) = Fin (at2 p (fst u) (snd u) * ((t0 - t) / lam * flux r))). f_equal. ring.
Qed.
Theorem zernikeGQ_value : forall niter lg basis tel tx ty lam projection rings spokes sphereRadius radius reference jmax eps D
    d b m N Z rs0 rs A P t0,
  gq_setting niter lg tel tx ty lam projection rings spokes sphereRadius radius reference eps D d b m N rs0 rs A P t0 ->
  evaluates basis jmax (D / 2) (eps * D / 2) Z ->
  exists fl pts ts,
    Forall2 (fun r u => aimed b (D / 2 * fst u) (D / 2 * snd u) r) rs0 pts /\
    Forall2 (crosses P radius) rs ts /\ List.length fl = List.length pts /\ List.length ts = List.length pts /\ map flux rs0 = fl /\
    (forall p k, degree2 k p -> (k < 2 * N)%nat -> (k < m)%nat -> annulus_integral eps (at2 p) (weighted fl pts (at2 p))) /\
    zernikeGQ niter lg basis tel tx ty (Fin lam) projection rings spokes sphereRadius reference jmax (Fin eps)
    = Ok (map (fun p => Fin (gq_sum fl pts ts t0 lam p / (PI * (1 - eps * eps)))) Z).
Proof.
  intros niter lg basis tel tx ty lam projection rings spokes sphereRadius radius reference jmax eps D
    d b m N Z rs0 rs A P t0 (HF & HB & HS & HP & HM & Hpup & HD & He & Hl & (rule & Hlg & Hrule & Hex) & Hm & Hsp & (Esp & Etr & GA) & Hrad & Href & Hin) Hev.
  destruct (asSpokes_exact lg (Gen (Some (tl_attr tel)) None None None None (Some (Fin lam)) (DirCos (F3 d))) b None (D / 2) (eps * D / 2) rings m 1 N rule (option_map CInt spokes))
    as (fl & pts & rv & E & W & L1 & X); try assumption.
  { right. split; [reflexivity|]. exists (tl_attr tel), D. auto. }
  { split; [|nra]. assert (0 <= eps * D) by nra. lra. }
  { destruct Hsp as [->|[-> ->]]; [left; reflexivity|right; auto]. }
  { split; [exact HP|]. intros x y _. exists 0. rewrite HS. reflexivity. }
  rewrite Esp in E. injection E as E. destruct W as (rs0' & Erv & L2 & Efl & Haim). rewrite Erv in E. apply Frv_inj in E. destruct E as [<- _].
  rewrite map_length in L2.
  assert (HA : Forall2 (fun r u => aimed b (D / 2 * fst u) (D / 2 * snd u) r) rs0 pts).
  { apply Forall2_nth; [exact L2|]. intros i r u E1 E2. apply (Haim i _ _ r); [|exact E2]. rewrite nth_error_map, E1. reflexivity. }
  assert (Hfl : map flux rs = fl).
  { pose proof (flux_ops niter [OTrace (tl_optic tel) false] (map Fray rs0) (Fcs (b_frame b))) as FO.
    cbn [run_ops fold_left run_op] in FO. change (RV (map Fray rs0) (Fcs (b_frame b))) with (Frv (RV rs0 (b_frame b))) in FO.
    rewrite Etr in FO. cbn [rays Frv] in FO. specialize (FO ltac:(constructor; [exact I|constructor])).
    rewrite !map_map in FO. cbn [flux Fray] in FO. rewrite <- Efl.
    clear -FO. revert rs0 FO. induction rs as [|r rs IH]; intros [|r0 rs0] E; try discriminate; [reflexivity|].
    cbn [map] in E. injection E as E0 E1. cbn [map]. f_equal; [exact E0|apply IH, E1]. }
  assert (L3 : List.length rs = List.length pts) by (rewrite <- L1, <- Hfl, map_length; reflexivity).
  destruct (sphere_times niter A P radius rs GA Hin) as (ts & F2 & ET).
  exists fl, pts, ts. split; [exact HA|]. split; [exact F2|]. split; [exact L1|]. split; [rewrite <- L3; symmetry; eapply Forall2_len, F2|]. split; [exact Efl|]. split.
  { intros p k H1 H2 H3. pose proof (X p k H1 H2 H3) as Y. replace (eps * D / 2 / (D / 2)) with eps in Y by (field; lra). exact Y. }
  destruct HB as (HB1 & HB2 & HB3 & HB4 & HB5 & HB6).
  assert (ESt : oa_stop (tl_attr tel) = Some (Plane, Fcs (b_sframe b))).
  { destruct HB3 as [H|(H & _)]; [|discriminate]. rewrite HS in H. inversion H as [a H1|a H1 H2|H1 H2]; try discriminate. cbn in H2. injection H2 as H2. exact H2. }
  assert (EBd : exists bd, oa_backDist (tl_attr tel) = Some bd).
  { inversion HB1 as [a H1|a H1 H2|H1 H2]; try discriminate. cbn in H2. injection H2 as H2. exists (Fin (b_dist b)). exact H2. }
  destruct EBd as (bd & EBd).
  assert (ERad : need_attr sphereRadius (tl_radius tel) = Ok (Fin radius)).
  { destruct Hrad as [->|[-> ->]]; reflexivity. }
  destruct HP as (GF & GS & Hn & Hd & _).
  unfold zernikeGQ. rewrite HF. cbn [bind]. rewrite Hpup. cbn [need_attr bind].
  assert (EI : ndiv (nmul (Fin eps) (Fin D)) n2 = Fin (eps * D / 2)) by (xunf; rewrite xdiv_fin by lra; reflexivity).
  assert (EO : ndiv (Fin D) n2 = Fin (D / 2)) by (xunf; rewrite xdiv_fin by lra; reflexivity).
  rewrite EI, EO. cbn [generator]. change (V3 (Fin (cx d)) (Fin (cy d)) (Fin (cz d))) with (F3 d). change (n1 (T:=XR)) with (Fin 1).
  rewrite Esp. cbn [bind]. rewrite ESt. cbn [bind fst snd need_attr]. rewrite ERad. cbn [bind]. rewrite Etr.
  assert (Hnf : existsb failed (rays (Frv (RV rs A))) = false).
  { cbn [Frv rays]. clear -Hin. induction Hin as [|r rs Hi Hin IH]; [reflexivity|]. cbn [map existsb]. destruct Hi as (Hf & _).
    cbn [failed Fray]. rewrite Hf. exact IH. }
  rewrite Hnf, EBd. cbn [bind].
  set (dots := fun t0 row => ndiv (ndot row (map (fun r : ray XR => nmul (ndiv (nsub t0 (time r)) (Fin lam)) (flux r))
                 (map (sphere_step niter A P radius) (map Fray rs)))) (nmul npi (nsub (Fin 1) (nmul (Fin eps) (Fin eps))))).
  assert (FIN : map (dots (Fin t0)) (basis jmax (map (fun r : ray XR => (cx (pos r), cy (pos r)))
      (rays (rv_intersect niter Plane None None (rv_toCoordSys (Fcs (b_sframe b)) (Frv (RV rs0 (b_frame b))))))) (Fin (D / 2)) (Fin (eps * D / 2)))
    = map (fun p => Fin (gq_sum fl pts ts t0 lam p / (PI * (1 - eps * eps)))) Z).
  { unfold Frv at 1; cbn [rays rvcs]. rewrite stop_map, (stop_points niter b (D / 2) rs0 pts GF GS Hn Hd HS HM HA), Hev.
    rewrite map_map. apply map_ext. intros p. unfold dots.
    rewrite map_map. cbn [fst snd].
    replace (map (fun r => nmul (ndiv (nsub (Fin t0) (time r)) (Fin lam)) (flux r)) (map (sphere_step niter A P radius) (map Fray rs)))
      with (map (fun x => nmul (ndiv (nsub (Fin t0) (fst x)) (Fin lam)) (snd x))
             (map (fun r => (time r, flux r)) (map (sphere_step niter A P radius) (map Fray rs)))) by (rewrite map_map; reflexivity).
    rewrite ET, map_map. cbn [fst snd].
    replace (map (fun x : R * R => Fin (at2 p (D / 2 * fst x / (D / 2)) (D / 2 * snd x / (D / 2)))) pts) with (map (fun u => Fin (at2 p (fst u) (snd u))) pts)
      by (apply map_ext; intros u; f_equal; f_equal; field; lra).
    rewrite (ndot_gq rs fl pts ts t0 lam p Hl Hfl L3 (Forall2_len _ _ _ F2)).
    change (nmul npi (nsub (Fin 1) (nmul (Fin eps) (Fin eps)))) with (Fin (PI * (1 - eps * eps))).
    apply xdiv_fin. apply Rmult_integral_contrapositive_currified; [pose proof PI_RGT_0; lra|nra]. }
  destruct Href as [q ts' Hq Hne Hts|bd' stop ch0 ch rest t Hbd Hst Hch0 Htr Hins Hcr].
  - cbn [String.eqb Ascii.eqb Bool.eqb bind].
    assert (HL : filter (fun r => negb (vignetted r)) (rays (Frv (RV rs A))) = map Fray q).
    { cbn [Frv rays]. rewrite <- Hq. clear. induction rs as [|r rs IH]; [reflexivity|]. cbn [map filter]. cbn [vignetted Fray].
      destruct (vignetted r); cbn [negb map]; [exact IH|f_equal; exact IH]. }
    set (point := centroid (map pos q)) in *.
    assert (EP : mean3 (select (map pos (rays (Frv (RV rs A)))) (lit (Frv (RV rs A)))) = F3 point).
    { rewrite select_lit, HL, map_map. cbn [pos Fray]. rewrite <- (map_map pos F3). apply mean3_F. destruct q; [congruence|discriminate]. }
    rewrite EP.
    change (rv_intersect niter (Sphere (nopp (Fin radius))) None None (rv_toCoordSys (shiftLocal (rvcs (Frv (RV rs A))) (vadd (F3 point) (V3 n0 n0 (Fin radius)))) (Frv (RV rs A))))
      with (to_sphere niter (F3 point) (Fin radius) (RV (map Fray rs) (Fcs A))).
    unfold Frv in HL; cbn [rays rvcs] in HL. 
    assert (Hinq : Forall (inside point radius) q).
    { rewrite <- Hq. apply Forall_forall. intros r Hr. apply filter_In in Hr. rewrite Forall_forall in Hin. apply Hin, Hr. }
    destruct (sphere_lit niter A point radius (map Fray rs) GA q HL Hinq) as (ts2 & F3' & E3 & _).
    assert (ts2 = ts') as ->.
    { clearbody point. clear -F3' Hts Hinq. revert ts' ts2 F3' Hts. induction Hinq as [|r q Hi Hinq IH]; intros ts' ts2 F G; inversion F; inversion G; subst; [reflexivity|].
      f_equal; [eapply crosses_unique; eassumption|apply IH; assumption]. }
    assert (EM : mean (select (map time (rays (to_sphere niter (F3 point) (Fin radius) (RV (map Fray rs) (Fcs A)))))
                         (lit (to_sphere niter (F3 point) (Fin radius) (RV (map Fray rs) (Fcs A))))) = Fin (averageR ts')).
    { rewrite select_lit, to_sphere_map, E3. apply mean_F. destruct q; [congruence|]. inversion Hts; discriminate. }
    rewrite EM, to_sphere_map. f_equal. exact FIN.
  - cbn [String.eqb Ascii.eqb Bool.eqb bind].
    assert (bd' = bd) as -> by congruence. rewrite ESt in Hst. injection Hst as <-.
    change (Fin 0) with (n0 (T:=XR)) in Hch0. 
    rewrite Hch0. cbn [bind]. rewrite Htr. cbn [rays bind].
    cbn [pos Fray].
    change (rv_intersect niter (Sphere (nopp (Fin radius))) None None (rv_toCoordSys (shiftLocal (rvcs (Frv (RV rs A))) (vadd (F3 (pos ch)) (V3 n0 n0 (Fin radius)))) (Frv (RV rs A))))
      with (to_sphere niter (F3 (pos ch)) (Fin radius) (RV (map Fray rs) (Fcs A))).
    change (rv_intersect niter (Sphere (nopp (Fin radius))) None None (rv_toCoordSys (shiftLocal (rvcs (Frv (RV rs A))) (vadd (F3 (pos ch)) (V3 n0 n0 (Fin radius)))) (RV (Fray ch :: rest) (Fcs A))))
      with (to_sphere niter (F3 (pos ch)) (Fin radius) (RV (Fray ch :: rest) (Fcs A))).
    rewrite !to_sphere_map. cbn [map]. destruct (step_inside niter A (pos ch) radius ch GA Hins) as (t' & p' & E' & C').
    rewrite E'. cbn [bind time Fray]. assert (t' = t) as -> by (eapply crosses_unique; eassumption). f_equal. exact FIN.
Qed.

(** ** Exactness *)
Lemma gq_sum_weighted b ro P radius t0 lam rs0 rs fl pts ts W p : 0 < ro -> wavefront_is b ro P radius t0 lam rs0 rs W ->
  Forall2 (fun r u => aimed b (ro * fst u) (ro * snd u) r) rs0 pts -> Forall2 (crosses P radius) rs ts ->
  List.length fl = List.length pts -> List.length ts = List.length pts ->
  gq_sum fl pts ts t0 lam p = weighted fl pts (fun x y => at2 p x y * W x y).
Proof.
  intros Hro HW HA HC L1 L2. unfold gq_sum, weighted. f_equal.
  revert rs ts fl HW HC L1 L2. induction HA as [|r0 u rs0 pts Ha HA IH]; intros rs ts fl HW HC L1 L2.
  - destruct fl; [|discriminate]. reflexivity.
  - destruct fl as [|a fl]; [discriminate|]. destruct ts as [|t ts]; [discriminate|].
    inversion HC as [|r t' rs' ts' C0 C1]; subst. cbn [combine map fst snd]. f_equal.
    + rewrite (HW 0%nat r0 r (ro * fst u) (ro * snd u) t eq_refl eq_refl Ha C0).
      replace (ro * fst u / ro) with (fst u) by (field; lra). replace (ro * snd u / ro) with (snd u) by (field; lra). ring.
    + apply (IH rs'); [|exact C1|injection L1; auto|injection L2; auto].
      intros i r0' r' x y t' E1 E2. apply (HW (S i)); assumption.
Qed.
Lemma weighted_congr fl pts f g : (forall x y, f x y = g x y) -> weighted fl pts f = weighted fl pts g.
Proof. intros H. unfold weighted. f_equal. apply map_ext. intros. rewrite H. reflexivity. Qed.

Theorem zernikeGQ_projects : forall niter lg basis tel tx ty lam projection rings spokes sphereRadius radius reference jmax eps D
    d b m N Z rs0 rs A P t0 W k e,
  gq_setting niter lg tel tx ty lam projection rings spokes sphereRadius radius reference eps D d b m N rs0 rs A P t0 ->
  evaluates basis jmax (D / 2) (eps * D / 2) Z ->
  wavefront_is b (D / 2) P radius t0 lam rs0 rs (at2 W) ->
  Forall (degree2 k) Z -> degree2 e W -> (k + e < 2 * N)%nat -> (k + e < m)%nat ->
  exists a, zernikeGQ niter lg basis tel tx ty (Fin lam) projection rings spokes sphereRadius reference jmax (Fin eps) = Ok (map Fin a) /\
    Forall2 (fun p a => annulus_integral eps (fun x y => at2 p x y * at2 W x y) (a * (PI * (1 - eps * eps)))) Z a.
Proof.
  intros niter lg basis tel tx ty lam projection rings spokes sphereRadius radius reference jmax eps D
    d b m N Z rs0 rs A P t0 W k e HS Hev HW HZ HE HN HM.
  destruct (zernikeGQ_value niter lg basis tel tx ty lam projection rings spokes sphereRadius radius reference jmax eps D
    d b m N Z rs0 rs A P t0 HS Hev) as (fl & pts & ts & HA & HC & L1 & L2 & _ & X & E).
  destruct HS as (_ & _ & _ & _ & _ & _ & HD & He & _).
  exists (map (fun p => gq_sum fl pts ts t0 lam p / (PI * (1 - eps * eps))) Z). split; [rewrite map_map; exact E|]. clear E Hev.
  induction HZ as [|p Z HP HZ IH]; [constructor|]. constructor; [|exact IH].
  replace (gq_sum fl pts ts t0 lam p / (PI * (1 - eps * eps)) * (PI * (1 - eps * eps))) with (gq_sum fl pts ts t0 lam p).
  2:{ field. pose proof PI_RGT_0. split; nra. }
  rewrite (gq_sum_weighted b (D / 2) P radius t0 lam rs0 rs fl pts ts (at2 W) p) by (assumption || lra).
  rewrite (weighted_congr fl pts _ (at2 (mul2 p W))) by (intros; symmetry; apply at2_mul).
  apply (annulus_ext eps (at2 (mul2 p W))); [intros; apply at2_mul|].
  apply (X _ (k + e)%nat); [apply degree_mul; assumption|exact HN|exact HM].
Qed.
(** The combination as one polynomial. *)
Definition combine2 (c : list R) (Z : list poly2) : poly2 := flat_map (fun cp => scale2 (fst cp) (snd cp)) (combine c Z).
Lemma at2_scale c p x y : at2 (scale2 c p) x y = c * at2 p x y.
Proof.
  induction p as [|t p IH]; [cbn [scale2 map]; change (at2 [] x y) with 0; ring|]. cbn [scale2 map]. fold (scale2 c p). rewrite !at2_cons, IH.
  unfold mono; cbn [fst snd]. ring.
Qed.
Lemma combination_cons a c p Z x y : combination (a :: c) (p :: Z) x y = a * at2 p x y + combination c Z x y.
Proof. reflexivity. Qed.
Lemma at2_combine c Z x y : at2 (combine2 c Z) x y = combination c Z x y.
Proof.
  revert Z. induction c as [|a c IH]; intros [|p Z]; try reflexivity.
  unfold combine2. cbn [combine flat_map fst snd]. fold (combine2 c Z). rewrite at2_app, IH, at2_scale, combination_cons. reflexivity.
Qed.
Lemma degree_combine c Z k : Forall (degree2 k) Z -> degree2 k (combine2 c Z).
Proof.
  intros HZ. revert c. induction HZ as [|p Z HP HZ IH]; intros [|a c]; try constructor.
  unfold combine2. cbn [combine flat_map fst snd]. apply Forall_app. split; [|apply IH].
  apply Forall_map. eapply Forall_impl; [|exact HP]. intros t Ht. exact Ht.
Qed.
Lemma annulus_zero eps : annulus_integral eps (fun x y => 0) 0.
Proof.
  exists (fun _ => 0). split; [|exists (fun _ => 0); split; [intros; apply derivable_pt_lim_const|ring]].
  intros th. exists (fun _ => 0). split; [|ring]. intros x. replace (x * 0) with 0 by ring. apply derivable_pt_lim_const.
Qed.
Lemma annulus_sum_zero eps p c Z : (forall j q, nth_error Z j = Some q -> annulus_integral eps (fun x y => at2 p x y * at2 q x y) 0) ->
  annulus_integral eps (fun x y => at2 p x y * combination c Z x y) 0.
Proof.
  revert Z. induction c as [|a c IH]; intros Z H.
  - apply (annulus_ext eps (fun x y => 0)); [|apply annulus_zero]. intros. change (combination [] Z x y) with 0. ring.
  - destruct Z as [|q Z].
    + apply (annulus_ext eps (fun x y => 0)); [|apply annulus_zero]. intros. change (combination (a :: c) [] x y) with 0. ring.
    + apply (annulus_ext eps (fun x y => a * (at2 p x y * at2 q x y) + at2 p x y * combination c Z x y)). { intros. rewrite combination_cons. ring. }
      replace 0 with (a * 0 + 0) by ring. apply annulus_plus; [apply annulus_scal, (H 0%nat); reflexivity|].
      apply IH. intros j q' E. apply (H (S j)), E.
Qed.
Lemma annulus_project eps p a c Z j : List.length c = List.length Z ->
  (forall k q, nth_error Z k = Some q -> annulus_integral eps (fun x y => at2 p x y * at2 q x y) (if (j =? k)%nat then a else 0)) ->
  annulus_integral eps (fun x y => at2 p x y * combination c Z x y) (nth j c 0 * a).
Proof.
  revert Z j. induction c as [|u c IH]; intros [|q Z] j L H; try discriminate.
  - apply (annulus_ext eps (fun x y => 0)). { intros. change (combination [] [] x y) with 0. ring. }
    replace (nth j [] 0 * a) with 0; [apply annulus_zero|]. destruct j; cbn; ring.
  - apply (annulus_ext eps (fun x y => u * (at2 p x y * at2 q x y) + at2 p x y * combination c Z x y)). { intros. rewrite combination_cons. ring. }
    pose proof (H 0%nat q eq_refl) as H0. destruct j as [|j]; cbn [Nat.eqb] in H0.
    + cbn [nth]. replace (u * a) with (u * a + 0) by ring. apply annulus_plus; [apply annulus_scal, H0|].
      apply annulus_sum_zero. intros k q' E. exact (H (S k) q' E).
    + cbn [nth]. replace (nth j c 0 * a) with (u * 0 + nth j c 0 * a) by ring. apply annulus_plus; [apply annulus_scal, H0|].
      apply IH; [injection L; auto|]. intros k q' E. exact (H (S k) q' E).
Qed.
Theorem zernikeGQ_recovers : forall niter lg basis tel tx ty lam projection rings spokes sphereRadius radius reference jmax eps D
    d b m N Z rs0 rs A P t0 c k,
  gq_setting niter lg tel tx ty lam projection rings spokes sphereRadius radius reference eps D d b m N rs0 rs A P t0 ->
  evaluates basis jmax (D / 2) (eps * D / 2) ([] :: Z) -> orthonormal_family eps Z ->
  List.length c = List.length Z -> wavefront_is b (D / 2) P radius t0 lam rs0 rs (combination c Z) ->
  Forall (degree2 k) Z -> (2 * k < 2 * N)%nat -> (2 * k < m)%nat ->
  zernikeGQ niter lg basis tel tx ty (Fin lam) projection rings spokes sphereRadius reference jmax (Fin eps) = Ok (map Fin (0 :: c)).
Proof.
  intros niter lg basis tel tx ty lam projection rings spokes sphereRadius radius reference jmax eps D
    d b m N Z rs0 rs A P t0 c k HS Hev HO L HW HZ HN HM.
  destruct (zernikeGQ_projects niter lg basis tel tx ty lam projection rings spokes sphereRadius radius reference jmax eps D
    d b m N ([] :: Z) rs0 rs A P t0 (combine2 c Z) k k HS Hev) as (a & E & H); try assumption.
  { intros i r0 r x y t E1 E2 E3 E4. rewrite at2_combine. apply (HW i r0 r); assumption. }
  { constructor; [constructor|exact HZ]. }
  { apply degree_combine, HZ. }
  { lia. } { lia. }
  rewrite E. do 2 f_equal. destruct HS as (_ & _ & _ & _ & _ & _ & HD & He & _).
  assert (HP : PI * (1 - eps * eps) <> 0) by (apply Rmult_integral_contrapositive_currified; [pose proof PI_RGT_0; lra|nra]).
  inversion H as [|? a0 ? a' H0 H1]; subst. f_equal.
  - apply (Rmult_eq_reg_r (PI * (1 - eps * eps))); [|exact HP]. rewrite Rmult_0_l.
    refine (annulus_unique _ _ _ _ H0 _). apply (annulus_ext eps (fun x y => 0)); [|apply annulus_zero].
    intros. change (at2 [] x y) with 0. ring.
  - clear E H H0 Hev HW. apply (nth_ext _ _ 0 0).
    { rewrite L. symmetry. eapply Forall2_len, H1. }
    intros j Hj. destruct (nth_error Z j) as [p|] eqn:Ej.
    2:{ apply nth_error_None in Ej. pose proof (Forall2_len _ _ _ H1) as Q. unfold poly2 in *. lia. }
    assert (Ha : annulus_integral eps (fun x y => at2 p x y * at2 (combine2 c Z) x y) (nth j a' 0 * (PI * (1 - eps * eps)))).
    { clear -H1 Ej Hj. set (W := combine2 c Z) in *. clearbody W. revert j Hj Ej. induction H1 as [|q v Z a Hq H1 IH]; intros [|j] Hj Ej; try discriminate.
      - injection Ej as <-. exact Hq.
      - apply (IH j); [cbn in Hj; lia|exact Ej]. }
    apply (Rmult_eq_reg_r (PI * (1 - eps * eps))); [|exact HP].
    refine (annulus_unique _ _ _ _ Ha _). apply (annulus_ext eps (fun x y => at2 p x y * combination c Z x y)).
    { intros. rewrite at2_combine. reflexivity. }
    apply annulus_project; [exact L|]. intros i q Ei. exact (HO j i p q Ej Ei).
Qed.
