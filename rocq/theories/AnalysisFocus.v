(** C69: the wavefront of a paraboloidal mirror on its axis. *)
From Coq Require Import Reals String List ZArith Bool Lra Psatz Lia.
From Verif Require Import Num NumR Vec CoordSys Surface Ray Bundle Trig Optic Field RayGen Spec OpticsSpec
  XRFacts CoordFacts FrameProofs RayFacts NormalFacts RefractProofs OpticsProofs RootFacts IntersectProofs IntersectMore
  FieldSpec FieldProofs GenMore GenSpec WaveSpec WaveProofs Analysis AnalysisSpec AnalysisProofs.
Import ListNotations.
Open Scope R_scope.

(** One ray through mirror and detector. *)
Lemma parab_ray niter rad A B r x y z0 w : rad <> 0 -> good_frame A -> good_frame B ->
  failed r = false -> pos_in A B r = V3 x y z0 -> vel_in A B r = V3 0 0 w -> w <> 0 -> x * x + y * y < rad * rad ->
  let C := shifted B (V3 0 0 (rad / 2)) in
  exists v, ray_intersect Plane (F3 (drR B C)) (FM (drotR B C)) None niter
      (ray_reflect (Paraboloid (Fin rad)) (F3 (drR A B)) (FM (drotR A B)) None niter (Fray r))
    = Fray (Ray zeroR v (time r - (z0 + rad / 2) / w) (wavelength r) (flux r) (vignetted r) false) /\
    lenR v = Rabs w /\ cz v * w < 0.
Proof.
  intros Hr HA HB Hf Hp Hv Hw Hx C.
  assert (Hh : hit (Fshape (ShParaboloid rad)) niter (F3 (pos_in A B r)) (F3 (vel_in A B r))
             = (true, Fin (((x * x + y * y) / (2 * rad) - z0) / w))).
  { rewrite hit_paraboloid by assumption. rewrite Hp, Hv. unfold coefA, coefB, coefC; cbn [cx cy cz].
    destruct (Req_EM_T _ 0) as [E|E]; [|exfalso; apply E; field; assumption].
    f_equal. apply xdiv_fin_eq; [|field; lra].
    replace ((x * 0 + y * 0) * (1 / rad) - w) with (- w) by ring. lra. }
  set (t := ((x * x + y * y) / (2 * rad) - z0) / w) in *.
  pose proof (intersect_hit _ niter A B [r] 0 r _ HA HB eq_refl Hf Hh) as Hi. rewrite advance_F in Hi.
  set (q := on_line (pos_in A B r) (vel_in A B r) t) in *.
  assert (Q : q = V3 x y ((x * x + y * y) / (2 * rad))).
  { unfold q, t. rewrite Hp, Hv. apply vec3_eq; cbn; field; auto. }
  assert (Ha : arrives niter (Paraboloid (Fin rad)) A B [r] 0 r
     (Ray (F3 q) (F3 (vel_in A B r)) (nadd (Fin (time r)) (Fin t)) (Fin (wavelength r)) (Fin (flux r)) (vignetted r) false) q).
  { constructor; auto. }
  set (nz := / sqrt (1 + (x * x + y * y) / rad / rad)).
  set (n := V3 (- x / rad * nz) (- y / rad * nz) nz).
  assert (Hn : normal_at (Paraboloid (Fin rad)) q n).
  { unfold normal_at. rewrite Q. cbn [normal cx cy]. apply paraboloid_normal_F, Hr. }
  pose proof (reflect_nth niter _ A B [r] 0 r _ q n None Ha Hn (or_introl eq_refl)) as HR.
  unfold kth, rv_reflect in HR. rewrite (batch_nth _ _ _ _ _ _ (eq_refl : nth_error [r] 0 = Some r)) in HR.
  cbn [option_map] in HR. 
  match type of HR with Some ?a = Some ?b => assert (HR' : a = b) by congruence end. rewrite HR'. clear HR HR' Hi Ha Hn.
  set (v := reflR (vel_in A B r) n).
  assert (Hq : 0 < 1 + (x * x + y * y) / rad / rad).
  { replace ((x * x + y * y) / rad / rad) with ((x / rad) * (x / rad) + (y / rad) * (y / rad)) by (field; assumption).
    pose proof (sq_nonneg (x / rad)). pose proof (sq_nonneg (y / rad)). lra. }
  assert (D : rad * rad + (x * x + y * y) <> 0) by (pose proof (sq_nonneg x); pose proof (sq_nonneg y); nra).
  assert (N2 : nz * nz = rad * rad / (rad * rad + (x * x + y * y))).
  { unfold nz. rewrite inv_sqrt_sq by assumption. field. repeat split; try assumption; try lra. }
  assert (Nu : dotR n n = 1).
  { unfold n, dotR; cbn [cx cy cz]. transitivity ((x * x + y * y + rad * rad) / (rad * rad) * (nz * nz)); [field; assumption|].
    rewrite N2. field. auto. }
  assert (V : v = V3 (w * 2 * (x / rad) * (nz * nz)) (w * 2 * (y / rad) * (nz * nz)) (w * (1 - 2 * (nz * nz)))).
  { unfold v, reflR. rewrite Hv. unfold n, dotR; apply vec3_eq; cbn; field; assumption. }
  assert (Vz : cz v * w < 0).
  { rewrite V; cbn [cz]. rewrite N2.
    assert (0 < rad * rad + (x * x + y * y)) by (pose proof (sq_nonneg x); pose proof (sq_nonneg y); nra).
    replace (w * (1 - 2 * (rad * rad / (rad * rad + (x * x + y * y)))) * w)
      with (- ((w * w) * ((rad * rad - (x * x + y * y)) / (rad * rad + (x * x + y * y))))) by (field; assumption).
    assert (0 < w * w) by nra. assert (0 < (rad * rad - (x * x + y * y)) / (rad * rad + (x * x + y * y))).
    { apply Rdiv_lt_0_compat; lra. } nra. }
  assert (Vz0 : cz v <> 0) by (intros E; rewrite E in Vz; lra).
  exists v. split; [|split; [|exact Vz]].
  2: { unfold v. rewrite refl_len by exact Nu. rewrite Hv. unfold lenR, dotR; cbn [cx cy cz].
       replace (0 * 0 + 0 * 0 + w * w) with (w * w) by ring. apply sqrt_Rsqr_abs. }
  unfold ray_intersect; cbn [failed pos vel time wavelength flux vignetted].
  unfold C. rewrite shifted_dr, shifted_drot by exact HB. rewrite fwd_point_F, fwd_vel_F, trans_eye, !applyR_eye.
  change (@Plane XR) with (Fshape ShPlane). rewrite hit_plane. destruct (Req_EM_T (cz v) 0) as [E|_]; [contradiction|].
  set (dt := - cz (minusR q (V3 0 0 (rad / 2))) / cz v).
  assert (Dt : dt = time r - (z0 + rad / 2) / w - (time r + t)).
  { unfold dt. rewrite Q, V; cbn [minusR cz]. rewrite N2. unfold t.
    assert (1 - 2 * (rad * rad / (rad * rad + (x * x + y * y))) <> 0).
    { intros E. rewrite V in Vz0; cbn [cz] in Vz0. apply Vz0. rewrite N2, E. ring. }
    assert (rad * rad + (x * x + y * y) - 2 * (rad * rad) <> 0) by nra.
    field. repeat split; assumption. }
  rewrite advance_F. cbn [nadd NumXR xadd]. unfold Fray; cbn [pos vel time wavelength flux vignetted failed].
  f_equal; [|f_equal; rewrite Dt; ring].
  f_equal. rewrite Dt. rewrite Q, V. unfold t. apply vec3_eq; cbn; rewrite N2; field; auto.
Qed.

(** The traced bundle. *)
Lemma pair_trace niter o B rad rs : focal_pair o B rad -> good_frame B -> rad <> 0 ->
  trace niter o false (Frv (RV rs B))
  = RV (map (fun r => ray_intersect Plane (F3 (drR B (shifted B (V3 0 0 (rad / 2))))) (FM (drotR B (shifted B (V3 0 0 (rad / 2))))) None niter
              (ray_reflect (Paraboloid (Fin rad)) (F3 (drR B B)) (FM (drotR B B)) None niter (Fray r))) rs)
       (Fcs (shifted B (V3 0 0 (rad / 2)))).
Proof.
  intros (a & m & d & -> & K1 & S1 & C1 & O1 & N1 & K2 & S2 & C2 & O2 & N2) HB Hr.
  cbn [trace fold_left o_skip]. rewrite N1, N2. unfold iface_trace. rewrite O1, O2; cbn [apply_obsc].
  unfold interact. rewrite K1, K2, S1, S2, C1, C2. unfold rv_intersect, rv_reflect, batch, Frv; cbn [dest rays rvcs].
  rewrite !mkCT_F; cbn [ct_dr ct_drot]. rewrite !map_map. reflexivity.
Qed.
Lemma axis_unit : unitR (V3 0 0 (-1)) = V3 0 0 (-1).
Proof.
  unfold unitR, lenR, dotR; cbn [cx cy cz]. replace (0 * 0 + 0 * 0 + -1 * -1) with 1 by ring. rewrite sqrt_1.
  apply vec3_eq; cbn; field.
Qed.
Lemma local_of_global B p : good_frame B -> local_point B (global_point B p) = p.
Proof.
  intros HB. unfold local_point, global_point. rewrite plusR_comm, plusR_minus || rewrite plusR_minus.
  apply orth_apply_lr, HB.
Qed.
Lemma aimed_axis b B x y rad r : good_frame B -> b_frame b = B -> b_dir b = V3 0 0 (-1) -> 0 < b_n b ->
  near_axis b B rad x y -> aimed b x y r ->
  exists px py, pos_in B B r = V3 px py (b_dist b) /\ vel_in B B r = V3 0 0 (- / b_n b) /\ px * px + py * py < rad * rad /\
    failed r = false /\ time r = 0 /\ vignetted r = false.
Proof.
  intros HB Hb Hd Hn Near (Hv & Ht & _ & Hvg & Hf & Hp & t & z & Hz & Hg). rewrite Hd, axis_unit in Hv, Hp.
  assert (PI : pos_in B B r = pos r) by (unfold pos_in; apply local_of_global, HB).
  assert (VI : vel_in B B r = vel r) by (unfold vel_in; apply orth_apply_lr, HB).
  rewrite PI, VI. exists (cx (pos r)), (cy (pos r)).
  assert (V : vel r = V3 0 0 (- / b_n b)).
  { pose proof (f_equal cx Hv) as X. pose proof (f_equal cy Hv) as Y. pose proof (f_equal cz Hv) as Z. cbn in X, Y, Z.
    apply vec3_eq; cbn.
    - apply (Rmult_eq_reg_l (b_n b)); lra.
    - apply (Rmult_eq_reg_l (b_n b)); lra.
    - apply (Rmult_eq_reg_l (b_n b)); [rewrite Z; field; lra|lra]. }
  split; [apply vec3_eq; cbn; [reflexivity|reflexivity|unfold dotR in Hp; cbn in Hp; lra]|].
  split; [exact V|]. specialize (Near z Hz). cbv zeta in Near. rewrite <- Hg, Hb in Near.
  rewrite local_of_global in Near by exact HB. rewrite V in Near. cbn in Near.
  replace (cx (pos r) + t * 0) with (cx (pos r)) in Near by ring. replace (cy (pos r) + t * 0) with (cy (pos r)) in Near by ring.
  split; [exact Near|]. split; [exact Hf|]. split; assumption.
Qed.

(** The telescope on its axis. *)
Theorem parab_traced niter tel lam p nx b B rad D :
  focal_pair (tl_optic tel) B rad -> rad <> 0 ->
  describes false (Gen (Some (tl_attr tel)) None None None None (Some (Fin lam)) (DirCos (F3 (V3 0 0 (-1))))) b ->
  b_frame b = B -> b_w b = lam -> b_dir b = V3 0 0 (-1) ->
  oa_pupil (tl_attr tel) = Some (Fin D) -> (1 <= nx)%nat ->
  let pts := grid_points nx nx (spacing_of nx D) (spacing_of nx D) in
  proper b pts -> Forall (fun p => near_axis b B rad (fst p) (snd p)) pts ->
  exists q, traced niter tel (Fin 0) (Fin 0) (Fin lam) (proj_name p) nx
      (RV (map Fray q) (Fcs (shifted B (V3 0 0 (rad / 2))))) /\
    length q = (nx * nx)%nat /\
    forall r, In r q -> pos r = zeroR /\ time r = b_n b * (b_dist b + rad / 2) /\ lenR (vel r) = / b_n b /\ 0 < cz (vel r) /\
      vignetted r = false /\ failed r = false /\ flux r = 1 /\ wavelength r = lam.
Proof.
  intros HF Hr HD HB Hw Hdir HDp Hn pts HP HN.
  assert (GB : good_frame B) by (rewrite <- HB; apply HP). assert (Pn : 0 < b_n b) by apply HP.
  destruct (asGrid_grid _ b (Some (Z.of_nat nx)) None None None None (Some (Sc (Fin D))) None 1 nx nx (spacing_of nx D) (spacing_of nx D) HD)
    as (rv0 & E0 & rs & Erv & Ln & Fl & Aim).
  { right. right. split; [reflexivity|]. split; [right; reflexivity|]. eexists _, _. split; [reflexivity|]. split; [exact HDp|reflexivity]. }
  { apply (by_number_and_length _ _ _ _ _ _ nx nx D D); try reflexivity; try exact Hn; right; split; reflexivity. }
  { exact HP. }
  assert (LP : length pts = (nx * nx)%nat) by (apply (grid_chief nx nx); exact Hn).
  pose proof (fun i => Aim i) as Aim'.
  assert (Each : forall r, In r rs -> exists r', 
     ray_intersect Plane (F3 (drR B (shifted B (V3 0 0 (rad / 2))))) (FM (drotR B (shifted B (V3 0 0 (rad / 2))))) None niter
              (ray_reflect (Paraboloid (Fin rad)) (F3 (drR B B)) (FM (drotR B B)) None niter (Fray r)) = Fray r' /\
     pos r' = zeroR /\ time r' = b_n b * (b_dist b + rad / 2) /\ lenR (vel r') = / b_n b /\ 0 < cz (vel r') /\
      vignetted r' = false /\ failed r' = false /\ flux r' = 1 /\ wavelength r' = lam).
  { intros r Hin. apply In_nth_error in Hin. destruct Hin as (i & Hi).
    assert (Hlt : (i < length pts)%nat). { unfold pts. rewrite <- Ln. apply nth_error_Some. congruence. }
    destruct (nth_error pts i) as [[x y]|] eqn:Ep; [|apply nth_error_None in Ep; lia].
    pose proof (Aim i x y r Ep Hi) as A. rewrite Forall_forall in HN. pose proof (HN _ (nth_error_In _ _ Ep)) as NA. cbn [fst snd] in NA.
    destruct (aimed_axis b B x y rad r GB HB Hdir Pn NA A) as (px & py & P1 & P2 & P3 & P4 & P5 & P6).
    assert (W : - / b_n b <> 0) by (apply Ropp_neq_0_compat, Rinv_neq_0_compat; lra).
    destruct (parab_ray niter rad B B r px py (b_dist b) (- / b_n b) Hr GB GB P4 P1 P2 W P3) as (v & E & Lv & Zv).
    eexists. split; [exact E|]. cbn [pos time vel vignetted failed].
    assert (0 < / b_n b) by (apply Rinv_0_lt_compat; exact Pn).
    split; [reflexivity|]. split; [rewrite P5; field; lra|]. split; [rewrite Lv, Rabs_Ropp; apply Rabs_pos_eq; lra|].
    split; [nra|]. split; [exact P6|]. split; [reflexivity|]. cbn [flux wavelength]. split.
    - assert (F : In (flux r) (map flux rs)) by (apply in_map; eapply nth_error_In, Hi).
      rewrite Fl in F. apply repeat_spec in F. exact F.
    - rewrite <- Hw. apply A. }
  assert (Q : exists q, map (fun r => ray_intersect Plane (F3 (drR B (shifted B (V3 0 0 (rad / 2))))) (FM (drotR B (shifted B (V3 0 0 (rad / 2))))) None niter
              (ray_reflect (Paraboloid (Fin rad)) (F3 (drR B B)) (FM (drotR B B)) None niter (Fray r))) rs = map Fray q /\
     forall r, In r q -> pos r = zeroR /\ time r = b_n b * (b_dist b + rad / 2) /\ lenR (vel r) = / b_n b /\ 0 < cz (vel r) /\
      vignetted r = false /\ failed r = false /\ flux r = 1 /\ wavelength r = lam).
  { clear - Each. induction rs as [|r rs IH]; [exists []; split; [reflexivity|intros r []]|].
    destruct IH as (q & E & H); [intros r' H'; apply Each; right; exact H'|].
    destruct (Each r (or_introl eq_refl)) as (r' & E' & H'). exists (r' :: q). split; [cbn [map]; rewrite E, E'; reflexivity|].
    intros r2 [<-|Hr2]; [exact H'|apply H, Hr2]. }
  destruct Q as (q & Eq & Hq). exists q. split; [|split; [|exact Hq]].
  - exists (Fin 0), (Fin 0), (Fin (-1)), rv0. split; [apply axis_down|]. split; [exact E0|].
    rewrite Erv, HB. rewrite (pair_trace niter _ B rad rs HF GB Hr), Eq. reflexivity.
  - rewrite <- LP. unfold pts. rewrite <- Ln. apply (f_equal (@length _)) in Eq. rewrite !map_length in Eq. symmetry. exact Eq.
Qed.
Lemma lit_all cs q : (forall r, In r q -> vignetted r = false) -> lit_rays (RV (map Fray q) cs) q.
Proof.
  intros H. unfold lit_rays; cbn [rays]. induction q as [|r q IH]; [reflexivity|]. cbn [map filter].
  change (vignetted (Fray r)) with (vignetted r). rewrite (H r (or_introl eq_refl)). cbn [negb]. f_equal.
  apply IH. intros r' Hr'. apply H. right. exact Hr'.
Qed.
Lemma average_const {A} (f : A -> R) c l : l <> [] -> (forall x, In x l -> f x = c) -> averageR (map f l) = c.
Proof.
  intros Hl H. unfold averageR. rewrite map_length.
  assert (G : sumR (map f l) = INR (length l) * c).
  { clear Hl. induction l as [|a l IH]; [cbn; ring|]. cbn [map length]. rewrite sumR_cons, S_INR, IH, (H a); [ring|left; reflexivity|].
    intros x Hx. apply H. right. exact Hx. }
  rewrite G. field. apply not_0_INR. destruct l; [congruence|discriminate].
Qed.
Lemma central_lt nx : (1 <= nx)%nat -> (central nx < nx * nx)%nat.
Proof.
  intros H. unfold central. assert (nx / 2 < nx)%nat by (apply Nat.div_lt; lia). nia.
Qed.
Theorem parab_wavefront niter tel lam p nx b B rad D reference sphereRadius radius :
  focal_pair (tl_optic tel) B rad -> rad <> 0 ->
  describes false (Gen (Some (tl_attr tel)) None None None None (Some (Fin lam)) (DirCos (F3 (V3 0 0 (-1))))) b ->
  b_frame b = B -> b_w b = lam -> b_dir b = V3 0 0 (-1) ->
  oa_pupil (tl_attr tel) = Some (Fin D) -> (3 <= nx)%nat ->
  let pts := grid_points nx nx (spacing_of nx D) (spacing_of nx D) in
  proper b pts -> Forall (fun p => near_axis b B rad (fst p) (snd p)) pts ->
  reference = "mean"%string \/ reference = "chief"%string ->
  need_attr sphereRadius (tl_radius tel) = Ok (Fin radius) -> radius <> 0 -> lam <> 0 ->
  exists wf, wavefront niter tel (Fin 0) (Fin 0) (Fin lam) (proj_name p) nx sphereRadius reference = Ok wf /\
    l_shape _ wf = [nx; nx] /\ l_array _ wf = repeat (Fin 0, false) (nx * nx).
Proof.
  intros HF Hr HD HB Hw Hdir HDp Hn pts HP HN Href HS Hrad Hl.
  destruct (parab_traced niter tel lam p nx b B rad D HF Hr HD HB Hw Hdir HDp) as (q & HT & Ln & Hq); [lia|exact HP|exact HN|].
  set (C := shifted B (V3 0 0 (rad / 2))) in *. set (rv := RV (map Fray q) (Fcs C)) in *.
  assert (GB : good_frame B) by (rewrite <- HB; apply HP). assert (Pn : 0 < b_n b) by apply HP.
  assert (GC : good_frame C) by (apply shifted_good, GB).
  assert (HL : lit_rays rv q) by (apply lit_all; intros r Hr'; apply Hq, Hr').
  assert (Q0 : q <> []) by (intros ->; cbn in Ln; nia).
  assert (Cc : forall r, concerned nx rv q reference r -> In r q).
  { intros r [H|[_ H]]; [exact H|]. unfold rv in H; cbn [rays] in H. rewrite nth_error_map in H.
    destruct (nth_error q (central nx)) as [r'|] eqn:E; [|discriminate]. cbn [option_map] in H.
    assert (r' = r) by (apply Fray_inj; congruence). subst r'. eapply nth_error_In, E. }
  assert (HR : referred nx rv q reference zeroR).
  { destruct Href as [-> | ->].
    - replace zeroR with (centroid (map pos q)); [constructor; exact Q0|]. unfold centroid. rewrite !map_map.
      assert (Z : forall (f : vR -> R), averageR (map (fun r => f (pos r)) q) = f zeroR).
      { intros f. apply average_const; [exact Q0|]. intros r Hr'. destruct (Hq r Hr') as (-> & _). reflexivity. }
      rewrite (Z cx), (Z cy), (Z cz). reflexivity.
    - destruct (nth_error q (central nx)) as [ch|] eqn:E.
      + destruct (Hq ch (nth_error_In _ _ E)) as (<- & _). constructor. unfold rv; cbn [rays]. rewrite nth_error_map, E. reflexivity.
      + apply nth_error_None in E. pose proof (central_lt nx). lia. }
  assert (Inv : 0 < / b_n b) by (apply Rinv_0_lt_compat, Pn).
  assert (All : forall r, concerned nx rv q reference r -> inside zeroR radius r /\ focused zeroR (b_n b * (b_dist b + rad / 2)) (/ b_n b) r).
  { intros r Hr'. apply Cc in Hr'. destruct (Hq r Hr') as (P1 & P2 & P3 & P4 & P5 & P6 & _). split.
    - split; [exact P6|]. split; [intros E; rewrite E in P4; cbn in P4; lra|]. rewrite P1. unfold distR.
      apply len_lt_iff. unfold dotR; cbn. nra.
    - split; [|exact P3]. rewrite P1, P2. apply vec3_eq; cbn; ring. }
  assert (Side : (forall r, concerned nx rv q reference r -> 0 < cz (vel r) * radius) \/
     (forall r, concerned nx rv q reference r -> cz (vel r) * radius <= 0)).
  { destruct (Rlt_dec 0 radius) as [Y|Y]; [left|right]; intros r Hr'; apply Cc in Hr'; destruct (Hq r Hr') as (_ & _ & _ & P4 & _); nra. }
  destruct (wavefront_focus niter tel (Fin 0) (Fin 0) lam (proj_name p) nx rv C q reference zeroR sphereRadius radius D _ _
     HT eq_refl GC HL HR All Side HS Hl HDp Hn) as (wf & E & M & Z).
  destruct (wavefront_entries niter tel (Fin 0) (Fin 0) lam (proj_name p) nx rv C q reference zeroR sphereRadius radius D
     HT eq_refl GC HL HR (fun r H => proj1 (All r H)) HS Hl HDp Hn) as (arr & ts & t0 & E' & _).
  rewrite E' in E. assert (wf = Lat (T:=XR) _ [nx; nx] arr
        [[Fin (D / INR (nx - if Nat.even nx then 2 else 1)); Fin 0]; [Fin 0; Fin (D / INR (nx - if Nat.even nx then 2 else 1))]]) by congruence.
  subst wf. eexists. split; [exact E'|]. split; [reflexivity|]. cbn [l_array] in *.
  assert (M2 : forall e, In e arr -> e = (Fin 0, false)).
  { intros [e k] He. assert (K : k = false).
    { assert (In k (map vignetted (rays rv))) as Hk by (rewrite <- M; apply (in_map snd) in He; exact He).
      apply in_map_iff in Hk. destruct Hk as (r & <- & Hr'). unfold rv in Hr'; cbn [rays] in Hr'. apply in_map_iff in Hr'.
      destruct Hr' as (r' & <- & Hr'). apply Hq, Hr'. }
    subst k. rewrite <- (Z (e, false) He eq_refl). reflexivity. }
  assert (La : length arr = (nx * nx)%nat).
  { apply (f_equal (@length _)) in M. rewrite !map_length in M. unfold rv in M; cbn [rays] in M. rewrite map_length in M. congruence. }
  rewrite <- La. clear - M2. induction arr as [|e arr IH]; [reflexivity|]. cbn [length repeat].
  f_equal; [apply M2; left; reflexivity|]. apply IH. intros e' He'. apply M2. right. exact He'.
Qed.
Theorem newtonian_wavefront niter tel lam p nx reference sphereRadius radius :
  newtonian tel lam nx -> (3 <= nx)%nat -> reference = "mean"%string \/ reference = "chief"%string ->
  need_attr sphereRadius (tl_radius tel) = Ok (Fin radius) -> radius <> 0 -> lam <> 0 ->
  exists wf, wavefront niter tel (Fin 0) (Fin 0) (Fin lam) (proj_name p) nx sphereRadius reference = Ok wf /\
    l_shape _ wf = [nx; nx] /\ l_array _ wf = repeat (Fin 0, false) (nx * nx).
Proof.
  intros (b & B & rad & D & HF & Hr & HD & HB & Hw & Hd & Hp & HP & HN) Hn Href HS H0 Hl.
  exact (parab_wavefront niter tel lam p nx b B rad D reference sphereRadius radius HF Hr HD HB Hw Hd Hp Hn HP HN Href HS H0 Hl).
Qed.
(** The spot is one point. *)
Theorem newtonian_spot niter tel lam p nx reference :
  newtonian tel lam nx -> (1 <= nx)%nat ->
  spot niter tel (Fin 0) (Fin 0) (Fin lam) (proj_name p) nx reference
  = Ok (repeat (Fin 0) (nx * nx), repeat (Fin 0) (nx * nx)).
Proof.
  intros (b & B & rad & D & HF & Hr & HD & HB & Hw & Hd & Hp & HP & HN) Hn.
  destruct (parab_traced niter tel lam p nx b B rad D HF Hr HD HB Hw Hd Hp Hn HP HN) as (q & HT & Ln & Hq).
  set (C := shifted B (V3 0 0 (rad / 2))) in *. set (rv := RV (map Fray q) (Fcs C)) in *.
  assert (GC : good_frame C) by (apply shifted_good; rewrite <- HB; apply HP).
  assert (HL : lit_rays rv q) by (apply lit_all; intros r Hr'; apply Hq, Hr').
  assert (Q0 : q <> []) by (intros ->; cbn in Ln; nia).
  assert (Rep : forall f : ray R -> XR, (forall r, In r q -> f r = Fin 0) -> map f q = repeat (Fin 0) (nx * nx)).
  { intros f Hf. rewrite <- Ln. clear - Hf. induction q as [|r q IH]; [reflexivity|]. cbn [map length repeat].
    rewrite (Hf r (or_introl eq_refl)), IH; [reflexivity|]. intros r' H'. apply Hf. right. exact H'. }
  destruct (string_dec reference "mean") as [E1|E1]; [|destruct (string_dec reference "chief") as [E2|E2]].
  - subst reference. rewrite (spot_about niter tel _ _ _ _ nx rv C q "mean" (centroid (map pos q)) HT eq_refl GC HL (by_mean _ _ _ Q0)).
    assert (Z : forall (f : vR -> R), averageR (map (fun r => f (pos r)) q) = f zeroR).
    { intros f. apply average_const; [exact Q0|]. intros r Hr'. destruct (Hq r Hr') as (-> & _). reflexivity. }
    unfold centroid. rewrite !map_map, (Z cx), (Z cy), (Z cz). cbn [cx cy zeroR].
    f_equal. f_equal; apply Rep; intros r Hr'; destruct (Hq r Hr') as (-> & _); cbn; f_equal; ring.
  - subst reference. destruct (nth_error q (central nx)) as [ch|] eqn:E.
    + assert (HR : referred nx rv q "chief" (pos ch)) by (constructor; unfold rv; cbn [rays]; rewrite nth_error_map, E; reflexivity).
      rewrite (spot_about niter tel _ _ _ _ nx rv C q "chief" (pos ch) HT eq_refl GC HL HR).
      destruct (Hq ch (nth_error_In _ _ E)) as (-> & _).
      f_equal. f_equal; apply Rep; intros r Hr'; destruct (Hq r Hr') as (-> & _); cbn; f_equal; ring.
    + apply nth_error_None in E. pose proof (central_lt nx Hn). lia.
  - rewrite (spot_other niter tel _ _ _ _ nx rv C q reference HT eq_refl GC HL E1 E2).
    f_equal. f_equal; apply Rep; intros r Hr'; destruct (Hq r Hr') as (-> & _); reflexivity.
Qed.
