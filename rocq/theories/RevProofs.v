(** Light sent back through an optic retraces its path. *)
From Coq Require Import Reals List ZArith Bool Lra Psatz.
From Verif Require Import Num NumR Vec CoordSys Surface Medium Obscuration Ray Bundle Optic Spec OpticsSpec TreeSpec
  XRFacts CoordFacts FrameProofs RayFacts NormalFacts RefractProofs OpticsProofs ScreenProofs RootFacts IntersectProofs IntersectMore
  SlopeProofs TreeProofs RevSpec.
Import ListNotations.
Open Scope R_scope.

(** ** The normal is along the gradient of the equation *)
Lemma sphere_slopes rad x y n : rad <> 0 -> normal (Sphere (Fin rad)) (Fin x) (Fin y) = F3 n ->
  let s := sqrt (1 - / (rad * rad) * (x * x + y * y)) in
  0 < s /\ by_slopes n (x / (rad * s)) (y / (rad * s)).
Proof.
  intros Hr H. cbn [normal] in H. unfold sphere_normal in H. revert H. xunf.
  rewrite xeqb_f by exact Hr. cbn [orb]. assert (Hr2 : 0 < rad * rad) by nra.
  destruct (xeqb (Fin (x * x + y * y)) (Fin 0)) eqn:E.
  { intros H. apply xeqb_fin in E. assert (x = 0) by nra. assert (y = 0) by nra. subst.
    replace (1 - / (rad * rad) * (0 * 0 + 0 * 0)) with 1 by ring. rewrite sqrt_1. split; [lra|].
    replace (0 / (rad * 1)) with 0 by (field; lra). apply zhat_slopes, H. }
  assert (Hne : x * x + y * y <> 0) by (intros Hz; rewrite xeqb_t in E by exact Hz; discriminate).
  pose proof (sq_nonneg x). pose proof (sq_nonneg y). rewrite xsqrt_fin by lra.
  destruct (r_of x y Hne) as [Hp Hrr]. set (r := sqrt (x * x + y * y)) in *. intros Hn.
  destruct (radial_len _ _ _ _ _ Hp Hrr Hn) as (e & He & Hx & Hy & Hz).
  pose proof (radial_slopes e x y r n Hp Hx Hy Hz) as B.
  revert He. unfold sphere_dzdr. xunf. rewrite xdiv_fin by exact Hr. cbn [xmul xsub].
  replace (1 - r * (1 / rad) * (r * (1 / rad))) with (1 - / (rad * rad) * (r * r)) by (field; exact Hr).
  rewrite Hrr. set (q := x * x + y * y) in *.
  destruct (Rlt_dec (1 - / (rad * rad) * q) 0) as [L|L]; [rewrite xsqrt_neg by exact L; discriminate|].
  rewrite xsqrt_fin by lra. intros He.
  destruct (Req_dec (1 - / (rad * rad) * q) 0) as [Z|Z].
  { exfalso. rewrite Z, sqrt_0 in He. cbn in He. destruct (Req_EM_T 0 0); [|lra]. unfold xsgn in He.
    destruct (Rlt_dec _ _); [discriminate|]. destruct (Rlt_dec _ _); discriminate. }
  assert (Q : 0 < 1 - / (rad * rad) * q) by lra. pose proof (sqrt_lt_R0 _ Q) as Hs.
  rewrite xdiv_fin in He by lra. apply Fin_inj in He. cbv zeta. split; [exact Hs|].
  replace (x / (rad * sqrt (1 - / (rad * rad) * q))) with (x / r * e) by (rewrite <- He; field; repeat split; lra).
  replace (y / (rad * sqrt (1 - / (rad * rad) * q))) with (y / r * e) by (rewrite <- He; field; repeat split; lra).
  exact B.
Qed.
Lemma not_tangent sh q v n : good_shape sh -> simple sh -> on_sag (Fshape sh) q -> normal_at (Fshape sh) q n ->
  dotR v n <> 0 -> coefB sh q v <> 0.
Proof.
  intros Hg Hs Hsag Hn Hd HB. apply Hd. clear Hd. apply (on_sag_iff sh q Hg) in Hsag. destruct Hsag as [W V].
  destruct sh as [|tx ty|rad|rad|rad k]; try contradiction; unfold normal_at in Hn; cbn [Fshape] in Hn.
  - cbn in HB. apply zhat_slopes in Hn. destruct Hn as (_ & Hx & Hy). unfold dotR. rewrite HB, Hx, Hy. ring.
  - apply sphere_slopes in Hn; [|exact Hg]. destruct Hn as (Hs0 & Hz & Hx & Hy).
    cbn in HB, W, V, Hg. set (s := sqrt _) in *. 
    assert (Ers : rad - cz q = rad * s).
    { assert (Hr2 : 0 < rad * rad) by (clear - Hg; nra).
      assert (Es : (rad - cz q) / rad = s).
      { symmetry. apply sqrt_lem_1.
        - apply Rnot_lt_le. intros L. assert (s = 0) by (apply sqrt_neg_0; lra). lra.
        - replace ((rad - cz q) / rad) with (rad * (rad - cz q) * / (rad * rad)) by (field; exact Hg).
          apply Rmult_le_pos; [exact V|]. left. apply Rinv_0_lt_compat. lra.
        - apply Rmult_eq_reg_r with (rad * rad); [|lra].
          replace ((rad - cz q) / rad * ((rad - cz q) / rad) * (rad * rad)) with ((rad - cz q) * (rad - cz q)) by (field; exact Hg).
          replace ((1 - / (rad * rad) * (cx q * cx q + cy q * cy q)) * (rad * rad))
            with (rad * rad - (cx q * cx q + cy q * cy q)) by (field; exact Hg). lra. }
      rewrite <- Es. field. exact Hg. }
    unfold dotR. rewrite Hx, Hy, <- Ers.
    assert (rad - cz q <> 0) by (rewrite Ers; apply Rmult_integral_contrapositive_currified; lra).
    apply Rmult_eq_reg_r with (rad - cz q); [|assumption].
    transitivity (- cz n * (cz v * (cz q - rad) + (cx v * cx q + cy v * cy q))); [field; assumption|].
    replace (cz v * (cz q - rad) + (cx v * cx q + cy v * cy q)) with 0 by lra. ring.
  - cbn [normal] in Hn. rewrite paraboloid_normal_F in Hn by exact Hg. cbv zeta in Hn. apply F3_inj in Hn. subst n.
    cbn in HB, Hg. set (nz := / sqrt _). unfold dotR; cbn [cx cy cz].
    transitivity (- nz * ((cx q * cx v + cy q * cy v) * (1 / rad) - cz v)); [field; exact Hg|]. rewrite HB. ring.
Qed.

(** ** Back on the same line: the same point *)
Lemma on_line_line q v t s : on_line (on_line q v t) (opposite v) s = on_line q v (t - s).
Proof. unfold on_line, opposite. apply vec3_eq; cbn; ring. Qed.
Lemma coef_opposite sh q v : coefB sh q (opposite v) = - coefB sh q v.
Proof. destruct sh; cbn; unfold Rdiv; ring. Qed.
Lemma opp_nonzero v : v <> zeroR -> opposite v <> zeroR.
Proof.
  intros H E. apply H. destruct v as [a b c]. unfold opposite in E; cbn in E.
  injection E; intros. unfold zeroR. f_equal; lra.
Qed.
Lemma opposite_opposite v : opposite (opposite v) = v.
Proof. apply vec3_eq; cbn; ring. Qed.
Lemma by_roots_zero sh q v : good_shape sh -> simple sh -> coefA sh q v <> 0 -> coefC sh q v = 0 -> coefB sh q v <> 0 ->
  exists t, by_roots sh q v = (true, Fin t).
Proof.
  intros Hg Hs HA HC HB. unfold by_roots. rewrite HC.
  destruct (Rlt_dec 0 (coefB sh q v)) as [P|P].
  - rewrite roots_zero_pos by assumption. destruct (pick_fin sh q v (- coefB sh q v / coefA sh q v) 0) as [t E].
    exists t. rewrite E. reflexivity.
  - rewrite roots_zero_neg by lra. destruct sh as [|tx ty|rad|rad|rad k]; try contradiction; cbn [pick_root]; eauto;
    rewrite nmax_nan, nmin_nan; destruct (xltb _ _); eauto.
Qed.
Lemma hit_on sh q v niter : good_shape sh -> simple sh -> whole sh q -> v <> zeroR -> coefB sh q v <> 0 ->
  exists t, hit (Fshape sh) niter (F3 q) (F3 v) = (true, Fin t).
Proof.
  intros Hg Hs W Hv HB. assert (HC := proj2 (whole_start sh q v Hg) W).
  destruct sh as [|tx ty|rad|rad|rad k]; try contradiction.
  - rewrite hit_plane. cbn in HB. destruct (Req_EM_T _ _) as [E|E]; [contradiction|eauto].
  - rewrite hit_sphere. apply by_roots_zero; auto. apply coefA_sphere, Hv.
  - rewrite hit_paraboloid by exact Hg. destruct (Req_EM_T _ 0) as [A|A].
    + rewrite xdiv_fin by exact HB. eauto.
    + apply by_roots_zero; auto.
Qed.
Lemma not_degenerate sh q v p t : good_shape sh -> simple sh -> on_sag (Fshape sh) q -> only_here sh q v ->
  p = on_line q v t -> ~ degenerate sh p (opposite v).
Proof.
  intros Hg Hs Hq Ho -> Hd. destruct sh as [|tx ty|rad|rad|rad k]; try contradiction. cbn in Hd. destruct Hd as [Hd _].
  assert (Hz : cz v = 0) by lra. assert (1 = 0); [|lra]. apply Ho. apply (on_sag_iff ShPlane _ Hg). split; [|exact I].
  apply (on_sag_iff ShPlane _ Hg) in Hq. destruct Hq as [Hq _]. cbn in *. lra.
Qed.
Lemma hit_back sh q v t niter : good_shape sh -> simple sh -> v <> zeroR ->
  on_sag (Fshape sh) q -> only_here sh q v -> coefB sh q v <> 0 ->
  (whole sh (on_line q v t) -> on_line q v t = q) ->
  hit (Fshape sh) niter (F3 (on_line q v t)) (F3 (opposite v)) = (true, Fin t).
Proof.
  intros Hg Hs Hv Hq Ho HB Hp. pose proof (proj1 (on_sag_iff sh q Hg) Hq) as [W V].
  pose proof (opp_nonzero v Hv) as Hv'.
  assert (Back : on_line (on_line q v t) (opposite v) t = q).
  { rewrite on_line_line. replace (t - t) with 0 by ring. apply on_line_0. }
  assert (Hh : exists s, hit (Fshape sh) niter (F3 (on_line q v t)) (F3 (opposite v)) = (true, Fin s)).
  { destruct (Classical_Prop.classic (whole sh (on_line q v t))) as [Hw|Hw].
    - rewrite (Hp Hw). apply hit_on; auto. rewrite coef_opposite. lra.
    - apply hit_real; auto.
      + eapply not_degenerate; eauto.
      + exists t. rewrite Back. exact W. }
  destruct Hh as [s Hh]. pose proof (hit_sound _ _ _ _ _ Hg Hh) as Ws.
  assert (Vs : vertex_part sh (on_line (on_line q v t) (opposite v) s)).
  { eapply hit_near with (t0 := t); eauto.
    - intros Hw. rewrite (Hp Hw). exact V.
    - rewrite Back. exact W. - rewrite Back. exact V.
    - destruct sh; try exact I; contradiction. }
  rewrite on_line_line in Ws, Vs.
  assert (E : t - s = 0) by (apply Ho; apply (on_sag_iff sh _ Hg); split; assumption).
  rewrite Hh. do 2 f_equal. lra.
Qed.

(** ** One interface, one ray *)
Definition obsc1 (o : option (obsc XR)) (r : ray XR) : ray XR :=
  match o with None => r | Some o => ray_obscure o r end.
Definition kernel (niter : nat) (i : iface XR) (reverse : bool) (A B : frame) (r : ray R) : ray XR :=
  let dr := F3 (drR A B) in let d := FM (drotR A B) in
  match i_kind i with
  | KRefractive => ray_refract (i_surf i) dr d (if reverse then i_in i else i_out i) None niter (Fray r)
  | KMirror => ray_reflect (i_surf i) dr d None niter (Fray r)
  | KScreen s => ray_screen (i_surf i) s dr d niter (Fray r)
  | _ => ray_intersect (i_surf i) dr d None niter (Fray r)
  end.
Lemma iface_single niter i reverse A B r : i_cs i = Fcs B ->
  iface_trace niter i reverse (Frv (RV [r] A)) = RV [obsc1 (i_obsc i) (kernel niter i reverse A B r)] (Fcs B).
Proof.
  intros HB. unfold iface_trace, interact, kernel. rewrite HB.
  unfold rv_refract, rv_reflect, rv_screen, rv_intersect, batch, Frv.
  destruct (i_kind i); cbn [rays rvcs dest map]; rewrite ?mkCT_F; cbn [ct_dr ct_drot];
  try destruct reverse; cbn [rays rvcs dest map]; rewrite ?mkCT_F; cbn [ct_dr ct_drot];
  destruct (i_obsc i); reflexivity.
Qed.
Lemma obsc1_fields o r : pos (obsc1 o r) = pos r /\ vel (obsc1 o r) = vel r /\ time (obsc1 o r) = time r /\
  wavelength (obsc1 o r) = wavelength r /\ flux (obsc1 o r) = flux r /\ failed (obsc1 o r) = failed r.
Proof. destruct o; cbn; auto 10. Qed.

(** A ray that comes out unfailed at a real point arrived there. *)
Lemma iface_arrives niter i reverse A B sh r r1 : good_frame A -> real_iface i sh B ->
  iface_trace niter i reverse (Frv (RV [r] A)) = Frv (RV [r1] B) -> failed r1 = false ->
  exists ri, arrives niter (Fshape sh) A B [r] 0 r ri (pos r1).
Proof.
  intros HA [Hsu Hsi Hg Hc HB Hk] Hi Hf. rewrite (iface_single _ _ _ _ _ _ Hc) in Hi.
  apply (f_equal (fun rv => hd (Fray r) (rays rv))) in Hi. cbn [rays hd Frv map] in Hi.
  destruct (obsc1_fields (i_obsc i) (kernel niter i reverse A B r)) as (Ep & _ & _ & _ & _ & Ef).
  rewrite Hi in Ep, Ef. cbn [failed] in Ef. unfold Fray in Ep; cbn [pos] in Ep. fold (Fray r) in Ep.
  change (failed (Fray r1)) with (failed r1) in Ef. rewrite Hf in Ef.
  assert (Live : failed r = false).
  { destruct (failed r) eqn:E; [|reflexivity]. exfalso. revert Ef. unfold kernel.
    destruct (i_kind i) eqn:K; unfold ray_refract, ray_reflect, ray_screen, ray_intersect;
    change (failed (Fray r)) with (failed r); rewrite E; cbn [failed Fray]; rewrite ?E; discriminate. }
  assert (H0 : nth_error [r] 0 = Some r) by reflexivity.
  destruct (hit (Fshape sh) niter (F3 (pos_in A B r)) (F3 (vel_in A B r))) as [[] dt] eqn:Hh.
  - pose proof (intersect_hit _ _ A B [r] 0 r dt HA HB H0 Live Hh) as Hin.
    eexists. constructor; try eassumption; [reflexivity|]. cbn [pos].
    rewrite Ep. unfold kernel. clear - HA HB Hsu Hk Live Hh.
    destruct (i_kind i) as [| | | | |s]; try (exfalso; exact (Hk s eq_refl));
    unfold ray_refract, ray_reflect, ray_intersect; change (failed (Fray r)) with (failed r);
    rewrite Live, Hsu; change (pos (Fray r)) with (F3 (pos r)); change (vel (Fray r)) with (F3 (vel r));
    rewrite fwd_point_in, fwd_vel_in by assumption; rewrite Hh; try reflexivity.
    destruct (orient _ _) as [n al]. destruct (refract_vel _ _ _ _ _); reflexivity.
  - exfalso. revert Ef. unfold kernel.
    destruct (i_kind i) as [| | | | |s]; try (exfalso; exact (Hk s eq_refl));
    unfold ray_refract, ray_reflect, ray_intersect; change (failed (Fray r)) with (failed r);
    rewrite Live, Hsu; change (pos (Fray r)) with (F3 (pos r)); change (vel (Fray r)) with (F3 (vel r));
    rewrite fwd_point_in, fwd_vel_in by assumption; rewrite Hh; discriminate.
Qed.
Lemma obsc1_real o p v t wl fl vig : exists vig',
  obsc1 o (Ray (F3 p) (F3 v) (Fin t) (Fin wl) (Fin fl) vig false) = Fray (Ray p v t wl fl vig' false).
Proof. destruct o; cbn; eexists; reflexivity. Qed.
Lemma kth_kernel {T} (x y : ray T) c : nth_error (rays (RV [x] c)) 0 = Some y -> x = y.
Proof. intros H. injection H. auto. Qed.
Lemma back_arrives niter sh A B C r ri r1 n r2 t :
  arrives niter (Fshape sh) A B [r] 0 r ri (pos r1) -> good_shape sh -> simple sh -> good_frame C ->
  vel r1 <> zeroR -> on_sag (Fshape sh) (pos r1) -> normal_at (Fshape sh) (pos r1) n -> dotR (vel r1) n <> 0 ->
  only_here sh (pos r1) (vel r1) ->
  pos_in C B r2 = on_line (pos r1) (vel r1) t -> vel_in C B r2 = opposite (vel r1) -> failed r2 = false ->
  (whole sh (pos_in C B r2) -> pos_in C B r2 = pos r1) ->
  exists ri2, arrives niter (Fshape sh) C B [r2] 0 r2 ri2 (pos r1) /\ time ri2 = Fin (time r2 + t) /\
    wavelength ri2 = Fin (wavelength r2).
Proof.
  intros Ha Hg Hs HC Hv Hq Hn Hd Ho Hp Hvel Hl Hw.
  assert (Hh : hit (Fshape sh) niter (F3 (pos_in C B r2)) (F3 (vel_in C B r2)) = (true, Fin t)).
  { rewrite Hp, Hvel. rewrite Hp in Hw. apply hit_back; auto. eapply not_tangent; eauto. }
  pose proof (intersect_hit _ _ C B [r2] 0 r2 _ HC (ar_B _ _ _ _ _ _ _ _ _ Ha) eq_refl Hl Hh) as Hin.
  match type of Hin with _ = Some ?x => exists x end.
  split; [|split; reflexivity]. constructor; try eassumption; try reflexivity; [apply Ha|].
  cbn [pos]. rewrite advance_F, Hp, Hvel, on_line_line. replace (t - t) with 0 by ring. rewrite on_line_0. reflexivity.
Qed.
Lemma fray_inj_fields r1 p v t wl fl vig f : Ray (F3 p) (F3 v) t wl fl vig f = Fray r1 ->
  pos r1 = p /\ vel r1 = v.
Proof.
  intros H. split.
  - apply F3_inj. symmetry. exact (f_equal pos H).
  - apply F3_inj. symmetry. exact (f_equal vel H).
Qed.
Lemma step_back niter i A B sh r r1 n C r2 t :
  good_frame A -> real_iface i sh B ->
  iface_trace niter i false (Frv (RV [r] A)) = Frv (RV [r1] B) -> failed r1 = false ->
  vel_in A B r <> zeroR ->
  (i_kind i = KRefractive ->
     getN (i_in i) (Fin (wavelength r)) = Fin (index_of (vel_in A B r)) /\
     exists n2, 0 < n2 /\ getN (i_out i) (Fin (wavelength r)) = Fin n2) ->
  on_sag (Fshape sh) (pos r1) -> normal_at (Fshape sh) (pos r1) n -> dotR (vel r1) n <> 0 ->
  only_here sh (pos r1) (vel r1) ->
  good_frame C -> pos_in C B r2 = on_line (pos r1) (vel r1) t -> vel_in C B r2 = opposite (vel r1) ->
  failed r2 = false -> wavelength r2 = wavelength r ->
  (whole sh (pos_in C B r2) -> pos_in C B r2 = pos r1) ->
  exists r3, iface_trace niter i true (Frv (RV [r2] C)) = Frv (RV [r3] B) /\ pos r3 = pos r1 /\
    vel r3 = opposite (vel_in A B r) /\ failed r3 = false /\ wavelength r3 = wavelength r /\ time r3 = time r2 + t.
Proof.
  intros HA Hri Hi Hf Hv Hm Hq Hn Hd Ho HC Hp Hvel Hl Hwl Hw.
  destruct (iface_arrives _ _ _ _ _ _ _ _ HA Hri Hi Hf) as [ri Ha].
  destruct Hri as [Hsu Hsi Hg Hc HB Hk]. 
  assert (Hv1 : vel r1 <> zeroR).
  { intros E. apply Hd. rewrite E. unfold dotR, zeroR; cbn. ring. }
  destruct (back_arrives niter sh A B C r ri r1 n r2 t Ha Hg Hsi HC Hv1 Hq Hn Hd Ho Hp Hvel Hl Hw) as (ri2 & Ha2 & Ht2 & Hw2).
  rewrite (iface_single _ _ _ _ _ _ Hc) in Hi. rewrite (iface_single _ _ _ _ _ _ Hc).
  apply (f_equal (fun rv => hd (Fray r) (rays rv))) in Hi. cbn [rays hd Frv map] in Hi.
  pose proof (obsc1_fields (i_obsc i) (kernel niter i false A B r)) as (_ & Ev & _ & _ & _ & Ef).
  rewrite Hi in Ev, Ef. change (vel (Fray r1)) with (F3 (vel r1)) in Ev. change (failed (Fray r1)) with (failed r1) in Ef.
  rewrite Hf in Ef. symmetry in Ev, Ef. clear Hi.
  assert (Fin1 : forall vig fl, kernel niter i true C B r2
            = Ray (F3 (pos r1)) (F3 (opposite (vel_in A B r))) (time ri2) (wavelength ri2) (Fin fl) vig false ->
     exists r3, RV [obsc1 (i_obsc i) (kernel niter i true C B r2)] (Fcs B) = Frv (RV [r3] B) /\ pos r3 = pos r1 /\
       vel r3 = opposite (vel_in A B r) /\ failed r3 = false /\ wavelength r3 = wavelength r /\ time r3 = time r2 + t).
  { intros vig fl ->. rewrite Ht2, Hw2, Hwl. destruct (obsc1_real (i_obsc i) (pos r1) (opposite (vel_in A B r)) (time r2 + t) (wavelength r) fl vig) as [vig' ->].
    eexists. split; [unfold Frv; cbn [rays rvcs map]; reflexivity|]. cbn. auto. }
  assert (Pass : (forall b A' r', kernel niter i b A' B r' = ray_intersect (Fshape sh) (F3 (drR A' B)) (FM (drotR A' B)) None niter (Fray r')) ->
     exists r3, RV [obsc1 (i_obsc i) (kernel niter i true C B r2)] (Fcs B) = Frv (RV [r3] B) /\ pos r3 = pos r1 /\
       vel r3 = opposite (vel_in A B r) /\ failed r3 = false /\ wavelength r3 = wavelength r /\ time r3 = time r2 + t).
  { intros HK. pose proof (arrives_hit _ _ _ _ _ _ _ _ _ Ha) as (s & _ & _ & Eri).
    pose proof (arrives_hit _ _ _ _ _ _ _ _ _ Ha2) as (s2 & _ & _ & Eri2).
    pose proof (ar_i _ _ _ _ _ _ _ _ _ Ha) as I1. pose proof (ar_i _ _ _ _ _ _ _ _ _ Ha2) as I2.
    unfold rv_intersect in I1, I2. rewrite (batch_nth _ _ _ _ _ _ (ar_k _ _ _ _ _ _ _ _ _ Ha)) in I1.
    rewrite (batch_nth _ _ _ _ _ _ (ar_k _ _ _ _ _ _ _ _ _ Ha2)) in I2.
    injection I1; intros J1. injection I2; intros J2. rewrite HK in Ev. rewrite J1, Eri in Ev. cbn [vel] in Ev. apply F3_inj in Ev.
    apply (Fin1 (vignetted r2) (flux r2)). rewrite HK, J2. rewrite Hvel, <- Ev in Eri2. rewrite Eri2. reflexivity. }
  destruct (i_kind i) as [| | | | |s] eqn:K.
  - apply Pass. intros. unfold kernel. rewrite K, Hsu. reflexivity.
  - (* refractive *)
    destruct (Hm eq_refl) as [Hin (n2 & Hn2 & Hout)]. 
    assert (K1 : kth 0 (rv_refract niter (Fshape sh) (i_in i) (i_out i) (Some (Fcs B)) (option_map Fcoat None) (Frv (RV [r] A))) (kernel niter i false A B r)).
    { unfold kth, rv_refract. rewrite (batch_nth _ _ _ _ _ _ (ar_k _ _ _ _ _ _ _ _ _ Ha)). unfold kernel. rewrite K, Hsu. reflexivity. }
    assert (K2 : kth 0 (rv_refract niter (Fshape sh) (i_out i) (i_in i) (Some (Fcs B)) (option_map Fcoat None) (Frv (RV [r2] C))) (kernel niter i true C B r2)).
    { unfold kth, rv_refract. rewrite (batch_nth _ _ _ _ _ _ (ar_k _ _ _ _ _ _ _ _ _ Ha2)). unfold kernel. rewrite K, Hsu. reflexivity. }
    rewrite <- Hwl in Hin.
    destruct (refract_reversible niter niter (Fshape sh) _ (i_in i) (i_out i) (i_out i) A B C B [r] [r2] 0 0 r ri r2 ri2 (pos r1) n n2 (vel r1) None None
       _ _ Ha Hn Hv Hout Hn2 K1 Ef Ev Hd Ha2 Hvel Hin K2) as [F2 V2].
    assert (Hv2 : vel_in C B r2 <> zeroR) by (rewrite Hvel; apply opp_nonzero, Hv1).
    pose proof (refract_nth niter (Fshape sh) (i_out i) (i_in i) C B [r2] 0 r2 ri2 (pos r1) n None _ Ha2 Hn Hv2 Hin (index_pos _ Hv)) as RN.
    cbv zeta in RN. pose proof (kth_det _ _ _ _ K2 RN) as E. clear RN.
    destruct (Rlt_dec _ _) in E; [rewrite E in F2; discriminate|].
    rewrite E in V2. cbn [vel] in V2. apply (Fin1 (vignetted r2) (flux r2)). rewrite E, V2. reflexivity.
  - (* mirror *)
    assert (K1 : kth 0 (rv_reflect niter (Fshape sh) (Some (Fcs B)) None (Frv (RV [r] A))) (kernel niter i false A B r)).
    { unfold kth, rv_reflect. rewrite (batch_nth _ _ _ _ _ _ (ar_k _ _ _ _ _ _ _ _ _ Ha)). unfold kernel. rewrite K, Hsu. reflexivity. }
    assert (K2 : kth 0 (rv_reflect niter (Fshape sh) (Some (Fcs B)) None (Frv (RV [r2] C))) (kernel niter i true C B r2)).
    { unfold kth, rv_reflect. rewrite (batch_nth _ _ _ _ _ _ (ar_k _ _ _ _ _ _ _ _ _ Ha2)). unfold kernel. rewrite K, Hsu. reflexivity. }
    pose proof (reflect_reversible niter niter (Fshape sh) A B C B [r] [r2] 0 0 r ri r2 ri2 (pos r1) n (vel r1) _ _ Ha Hn K1 Ev Ha2 Hvel K2) as V2.
    pose proof (reflect_nth niter (Fshape sh) C B [r2] 0 r2 ri2 (pos r1) n None Ha2 Hn (or_introl eq_refl)) as RN.
    cbn [option_map] in RN. pose proof (kth_det _ _ _ _ K2 RN) as E. rewrite E in V2. cbn [vel] in V2.
    apply (Fin1 (vignetted r2) (flux r2)). rewrite E, V2. reflexivity.
  - apply Pass. intros. unfold kernel. rewrite K, Hsu. reflexivity.
  - apply Pass. intros. unfold kernel. rewrite K, Hsu. reflexivity.
  - exfalso. exact (Hk s eq_refl).
Qed.

(** ** Global and local lines *)
Lemma local_line B g d t : local_point B (on_line g d t) = on_line (local_point B g) (local_dir B d) t.
Proof.
  unfold local_point, local_dir, on_line. rewrite <- applyR_times, <- applyR_plus. f_equal.
  apply vec3_eq; cbn; ring.
Qed.
Lemma local_opp B d : local_dir B (opposite d) = opposite (local_dir B d).
Proof. unfold local_dir, opposite. apply applyR_times. Qed.
Lemma local_self B p : good_frame B -> local_point B (global_point B p) = p.
Proof.
  intros H. unfold local_point, global_point.
  replace (minusR (plusR (origin B) (applyR (rot B) p)) (origin B)) with (applyR (rot B) p) by (apply vec3_eq; cbn; ring).
  apply orth_apply_lr, H.
Qed.
Lemma local_dir_self B v : good_frame B -> local_dir B (global_dir B v) = v.
Proof. apply orth_apply_lr. Qed.
Lemma global_self B g : good_frame B -> global_point B (local_point B g) = g.
Proof.
  intros H. unfold local_point, global_point. rewrite orth_apply_rl by exact H. apply vec3_eq; cbn; ring.
Qed.
Lemma global_dir_self B g : good_frame B -> global_dir B (local_dir B g) = g.
Proof. intros H. apply orth_apply_rl, H. Qed.
Lemma global_line B p v t : global_point B (on_line p v t) = on_line (global_point B p) (global_dir B v) t.
Proof.
  unfold global_point, global_dir, on_line. rewrite applyR_plus, applyR_times. apply vec3_eq; cbn; ring.
Qed.
Lemma global_opp B v : global_dir B (opposite v) = opposite (global_dir B v).
Proof. unfold global_dir, opposite. apply applyR_times. Qed.
Lemma line_unique g v a b : v <> zeroR -> on_line g v a = on_line g v b -> a = b.
Proof.
  intros Hv E. destruct (Req_dec a b) as [H|H]; [exact H|]. exfalso. apply Hv.
  unfold on_line, plusR, timesR in E. injection E; intros E3 E2 E1. destruct v as [x y z]; cbn in *.
  assert (F : forall c d, c + a * d = c + b * d -> d = 0).
  { intros c d Hcd. assert ((a - b) * d = 0) by lra. apply Rmult_integral in H0. destruct H0; lra. }
  unfold zeroR. f_equal; eapply F; eassumption.
Qed.
Lemma dir_zero B d : good_frame B -> local_dir B d <> zeroR -> d <> zeroR.
Proof. intros HB H E. apply H. rewrite E. unfold local_dir, zeroR, applyR, plusR, timesR. cbn. f_equal; ring. Qed.

(** ** The whole journey *)
Lemma journey_forward niter is A r sts : journey niter is A r sts ->
  let '(Z, rz) := last sts (A, r) in in_turn niter false is (Frv (RV [r] A)) = Frv (RV [rz] Z).
Proof.
  induction 1 as [A r|i is A r B r1 sts sh n HA Hri Hi Hf Hv Hm Hq Hn Hd Ho Hw HJ IH]; [reflexivity|].
  cbn [in_turn fold_left]. change (fold_left _ is ?x) with (in_turn niter false is x). rewrite Hi.
  destruct sts as [|s sts]; [exact IH|]. replace (last ((B, r1) :: s :: sts) (A, r)) with (last (s :: sts) (B, r1)); [exact IH|].
  clear. revert s. induction sts as [|s2 sts IH]; intros s; [reflexivity|]. cbn [last] in *. exact (IH s2).
Qed.
Lemma last_default {X} (l : list X) s a b : last (s :: l) a = last (s :: l) b.
Proof. revert s. induction l as [|x l IH]; intros s; [reflexivity|]. exact (IH x). Qed.
(** Where and when the next interface is met. *)
Lemma journey_next niter is B r1 sts : good_frame B -> journey niter is B r1 sts ->
  let '(C, rn) := hd (B, r1) sts in good_frame C /\
  exists s, ray_global_pos C rn = on_line (ray_global_pos B r1) (ray_global_vel B r1) s /\ time rn = time r1 + s.
Proof.
  intros HB HJ. destruct HJ as [A r|i is A r C rn sts sh n HA Hri Hi Hf Hv Hm Hq Hn Hd Ho Hw HJ]; cbn [hd].
  - split; [exact HB|]. exists 0. rewrite on_line_0. split; [reflexivity|ring].
  - split; [exact (ri_frame _ _ _ Hri)|].
    destruct (iface_arrives _ _ _ _ _ _ _ _ HA Hri Hi Hf) as [ri Ha].
    destruct (arrives_hit _ _ _ _ _ _ _ _ _ Ha) as (s & Hh & Hpos & Eri). exists s.
    assert (HC := ri_frame _ _ _ Hri). split.
    + unfold ray_global_pos. rewrite Hpos. rewrite global_line. unfold pos_in, vel_in.
      rewrite global_self, global_dir_self by exact HC. reflexivity.
    + assert (Live := ar_live _ _ _ _ _ _ _ _ _ Ha).
      rewrite (iface_single _ _ _ _ _ _ (ri_cs _ _ _ Hri)) in Hi.
      apply (f_equal (fun rv => hd (Fray r) (rays rv))) in Hi. cbn [rays hd Frv map] in Hi.
      destruct (obsc1_fields (i_obsc i) (kernel niter i false A C r)) as (_ & _ & Et & _). rewrite Hi in Et.
      change (time (Fray rn)) with (Fin (time rn)) in Et. apply Fin_inj. rewrite Et.
      unfold kernel. rewrite (ri_surf _ _ _ Hri).
      destruct (i_kind i) as [| | | | |sc] eqn:K; try (exfalso; exact (ri_kind _ _ _ Hri sc K));
      unfold ray_refract, ray_reflect, ray_intersect; change (failed (Fray r)) with (failed r);
      rewrite Live; change (pos (Fray r)) with (F3 (pos r)); change (vel (Fray r)) with (F3 (vel r));
      rewrite fwd_point_in, fwd_vel_in by assumption; rewrite Hh; try reflexivity.
      destruct (orient _ _) as [m al]. destruct (refract_vel _ _ _ _ _); reflexivity.
Qed.
Lemma journey_back niter is A r sts : journey niter is A r sts -> good_frame A -> failed r = false -> forall r2,
  let '(Z, rz) := last sts (A, r) in
  let '(B, r1) := hd (A, r) sts in
  turned rz r2 ->
  exists r3, in_turn niter true (rev is) (Frv (RV [r2] Z)) = Frv (RV [r3] B) /\
    runs_back A r B r3 /\ pos r3 = pos r1 /\ time r3 = time r2 + (time rz - time r1).
Proof.
  induction 1 as [A r|i is A r B r1 sts sh n HA Hri Hi Hf Hv Hm Hq Hn Hd Ho Hw HJ IH]; intros _ Hlive r2.
  - cbn. intros (Tp & Tv & Tf & Tw). exists r2. split; [reflexivity|]. split; [|split; [exact Tp|ring]].
    unfold runs_back, ray_global_vel, ray_global_pos. rewrite Tp, Tv, global_opp. repeat split; auto.
    exists 0. rewrite on_line_0. reflexivity.
  - assert (HB := ri_frame _ _ _ Hri). specialize (IH HB Hf r2).
    assert (EL : last ((B, r1) :: sts) (A, r) = last sts (B, r1)).
    { destruct sts as [|s sts]; [reflexivity|]. exact (last_default sts s (A, r) (B, r1)). }
    rewrite EL. destruct (last sts (B, r1)) as [Z rz]. cbn [hd] in *.
    pose proof (journey_next _ _ _ _ _ HB HJ) as HN. destruct (hd (B, r1) sts) as [C rn]. destruct HN as [HC (s & Sp & St)].
    intros HT. destruct (IH HT) as (r4 & E4 & (F4 & W4 & V4 & (t & P4)) & Pn & T4).
    assert (Gn : ray_global_pos C r4 = ray_global_pos C rn) by (unfold ray_global_pos; rewrite Pn; reflexivity).
    assert (Hv1 : ray_global_vel B r1 <> zeroR).
    { apply (dir_zero B); [exact HB|]. unfold ray_global_vel. rewrite local_dir_self by exact HB.
      intros E. apply Hd. rewrite E. unfold dotR, zeroR; cbn. ring. }
    assert (t = s) as -> by (apply (line_unique (ray_global_pos B r1) _ _ _ Hv1); rewrite <- P4, <- Sp; exact Gn).
    assert (Hp4 : pos_in C B r4 = on_line (pos r1) (vel r1) s).
    { unfold pos_in. change (global_point C (pos r4)) with (ray_global_pos C r4). rewrite P4, local_line.
      unfold ray_global_pos, ray_global_vel. rewrite local_self, local_dir_self by exact HB. reflexivity. }
    assert (Hv4 : vel_in C B r4 = opposite (vel r1)).
    { unfold vel_in. change (global_dir C (vel r4)) with (ray_global_vel C r4). rewrite V4, local_opp.
      unfold ray_global_vel. rewrite local_dir_self by exact HB. reflexivity. }
    assert (Wr : wavelength r1 = wavelength r).
    { rewrite (iface_single _ _ _ _ _ _ (ri_cs _ _ _ Hri)) in Hi.
      apply (f_equal (fun rv => hd (Fray r) (rays rv))) in Hi. cbn [rays hd Frv map] in Hi.
      destruct (obsc1_fields (i_obsc i) (kernel niter i false A B r)) as (_ & _ & _ & Ew & _). rewrite Hi in Ew.
      change (wavelength (Fray r1)) with (Fin (wavelength r1)) in Ew. apply Fin_inj. rewrite Ew.
      unfold kernel. destruct (i_kind i); unfold ray_refract, ray_reflect, ray_intersect, ray_screen; 
      change (failed (Fray r)) with (failed r); rewrite Hlive; destruct (hit _ _ _ _) as [[] dt]; try reflexivity.
      destruct (orient _ _) as [m al]. destruct (refract_vel _ _ _ _ _); reflexivity. }
    assert (Hw' : whole sh (pos_in C B r4) -> pos_in C B r4 = pos r1).
    { replace (pos_in C B r4) with (pos_in C B rn); [exact Hw|]. unfold pos_in. rewrite Pn. reflexivity. }
    destruct (step_back niter i A B sh r r1 n C r4 s HA Hri Hi Hf Hv Hm Hq Hn Hd Ho HC Hp4 Hv4 F4 (eq_trans W4 Wr) Hw')
      as (r3 & E3 & P3 & V3' & F3' & W3 & T3).
    exists r3. cbn [rev]. unfold in_turn in *. rewrite fold_left_app, E4. cbn [fold_left]. split; [exact E3|].
    split; [|split; [exact P3|rewrite T3, T4; lra]].
    destruct (iface_arrives _ _ _ _ _ _ _ _ HA Hri Hi Hf) as [ri Ha].
    destruct (arrives_hit _ _ _ _ _ _ _ _ _ Ha) as (s0 & Hh & Hpos & Eri).
    repeat split; [exact F3'|exact W3| |].
    + unfold ray_global_vel. rewrite V3', global_opp. unfold vel_in. rewrite global_dir_self by exact HB. reflexivity.
    + exists s0. unfold ray_global_pos, ray_global_vel. rewrite P3, Hpos, global_line. unfold pos_in, vel_in.
      rewrite global_self, global_dir_self by exact HB. reflexivity.
Qed.
Lemma optic_reversible niter (o : optic XR) A r sts : journey niter (leaves o) A r sts -> good_frame A -> failed r = false ->
  let '(Z, rz) := last sts (A, r) in
  let '(B, r1) := hd (A, r) sts in
  trace niter o false (Frv (RV [r] A)) = Frv (RV [rz] Z) /\
  forall r2, turned rz r2 -> exists r3,
    trace niter o true (Frv (RV [r2] Z)) = Frv (RV [r3] B) /\
    runs_back A r B r3 /\ pos r3 = pos r1 /\ time r3 = time r2 + (time rz - time r1).
Proof.
  intros HJ HA Hf. pose proof (journey_forward _ _ _ _ _ HJ) as Fw. pose proof (journey_back _ _ _ _ _ HJ HA Hf) as Bk.
  destruct (last sts (A, r)) as [Z rz]. destruct (hd (A, r) sts) as [B r1].
  split; [rewrite trace_in_turn; exact Fw|]. intros r2 HT. rewrite trace_in_turn. exact (Bk r2 HT).
Qed.
