(** Malus' theorem: rays stay perpendicular to their wavefronts. *)
From Coq Require Import Reals List ZArith Bool Lra Psatz Lia.
From Verif Require Import Num NumR Vec CoordSys Surface Medium Obscuration Ray Bundle Optic Spec OpticsSpec XRFacts CoordFacts
  RayFacts NormalFacts RefractProofs OpticsProofs ScreenProofs SurfSpec SlopeProofs TreeSpec TreeProofs MoveProofs AxialProofs AxialTrace AnalysisProofs MalusSpec.
Import ListNotations.
Open Scope R_scope.

(** ** Rates of change *)
Lemma near_and P Q : near P -> near Q -> near (fun t => P t /\ Q t).
Proof.
  intros (d & Hd & HP) (e & He & HQ). exists (Rmin d e). split; [apply Rmin_pos; assumption|].
  intros t Ht. split; [apply HP|apply HQ]; eapply Rlt_le_trans; try exact Ht; [apply Rmin_l|apply Rmin_r].
Qed.
Lemma near_imp (P Q : R -> Prop) : (forall t, P t -> Q t) -> near P -> near Q.
Proof. intros H (d & Hd & HP). exists d. split; [exact Hd|]. auto. Qed.
Lemma near_0 (P : R -> Prop) : near P -> P 0.
Proof. intros (d & Hd & H). apply H. rewrite Rabs_R0. exact Hd. Qed.
Lemma dl_near_ext f g d : near (fun t => f t = g t) -> derivable_pt_lim f 0 d -> derivable_pt_lim g 0 d.
Proof.
  intros (de & Hde & E) H eps He. destruct (H eps He) as [al Hal].
  assert (Hm : 0 < Rmin al de) by (apply Rmin_pos; [apply cond_pos|assumption]).
  exists (mkposreal _ Hm). cbn [pos]. intros h Hh1 Hh2.
  rewrite <- !E; [apply Hal; [exact Hh1|eapply Rlt_le_trans; [exact Hh2|apply Rmin_l]]|rewrite Rabs_R0; assumption|].
  rewrite Rplus_0_l. eapply Rlt_le_trans; [exact Hh2|apply Rmin_r].
Qed.
Lemma dl_minus f g x a b : derivable_pt_lim f x a -> derivable_pt_lim g x b -> derivable_pt_lim (fun t => f t - g t) x (a - b).
Proof. intros. apply (derivable_pt_lim_minus f g); assumption. Qed.
Lemma changes_unique f d d' : changes f d -> changes f d' -> d = d'.
Proof. intros (A & B & C) (A' & B' & C'). apply vec3_eq; eapply uniqueness_limite; eassumption. Qed.
Lemma changes_near f g d : near (fun t => f t = g t) -> changes f d -> changes g d.
Proof.
  intros E (A & B & C). repeat split; eapply dl_near_ext; try eassumption; (eapply near_imp; [|exact E]); cbn; intros t ->; reflexivity.
Qed.
Lemma changes_ext f g d : (forall t, f t = g t) -> changes f d -> changes g d.
Proof. intros E. apply changes_near. exists 1. split; [lra|auto]. Qed.
Lemma changes_apply m f d : changes f d -> changes (fun t => applyR m (f t)) (applyR m d).
Proof.
  intros (A & B & C). unfold applyR, changes; cbn.
  repeat split; repeat apply dl_plus; (eapply dl_val; [apply dl_mult; [eassumption|apply dl_const]|cbn; ring]).
Qed.
Lemma changes_shift f d c : changes f d -> changes (fun t => plusR c (f t)) d.
Proof.
  intros (A & B & C). unfold plusR, changes; cbn.
  repeat split; (eapply dl_val; [apply (dl_plus (fun _ => _)); [apply dl_const|eassumption]|cbn; ring]).
Qed.
Lemma changes_global A f d : changes f d -> changes (fun t => global_point A (f t)) (global_dir A d).
Proof. intros H. apply changes_shift, changes_apply, H. Qed.
Lemma changes_minus f d c : changes f d -> changes (fun t => minusR (f t) c) d.
Proof.
  intros (A & B & C). unfold minusR, changes; cbn. repeat split; apply dl_shift; assumption.
Qed.
Lemma changes_local A f d : changes f d -> changes (fun t => local_point A (f t)) (local_dir A d).
Proof. intros H. apply (changes_apply (transR (rot A))), changes_minus, H. Qed.
Lemma changes_dot f g a b : changes f a -> changes g b -> derivable_pt_lim (fun t => dotR (f t) (g t)) 0 (dotR a (g 0) + dotR (f 0) b).
Proof.
  intros (A & B & C) (A' & B' & C'). unfold dotR. eapply dl_val.
  - repeat apply dl_plus; apply dl_mult; eassumption.
  - cbn. ring.
Qed.
Lemma changes_line p v u dp dv du : changes p dp -> changes v dv -> derivable_pt_lim u 0 du ->
  changes (fun t => plusR (p t) (timesR (u t) (v t))) (plusR dp (plusR (timesR du (v 0)) (timesR (u 0) dv))).
Proof.
  intros (A & B & C) (A' & B' & C') U. unfold plusR, timesR, changes; cbn.
  repeat split; (eapply dl_val; [apply dl_plus; [eassumption|apply dl_mult; eassumption]|cbn; ring]).
Qed.
(** The speed does not change: the velocity only turns. *)
Lemma turns_only rs dv : one_light rs -> changes (fun t => vel (rs t)) dv -> dotR (vel (rs 0)) dv = 0.
Proof.
  intros (_ & N) V. pose proof (changes_dot _ _ _ _ V V) as D.
  assert (Z : derivable_pt_lim (fun _ => dotR (vel (rs 0)) (vel (rs 0))) 0 0) by apply dl_const.
  assert (E : dotR dv (vel (rs 0)) + dotR (vel (rs 0)) dv = 0).
  { eapply uniqueness_limite; [exact D|]. eapply dl_near_ext; [|exact Z]. eapply near_imp; [|exact N]. intros t [_ ->]. reflexivity. }
  unfold dotR in *. lra.
Qed.

(** ** The lag in local coordinates *)
Definition local_lag (rs : R -> ray R) (m : R) : Prop :=
  exists dp dt, changes (fun t => pos (rs t)) dp /\ derivable_pt_lim (fun t => time (rs t)) 0 dt /\
    dt - dotR (slowness (vel (rs 0))) dp = m.
Lemma slow_apply m v : orthonormal m -> slowness (applyR m v) = applyR m (slowness v).
Proof. intros H. unfold slowness. rewrite orth_dot by exact H. apply vec3_eq; cbn; ring. Qed.
Lemma lag_local A rs m : good_frame A -> lag A rs m <-> local_lag rs m.
Proof.
  intros G. split; intros (dp & dt & P & T & E).
  - exists (local_dir A dp), dt. split.
    + eapply changes_ext; [|apply (changes_local A), P]. intros t. unfold ray_global_pos, global_point, local_point. rewrite <- (orth_apply_lr (rot A) (pos (rs t)) G) at 2. f_equal. apply vec3_eq; cbn; ring.
    + split; [exact T|]. rewrite <- E. f_equal. unfold ray_global_vel, global_dir. rewrite slow_apply by exact G.
      rewrite <- (orth_dot (rot A) (slowness (vel (rs 0))) (local_dir A dp) G). f_equal.
      change (applyR (rot A) (local_dir A dp)) with (global_dir A (local_dir A dp)). apply global_of_local_dir, G.
  - exists (global_dir A dp), dt. split; [apply changes_global, P|]. split; [exact T|]. rewrite <- E. f_equal.
    unfold ray_global_vel, global_dir. rewrite slow_apply by exact G. apply orth_dot, G.
Qed.
Lemma lag_unique A rs m m' : lag A rs m -> lag A rs m' -> m = m'.
Proof.
  intros (dp & dt & P & T & <-) (dp' & dt' & P' & T' & <-). rewrite (changes_unique _ _ _ P P'), (uniqueness_limite _ _ _ _ T T'). reflexivity.
Qed.

(** ** Straight flight to the surface, then a bend there *)
Lemma slow_dot v e : dotR (slowness v) e = dotR v e / dotR v v.
Proof. unfold slowness, dotR, Rdiv; cbn. ring. Qed.
Lemma flight_lag rs m (q : R -> vR) (T : R -> R) dq dT : smooth_rays rs -> one_light rs -> local_lag rs m ->
  near (fun t => q t = plusR (pos (rs t)) (timesR (T t - time (rs t)) (vel (rs t)))) ->
  changes q dq -> derivable_pt_lim T 0 dT -> dT - dotR (slowness (vel (rs 0))) dq = m.
Proof.
  intros (_ & (dv & V) & _) L (dp & dt & P & TT & <-) N Q DT.
  pose proof (turns_only rs dv L V) as Z. destruct L as (Nz & _). pose proof (dot_pos _ Nz) as Pz.
  pose proof (changes_line _ _ _ _ _ _ P V (dl_minus _ _ _ _ _ DT TT)) as C.
  assert (E : dq = plusR dp (plusR (timesR (dT - dt) (vel (rs 0))) (timesR (T 0 - time (rs 0)) dv))).
  { eapply changes_unique; [exact Q|]. eapply changes_near; [|exact C]. eapply near_imp; [|exact N]. intros t ->. reflexivity. }
  rewrite !slow_dot, E.
  replace (dotR (vel (rs 0)) (plusR dp (plusR (timesR (dT - dt) (vel (rs 0))) (timesR (T 0 - time (rs 0)) dv))))
    with (dotR (vel (rs 0)) dp + (dT - dt) * dotR (vel (rs 0)) (vel (rs 0)) + (T 0 - time (rs 0)) * dotR (vel (rs 0)) dv)
    by (unfold dotR; cbn; ring).
  rewrite Z. field. lra.
Qed.

(** Rays seen from another frame. *)
Definition seen_from (A B : frame) (r : ray R) : ray R :=
  Ray (pos_in A B r) (vel_in A B r) (time r) (wavelength r) (flux r) (vignetted r) (failed r).
Lemma seen_dot A B r : good_frame A -> good_frame B -> dotR (vel_in A B r) (vel_in A B r) = dotR (vel r) (vel r).
Proof.
  intros GA GB. unfold vel_in, local_dir, global_dir. rewrite orth_dot by (apply orth_trans, GB). apply orth_dot, GA.
Qed.
Lemma nonzero_dot v : dotR v v <> 0 -> v <> zeroR.
Proof. intros H ->. apply H. unfold dotR; cbn; ring. Qed.
Lemma seen_light A B rs : good_frame A -> good_frame B -> one_light rs -> one_light (fun t => seen_from A B (rs t)).
Proof.
  intros GA GB (Nz & N). split.
  - cbn [vel seen_from]. apply nonzero_dot. rewrite seen_dot by assumption. pose proof (dot_pos _ Nz). lra.
  - eapply near_imp; [|exact N]. intros t (W & S). cbn [vel wavelength seen_from]. rewrite !seen_dot by assumption. auto.
Qed.
Lemma seen_smooth A B rs : smooth_rays rs -> smooth_rays (fun t => seen_from A B (rs t)).
Proof.
  intros ((dp & P) & (dv & V) & T). split; [|split; [|exact T]].
  - exists (local_dir B (global_dir A dp)). apply (changes_local B), changes_global, P.
  - exists (local_dir B (global_dir A dv)). apply (changes_apply (transR (rot B))), (changes_apply (rot A)), V.
Qed.
Lemma seen_lag A B rs m : good_frame A -> good_frame B -> lag A rs m -> local_lag (fun t => seen_from A B (rs t)) m.
Proof.
  intros GA GB (dp & dt & P & T & E). apply (lag_local B _ _ GB). exists dp, dt. split.
  - eapply changes_ext; [|exact P]. intros t. unfold ray_global_pos, seen_from, pos_in. cbn [pos]. symmetry. apply global_of_local, GB.
  - split; [exact T|]. rewrite <- E. do 3 f_equal. unfold ray_global_vel, seen_from, vel_in. cbn [vel]. apply global_of_local_dir, GB.
Qed.

(** ** Mirrors, lenses, detectors *)
Lemma bends_slow s i b w p v v' e : i_surf i = Fsurf s -> (forall s, i_kind i <> KScreen s) -> bends i b w p v v' -> v' <> zeroR ->
  (forall n, normal (Fsurf s) (Fin (cx p)) (Fin (cy p)) = F3 n -> dotR n e = 0) ->
  dotR (slowness v') e = dotR (slowness v) e.
Proof.
  intros Hs Hk H Nz Ht. rewrite !slow_dot. unfold bends in H. rewrite Hs in H. destruct (i_kind i) eqn:Ek; try (subst; reflexivity).
  - destruct H as (m & E & Vz & [(k & Ek' & Hk' & Hs2 & ->)|(_ & ->)]); [|congruence].
    specialize (Ht m E). destruct (normal_unit _ _ _ _ E) as (U & _).
    rewrite refr_sq by (auto; apply unit_unit, Vz).
    assert (L : 0 < lenR v) by (apply len_pos, Vz). pose proof (len_sq v) as Ls.
    unfold refrR. cbv zeta. set (F := _ * sideR (unitR v) m). clearbody F. rewrite <- Ls. unfold unitR, index_of.
    transitivity (k * k * (/ k * (/ lenR v / k * (/ lenR v * dotR v e) - F * dotR m e))); [unfold dotR; cbn; field; lra|].
    rewrite Ht. field. lra.
  - destruct H as (m & E & ->). specialize (Ht m E). destruct (normal_unit _ _ _ _ E) as (U & _).
    assert (D : dotR (reflR v m) (reflR v m) = dotR v v).
    { unfold reflR. transitivity (dotR v v - 4 * dotR v m * dotR v m + 4 * dotR v m * dotR v m * dotR m m); [unfold dotR; cbn; ring|]. rewrite U. ring. }
    rewrite D. f_equal. unfold reflR. transitivity (dotR v e - 2 * dotR v m * dotR m e); [unfold dotR; cbn; ring|]. rewrite Ht. ring.
Qed.
Lemma bends_speed i b w p v v' p0 v0 v0' : (forall s, i_kind i <> KScreen s) -> bends i b w p v v' -> bends i b w p0 v0 v0' ->
  v0' <> zeroR -> dotR v v = dotR v0 v0 -> dotR v' v' = dotR v0' v0'.
Proof.
  intros Hk H H0 Nz E. unfold bends in *. destruct (i_kind i) eqn:Ek; try (subst; assumption).
  - destruct H0 as (m0 & N0 & Vz0 & [(k & Ek0 & Hk0 & Hs0 & ->)|(_ & ->)]); [|congruence].
    destruct H as (m & N & Vz & [(k' & Ek' & Hk' & Hs & ->)|(Q & ->)]); [|destruct Q; congruence].
    destruct (normal_unit _ _ _ _ N) as (U & _). destruct (normal_unit _ _ _ _ N0) as (U0 & _).
    rewrite !refr_sq by (auto; apply unit_unit; assumption). congruence.
  - destruct H as (m & N & ->). destruct H0 as (m0 & N0 & ->).
    assert (D : forall v m, dotR m m = 1 -> dotR (reflR v m) (reflR v m) = dotR v v).
    { clear. intros v m U. unfold reflR. transitivity (dotR v v - 4 * dotR v m * dotR v m + 4 * dotR v m * dotR v m * dotR m m); [unfold dotR; cbn; ring|]. rewrite U. ring. }
    destruct (normal_unit _ _ _ _ N) as (U & _). destruct (normal_unit _ _ _ _ N0) as (U0 & _). rewrite !D by assumption. exact E.
Qed.
Definition plain (i : iface XR) : Prop := forall s, i_kind i <> KScreen s.
Lemma plain_step niter b i A rs B rs1 s m : plain i -> i_surf i = Fsurf s -> smooth s -> i_cs i = Fcs B -> good_frame A -> good_frame B ->
  near (fun t => iface_trace niter i b (Frv (RV [rs t] A)) = Frv (RV [rs1 t] B) /\ failed (rs1 t) = false /\ on_sag (i_surf i) (pos (rs1 t))) ->
  vel (rs1 0) <> zeroR -> smooth_rays rs1 -> smooth_rays rs -> one_light rs -> lag A rs m -> one_light rs1 /\ lag B rs1 m.
Proof.
  intros Hk Hs Sm Hc GA GB N Nz S1 S0 L0 Hm.
  assert (K : near (fun t => pos (rs1 t) = plusR (pos_in A B (rs t)) (timesR (time (rs1 t) - time (rs t)) (vel_in A B (rs t))) /\
      wavelength (rs1 t) = wavelength (rs t) /\ bends i b (wavelength (rs t)) (pos (rs1 t)) (vel_in A B (rs t)) (vel (rs1 t)))).
  { eapply near_imp; [|exact N]. intros t (E & F & _).
    destruct (iface_inv niter i b A B _ (rs1 t) _ Hk Hc E F) as (r0 & u & v' & Er & F0 & Eh & Hb & E1).
    apply Fray_inj in Er. subst r0. rewrite E1. unfold after. cbn [pos time wavelength vel].
    rewrite chg_pt_local in * by assumption. rewrite chg_vec_local in *.
    replace (time (rs t) + u - time (rs t)) with u by ring. auto. }
  pose proof S1 as ((dq & Q) & _ & (dT & T)).
  pose proof (flight_lag (fun t => seen_from A B (rs t)) m (fun t => pos (rs1 t)) (fun t => time (rs1 t)) dq dT
    (seen_smooth A B rs S0) (seen_light A B rs GA GB L0) (seen_lag A B rs m GA GB Hm)) as FL.
  cbn [pos vel time seen_from] in FL. specialize (FL (near_imp _ _ (fun t H => proj1 H) K) Q T).
  pose proof (near_0 _ K) as (_ & W0 & B0).
  assert (L1 : one_light rs1).
  { split; [exact Nz|]. destruct L0 as (Z0 & LN). eapply near_imp; [|exact (near_and _ _ K LN)]. cbv beta. intros t ((_ & W & Bt) & Wt & St).
    split; [congruence|]. rewrite Wt in Bt. eapply bends_speed; [exact Hk|exact Bt|exact B0|exact Nz|]. rewrite !seen_dot by assumption. exact St. }
  split; [exact L1|]. apply (lag_local B _ _ GB). exists dq, dT. split; [exact Q|]. split; [exact T|]. rewrite <- FL. f_equal.
  eapply bends_slow; [exact Hs|exact Hk|exact B0|exact Nz|]. intros n Hn. destruct Q as (X & Y & Z).
  destruct (near_imp _ (fun t => on_sag (i_surf i) (pos (rs1 t))) (fun t H => proj2 (proj2 H)) N) as (de & Hde & HS). rewrite Hs in HS.
  destruct dq as [dx dy dz]. eapply (normals_curve s n (fun t => cx (pos (rs1 t))) (fun t => cy (pos (rs1 t))) (fun t => cz (pos (rs1 t))) dx dy dz de);
  eauto.
Qed.

(** ** OPD screens *)
Lemma screen_inv niter i b A B r r1 screen : i_kind i = KScreen screen -> i_cs i = Fcs B -> good_frame A -> good_frame B ->
  iface_trace niter i b (Frv (RV [r] A)) = Frv (RV [r1] B) -> failed r1 = false ->
  exists ri h r', arrives niter (i_surf i) A B [r] 0 r ri (pos r1) /\ sag screen (Fin (cx (pos r1))) (Fin (cy (pos r1))) = Fin h /\
    pos r1 = plusR (pos_in A B r) (timesR (time r1 - h - time r) (vel_in A B r)) /\ wavelength r1 = wavelength r /\
    kth 0 (rv_screen niter (i_surf i) screen (Some (Fcs B)) (Frv (RV [r] A))) r' /\ vel r' = F3 (vel r1).
Proof.
  intros Hk Hc GA GB E F. unfold iface_trace, interact in E. rewrite Hk, Hc in E.
  assert (Ex : exists g, ray_screen (i_surf i) screen (F3 (drR A B)) (FM (drotR A B)) niter (Fray r)
     = Fray (Ray (pos r1) (vel r1) (time r1) (wavelength r1) (flux r1) g false)).
  { unfold rv_screen, batch, dest in E. cbn [rvcs rays map Frv] in E. rewrite mkCT_F in E. cbn [ct_dr ct_drot] in E.
    set (x := ray_screen _ _ _ _ _ _) in *. clearbody x. pose proof (f_equal rays E) as Er. destruct (i_obsc i) as [o|]; cbn in Er.
    - destruct x as [xp xv xt xw xf xg xl]. injection Er as P V T W Fl G L. subst. exists xg. rewrite F. reflexivity.
    - injection Er as ->. exists (vignetted r1). destruct r1; cbn in *; subst; reflexivity. }
  destruct Ex as (g & Ex). pose proof Ex as Es. unfold ray_screen in Ex. cbn [failed Fray pos vel] in Ex.
  destruct (failed r) eqn:Fr; [apply (f_equal failed) in Ex; cbn in Ex; congruence|].
  rewrite fwd_point_F, fwd_vel_F in Ex. fold (chg_pt A B (pos r)) in Ex. fold (chg_vec A B (vel r)) in Ex.
  destruct (hit _ _ _ _) as [[] dt] eqn:Eh; [|apply (f_equal failed) in Ex; cbn in Ex; congruence].
  pose proof (f_equal pos Ex) as E1. pose proof (f_equal vel Ex) as E2. pose proof (f_equal time Ex) as E3. pose proof (f_equal wavelength Ex) as E4.
  cbn [pos vel time wavelength Fray] in *. clear Ex.
  destruct (advance_real _ _ _ _ E1) as (p0 & v0 & u & P & V & ->). apply F3_inj in P, V. subst p0 v0.
  assert (Ea : advance (F3 (chg_pt A B (pos r))) (F3 (chg_vec A B (vel r))) (Fin u) = F3 (plusR (chg_pt A B (pos r)) (timesR u (chg_vec A B (vel r))))).
  { unfold advance. apply vec3_eq; cbn; f_equal; ring. }
  rewrite Ea in *. apply F3_inj in E1. rewrite E1 in *. cbn [F3 vmap cx cy cz] in E3.
  apply add_fin in E3. destruct E3 as (a & h & Ha & Hh & Et). apply add_fin in Ha. destruct Ha as (a1 & a2 & Ha1 & Ha2 & Ha).
  apply Fin_inj in Ha1, Ha2, E4. subst a1 a2.
  rewrite chg_pt_local in * by assumption. rewrite chg_vec_local in *.
  fold (pos_in A B r) in *. fold (vel_in A B r) in *.
  eexists (Ray (F3 (pos r1)) (F3 (vel_in A B r)) (Fin (time r + u)) (Fin (wavelength r)) (Fin (flux r)) (vignetted r) false), h, _.
  split; [|split; [exact Hh|split; [rewrite <- E1; do 2 f_equal; lra|split; [congruence|split]]]].
  - constructor; auto. rewrite (intersect_hit (i_surf i) niter A B [r] 0 r (Fin u) GA GB eq_refl Fr Eh). do 2 f_equal.
    rewrite <- E1. unfold advance. apply vec3_eq; cbn; f_equal; ring.
  - unfold kth, rv_screen, batch, dest. cbn [rvcs rays map Frv]. rewrite mkCT_F. cbn [ct_dr ct_drot nth_error]. rewrite Es. reflexivity.
  - reflexivity.
Qed.
Lemma grad_normal sc x y gx gy : smooth sc -> grad (Fsurf sc) (Fin x) (Fin y) = (Fin gx, Fin gy) -> has_grad (Fsurf sc) x y gx gy.
Proof.
  intros S E. unfold grad in E. pose proof (normal_cz sc x y S) as Z.
  destruct (nisnan _); [discriminate|]. cbn [nopp ndiv NumXR] in E. injection E as E1 E2.
  destruct (xdiv_fin_inv _ _ _ Z E1) as (a & c & Ha & Hc & Hc0 & ->). destruct (xdiv_fin_inv _ _ _ Z E2) as (b & c' & Hb & Hc' & _ & ->).
  assert (c' = c) by congruence. subst c'.
  assert (Oa : cx (normal (Fsurf sc) (Fin x) (Fin y)) = Fin (- a)).
  { destruct (cx (normal (Fsurf sc) (Fin x) (Fin y))); cbn in Ha; try discriminate. injection Ha as <-. f_equal. ring. }
  assert (Ob : cy (normal (Fsurf sc) (Fin x) (Fin y)) = Fin (- b)).
  { destruct (cy (normal (Fsurf sc) (Fin x) (Fin y))); cbn in Hb; try discriminate. injection Hb as <-. f_equal. ring. }
  assert (EN : normal (Fsurf sc) (Fin x) (Fin y) = F3 (V3 (- a) (- b) c)) by (destruct (normal (Fsurf sc) (Fin x) (Fin y)); cbn in *; subst; reflexivity).
  destruct (smooth_ok _ sc (le_n _) S _ _ _ EN) as (_ & G). cbn [cx cy cz] in G.
  replace (- - a / c) with (a / c) in G by (field; exact Hc0). replace (- - b / c) with (b / c) in G by (field; exact Hc0). exact G.
Qed.
Lemma len_one v : dotR v v = 1 -> lenR v = 1.
Proof. unfold lenR. intros ->. apply sqrt_1. Qed.
Lemma unit_one v : dotR v v = 1 -> unitR v = v.
Proof. intros H. unfold unitR. rewrite (len_one v H). apply vec3_eq; cbn; field. Qed.
Lemma slow_one v : dotR v v = 1 -> slowness v = v.
Proof. intros H. unfold slowness. rewrite H. apply vec3_eq; cbn; field. Qed.
Lemma dot_comm a b : dotR a b = dotR b a.
Proof. unfold dotR. ring. Qed.
Lemma screen_step niter b i A rs B rs1 s m screen : i_kind i = KScreen screen -> i_surf i = Fsurf s -> smooth s -> i_cs i = Fcs B -> good_frame A -> good_frame B ->
  near (fun t => iface_trace niter i b (Frv (RV [rs t] A)) = Frv (RV [rs1 t] B) /\ failed (rs1 t) = false /\ on_sag (i_surf i) (pos (rs1 t))) ->
  faces_screen i A B rs rs1 ->
  vel (rs1 0) <> zeroR -> smooth_rays rs1 -> smooth_rays rs -> one_light rs -> lag A rs m -> one_light rs1 /\ lag B rs1 m.
Proof.
  intros Hk Hs Sm Hc GA GB N Hf Nz S1 S0 L0 Hm. destruct (Hf screen Hk) as (sc & -> & Ssc & NF).
  set (h := fun t => match sag (Fsurf sc) (Fin (cx (pos (rs1 t)))) (Fin (cy (pos (rs1 t)))) with Fin r => r | _ => 0 end).
  assert (K : near (fun t => pos (rs1 t) = plusR (pos_in A B (rs t)) (timesR (time (rs1 t) - h t - time (rs t)) (vel_in A B (rs t))) /\
      sag (Fsurf sc) (Fin (cx (pos (rs1 t)))) (Fin (cy (pos (rs1 t)))) = Fin (h t) /\
      wavelength (rs1 t) = wavelength (rs t) /\ dotR (vel (rs1 t)) (vel (rs1 t)) = 1 /\
      exists n gx gy, normal_at (i_surf i) (pos (rs1 t)) n /\ grad (Fsurf sc) (Fin (cx (pos (rs1 t)))) (Fin (cy (pos (rs1 t)))) = (Fin gx, Fin gy) /\
        dotR (vel (rs t)) (vel (rs t)) = 1 /\
        forall e, dotR e n = 0 -> dotR (vel (rs1 t)) e = dotR (vel_in A B (rs t)) e + (gx * cx e + gy * cy e))).
  { eapply near_imp; [|exact (near_and _ _ N NF)]. cbv beta. intros t ((E & F & _) & n & gx & gy & Hn & Hneg & H1 & Hg).
    destruct (screen_inv niter i b A B (rs t) (rs1 t) (Fsurf sc) Hk Hc GA GB E F) as (ri & h0 & r' & Ar & Sg & P & W & Kt & V).
    assert (Eh : h t = h0) by (unfold h; rewrite Sg; reflexivity). rewrite Eh. rewrite Hs in Hn.
    pose proof (smooth_ok _ s (le_n _) Sm _ _ n Hn) as (Cz & _). pose proof (seen_dot A B (rs t) GA GB) as SD. rewrite H1 in SD.
    assert (Vz : vel_in A B (rs t) <> zeroR) by (apply nonzero_dot; rewrite SD; apply R1_neq_R0). rewrite <- Hs in Hn. assert (Cz' : cz n <> 0) by lra.
    destruct (screen_law niter (i_surf i) (Fsurf sc) A B [rs t] 0 (rs t) ri _ n gx gy h0 r' (vel (rs1 t)) Ar Hn (or_intror Cz') Vz Hg Sg Kt V)
      as (_ & Len & Tan & _).
    assert (D1 : dotR (vel (rs1 t)) (vel (rs1 t)) = 1).
    { rewrite <- len_sq, Len, len_sq. exact SD. }
    split; [exact P|]. split; [exact Sg|]. split; [exact W|]. split; [exact D1|]. exists n, gx, gy. split; [exact Hn|]. split; [exact Hg|]. split; [exact H1|].
    intros e He. specialize (Tan e He). rewrite !unit_one in Tan by assumption. rewrite Tan. destruct (dirsign_cases (vel_in A B (rs t)) n) as [[_ ->]|[Q _]]; [ring|lra]. }
  pose proof S1 as ((dq & Q) & _ & (dT & T)).
  pose proof (near_0 _ K) as (_ & _ & _ & D10 & n & gx & gy & Hn & Hg & H1 & Tan).
  assert (Dh : derivable_pt_lim h 0 (gx * cx dq + gy * cy dq)).
  { destruct Q as (X & Y & _). destruct (grad_normal sc _ _ gx gy Ssc Hg _ _ _ _ eq_refl eq_refl X Y) as (f & de & Hde & Hf' & Df).
    eapply dl_near_ext; [|exact Df]. exists de. split; [exact Hde|]. intros t Ht. specialize (Hf' t Ht). cbn beta in Hf'. unfold h. rewrite Hf'. reflexivity. }
  pose proof (flight_lag (fun t => seen_from A B (rs t)) m (fun t => pos (rs1 t)) (fun t => time (rs1 t) - h t) dq (dT - (gx * cx dq + gy * cy dq))
    (seen_smooth A B rs S0) (seen_light A B rs GA GB L0) (seen_lag A B rs m GA GB Hm)) as FL.
  cbn [pos vel time seen_from] in FL. specialize (FL (near_imp _ _ (fun t H => proj1 H) K) Q (dl_minus _ _ _ _ _ T Dh)).
  split.
  - split; [exact Nz|]. destruct L0 as (Z0 & LN). eapply near_imp; [|exact (near_and _ _ K LN)]. cbv beta. intros t ((_ & _ & W & Dt & _) & Wt & _).
    pose proof (near_0 _ K) as (_ & _ & W0 & _). split; congruence.
  - apply (lag_local B _ _ GB). exists dq, dT. split; [exact Q|]. split; [exact T|]. rewrite <- FL.
    rewrite !slow_one by (rewrite ?seen_dot by assumption; assumption).
    rewrite (Tan dq); [ring|]. rewrite dot_comm. pose proof Q as (X & Y & Z).
    destruct (near_imp _ (fun t => on_sag (i_surf i) (pos (rs1 t))) (fun t H => proj2 (proj2 H)) N) as (de & Hde & HS). rewrite Hs in HS. unfold normal_at in Hn. rewrite Hs in Hn.
    destruct dq as [dx dy dz]. eapply (normals_curve s n (fun t => cx (pos (rs1 t))) (fun t => cy (pos (rs1 t))) (fun t => cz (pos (rs1 t))) dx dy dz de);
    eauto.
Qed.

(** ** Whole optics *)
Lemma screen_or_plain (i : iface XR) : (exists s, i_kind i = KScreen s) \/ plain i.
Proof. unfold plain. destruct (i_kind i) eqn:E; eauto; right; intros; discriminate. Qed.
Lemma sweeps_lag niter b is A rs B rs1 m : sweeps niter b is A rs B rs1 -> good_frame A -> smooth_rays rs -> one_light rs -> lag A rs m ->
  lag B rs1 m /\ good_frame B /\ smooth_rays rs1 /\ one_light rs1 /\
  near (fun t => in_turn niter b is (Frv (RV [rs t] A)) = Frv (RV [rs1 t] B)).
Proof.
  induction 1 as [A rs|i is A rs B rs1 C rs2 s Hs Sm Hc GB N Nz S1 Hf Hsw IH]; intros GA S0 L0 Hm.
  - split; [exact Hm|]. split; [exact GA|]. split; [exact S0|]. split; [exact L0|]. exists 1. split; [lra|reflexivity].
  - assert (K : one_light rs1 /\ lag B rs1 m).
    { destruct (screen_or_plain i) as [[sc Hk]|Hk].
      - eapply screen_step; eassumption.
      - eapply plain_step; eassumption. }
    destruct K as (L1 & M1). destruct (IH GB S1 L1 M1) as (M2 & GC & S2 & L2 & N2). split; [exact M2|]. split; [exact GC|]. split; [exact S2|]. split; [exact L2|].
    eapply near_imp; [|exact (near_and _ _ N N2)]. cbv beta. intros t ((E & _) & E2). unfold in_turn in *. cbn [fold_left]. rewrite E. exact E2.
Qed.
Lemma has_lag A rs : smooth_rays rs -> exists m, lag A rs m.
Proof. intros ((dp & P) & _ & (dt & T)). eexists. exists (global_dir A dp), dt. split; [apply changes_global, P|]. split; [exact T|reflexivity]. Qed.
(** C86 *)
Theorem malus niter (o : optic XR) b A rs B rs1 : sweeps niter b (visit b o) A rs B rs1 -> good_frame A -> smooth_rays rs -> one_light rs ->
  near (fun t => trace niter o b (Frv (RV [rs t] A)) = Frv (RV [rs1 t] B)) /\
  (forall m, lag A rs m <-> lag B rs1 m) /\ (wavefront_at A rs <-> wavefront_at B rs1).
Proof.
  intros Hsw GA S0 L0. destruct (has_lag A rs S0) as (m0 & M0). destruct (sweeps_lag _ _ _ _ _ _ _ m0 Hsw GA S0 L0 M0) as (M1 & _ & _ & _ & N).
  assert (E : forall m, lag A rs m <-> lag B rs1 m).
  { intros m. split; intros H; [rewrite (lag_unique _ _ _ _ H M0)|rewrite (lag_unique _ _ _ _ H M1)]; assumption. }
  split; [|split; [exact E|apply E]]. eapply near_imp; [|exact N]. cbv beta. intros t Ht. rewrite trace_in_turn. exact Ht.
Qed.
