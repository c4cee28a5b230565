(** Families of rays on a plane mirror: a loop, two parameters, a sharp (virtual) image. *)
From Coq Require Import Reals String List ZArith Bool Lra Psatz Lia.
From Verif Require Import Num NumR Vec CoordSys Surface Medium Obscuration Ray Bundle Optic Spec OpticsSpec TreeSpec SurfSpec SlopeProofs
  XRFacts CoordFacts RayFacts RefractProofs OpticsProofs RootFacts IntersectProofs AxialSpec AxialProofs AxialTrace
  SamplesJac MalusSpec MalusProofs MalusFocus SamplesMalus EtendueSpec EtendueProofs.
Import ListNotations.
Open Scope R_scope.

Definition e_mirror : iface XR := IF KMirror Plane "M" (Fcs global_frame) None (ConstM (Fin 1)) (ConstM (Fin 1)) None None false.
(** The ray that leaves (x, 0, 1) downwards with the direction cosine p along x. *)
Definition e_in (x p : R) : ray R := Ray (V3 x 0 1) (V3 p 0 (- sqrt (1 - p * p))) 0 (1/2) 1 false false.
Definition e_out (x p : R) : ray R :=
  Ray (V3 (x + p / sqrt (1 - p * p)) 0 0) (V3 p 0 (sqrt (1 - p * p))) (1 / sqrt (1 - p * p)) (1/2) 1 false false.

Lemma e_root p : -1 < p < 1 -> 0 < sqrt (1 - p * p).
Proof. intros H. apply sqrt_lt_R0. nra. Qed.
Lemma e_ray niter b x p : -1 < p < 1 -> iface_trace niter e_mirror b (Frv (RV [e_in x p] global_frame)) = Frv (RV [e_out x p] global_frame).
Proof.
  intros Hp. pose proof (e_root p Hp) as C. change (Frv (RV [e_in x p] global_frame)) with (RV [Fray (e_in x p)] (Fcs global_frame)).
  set (c := sqrt (1 - p * p)) in *.
  assert (X : plusR (V3 x 0 1) (timesR (1 / c) (V3 p 0 (- c))) = V3 (x + p / c) 0 0) by (apply vec3_eq; cbn; field; lra).
  rewrite (iface_do niter e_mirror b global_frame global_frame (e_in x p) (1 / c) (vel (e_out x p)) ltac:(discriminate) eq_refl eq_refl).
  - rewrite (proj1 (chg_id _)), (proj2 (chg_id _)). cbn [pos vel e_in]. fold c. unfold after. rewrite X.
    change (vignetted (e_in x p) || hidden e_mirror (V3 (x + p / c) 0 0))%bool with false.
    cbn [time wavelength flux e_in]. unfold Frv, e_out; cbn [map rays rvcs vel]. fold c. replace (0 + 1 / c) with (1 / c) by ring. reflexivity.
  - rewrite (proj1 (chg_id _)), (proj2 (chg_id _)). cbn [pos vel e_in]. fold c. change (i_surf e_mirror) with (Fshape ShPlane). rewrite hit_plane. cbn [cz].
    destruct (Req_EM_T (- c) 0) as [Z|Z]; [lra|]. do 2 f_equal. field. lra.
  - rewrite (proj1 (chg_id _)), (proj2 (chg_id _)). cbn [pos vel e_in]. fold c. rewrite X. cbn [bends e_mirror i_kind i_surf cx cy]. exists (V3 0 0 1). split; [reflexivity|].
    unfold reflR, dotR, e_out. fold c. apply vec3_eq; cbn; ring.
Qed.
Lemma dl_root P dP : derivable_pt_lim P 0 dP -> -1 < P 0 < 1 ->
  derivable_pt_lim (fun t => sqrt (1 - P t * P t)) 0 (- (P 0 * dP) / sqrt (1 - P 0 * P 0)).
Proof.
  intros D H. pose proof (e_root _ H) as C. assert (Pz : 0 < 1 - P 0 * P 0) by nra.
  pose proof (dl_minus _ _ _ _ _ (dl_const 1 0) (dl_mult _ _ _ _ _ D D)) as D2. cbv beta in D2.
  eapply dl_val; [apply (derivable_pt_lim_comp (fun t => 1 - P t * P t) sqrt 0 _ _ D2 (derivable_pt_lim_sqrt _ Pz))|].
  field. lra.
Qed.
Lemma stays P dP : derivable_pt_lim P 0 dP -> -1 < P 0 < 1 -> near (fun t => -1 < P t < 1).
Proof.
  intros D H. assert (0 < Rmin (P 0 + 1) (1 - P 0)) by (apply Rmin_pos; lra). destruct (dl_near P 0 dP _ D H0) as (e & He & K).
  exists e. split; [exact He|]. intros t Ht. specialize (K t). rewrite Rplus_0_l in K. specialize (K Ht).
  pose proof (Rmin_l (P 0 + 1) (1 - P 0)). pose proof (Rmin_r (P 0 + 1) (1 - P 0)). apply Rabs_def2 in K. lra.
Qed.
Lemma e_unit p : -1 < p < 1 -> sqrt (1 - p * p) * sqrt (1 - p * p) = 1 - p * p.
Proof. intros. apply sqrt_sqrt. nra. Qed.
Lemma div_rate f g a b : derivable_pt_lim f 0 a -> derivable_pt_lim g 0 b -> g 0 <> 0 -> derivable_pt_lim (fun t => f t / g t) 0 ((a * g 0 - b * f 0) / Rsqr (g 0)).
Proof. intros F G N. apply (derivable_pt_lim_div f g 0 a b F G N). Qed.
Section Fam.
  Context (X P : R -> R) (dX dP : R) (HX : derivable_pt_lim X 0 dX) (HP : derivable_pt_lim P 0 dP) (H0 : -1 < P 0 < 1).
  Local Notation c := (sqrt (1 - P 0 * P 0)).
  Lemma e_out_pos : changes (fun t => pos (e_out (X t) (P t))) (V3 (dX + (dP * c - - (P 0 * dP) / c * P 0) / Rsqr c) 0 0).
  Proof.
    pose proof (e_root _ H0). split; [|split]; cbn [cx cy cz pos e_out]; [|apply dl_const|apply dl_const].
    apply dl_plus; [exact HX|]. apply (div_rate P (fun t => sqrt (1 - P t * P t))); [exact HP|apply dl_root; assumption|lra].
  Qed.
  Lemma e_out_time : derivable_pt_lim (fun t => time (e_out (X t) (P t))) 0 ((0 * c - - (P 0 * dP) / c * 1) / Rsqr c).
  Proof. pose proof (e_root _ H0). cbn [time e_out]. apply (div_rate (fun _ => 1) (fun t => sqrt (1 - P t * P t))); [apply dl_const|apply dl_root; assumption|lra]. Qed.
  Lemma e_in_pos : changes (fun t => pos (e_in (X t) (P t))) (V3 dX 0 0).
  Proof. split; [|split]; cbn [cx cy cz pos e_in]; [exact HX|apply dl_const|apply dl_const]. Qed.
  Lemma e_in_vel : changes (fun t => vel (e_in (X t) (P t))) (V3 dP 0 (P 0 * dP / c)).
  Proof.
    pose proof (e_root _ H0). split; [|split]; cbn [cx cy cz vel e_in]; [exact HP|apply dl_const|].
    eapply dl_val; [apply derivable_pt_lim_opp, (dl_root P dP HP H0)|]. field. lra.
  Qed.
  Lemma e_out_vel : changes (fun t => vel (e_out (X t) (P t))) (V3 dP 0 (- (P 0 * dP) / c)).
  Proof. split; [|split]; cbn [cx cy cz vel e_out]; [exact HP|apply dl_const|apply (dl_root P dP HP H0)]. Qed.
  Lemma e_speed x p : -1 < p < 1 -> dotR (vel (e_in x p)) (vel (e_in x p)) = 1.
  Proof. intros H. unfold dotR; cbn [vel e_in cx cy cz]. pose proof (e_unit p H). nra. Qed.
  Lemma e_carries niter : carries niter false (Iface e_mirror) global_frame (fun t => e_in (X t) (P t)) global_frame (fun t => e_out (X t) (P t)).
  Proof.
    pose proof (stays P dP HP H0) as N. split; [|split].
    - split; [eexists; exact e_in_pos|]. split; [eexists; exact e_in_vel|]. exists 0. exact (dl_const 0 0).
    - split; [apply nonzero_dot; rewrite e_speed by exact H0; lra|]. eapply near_imp; [|exact N]. intros t Ht. split; [reflexivity|].
      rewrite !e_speed by assumption. reflexivity.
    - change (visit false (Iface e_mirror)) with [e_mirror].
      eapply (sweeps_on _ _ e_mirror _ _ _ global_frame (fun t => e_out (X t) (P t)) _ _ Plane); [reflexivity|exact I|reflexivity|exact global_good| | | | |constructor].
      + eapply near_imp; [|exact N]. intros t Ht. split; [apply e_ray, Ht|]. split; reflexivity.
      + intros E. apply (f_equal cz) in E. cbn in E. pose proof (e_root _ H0). lra.
      + split; [eexists; exact e_out_pos|]. split; [eexists; exact e_out_vel|]. eexists; exact e_out_time.
      + intros sc E. discriminate.
  Qed.
End Fam.
Lemma unit_momentum (r : ray R) : dotR (vel r) (vel r) = 1 -> momentum global_frame r = vel r.
Proof.
  intros H. unfold momentum. assert (E : ray_global_vel global_frame r = vel r) by (unfold ray_global_vel, global_dir; apply vec3_eq; cbn; ring).
  rewrite E. apply slow_one, H.
Qed.
Lemma e_out_speed x p : -1 < p < 1 -> dotR (vel (e_out x p)) (vel (e_out x p)) = 1.
Proof. intros H. unfold dotR; cbn [vel e_out cx cy cz]. pose proof (e_unit p H). nra. Qed.

(** ** A loop: the rays go once around an ellipse in position and momentum *)
Definition l_in (s : R) : ray R := e_in (cos s) (sin s / 2).
Definition l_out (s : R) : ray R := e_out (cos s) (sin s / 2).
Definition l_path (s : R) : R := - (s - sin s * cos s) / 4.
Definition l_path1 (s : R) : R := l_path s + 1 / sqrt (1 - sin s / 2 * (sin s / 2)).
Lemma half_sin s : -1 < sin s / 2 < 1.
Proof. pose proof (SIN_bound s). lra. Qed.
Lemma l_X s : derivable_pt_lim (fun t => cos (s + t)) 0 (- sin s).
Proof. apply (dl_to cos). apply derivable_pt_lim_cos. Qed.
Lemma l_P s : derivable_pt_lim (fun t => sin (s + t) / 2) 0 (cos s / 2).
Proof. apply (dl_to (fun x => sin x / 2)). eapply dl_val; [apply dl_mult; [apply derivable_pt_lim_sin|apply dl_const]|cbv beta; field]. Qed.
Lemma l_W s : derivable_pt_lim l_path s (sin s / 2 * - sin s).
Proof.
  unfold l_path, Rdiv. eapply dl_val.
  - apply dl_mult; [apply derivable_pt_lim_opp, dl_minus; [apply derivable_pt_lim_id|apply dl_mult; [apply derivable_pt_lim_sin|apply derivable_pt_lim_cos]]|apply dl_const].
  - cbv beta. pose proof (sin2_cos2 s) as K. unfold Rsqr in K. replace 1 with (sin s * sin s + cos s * cos s) at 1. field.
Qed.
Lemma loop_ok niter s : carries niter false (Iface e_mirror) global_frame (from s l_in) global_frame (from s l_out) /\
  measures global_frame l_in l_path s /\ measures global_frame l_out l_path1 s.
Proof.
  assert (H0 : -1 < (fun t => sin (s + t) / 2) 0 < 1) by apply half_sin.
  assert (C : 0 < sqrt (1 - sin s / 2 * (sin s / 2))) by (apply e_root, half_sin).
  split; [exact (e_carries _ _ _ _ (l_X s) (l_P s) H0 niter)|]. split.
  - exists (V3 (- sin s) 0 0). split.
    + eapply changes_ext; [|exact (e_in_pos _ (fun t => sin (s + t) / 2) _ (l_X s))]. intros t. rewrite global_pos. reflexivity.
    + unfold l_in. rewrite unit_momentum by apply e_speed, half_sin. eapply dl_val; [apply l_W|]. unfold dotR; cbn. ring.
  - pose proof (e_out_pos _ _ _ _ (l_X s) (l_P s) H0) as K. cbv beta in K. rewrite Rplus_0_r in K.
    eexists. split.
    + eapply changes_ext; [|exact K]. intros t. rewrite global_pos. reflexivity.
    + pose proof (e_out_time (fun t => cos (s + t)) _ _ (l_P s) H0) as T. cbv beta in T. rewrite Rplus_0_r in T.
      assert (T1 : derivable_pt_lim (fun x => 1 / sqrt (1 - sin x / 2 * (sin x / 2))) s
        ((0 * sqrt (1 - sin s / 2 * (sin s / 2)) - - (sin s / 2 * (cos s / 2)) / sqrt (1 - sin s / 2 * (sin s / 2)) * 1) / Rsqr (sqrt (1 - sin s / 2 * (sin s / 2)))))
        by (apply (dl_from (fun x => 1 / sqrt (1 - sin x / 2 * (sin x / 2)))); exact T).
      unfold l_out. rewrite unit_momentum by apply e_out_speed, half_sin. eapply dl_val; [apply dl_plus; [apply l_W|exact T1]|].
      pose proof (e_unit _ (half_sin s)) as U. unfold dotR; cbn [vel e_out cx cy cz]. set (c := sqrt _) in *. unfold Rsqr.
      replace (0 * c - - (sin s / 2 * (cos s / 2)) / c * 1) with (sin s / 2 * (cos s / 2) / c) by (field; lra).
      replace (cos s / 2 * c - - (sin s / 2 * (cos s / 2)) / c * (sin s / 2)) with (cos s / 2 * (c * c + sin s / 2 * (sin s / 2)) / c) by (field; lra).
      replace (c * c + sin s / 2 * (sin s / 2)) with 1 by lra. field. lra.
Qed.
Lemma loop_closed : l_in 0 = l_in (2 * PI) /\ l_path (2 * PI) - l_path 0 = - (PI / 2).
Proof. unfold l_in, l_path. rewrite sin_2PI, cos_2PI, sin_0, cos_0. split; [reflexivity|field]. Qed.

(** ** Two parameters: the direction and the place *)
Definition t_in (u v : R) : ray R := e_in v u.
Definition t_out (u v : R) : ray R := e_out v u.
Lemma dl_id0 : derivable_pt_lim (fun t : R => t) 0 1.
Proof. apply derivable_pt_lim_id. Qed.
Lemma t_carries_u niter u v : -1 < u < 1 -> carries niter false (Iface e_mirror) global_frame (from u (fun x => t_in x v)) global_frame (from u (fun x => t_out x v)).
Proof.
  intros H. refine (e_carries (fun _ => v) (fun t => u + t) 0 1 (dl_const _ _) _ _ niter); [|rewrite Rplus_0_r; exact H].
  apply (dl_affine _ u 1). intros; ring.
Qed.
Lemma t_carries_v niter u : -1 < u < 1 -> carries niter false (Iface e_mirror) global_frame (fun v => t_in u v) global_frame (fun v => t_out u v).
Proof. intros H. exact (e_carries (fun t => t) (fun _ => u) 1 0 dl_id0 (dl_const _ _) H niter). Qed.
Lemma near_in (P : R -> Prop) : (forall t, -1 < t < 1 -> P t) -> near P.
Proof. intros H. exists 1. split; [lra|]. intros t Ht. apply H. apply Rabs_def2 in Ht. lra. Qed.
Lemma sqrt_one : sqrt (1 - 0 * 0) = 1.
Proof. replace (1 - 0 * 0) with 1 by ring. apply sqrt_1. Qed.
Lemma t_smooth : twice_smooth global_frame t_in /\ twice_smooth global_frame t_out.
Proof.
  assert (Z : forall w, changes (fun _ : R => w) zeroR) by (intros; repeat split; apply dl_const).
  split.
  - exists (fun _ => V3 0 0 0), (fun _ => V3 1 0 0), (fun _ => 0), (fun _ => 0), zeroR, 0.
    split; [|split; [|split; [apply Z|split; [apply Z|split; apply dl_const]]]].
    + apply near_all. intros v. split; [|exact (dl_const 0 0)]. eapply changes_ext; [|exact (e_in_pos (fun _ => v) (fun t => t) 0 (dl_const v 0))]. intros t. rewrite global_pos. reflexivity.
    + apply near_all. intros u. split; [|exact (dl_const 0 0)]. eapply changes_ext; [|exact (e_in_pos (fun t => t) (fun _ => u) 1 dl_id0)]. intros t. rewrite global_pos. reflexivity.
  - exists (fun _ => V3 1 0 0), (fun _ => V3 1 0 0), (fun _ => 0), (fun _ => 0), zeroR, 0.
    split; [|split; [|split; [apply Z|split; [apply Z|split; apply dl_const]]]].
    + apply near_all. intros v. assert (H0 : -1 < (fun t : R => t) 0 < 1) by lra. split.
      * eapply changes_ext; [|replace (V3 1 0 0) with (V3 (0 + (1 * sqrt (1 - 0 * 0) - - (0 * 1) / sqrt (1 - 0 * 0) * 0) / Rsqr (sqrt (1 - 0 * 0))) 0 0);
          [exact (e_out_pos (fun _ => v) (fun t => t) 0 1 (dl_const v 0) dl_id0 H0)|]]; [intros t; rewrite global_pos; reflexivity|].
        rewrite sqrt_one. unfold Rsqr. f_equal. field.
      * eapply dl_val; [exact (e_out_time (fun _ => v) (fun t => t) 1 dl_id0 H0)|]. cbv beta. rewrite sqrt_one. unfold Rsqr. field.
    + apply near_in. intros u Hu. pose proof (e_root u Hu) as C. split.
      * eapply changes_ext; [|replace (V3 1 0 0) with (V3 (1 + (0 * sqrt (1 - u * u) - - (u * 0) / sqrt (1 - u * u) * u) / Rsqr (sqrt (1 - u * u))) 0 0);
          [exact (e_out_pos (fun t => t) (fun _ => u) 1 0 dl_id0 (dl_const u 0) Hu)|]]; [intros t; rewrite global_pos; reflexivity|].
        unfold Rsqr. f_equal. field. lra.
      * eapply dl_val; [exact (e_out_time (fun t => t) (fun _ => u) 0 (dl_const u 0) Hu)|]. unfold Rsqr. field. lra.
Qed.
Lemma t_etendue : etendue global_frame t_in 1.
Proof.
  assert (H0 : -1 < (fun t : R => t) 0 < 1) by lra.
  exists (V3 1 0 0), (V3 0 0 0), (V3 0 0 0), (V3 1 0 0). split; [|split; [|split; [|split]]].
  - apply (changes_near (fun u => vel (e_in 0 u))).
    + apply near_in. intros u Hu. unfold t_in. rewrite unit_momentum by (apply e_speed; assumption). reflexivity.
    + replace (V3 1 0 0) with (V3 1 0 (0 * 1 / sqrt (1 - 0 * 0))) by (f_equal; rewrite sqrt_one; field). exact (e_in_vel (fun _ => 0) (fun t => t) 1 dl_id0 H0).
  - apply (changes_ext (fun _ => V3 0 0 (- sqrt (1 - 0 * 0)))); [|repeat split; apply dl_const].
    intros v. unfold t_in. rewrite unit_momentum by (apply e_speed; lra). reflexivity.
  - eapply changes_ext; [|exact (e_in_pos (fun _ => 0) (fun t => t) 0 (dl_const 0 0))]. intros t. rewrite global_pos. reflexivity.
  - eapply changes_ext; [|exact (e_in_pos (fun t => t) (fun _ => 0) 1 dl_id0)]. intros t. rewrite global_pos. reflexivity.
  - unfold dotR; cbn. ring.
Qed.
(** The image of (v, 0, 1) is (v, 0, -1), behind the mirror. *)
Definition t_object (v : R) : vR := V3 v 0 1.
Definition t_image (v : R) : vR := V3 v 0 (-1).
Definition t_tau (u v : R) : R := - (1 / sqrt (1 - u * u)).
Lemma t_images niter : near (fun v => forall u, -1 < u < 1 ->
    carries niter false (Iface e_mirror) global_frame (from u (fun x => t_in x v)) global_frame (from u (fun x => t_out x v)) /\
    ray_global_pos global_frame (t_in u v) = t_object v /\ time (t_in u v) = 0 /\ later global_frame (t_out u v) (t_tau u v) = t_image v) /\
  (forall u, -1 < u < 1 -> carries niter false (Iface e_mirror) global_frame (fun v => t_in u v) global_frame (fun v => t_out u v)) /\
  changes t_object (V3 1 0 0) /\ changes t_image (V3 1 0 0).
Proof.
  split; [|split; [|split]].
  - apply near_all. intros v u Hu. split; [apply t_carries_u, Hu|]. split; [rewrite global_pos; reflexivity|]. split; [reflexivity|].
    pose proof (e_root u Hu). unfold later. rewrite global_pos. unfold ray_global_vel, global_dir, t_out, t_tau, t_image, e_out. apply vec3_eq; cbn [cx cy cz pos vel plusR timesR applyR rot global_frame]; cbn; field; lra.
  - intros u Hu. apply t_carries_v, Hu.
  - repeat split; cbn; [apply dl_id0|apply dl_const|apply dl_const].
  - repeat split; cbn; [apply dl_id0|apply dl_const|apply dl_const].
Qed.
