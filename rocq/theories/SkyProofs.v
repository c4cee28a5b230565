(** C93: sidereal time and horizon coordinates. *)
From Coq Require Import Reals ZArith Lra Psatz Lia.
From Verif Require Import Num NumR Vec CoordSys Trig Parse Spec XRFacts CoordFacts FrameProofs MoveProofs ParseLast Fourier Sky SkySpec.
Open Scope R_scope.

(** *** atan2 *)
Lemma atan_unit s c : s * s + c * c = 1 -> 0 < c -> sin (atan (s / c)) = s /\ cos (atan (s / c)) = c.
Proof.
  intros H Hc. rewrite sin_atan, cos_atan.
  assert (E : sqrt (1 + (s / c)²) = / c).
  { rewrite <- (sqrt_Rsqr (/ c)) by (left; apply Rinv_0_lt_compat, Hc). f_equal. unfold Rsqr. field_simplify_eq; nra. }
  rewrite E. split; field; lra.
Qed.
Lemma atan2_unit s c : s * s + c * c = 1 ->
  sin (atan2R s c) = s /\ cos (atan2R s c) = c /\ - PI < atan2R s c <= PI.
Proof.
  intros H. pose proof PI_RGT_0. unfold atan2R. destruct (Rlt_dec 0 c) as [Hc|Hc].
  - destruct (atan_unit s c H Hc) as [-> ->]. pose proof (atan_bound (s / c)). split; [reflexivity|]. split; [reflexivity|lra].
  - destruct (Rlt_dec c 0) as [Hc'|Hc'].
    + destruct (atan_unit (- s) (- c)) as [E1 E2]; [lra|lra|]. replace (- s / - c) with (s / c) in * by (field; lra).
      pose proof (atan_bound (s / c)) as B. destruct (Rle_dec 0 s) as [Hs|Hs].
      * rewrite neg_sin, neg_cos, E1, E2. split; [ring|]. split; [ring|]. split; [lra|].
        assert (s / c <= 0).
        { unfold Rdiv. assert (/ c < 0) by (apply Rinv_lt_0_compat; lra). nra. }
        assert (atan (s / c) <= 0).
        { destruct (Rle_lt_or_eq_dec _ _ H1) as [L|E]; [left; rewrite <- atan_0; apply atan_increasing, L|rewrite E, atan_0; lra]. }
        lra.
      * replace (atan (s / c) - PI) with (atan (s / c) + PI + 2 * PI * IZR (-1)) by ring.
        rewrite sin_period_Z, cos_period_Z, neg_sin, neg_cos, E1, E2. split; [ring|]. split; [ring|].
        assert (0 < s / c).
        { unfold Rdiv. assert (/ c < 0) by (apply Rinv_lt_0_compat; lra). nra. }
        assert (0 < atan (s / c)) by (rewrite <- atan_0; apply atan_increasing; lra). lra.
    + assert (c = 0) by lra. subst c. assert (Hs : s * s = 1) by lra. destruct (Rlt_dec 0 s).
      * assert (s = 1) by nra. subst s. rewrite sin_PI2, cos_PI2. lra.
      * destruct (Rlt_dec s 0); [|nra]. assert (s = -1) by nra. subst s. rewrite sin_neg, cos_neg, sin_PI2, cos_PI2. lra.
Qed.
Lemma angle_unique a b : - PI < a <= PI -> - PI < b <= PI -> sin a = sin b -> cos a = cos b -> a = b.
Proof.
  intros Ha Hb Es Ec. destruct (Rle_lt_dec 0 a) as [A|A].
  - destruct (Rle_lt_dec 0 b) as [B|B]; [apply cos_inj; lra|]. exfalso.
    assert (sin (- b) > 0) by (apply sin_gt_0; lra). assert (0 <= sin a) by (apply sin_ge_0; lra). rewrite sin_neg in H. lra.
  - destruct (Rle_lt_dec 0 b) as [B|B].
    + exfalso. assert (sin (- a) > 0) by (apply sin_gt_0; lra). assert (0 <= sin b) by (apply sin_ge_0; lra). rewrite sin_neg in H. lra.
    + assert (- a = - b); [|lra]. apply cos_inj; try lra. rewrite !cos_neg. exact Ec.
Qed.
Lemma angle_reduce x : exists k : Z, - PI < x + 2 * PI * IZR k <= PI.
Proof.
  pose proof PI_RGT_0 as HP. set (u := (PI - x) / (2 * PI)). exists (Int_part u). pose proof (base_Int_part u) as [B1 B2].
  assert (E : u * (2 * PI) = PI - x) by (unfold u; field; lra). nra.
Qed.
Lemma angle_turns a b : sin a = sin b -> cos a = cos b -> exists k : Z, a = b + 2 * PI * IZR k.
Proof.
  intros Es Ec. destruct (angle_reduce a) as [k Hk]. destruct (angle_reduce b) as [m Hm].
  exists (m - k)%Z. rewrite minus_IZR.
  assert (a + 2 * PI * IZR k = b + 2 * PI * IZR m); [|lra].
  apply angle_unique; try assumption; rewrite ?sin_period_Z, ?cos_period_Z; assumption.
Qed.

(** *** The change of coordinates, in radians *)
Section Core.
  Context (h d f : R) (Hf : cos f <> 0).
  Let u := sin d * sin f + cos d * cos f * cos h.
  Let n := sin d * cos f - cos d * cos h * sin f.
  Let w := cos d * sin h.
  Let alt := asin u.
  Let az := atan2R (- sin h * cos d / cos alt) ((sin d - u * sin f) / (cos alt * cos f)).
  Lemma unit_sum : n * n + w * w + u * u = 1.
  Proof.
    pose proof (sin2_cos2 h) as A. pose proof (sin2_cos2 d) as B. pose proof (sin2_cos2 f) as C. unfold Rsqr in *. unfold n, w, u.
    replace (_ + _ + _) with
      (sin d * sin d * (sin f * sin f + cos f * cos f) + cos d * cos d * (cos h * cos h * (sin f * sin f + cos f * cos f) + sin h * sin h)) by ring.
    rewrite C. rewrite !Rmult_1_r. replace (cos h * cos h + sin h * sin h) with 1 by lra. lra.
  Qed.
  Lemma u_range : -1 <= u <= 1.
  Proof. pose proof unit_sum. nra. Qed.
  Lemma sin_alt : sin alt = u.
  Proof. apply sin_asin, u_range. Qed.
  Lemma cos_alt_sq : cos alt * cos alt = n * n + w * w.
  Proof. pose proof unit_sum. pose proof (sin2_cos2 alt) as A. unfold Rsqr in A. rewrite sin_alt in A. lra. Qed.
  Lemma horizon_core : cos alt <> 0 ->
    sin alt = u /\ cos alt * cos az = n /\ cos alt * sin az = - w /\ - (PI / 2) <= alt <= PI / 2 /\ - PI < az <= PI.
  Proof.
    intros Ha. pose proof cos_alt_sq as E.
    assert (Ec : (sin d - u * sin f) / (cos alt * cos f) = n / cos alt).
    { unfold n, u. pose proof (sin2_cos2 f) as C. unfold Rsqr in C.
      replace (sin d - (sin d * sin f + cos d * cos f * cos h) * sin f) with (cos f * (sin d * cos f - cos d * cos h * sin f)); [field; split; assumption|].
      replace (sin d - _) with (sin d * (1 - sin f * sin f) - cos d * cos f * cos h * sin f) by ring. replace (1 - sin f * sin f) with (cos f * cos f) by lra. ring. }
    destruct (atan2_unit (- sin h * cos d / cos alt) ((sin d - u * sin f) / (cos alt * cos f))) as (S & C & B).
    { rewrite Ec. unfold Rdiv. replace (- sin h * cos d) with (- w) by (unfold w; ring).
      replace (_ + _) with ((n * n + w * w) * (/ cos alt * / cos alt)) by ring. rewrite <- E. field. exact Ha. }
    fold az in S, C, B. split; [exact sin_alt|]. split; [rewrite C, Ec; field; exact Ha|].
    split; [rewrite S; unfold w; field; exact Ha|]. split; [apply asin_bound|exact B].
  Qed.
End Core.

(** *** The functions on real inputs *)
Definition code_angle (jd : R) : R :=
  let t := jd / 36525 in
  280.46061837 + 360.98564736629 * (jd - 2451545) + 0.000387933 * t * t - t * t * t / 38710000.
Definition lstR (jd lon : R) : R := pymodR (code_angle jd + lon) 360.
Lemma lst_F jd lon : lst (Fin jd) (Fin lon) = Fin (lstR jd lon).
Proof.
  unfold lst. cbv zeta. xunf. rewrite !xdiv_fin by lra. cbn [xmul xadd xsub]. rewrite !xdiv_fin by lra. cbn [xmul xadd xsub npymod ClockXR].
  destruct (Req_EM_T 360 0) as [E|_]; [lra|]. f_equal.
Qed.
Lemma lstR_spec jd lon : 0 <= lstR jd lon < 360 /\ whole_turns (lstR jd lon) (code_angle jd + lon).
Proof.
  unfold lstR, pymodR. set (a := code_angle jd + lon). split.
  - pose proof (base_Int_part (a / 360)) as [B1 B2]. assert (a / 360 * 360 = a) by field. lra.
  - exists (- Int_part (a / 360))%Z. rewrite opp_IZR. ring.
Qed.
Lemma deg2rad_F x : deg2rad (Fin x) = Fin (rad x).
Proof. unfold deg2rad. xunf. unfold npi, TrigXR. rewrite xdiv_fin by lra. reflexivity. Qed.
Lemma rad2deg_F x : rad2deg (Fin x) = Fin (x * (180 / PI)).
Proof. unfold rad2deg. xunf. unfold npi, TrigXR. rewrite xdiv_fin by (pose proof PI_RGT_0; lra). reflexivity. Qed.
Lemma rad_deg x : rad (x * (180 / PI)) = x.
Proof. unfold rad. field. pose proof PI_RGT_0. lra. Qed.
Lemma nasin_F x : -1 <= x <= 1 -> nasin (Fin x) = Fin (asin x).
Proof. intros H. unfold nasin, TrigXR, xlift1. destruct (Rle_dec (-1) x); [|lra]. destruct (Rle_dec x 1); [reflexivity|lra]. Qed.
Definition altR (h d f : R) : R := asin (sin d * sin f + cos d * cos f * cos h).
Definition azR (h d f : R) : R :=
  atan2R (- sin h * cos d / cos (altR h d f)) ((sin d - (sin d * sin f + cos d * cos f * cos h) * sin f) / (cos (altR h d f) * cos f)).
Lemma eq_to_az_F ra dec jd lat lon : let h := rad (lstR jd lon) - rad ra in
  cos (rad lat) <> 0 -> cos (altR h (rad dec) (rad lat)) <> 0 ->
  eq_to_az (Fin ra) (Fin dec) (Fin jd) (Fin lat) (Fin lon) = (Fin (altR h (rad dec) (rad lat) * (180 / PI)), Fin (azR h (rad dec) (rad lat) * (180 / PI))).
Proof.
  intros h Hf Ha. unfold eq_to_az. cbv zeta. rewrite lst_F, !deg2rad_F. xunf. unfold nsin, ncos, natan2, TrigXR, ClockXR. cbn [xlift xmul xadd xsub xopp].
  fold h. change (xlift1 asin) with (@nasin XR _). rewrite nasin_F by apply u_range. fold (altR h (rad dec) (rad lat)). cbn [xlift xmul].
  rewrite !xdiv_fin by (try exact Ha; apply Rmult_integral_contrapositive_currified; assumption). fold (azR h (rad dec) (rad lat)).
  rewrite !rad2deg_F. reflexivity.
Qed.
Lemma az_to_eq_F alt az jd lat lon : cos (rad lat) <> 0 -> cos (altR (rad az) (rad alt) (rad lat)) <> 0 ->
  az_to_eq (Fin alt) (Fin az) (Fin jd) (Fin lat) (Fin lon) =
  (Fin ((rad (lstR jd lon) - azR (rad az) (rad alt) (rad lat)) * (180 / PI)), Fin (altR (rad az) (rad alt) (rad lat) * (180 / PI))).
Proof.
  intros Hf Ha. unfold az_to_eq. cbv zeta. rewrite lst_F, !deg2rad_F. xunf. unfold nsin, ncos, natan2, TrigXR, ClockXR. cbn [xlift xmul xadd xsub xopp].
  change (xlift1 asin) with (@nasin XR _). rewrite nasin_F by apply u_range. fold (altR (rad az) (rad alt) (rad lat)). cbn [xlift xmul xsub].
  rewrite !xdiv_fin by (try exact Ha; apply Rmult_integral_contrapositive_currified; assumption).
  assert (E : sin (altR (rad az) (rad alt) (rad lat)) = sin (rad alt) * sin (rad lat) + cos (rad alt) * cos (rad lat) * cos (rad az)) by apply sin_alt.
  rewrite E. fold (azR (rad az) (rad alt) (rad lat)). cbn [xsub]. rewrite !rad2deg_F. reflexivity.
Qed.
Lemma coreR h d f : cos f <> 0 -> cos (altR h d f) <> 0 ->
  sin (altR h d f) = sin d * sin f + cos d * cos f * cos h /\ cos (altR h d f) * cos (azR h d f) = sin d * cos f - cos d * cos h * sin f /\
  cos (altR h d f) * sin (azR h d f) = - (cos d * sin h) /\ - (PI / 2) <= altR h d f <= PI / 2 /\ - PI < azR h d f <= PI.
Proof. intros Hf Ha. exact (horizon_core h d f Hf Ha). Qed.
Lemma half_open a : - (PI / 2) <= a <= PI / 2 -> cos a <> 0 -> - (PI / 2) < a < PI / 2.
Proof.
  intros H Hc. destruct (Req_dec a (PI / 2)) as [->|]; [rewrite cos_PI2 in Hc; lra|].
  destruct (Req_dec a (- (PI / 2))) as [->|]; [rewrite cos_neg, cos_PI2 in Hc; lra|]. lra.
Qed.
Lemma deg_range a : - (PI / 2) < a < PI / 2 -> -90 < a * (180 / PI) < 90.
Proof.
  intros H. pose proof PI_RGT_0 as HP. assert (K : 0 < 180 / PI) by (apply Rdiv_lt_0_compat; lra).
  assert (E : PI / 2 * (180 / PI) = 90) by (field; lra). nra.
Qed.
Lemma deg_range2 a : - PI < a <= PI -> -180 < a * (180 / PI) <= 180.
Proof.
  intros H. pose proof PI_RGT_0 as HP. assert (K : 0 < 180 / PI) by (apply Rdiv_lt_0_compat; lra).
  assert (E : PI * (180 / PI) = 180) by (field; lra). nra.
Qed.
Lemma rad_range a : -90 < a < 90 -> - (PI / 2) < rad a < PI / 2.
Proof. intros H. unfold rad. pose proof PI_RGT_0 as HP. nra. Qed.
Lemma rad_range2 a : -180 < a <= 180 -> - PI < rad a <= PI.
Proof. intros H. unfold rad. pose proof PI_RGT_0 as HP. nra. Qed.
Lemma rad_sub a b : rad a - rad b = rad (a - b).
Proof. unfold rad. ring. Qed.
Lemma rad_inj a b : rad a = rad b -> a = b.
Proof. intros H. unfold rad in H. apply (Rmult_eq_reg_r (PI / 180)); [exact H|]. pose proof PI_RGT_0. lra. Qed.
(** Components of a star along north, west, up. *)
Lemma comps ra dec lat th : let h := rad th - rad ra in
  dotR (star_dir ra dec) (north lat th) = sin (rad dec) * cos (rad lat) - cos (rad dec) * cos h * sin (rad lat) /\
  dotR (star_dir ra dec) (west th) = cos (rad dec) * sin h /\
  dotR (star_dir ra dec) (up lat th) = sin (rad dec) * sin (rad lat) + cos (rad dec) * cos (rad lat) * cos h.
Proof.
  intros h. subst h. rewrite cos_minus, sin_minus. unfold dotR, star_dir, north, west, up, star_dir; cbn [cx cy cz]. repeat split; ring.
Qed.
Lemma not_zenith u a : sin a = u -> Rabs u <> 1 -> cos a <> 0.
Proof.
  intros <- H E. apply H. pose proof (sin2_cos2 a) as S. rewrite E in S. unfold Rsqr in S.
  assert (sin a * sin a = 1) by lra. destruct (Rcase_abs (sin a)); [rewrite Rabs_left|rewrite Rabs_right]; nra.
Qed.
Lemma horizon_of_star ra dec jd lat lon th : cos (rad lat) <> 0 -> lst (Fin jd) (Fin lon) = Fin th ->
  Rabs (dotR (star_dir ra dec) (up lat th)) <> 1 ->
  exists alt az, eq_to_az (Fin ra) (Fin dec) (Fin jd) (Fin lat) (Fin lon) = (Fin alt, Fin az) /\
    -90 < alt < 90 /\ -180 < az <= 180 /\ same_star lat th ra dec alt az.
Proof.
  intros Hf Hl Hz. rewrite lst_F in Hl. injection Hl as <-.
  destruct (comps ra dec lat (lstR jd lon)) as (C1 & C2 & C3). cbv zeta in *. rewrite C3 in Hz.
  set (h := rad (lstR jd lon) - rad ra) in *.
  assert (Ha : cos (altR h (rad dec) (rad lat)) <> 0) by (eapply not_zenith; [apply sin_alt|exact Hz]).
  destruct (coreR h (rad dec) (rad lat) Hf Ha) as (S & Cn & Cw & B1 & B2).
  do 2 eexists. split; [apply eq_to_az_F; assumption|]. split; [apply deg_range, half_open; assumption|]. split; [apply deg_range2, B2|].
  unfold same_star. rewrite C1, C2, C3. unfold horizon_dir; cbn [cx cy cz]. rewrite !rad_deg. fold h. rewrite Cn, Cw, S. repeat split; ring.
Qed.
Lemma star_of_horizon alt az jd lat lon th : cos (rad lat) <> 0 -> lst (Fin jd) (Fin lon) = Fin th ->
  Rabs (dotR (horizon_dir alt az) (horizon_dir lat 0)) <> 1 ->
  exists ra dec, az_to_eq (Fin alt) (Fin az) (Fin jd) (Fin lat) (Fin lon) = (Fin ra, Fin dec) /\
    -90 < dec < 90 /\ th - 180 <= ra < th + 180 /\ same_star lat th ra dec alt az.
Proof.
  intros Hf Hl Hz. rewrite lst_F in Hl. injection Hl as <-.
  assert (Ha : cos (altR (rad az) (rad alt) (rad lat)) <> 0).
  { eapply not_zenith; [apply sin_alt|]. intros E. apply Hz. rewrite <- E. f_equal. unfold dotR, horizon_dir; cbn [cx cy cz].
    replace (rad 0) with 0 by (unfold rad; ring). rewrite sin_0, cos_0. ring. }
  destruct (coreR (rad az) (rad alt) (rad lat) Hf Ha) as (S & Cn & Cw & B1 & B2). pose proof PI_RGT_0 as HP.
  do 2 eexists. split; [apply az_to_eq_F; assumption|]. split; [apply deg_range, half_open; assumption|]. split.
  - pose proof (deg_range2 _ B2) as B. rewrite Rmult_minus_distr_r. replace (rad (lstR jd lon) * (180 / PI)) with (lstR jd lon) by (unfold rad; field; lra). lra.
  - match goal with |- same_star _ _ ?r ?d _ _ => destruct (comps r d lat (lstR jd lon)) as (C1 & C2 & C3) end. cbv zeta in *.
    rewrite !rad_deg in C1, C2, C3.
    replace (rad (lstR jd lon) - (rad (lstR jd lon) - azR (rad az) (rad alt) (rad lat))) with (azR (rad az) (rad alt) (rad lat)) in C1, C2, C3 by ring.
    pose proof (sin2_cos2 (rad lat)) as T. unfold Rsqr in T.
    unfold same_star. rewrite C1, C2, C3. unfold horizon_dir; cbn [cx cy cz]. split; [|split].
    + rewrite S. replace (cos (altR (rad az) (rad alt) (rad lat)) * cos (azR (rad az) (rad alt) (rad lat)) * sin (rad lat))
        with ((sin (rad alt) * cos (rad lat) - cos (rad alt) * cos (rad az) * sin (rad lat)) * sin (rad lat)) by (rewrite <- Cn; ring).
      transitivity (cos (rad alt) * cos (rad az) * (sin (rad lat) * sin (rad lat) + cos (rad lat) * cos (rad lat))); [ring|rewrite T; ring].
    + rewrite Cw. ring.
    + rewrite S. transitivity ((sin (rad alt) * sin (rad lat) + cos (rad alt) * cos (rad lat) * cos (rad az)) * sin (rad lat) +
         (cos (altR (rad az) (rad alt) (rad lat)) * cos (azR (rad az) (rad alt) (rad lat))) * cos (rad lat)); [ring|]. rewrite Cn.
      transitivity (sin (rad alt) * (sin (rad lat) * sin (rad lat) + cos (rad lat) * cos (rad lat))); [ring|rewrite T; ring].
Qed.
(** A star determines its coordinates. *)
Lemma same_star_back lat th ra dec alt az : same_star lat th ra dec alt az ->
  sin (rad dec) = sin (rad alt) * sin (rad lat) + cos (rad alt) * cos (rad lat) * cos (rad az) /\
  cos (rad dec) * cos (rad th - rad ra) = sin (rad alt) * cos (rad lat) - cos (rad alt) * cos (rad az) * sin (rad lat) /\
  cos (rad dec) * sin (rad th - rad ra) = - (cos (rad alt) * sin (rad az)).
Proof.
  destruct (comps ra dec lat th) as (C1 & C2 & C3). cbv zeta in *. unfold same_star. rewrite C1, C2, C3. unfold horizon_dir; cbn [cx cy cz].
  intros (H1 & H2 & H3). pose proof (sin2_cos2 (rad lat)) as T. unfold Rsqr in T. split; [|split].
  - rewrite <- H3. replace (cos (rad alt) * cos (rad lat) * cos (rad az)) with (cos (rad alt) * cos (rad az) * cos (rad lat)) by ring. rewrite <- H1.
    transitivity (sin (rad dec) * (sin (rad lat) * sin (rad lat) + cos (rad lat) * cos (rad lat))); [rewrite T; ring|ring].
  - rewrite <- H3, <- H1.
    transitivity (cos (rad dec) * cos (rad th - rad ra) * (sin (rad lat) * sin (rad lat) + cos (rad lat) * cos (rad lat))); [rewrite T; ring|ring].
  - exact H2.
Qed.
Lemma cos_pos a : -90 < a < 90 -> 0 < cos (rad a).
Proof. intros H. apply rad_range in H. apply cos_gt_0; lra. Qed.
Lemma cos_unique a b : -90 < a < 90 -> -90 < b < 90 -> sin (rad a) = sin (rad b) -> a = b /\ cos (rad a) = cos (rad b).
Proof.
  intros Ha Hb E. apply rad_range in Ha, Hb. assert (rad a = rad b) by (apply sin_inj; lra). split; [apply rad_inj; assumption|f_equal; assumption].
Qed.
Lemma stars_agree lat th ra dec ra' dec' alt az : -90 < dec < 90 -> -90 < dec' < 90 ->
  same_star lat th ra dec alt az -> same_star lat th ra' dec' alt az -> dec' = dec /\ whole_turns ra' ra.
Proof.
  intros Hd Hd' H H'. apply same_star_back in H, H'. destruct H as (S & C & W). destruct H' as (S' & C' & W').
  destruct (cos_unique dec' dec Hd' Hd ltac:(congruence)) as [E Ec]. split; [exact E|].
  rewrite Ec in C', W'. rewrite <- C in C'. rewrite <- W in W'. pose proof (cos_pos dec Hd) as P.
  apply Rmult_eq_reg_l in C'; [|lra]. apply Rmult_eq_reg_l in W'; [|lra].
  destruct (angle_turns _ _ W' C') as [k K]. exists (- k)%Z. rewrite opp_IZR. apply rad_inj. unfold rad in *. nra.
Qed.
Lemma places_agree lat th ra dec alt az alt' az' : -90 < alt < 90 -> -90 < alt' < 90 -> -180 < az <= 180 -> -180 < az' <= 180 ->
  same_star lat th ra dec alt az -> same_star lat th ra dec alt' az' -> alt' = alt /\ az' = az.
Proof.
  intros Ha Ha' Hz Hz' (N & W & U) (N' & W' & U'). unfold horizon_dir in *; cbn [cx cy cz] in *.
  destruct (cos_unique alt' alt Ha' Ha ltac:(congruence)) as [E Ec]. split; [exact E|]. pose proof (cos_pos alt Ha) as P. rewrite Ec in *.
  apply rad_inj. apply angle_unique; try (apply rad_range2; assumption); apply (Rmult_eq_reg_l (cos (rad alt))); lra.
Qed.
Lemma there_and_back ra dec jd lat lon th : cos (rad lat) <> 0 -> lst (Fin jd) (Fin lon) = Fin th -> -90 < dec < 90 ->
  Rabs (dotR (star_dir ra dec) (up lat th)) <> 1 ->
  exists alt az ra', eq_to_az (Fin ra) (Fin dec) (Fin jd) (Fin lat) (Fin lon) = (Fin alt, Fin az) /\
    az_to_eq (Fin alt) (Fin az) (Fin jd) (Fin lat) (Fin lon) = (Fin ra', Fin dec) /\ whole_turns ra' ra.
Proof.
  intros Hf Hl Hd Hz. destruct (horizon_of_star ra dec jd lat lon th Hf Hl Hz) as (alt & az & E & Ha & Hz' & S).
  assert (Hp : Rabs (dotR (horizon_dir alt az) (horizon_dir lat 0)) <> 1).
  { destruct (same_star_back _ _ _ _ _ _ S) as (Sd & _).
    replace (dotR (horizon_dir alt az) (horizon_dir lat 0)) with (sin (rad dec)).
    - pose proof (cos_pos dec Hd) as P. pose proof (sin2_cos2 (rad dec)) as T. unfold Rsqr in T. intros A.
      destruct (Rcase_abs (sin (rad dec))) in A; [rewrite Rabs_left in A|rewrite Rabs_right in A]; nra.
    - rewrite Sd. unfold dotR, horizon_dir; cbn [cx cy cz]. replace (rad 0) with 0 by (unfold rad; ring). rewrite sin_0, cos_0. ring. }
  destruct (star_of_horizon alt az jd lat lon th Hf Hl Hp) as (ra' & dec' & E' & Hd' & _ & S').
  destruct (stars_agree _ _ _ _ _ _ _ _ Hd Hd' S S') as [-> K]. exists alt, az, ra'. split; [exact E|]. split; [exact E'|exact K].
Qed.
Lemma back_and_there alt az jd lat lon th : cos (rad lat) <> 0 -> lst (Fin jd) (Fin lon) = Fin th -> -90 < alt < 90 -> -180 < az <= 180 ->
  Rabs (dotR (horizon_dir alt az) (horizon_dir lat 0)) <> 1 ->
  exists ra dec, az_to_eq (Fin alt) (Fin az) (Fin jd) (Fin lat) (Fin lon) = (Fin ra, Fin dec) /\
    eq_to_az (Fin ra) (Fin dec) (Fin jd) (Fin lat) (Fin lon) = (Fin alt, Fin az).
Proof.
  intros Hf Hl Ha Hz Hp. destruct (star_of_horizon alt az jd lat lon th Hf Hl Hp) as (ra & dec & E & Hd & _ & S).
  assert (Hu : Rabs (dotR (star_dir ra dec) (up lat th)) <> 1).
  { destruct S as (_ & _ & U). rewrite U. unfold horizon_dir; cbn [cz]. pose proof (cos_pos alt Ha) as P. pose proof (sin2_cos2 (rad alt)) as T. unfold Rsqr in T. intros A.
    destruct (Rcase_abs (sin (rad alt))) in A; [rewrite Rabs_left in A|rewrite Rabs_right in A]; nra. }
  destruct (horizon_of_star ra dec jd lat lon th Hf Hl Hu) as (alt' & az' & E' & Ha' & Hz' & S').
  destruct (places_agree _ _ _ _ _ _ _ _ Ha Ha' Hz Hz' S S') as [-> ->]. exists ra, dec. split; [exact E|exact E'].
Qed.

(** *** The sidereal time is off *)
Lemma lst_error jd : 2451545 <= jd <= 2469807 -> 1.73 < code_angle jd - sidereal jd < 1.78.
Proof.
  intros H. unfold code_angle, sidereal. cbv zeta. set (t := jd / 36525). set (t' := (jd - 2451545) / 36525).
  assert (B1 : 67.1 <= t <= 67.7) by (unfold t; lra). assert (B2 : 0 <= t' <= 0.51) by (unfold t'; lra). clearbody t t'.
  assert (67.1 * 67.1 <= t * t <= 67.7 * 67.7) by nra. assert (67.1 * (67.1 * 67.1) <= t * (t * t) <= 67.7 * (67.7 * 67.7)) by nra.
  assert (0 <= t' * t' <= 0.51 * 0.51) by nra. assert (0 <= t' * (t' * t') <= 0.51 * (0.51 * 0.51)) by nra.
  replace (0.000387933 * t * t) with (0.000387933 * (t * t)) by ring. replace (0.000387933 * t' * t') with (0.000387933 * (t' * t')) by ring.
  replace (t * t * t) with (t * (t * t)) by ring. replace (t' * t' * t') with (t' * (t' * t')) by ring. lra.
Qed.
Lemma lst_turns jd lon : exists th, lst (Fin jd) (Fin lon) = Fin th /\ 0 <= th < 360 /\
  (2451545 <= jd <= 2469807 -> exists e, 1.73 < e < 1.78 /\ whole_turns th (sidereal jd + lon + e)).
Proof.
  exists (lstR jd lon). split; [apply lst_F|]. destruct (lstR_spec jd lon) as [B (k & K)]. split; [exact B|]. intros H.
  exists (code_angle jd - sidereal jd). split; [apply lst_error, H|]. exists k. lra.
Qed.
Lemma lst_differs jd lon th : 2451545 <= jd <= 2469807 -> lst (Fin jd) (Fin lon) = Fin th -> ~ whole_turns th (sidereal jd + lon).
Proof.
  intros H E (k & K). destruct (lst_turns jd lon) as (th' & E' & _ & Q). rewrite E in E'. injection E' as <-. destruct (Q H) as (e & He & (m & M)).
  assert (D : e = 360 * IZR (k - m)) by (rewrite minus_IZR; lra). assert (0 < IZR (k - m) < 1) as [P1 P2] by lra.
  apply lt_IZR in P1, P2. lia.
Qed.

(** *** The picture *)
Local Ltac byc := apply vec3_eq; cbv [drR global_frame origin rot applyR plusR timesR minusR transR col0 col1 col2 dotR zeroR eyeR cx cy cz m00 m01 m02 m10 m11 m12 m20 m21 m22]; ring.
Lemma rotY_F a : rotY (Fin a) = FM (M3 (cos a) 0 (sin a) 0 1 0 (- sin a) 0 (cos a)).
Proof. reflexivity. Qed.
Lemma star_view_F lat th ra dec : star_view (Fin lat) (Fin th) (star_xyz (Fin (rad ra)) (Fin (rad dec))) =
  F3 (V3 (dotR (star_dir ra dec) (north lat th)) (dotR (star_dir ra dec) (west th)) (dotR (star_dir ra dec) (up lat th))).
Proof.
  assert (E : star_xyz (Fin (rad ra)) (Fin (rad dec)) = F3 (star_dir ra dec)).
  { unfold star_xyz, star_dir. xunf. unfold nsin, ncos, TrigXR. cbn [xlift xmul]. unfold F3, vmap; cbn [cx cy cz]. rewrite !(Rmult_comm (cos (rad dec))). reflexivity. }
  rewrite E. clear E. generalize (star_dir ra dec). intros v. unfold star_view. change (@cs_default XR _) with (Fcs global_frame).
  assert (A1 : rad (th + 180) = rad th + PI) by (unfold rad; field). assert (A2 : rad (90 - lat) = PI / 2 - rad lat) by (unfold rad; field).
  change (Fin th + nofZ 180)%num with (Fin (th + 180)). change (nofZ 90 - Fin lat)%num with (Fin (90 - lat)). rewrite !deg2rad_F.
  change (- Fin (rad (90 - lat)))%num with (Fin (- rad (90 - lat))). rewrite rotZ_F, rotY_F, mm_F, A1, A2.
  change (@vzero XR _) with (F3 zeroR). set (M := mulR _ _). change (CS (F3 zeroR) (FM M)) with (Fcs (CS zeroR M)). rewrite mkCT_F.
  unfold applyForwardArray; cbn [ct_dr ct_drot]. rewrite mtr_F, vsub_F, mv_F. f_equal.
  subst M. rewrite neg_cos, neg_sin, cos_neg, sin_neg, sin_shift, cos_shift.
  assert (E1 : drotR global_frame (CS zeroR (mulR (M3 (- cos (rad th)) (- - sin (rad th)) 0 (- sin (rad th)) (- cos (rad th)) 0 0 0 1)
     (M3 (sin (rad lat)) 0 (- cos (rad lat)) 0 1 0 (- - cos (rad lat)) 0 (sin (rad lat))))) =
     mulR (M3 (- cos (rad th)) (- - sin (rad th)) 0 (- sin (rad th)) (- cos (rad th)) 0 0 0 1)
     (M3 (sin (rad lat)) 0 (- cos (rad lat)) 0 1 0 (- - cos (rad lat)) 0 (sin (rad lat)))) by apply mulR_eye_l.
  assert (E2 : forall M, drR global_frame (CS zeroR M) = zeroR) by (intros; byc).
  rewrite E1, E2, transR_mul, applyR_mul. unfold up, star_dir, north, west. generalize (sin (rad th)), (cos (rad th)), (sin (rad lat)), (cos (rad lat)). intros a b c d.
  assert (E3 : applyR (transR (M3 (- b) (- - a) 0 (- a) (- b) 0 0 0 1)) (minusR v zeroR) = V3 (- (b * cx v + a * cy v)) (a * cx v - b * cy v) (cz v)).
  { destruct v as [x y z]. byc. }
  rewrite E3. byc.
Qed.
Lemma turn_F c r p k : good_frame c -> rotateGlobal (Fcs c) (mm (mm (rot (Fcs c)) (FM r)) (mtr (rot (Fcs c)))) (F3 p) (Some (Fcs k)) =
  Fcs (CS (origin (rotG c (mulR (mulR (rot c) r) (transR (rot c))) (global_point k p))) (mulR (rot c) r)).
Proof.
  intros Hc. cbn [rot Fcs]. rewrite mm_F, mtr_F, mm_F. rewrite rotateGlobal_Some. f_equal. unfold rotG; cbn [origin]. f_equal.
  rewrite <- mulR_assoc, orth_l by exact Hc. apply mulR_eye_r.
Qed.
Lemma telescope_points alt az c : good_frame c ->
  exists c', telescope_frame (Fin alt) (Fin az) (Fcs c) = Fcs c' /\ good_frame c' /\
    global_dir c' (V3 0 0 1) = global_dir c (horizon_dir alt az) /\
    (rot c = eyeR -> cx (origin c) = 0 -> cy (origin c) = 0 ->
     forall w, global_point c' (V3 w 0 (elevation - pier - cz (origin c))) = plusR (V3 0 0 elevation) (level_axis az w)).
Proof.
  intros Hc. unfold telescope_frame. cbv zeta.
  change (nofZ 90 - Fin az)%num with (Fin (90 - az)). change (nofZ 90 - Fin alt)%num with (Fin (90 - alt)). rewrite !deg2rad_F, rotZ_F, rotX_F.
  change (V3 n0 n0 (nfrac 353 100)) with (F3 (V3 0 0 (353 / 100))). change (V3 n0 n0 (nfrac 5425 1000)) with (F3 (V3 0 0 (5425 / 1000))).
  rewrite shiftGlobal_F. change (@vzero XR _) with (F3 zeroR). change (@cs_default XR _) with (Fcs global_frame).
  assert (Hs : good_frame (shiftG c (V3 0 0 (353 / 100)))) by exact Hc.
  rewrite turn_F by exact Hs.
  assert (Ha : rad (90 - az) = PI / 2 - rad az) by (unfold rad; field). assert (Hb : rad (90 - alt) = PI / 2 - rad alt) by (unfold rad; field).
  assert (G : good_frame (CS (origin (rotG (shiftG c (V3 0 0 (353 / 100))) (mulR (mulR (rot (shiftG c (V3 0 0 (353 / 100)))) (M3 (cos (rad (90 - az))) (- sin (rad (90 - az))) 0 (sin (rad (90 - az))) (cos (rad (90 - az))) 0 0 0 1)) (transR (rot (shiftG c (V3 0 0 (353 / 100)))))) (global_point (shiftG c (V3 0 0 (353 / 100))) zeroR)))
     (mulR (rot (shiftG c (V3 0 0 (353 / 100)))) (M3 (cos (rad (90 - az))) (- sin (rad (90 - az))) 0 (sin (rad (90 - az))) (cos (rad (90 - az))) 0 0 0 1)))).
  { unfold good_frame; cbn [rot]. apply orth_mul; [exact Hc|]. apply (proj1 (rotZ_rot _)). }
  rewrite turn_F by exact G. eexists. split; [reflexivity|]. split; [|split].
  - unfold good_frame; cbn [rot]. apply orth_mul; [exact G|]. apply (proj1 (rotX_rot _)).
  - unfold global_dir; cbn [rot]. rewrite Ha, Hb, !applyR_mul. change (rot (shiftG c (V3 0 0 (353 / 100)))) with (rot c). f_equal.
    rewrite !sin_shift, !cos_shift. unfold horizon_dir.
    generalize (sin (rad alt)), (cos (rad alt)), (sin (rad az)), (cos (rad az)). intros a b e d.
    assert (E1 : applyR (M3 1 0 0 0 a (- b) 0 b a) (V3 0 0 1) = V3 0 (- b) a) by byc.
    rewrite E1. byc.
  - intros Ec X Y w. destruct c as [[ox oy oz] M]; cbn [rot origin cx cy cz] in *. subst M ox oy.
    unfold global_point, rotG, shiftG; cbn [rot origin]. rewrite Ha, Hb, !sin_shift, !cos_shift. unfold level_axis, elevation, pier.
    replace 5.425 with (5425 / 1000) by lra. replace 3.53 with (353 / 100) by lra.
    generalize (sin (rad alt)), (cos (rad alt)), (sin (rad az)), (cos (rad az)). intros a b e d.
    apply vec3_eq; cbv [mulR global_frame origin rot applyR plusR timesR minusR transR col0 col1 col2 dotR zeroR eyeR cx cy cz m00 m01 m02 m10 m11 m12 m20 m21 m22]; field.
Qed.
(** The telescope points at the star as it is drawn. *)
Lemma telescope_on_star ra dec jd lat lon th c : cos (rad lat) <> 0 -> lst (Fin jd) (Fin lon) = Fin th ->
  Rabs (dotR (star_dir ra dec) (up lat th)) <> 1 -> good_frame c -> rot c = eyeR ->
  exists alt az c', eq_to_az (Fin ra) (Fin dec) (Fin jd) (Fin lat) (Fin lon) = (Fin alt, Fin az) /\
    telescope_frame (Fin alt) (Fin az) (Fcs c) = Fcs c' /\
    F3 (global_dir c' (V3 0 0 1)) = star_view (Fin lat) (lst (Fin jd) (Fin lon)) (star_xyz (Fin (rad ra)) (Fin (rad dec))) /\
    (cx (origin c) = 0 -> cy (origin c) = 0 ->
     forall w, global_point c' (V3 w 0 (elevation - pier - cz (origin c))) = plusR (V3 0 0 elevation) (level_axis az w)).
Proof.
  intros Hf Hl Hz Hc Ec. destruct (horizon_of_star ra dec jd lat lon th Hf Hl Hz) as (alt & az & E & _ & _ & S1 & S2 & S3).
  destruct (telescope_points alt az c Hc) as (c' & E' & _ & D & L). exists alt, az, c'. split; [exact E|]. split; [exact E'|]. split; [|exact (L Ec)].
  rewrite Hl, star_view_F, S1, S2, S3, D. f_equal. unfold global_dir. rewrite Ec. destruct (horizon_dir alt az) as [x y z]. byc.
Qed.
(** At the zenith there is no azimuth. *)
Lemma zenith_nan jd lat lon th : lst (Fin jd) (Fin lon) = Fin th -> -90 < lat < 90 ->
  eq_to_az (Fin th) (Fin lat) (Fin jd) (Fin lat) (Fin lon) = (Fin 90, NaN).
Proof.
  intros Hl Hf. unfold eq_to_az. cbv zeta. rewrite Hl, !deg2rad_F. xunf. unfold nsin, ncos, natan2, TrigXR, ClockXR. cbn [xlift xmul xadd xsub xopp].
  replace (rad th - rad th) with 0 by ring. rewrite cos_0, sin_0. change (xlift1 asin) with (@nasin XR _).
  replace (sin (rad lat) * sin (rad lat) + cos (rad lat) * cos (rad lat) * 1) with 1 by (pose proof (sin2_cos2 (rad lat)) as T; unfold Rsqr in T; lra).
  rewrite nasin_F by lra. rewrite asin_1. cbn [xlift]. rewrite cos_PI2. cbn [xmul].
  replace (-0 * cos (rad lat)) with 0 by ring. rewrite rad2deg_F. f_equal; [f_equal; pose proof PI_RGT_0; field; lra|].
  assert (Z : xdiv (Fin 0) (Fin 0) = NaN).
  { cbn. destruct (Req_EM_T 0 0) as [_|N]; [|contradiction]. unfold xsgn. destruct (Rlt_dec 0 0); [lra|]. destruct (Rlt_dec 0 0); [lra|reflexivity]. }
  rewrite Z. cbn [natan2]. reflexivity.
Qed.
