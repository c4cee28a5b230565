(** Proofs for C07-C10, C14, C57, C59, C60. *)
From Coq Require Import Reals List ZArith Bool Lra Psatz.
From Verif Require Import Num NumR Vec CoordSys Surface Medium Ray Bundle Spec OpticsSpec
  XRFacts CoordFacts FrameProofs RayFacts NormalFacts RefractProofs.
Import ListNotations.
Open Scope R_scope.

Lemma normal_at_unit s q n : normal_at s q n -> dotR n n = 1.
Proof. intros H. apply normal_unit in H. apply H. Qed.

Lemma kth_det k rv a b : kth k rv a -> kth k rv b -> a = b.
Proof. unfold kth. congruence. Qed.

(** C07 *)
Lemma reflection_law niter s A B l k r ri q n c :
  arrives niter s A B l k r ri q -> normal_at s q n -> (c = None \/ vel_in A B r <> zeroR) ->
  exists v', 
    kth k (rv_reflect niter s (Some (Fcs B)) (option_map Fcoat c) (Frv (RV l A)))
      (Ray (pos ri) (F3 v') (time ri) (wavelength ri) (Fin (reflected_flux c (flux r)))
           (vignetted ri) false) /\
    let v := vel_in A B r in
    lenR v' = lenR v /\ dotR v' n = - dotR v n /\ tangR v' n = tangR v n.
Proof.
  intros Ha Hn Hc. pose proof (normal_at_unit _ _ _ Hn) as Hu.
  exists (reflR (vel_in A B r) n). split.
  - rewrite (ar_q _ _ _ _ _ _ _ _ _ Ha). replace (vignetted ri) with (vignetted r).
    apply reflect_nth; assumption.
    destruct (arrives_hit _ _ _ _ _ _ _ _ _ Ha) as (t & _ & _ & ->). reflexivity.
  - cbv zeta. repeat split; [apply refl_len|apply refl_dot|apply refl_tang]; assumption.
Qed.
Lemma reflect_twice v n : dotR n n = 1 ->
  reflect_vel (reflect_vel (F3 v) (F3 n)) (F3 n) = F3 v.
Proof. intros H. rewrite !reflect_vel_F, refl_refl by assumption. reflexivity. Qed.

(** C08, C09 *)
Lemma index_pos v : v <> zeroR -> 0 < index_of v.
Proof. intros H. apply Rinv_0_lt_compat, len_pos, H. Qed.
Lemma len_times k v : 0 <= k -> lenR (timesR k v) = k * lenR v.
Proof.
  intros H. unfold lenR. replace (dotR (timesR k v) (timesR k v)) with (k * k * dotR v v).
  - pose proof (len_sq v) as L. unfold lenR in L.
    rewrite sqrt_mult; [|nra|]. + rewrite sqrt_square by assumption. reflexivity.
    + unfold dotR. pose proof (sq_nonneg (cx v)). pose proof (sq_nonneg (cy v)). pose proof (sq_nonneg (cz v)). lra.
  - unfold dotR; cbn; ring.
Qed.
Lemma times_times a b v : timesR a (timesR b v) = timesR (a * b) v.
Proof. apply vec3_eq; cbn; ring. Qed.
Lemma times_1 v : timesR 1 v = v.
Proof. apply vec3_eq; cbn; ring. Qed.
Lemma len_refr u n n1 n2 : dotR u u = 1 -> dotR n n = 1 -> 0 < n1 -> 0 < n2 ->
  sin2R u n n1 n2 <= 1 -> lenR (refrR u n n1 n2) = / n2.
Proof.
  intros Hu Hn H1 H2 Hs. destruct (refr_props u n n1 n2 Hu Hn H1 H2 Hs) as (E & _).
  apply (f_equal sqrt) in E. fold (lenR (timesR n2 (refrR u n n1 n2))) in E.
  rewrite len_times, sqrt_1 in E by lra. apply Rmult_eq_reg_l with n2; [|lra].
  rewrite E. field. lra.
Qed.
Lemma refr_nonzero u n n1 n2 : dotR u u = 1 -> dotR n n = 1 -> 0 < n1 -> 0 < n2 ->
  sin2R u n n1 n2 <= 1 -> refrR u n n1 n2 <> zeroR.
Proof.
  intros Hu Hn H1 H2 Hs E. pose proof (len_refr u n n1 n2 Hu Hn H1 H2 Hs) as L.
  rewrite E in L. unfold lenR, dotR in L; cbn in L. replace (0*0+0*0+0*0) with 0 in L by ring.
  rewrite sqrt_0 in L. pose proof (Rinv_0_lt_compat _ H2). lra.
Qed.

Lemma cos_le u n : dotR u u = 1 -> dotR n n = 1 -> dotR u n * dotR u n <= 1.
Proof.
  intros Hu Hn. pose proof (sq_nonneg (cx u * cy n - cy u * cx n)).
  pose proof (sq_nonneg (cy u * cz n - cz u * cy n)). pose proof (sq_nonneg (cz u * cx n - cx u * cz n)).
  assert (dotR u u * dotR n n = dotR u n * dotR u n
    + (cx u * cy n - cy u * cx n) * (cx u * cy n - cy u * cx n)
    + (cy u * cz n - cz u * cy n) * (cy u * cz n - cz u * cy n)
    + (cz u * cx n - cx u * cz n) * (cz u * cx n - cx u * cz n)) by (unfold dotR; ring).
  rewrite Hu, Hn in *. lra.
Qed.

Lemma refr_straight u n n1 : dotR u u = 1 -> dotR n n = 1 -> 0 < n1 ->
  refrR u n n1 n1 = timesR (/ n1) u.
Proof.
  intros Hu Hn H1. unfold refrR, sin2R. replace (n1 / n1) with 1 by (field; lra).
  replace (1 - 1 * 1 * (1 - dotR u n * dotR u n)) with (dotR u n * dotR u n) by ring.
  replace (sqrt (dotR u n * dotR u n)) with (- (sideR u n * dotR u n)).
  - apply vec3_eq; cbn; ring.
  - destruct (side_cases u n) as [[H ->]|[H ->]].
    + rewrite sqrt_square by lra. ring.
    + replace (dotR u n * dotR u n) with ((- dotR u n) * (- dotR u n)) by ring.
      rewrite sqrt_square by lra. ring.
Qed.

Lemma snell niter s m1 m2 A B l k r ri q n c n2 r' :
  arrives niter s A B l k r ri q -> normal_at s q n -> vel_in A B r <> zeroR ->
  getN m2 (Fin (wavelength r)) = Fin n2 -> 0 < n2 ->
  kth k (rv_refract niter s m1 m2 (Some (Fcs B)) (option_map Fcoat c) (Frv (RV l A))) r' ->
  failed r' = false ->
  exists v',
    r' = Ray (pos ri) (F3 v') (time ri) (wavelength ri) (Fin (transmitted_flux c (flux r)))
             (vignetted ri) false /\
    let v := vel_in A B r in
    lenR v' = / n2 /\
    timesR n2 (tangR (unitR v') n) = timesR (index_of v) (tangR (unitR v) n) /\
    (0 < dotR v n -> 0 <= dotR v' n) /\ (dotR v n < 0 -> dotR v' n <= 0) /\
    (index_of v = n2 -> v' = v).
Proof.
  intros Ha Hn Hv H2 H2p Hk Hf. pose proof (normal_at_unit _ _ _ Hn) as Hu.
  pose proof (unit_unit _ Hv) as Huu. pose proof (index_pos _ Hv) as H1p.
  pose proof (refract_nth niter s m1 m2 A B l k r ri q n c n2 Ha Hn Hv H2 H2p) as HR. cbv zeta in HR.
  set (v := vel_in A B r) in *.
  destruct (Rlt_dec 1 (sin2R (unitR v) n (index_of v) n2)) as [L|L].
  { rewrite (kth_det _ _ _ _ Hk HR) in Hf. discriminate. }
  assert (Hs : sin2R (unitR v) n (index_of v) n2 <= 1) by lra. clear L.
  set (v' := refrR (unitR v) n (index_of v) n2) in *.
  exists v'. split.
  { rewrite (kth_det _ _ _ _ Hk HR). rewrite (ar_q _ _ _ _ _ _ _ _ _ Ha).
    destruct (arrives_hit _ _ _ _ _ _ _ _ _ Ha) as (t & _ & _ & ->). reflexivity. }
  cbv zeta. pose proof (len_refr _ _ _ _ Huu Hu H1p H2p Hs) as HL. fold v' in HL.
  destruct (refr_props _ _ _ _ Huu Hu H1p H2p Hs) as (_ & HT & HD). fold v' in HT, HD.
  assert (U : unitR v' = timesR n2 v').
  { unfold unitR. rewrite HL. f_equal. field. lra. }
  split; [exact HL|]. split; [rewrite U; exact HT|].
  assert (Hlen : 0 < lenR v) by (apply len_pos; exact Hv).
  assert (D : dotR (unitR v) n = dotR v n / lenR v).
  { unfold unitR. unfold dotR; cbn. field. lra. }
  assert (D' : dotR v' n = - sideR (unitR v) n * sqrt (1 - sin2R (unitR v) n (index_of v) n2) / n2).
  { assert (M : n2 * dotR v' n = - sideR (unitR v) n * sqrt (1 - sin2R (unitR v) n (index_of v) n2)).
    { rewrite <- HD. unfold dotR; cbn; ring. }
    apply Rmult_eq_reg_l with n2; [|lra]. rewrite M. field. lra. }
  pose proof (sqrt_pos (1 - sin2R (unitR v) n (index_of v) n2)) as SP.
  pose proof (Rinv_0_lt_compat _ H2p) as I2. pose proof (Rinv_0_lt_compat _ Hlen) as IL.
  split; [|split].
  - intros P. rewrite D'. destruct (side_cases (unitR v) n) as [[_ ->]|[Hx _]].
    + unfold Rdiv. replace (- -1) with 1 by ring. nra.
    + exfalso. rewrite D in Hx. unfold Rdiv in Hx. nra.
  - intros P. rewrite D'. destruct (side_cases (unitR v) n) as [[Hx _]|[_ ->]].
    + exfalso. rewrite D in Hx. unfold Rdiv in Hx. nra.
    + unfold Rdiv. nra.
  - intros E. unfold v'. rewrite <- E, refr_straight by assumption. unfold index_of.
    rewrite Rinv_inv. apply unit_back, Hv.
Qed.

Lemma tir_exact niter s m1 m2 A B l k r ri q n c n2 r' :
  arrives niter s A B l k r ri q -> normal_at s q n -> vel_in A B r <> zeroR ->
  getN m2 (Fin (wavelength r)) = Fin n2 -> 0 < n2 ->
  kth k (rv_refract niter s m1 m2 (Some (Fcs B)) (option_map Fcoat c) (Frv (RV l A))) r' ->
  let v := vel_in A B r in
  let n1 := index_of v in
  let cos1 := dotR (unitR v) n in
  (failed r' = true <-> 1 < (n1 / n2) * (n1 / n2) * (1 - cos1 * cos1)) /\
  (failed r' = true -> vignetted r' = true /\ pos r' = F3 q) /\
  (failed r' = false -> vignetted r' = vignetted r /\ exists v', vel r' = F3 v').
Proof.
  intros Ha Hn Hv H2 H2p Hk v n1 cos1.
  pose proof (refract_nth niter s m1 m2 A B l k r ri q n c n2 Ha Hn Hv H2 H2p) as HR. cbv zeta in HR.
  rewrite (kth_det _ _ _ _ Hk HR). fold v. fold n1.
  change (n1 / n2 * (n1 / n2) * (1 - cos1 * cos1)) with (sin2R (unitR v) n n1 n2).
  destruct (Rlt_dec 1 (sin2R (unitR v) n n1 n2)) as [L|L]; cbn.
  - repeat split; auto; discriminate.
  - split; [split; [discriminate|contradiction]|].
    split; [discriminate|]. intros _; split; [reflexivity|]. eexists; reflexivity.
Qed.

(** C10 *)
Lemma rsplit_refracted {T} `{Num T} niter s m1 m2 c cs (rv : rayvec T) :
  fst (rv_rsplit niter s m1 m2 c cs rv) = rv_refract niter s m1 m2 cs (Some c) rv.
Proof.
  unfold rv_rsplit, rv_refract, batch. cbn [fst]. f_equal. rewrite map_map. apply map_ext. intros r.
  unfold ray_rsplit, ray_refract. destruct (failed r) eqn:F; [reflexivity|].
  destruct (hit _ _ _ _) as [[] dt]; [|reflexivity].
  destruct (orient _ _) as [n a]. unfold getCoefs, getTransmit.
  destruct (refract_vel _ _ _ _ _); reflexivity.
Qed.

Definition met niter s A B l k : Prop :=
  exists ri, kth k (rv_intersect niter s (Some (Fcs B)) None (Frv (RV l A))) ri /\
    (failed ri = true \/ exists q n, pos ri = F3 q /\ normal_at s q n).

Lemma rsplit_nth niter s m1 m2 c A B l k r : nth_error l k = Some r ->
  nth_error (rays (snd (rv_rsplit niter s m1 m2 c (Some (Fcs B)) (Frv (RV l A))))) k
  = Some (snd (ray_rsplit s (F3 (drR A B)) (FM (drotR A B)) m2 c niter (Fray r))).
Proof.
  intros H. unfold rv_rsplit; cbn [snd rays Frv rvcs dest]. rewrite mkCT_F; cbn [ct_dr ct_drot].
  rewrite map_map, nth_error_map, nth_error_map, H. reflexivity.
Qed.

Lemma rsplit_reflected niter s m1 m2 c A B l k r n2 :
  good_frame A -> good_frame B -> nth_error l k = Some r -> vel_in A B r <> zeroR ->
  getN m2 (Fin (wavelength r)) = Fin n2 -> 0 < n2 -> met niter s A B l k ->
  nth_error (rays (snd (rv_rsplit niter s m1 m2 (Fcoat c) (Some (Fcs B)) (Frv (RV l A))))) k
  = nth_error (rays (rv_reflect niter s (Some (Fcs B)) (Some (Fcoat c)) (Frv (RV l A)))) k.
Proof.
  intros HA HB Hk Hv H2 H2p (ri & Hri & Hm). rewrite (rsplit_nth _ _ _ _ _ _ _ _ _ _ Hk).
  unfold rv_reflect. rewrite (batch_nth _ _ _ _ _ _ Hk). f_equal.
  unfold ray_rsplit, ray_reflect; cbn [failed Fray pos vel].
  destruct (failed r) eqn:Hl; [reflexivity|].
  rewrite fwd_point_in, fwd_vel_in by assumption.
  destruct (hit s niter (F3 (pos_in A B r)) (F3 (vel_in A B r))) as [[] dt] eqn:Hh; [|reflexivity].
  pose proof (intersect_hit s niter A B l k r dt HA HB Hk Hl Hh) as Hi.
  destruct Hm as [Hm|(q & n & Hq & Hn)].
  { unfold kth in Hri. rewrite Hi in Hri. injection Hri; intros <-. discriminate. }
  unfold kth in Hri. rewrite Hi in Hri. injection Hri; intros E. subst ri. cbn [pos] in Hq.
  destruct (advance_fin_inv _ _ _ _ Hq) as [t ->]. rewrite Hq.
  change (cx (F3 q)) with (Fin (cx q)). change (cy (F3 q)) with (Fin (cy q)).
  rewrite Hn. set (v := vel_in A B r) in *. rewrite reflect_vel_F, nv_F, invspeed_F by exact Hv.
  rewrite orient_F. cbn [wavelength Fray]. rewrite H2, refract_vel_F by lra. 
  unfold getCoefs, getReflect. 
  assert (Hlen : 0 < lenR v) by (apply len_pos, Hv). pose proof (index_pos v Hv) as Hi1.
  assert (V : V3 (cx (F3 v) - Num.n2 * Fin (sideR (unitR v) n * dotR (unitR v) n)
                   * cx (F3 (timesR (sideR (unitR v) n) n)) / Fin (index_of v))%num
                 (cy (F3 v) - Num.n2 * Fin (sideR (unitR v) n * dotR (unitR v) n)
                   * cy (F3 (timesR (sideR (unitR v) n) n)) / Fin (index_of v))%num
                 (cz (F3 v) - Num.n2 * Fin (sideR (unitR v) n * dotR (unitR v) n)
                   * cz (F3 (timesR (sideR (unitR v) n) n)) / Fin (index_of v))%num
              = F3 (reflR v n)).
  { assert (D : dotR (unitR v) n = dotR v n * index_of v).
    { unfold unitR, index_of, dotR; cbn. ring. }
    assert (E : forall a b, a - 2 * (sideR (unitR v) n * dotR (unitR v) n) * (sideR (unitR v) n * b) / index_of v
                     = a - 2 * dotR v n * b).
    { intros a b. replace (2 * (sideR (unitR v) n * dotR (unitR v) n) * (sideR (unitR v) n * b))
        with ((sideR (unitR v) n * sideR (unitR v) n) * (2 * dotR (unitR v) n * b)) by ring.
      rewrite side_sq, D. field. lra. }
    xunf. rewrite !xdiv_fin by lra. unfold reflR. apply vec3_eq; cbn; f_equal; apply E. }
  rewrite V. destruct (Rlt_dec _ _); reflexivity.
Qed.
Lemma rsplit_flux niter s m1 m2 c A B l k r ra rb ri q n n2 :
  arrives niter s A B l k r ri q -> normal_at s q n -> vel_in A B r <> zeroR ->
  getN m2 (Fin (wavelength r)) = Fin n2 -> 0 < n2 ->
  reflectivity c + transmissivity c = 1 ->
  let out := rv_rsplit niter s m1 m2 (Fcoat c) (Some (Fcs B)) (Frv (RV l A)) in
  kth k (fst out) ra -> kth k (snd out) rb ->
  nadd (flux ra) (flux rb) = Fin (flux r) /\
  wavelength ra = Fin (wavelength r) /\ wavelength rb = Fin (wavelength r).
Proof.
  intros Ha Hn Hv H2 H2p Hc out Hra Hrb. unfold out in *.
  rewrite rsplit_refracted in Hra.
  pose proof (refract_nth niter s m1 m2 A B l k r ri q n (Some c) n2 Ha Hn Hv H2 H2p) as HR. cbv zeta in HR.
  pose proof (reflect_nth niter s A B l k r ri q n (Some c) Ha Hn (or_intror Hv)) as HF.
  assert (Hmet : met niter s A B l k).
  { exists ri. destruct Ha. split; [exact ar_i|right; eauto]. }
  unfold kth in *. rewrite (rsplit_reflected niter s m1 m2 c A B l k r n2) in Hrb; try assumption; try (destruct Ha; assumption).
  cbn [option_map] in *. rewrite Hra in HR. rewrite Hrb in HF. injection HF; intros ->. injection HR; intros ->.
  destruct (arrives_hit _ _ _ _ _ _ _ _ _ Ha) as (t & _ & _ & ->).
  destruct (Rlt_dec _ _); cbn; repeat split; f_equal;
  rewrite <- Rmult_plus_distr_l, (Rplus_comm (transmissivity c)), Hc; ring.
Qed.

(** C14 *)
Lemma clock niter s A B l k r ri q : arrives niter s A B l k r ri q ->
  exists t, time ri = Fin (time r + t) /\ vel ri = F3 (vel_in A B r) /\
    q = on_line (pos_in A B r) (vel_in A B r) t /\
    distR (pos_in A B r) q = Rabs t * lenR (vel_in A B r) /\
    (forall idx, 0 < idx -> lenR (vel_in A B r) = / idx -> 0 <= t -> t = idx * distR (pos_in A B r) q) /\
    forall t', ray_positionAtTime (Fin t') ri
      = F3 (local_point B (global_point A (plusR (pos r) (timesR (t' - time r) (vel r))))).
Proof.
  intros Ha. destruct (arrives_hit _ _ _ _ _ _ _ _ _ Ha) as (t & _ & Hq & ->). exists t.
  assert (D : distR (pos_in A B r) q = Rabs t * lenR (vel_in A B r)).
  { subst q. unfold distR. replace (minusR _ _) with (timesR (- t) (vel_in A B r))
      by (unfold on_line; apply vec3_eq; cbn; ring).
    destruct (Rle_dec 0 t).
    - rewrite Rabs_right by lra. unfold lenR. f_equal.
      rewrite <- (Rabs_right t) at 1 by lra. rewrite Rabs_right by lra.
      replace (dotR (timesR (- t) (vel_in A B r)) (timesR (- t) (vel_in A B r)))
        with (dotR (timesR t (vel_in A B r)) (timesR t (vel_in A B r))) by (unfold dotR; cbn; ring).
      fold (lenR (timesR t (vel_in A B r))). rewrite len_times by assumption. reflexivity.
    - rewrite len_times by lra. rewrite Rabs_left by lra. reflexivity. }
  repeat split; auto.
  - intros idx Hi Hl Ht. rewrite D, Hl, Rabs_right by lra. field. lra.
  - intros t'. unfold ray_positionAtTime; cbn [pos vel time].
    transitivity (F3 (on_line q (vel_in A B r) (t' - (time r + t)))).
    { apply vec3_eq; cbn; f_equal; ring. }
    f_equal. subst q. unfold on_line, pos_in, vel_in, local_point, local_dir, global_point, global_dir.
    clear. apply vec3_eq; cbn; ring.
Qed.
