(** Reflection, refraction, splitting and screens on real data. *)
From Coq Require Import Reals List ZArith Bool Lra Psatz.
From Verif Require Import Num NumR Vec CoordSys Surface Medium Ray Bundle Spec OpticsSpec
  XRFacts CoordFacts FrameProofs RayFacts NormalFacts.
Import ListNotations.
Open Scope R_scope.

Lemma advance_fin_inv p v dt q : advance (F3 p) (F3 v) dt = F3 q -> exists t, dt = Fin t.
Proof.
  intros H. apply F3_comp in H. destruct H as (H & _ & _).
  destruct (xadd_fin_inv _ _ _ H) as (a & b & _ & Hb & _).
  exact (xmul_fin_inv_r _ _ _ Hb).
Qed.

Lemma arrives_hit niter s A B l k r ri q : arrives niter s A B l k r ri q ->
  exists t, hit s niter (F3 (pos_in A B r)) (F3 (vel_in A B r)) = (true, Fin t) /\
    q = on_line (pos_in A B r) (vel_in A B r) t /\
    ri = Ray (F3 q) (F3 (vel_in A B r)) (Fin (time r + t)) (Fin (wavelength r)) (Fin (flux r))
             (vignetted r) false.
Proof.
  intros [HA HB Hk Hl Hi Hok Hq].
  destruct (hit s niter (F3 (pos_in A B r)) (F3 (vel_in A B r))) as [[] dt] eqn:E.
  - rewrite (intersect_hit s niter A B l k r dt HA HB Hk Hl E) in Hi. injection Hi; intros <-.
    cbn [pos] in Hq. destruct (advance_fin_inv _ _ _ _ Hq) as [t ->].
    exists t. rewrite advance_F in Hq. apply F3_inj in Hq. subst q.
    rewrite advance_F. auto.
  - rewrite (intersect_miss s niter A B None l k r HA HB Hk Hl) in Hi by (rewrite E; reflexivity).
    injection Hi; intros <-. discriminate.
Qed.

Lemma dot_pos v : v <> zeroR -> 0 < dotR v v.
Proof.
  intros H. unfold dotR. pose proof (sq_nonneg (cx v)). pose proof (sq_nonneg (cy v)).
  pose proof (sq_nonneg (cz v)).
  destruct (Req_dec (cx v) 0), (Req_dec (cy v) 0), (Req_dec (cz v) 0); try nra.
  exfalso. apply H. destruct v; cbn in *; subst; reflexivity.
Qed.
Lemma len_pos v : v <> zeroR -> 0 < lenR v.
Proof. intros H. apply sqrt_lt_R0, dot_pos, H. Qed.
Lemma len_sq v : lenR v * lenR v = dotR v v.
Proof.
  apply sqrt_sqrt. unfold dotR. pose proof (sq_nonneg (cx v)). pose proof (sq_nonneg (cy v)).
  pose proof (sq_nonneg (cz v)). lra.
Qed.
Lemma invspeed_F v : v <> zeroR -> invspeed (F3 v) = Fin (index_of v).
Proof.
  intros H. unfold invspeed. rewrite dot3_F. xunf.
  pose proof (dot_pos v H). pose proof (len_pos v H). rewrite xsqrt_fin, xdiv_fin by (unfold lenR in *; lra).
  f_equal. unfold index_of, lenR, Rdiv. ring.
Qed.
Lemma scale_F v k : scale (F3 v) (Fin k) = F3 (timesR k v).
Proof. apply vec3_eq; cbn; f_equal; ring. Qed.
Lemma nv_F v : v <> zeroR -> scale (F3 v) (invspeed (F3 v)) = F3 (unitR v).
Proof. intros H. rewrite invspeed_F, scale_F by assumption. reflexivity. Qed.
Lemma unit_unit v : v <> zeroR -> dotR (unitR v) (unitR v) = 1.
Proof.
  intros H. pose proof (len_pos v H). pose proof (len_sq v).
  unfold unitR. replace (dotR (timesR (/ lenR v) v) (timesR (/ lenR v) v))
    with (dotR v v / (lenR v * lenR v)) by (unfold dotR; cbn; field; lra).
  rewrite H1. field. pose proof (dot_pos v H). lra.
Qed.
Lemma unit_back v : v <> zeroR -> timesR (lenR v) (unitR v) = v.
Proof. intros H. pose proof (len_pos v H). apply vec3_eq; cbn; field; lra. Qed.

(** ** Reflection *)
Definition reflR (v n : vR) : vR := minusR v (timesR (2 * dotR v n) n).
Lemma reflect_vel_F v n : reflect_vel (F3 v) (F3 n) = F3 (reflR v n).
Proof. unfold reflect_vel. rewrite dot3_F. apply vec3_eq; cbn; f_equal; ring. Qed.
Lemma refl_len v n : dotR n n = 1 -> lenR (reflR v n) = lenR v.
Proof.
  intros H. unfold lenR. f_equal. transitivity (dotR v v + 4 * (dotR v n * dotR v n) * (dotR n n - 1)).
  - unfold reflR; unfR; cbn; ring.
  - rewrite H. ring.
Qed.
Lemma refl_dot v n : dotR n n = 1 -> dotR (reflR v n) n = - dotR v n.
Proof.
  intros H. transitivity (dotR v n - 2 * dotR v n * dotR n n).
  - unfold reflR; unfR; cbn; ring.
  - rewrite H; ring.
Qed.
Lemma refl_tang v n : dotR n n = 1 -> tangR (reflR v n) n = tangR v n.
Proof.
  intros H. unfold tangR at 1. rewrite refl_dot by assumption.
  unfold reflR, tangR. apply vec3_eq; cbn; ring.
Qed.
Lemma refl_refl v n : dotR n n = 1 -> reflR (reflR v n) n = v.
Proof.
  intros H. unfold reflR at 1. rewrite refl_dot by assumption. unfold reflR.
  apply vec3_eq; cbn; ring.
Qed.

Lemma reflect_nth niter s A B l k r ri q n c :
  arrives niter s A B l k r ri q -> normal_at s q n -> (c = None \/ vel_in A B r <> zeroR) ->
  kth k (rv_reflect niter s (Some (Fcs B)) (option_map Fcoat c) (Frv (RV l A)))
    (Ray (F3 q) (F3 (reflR (vel_in A B r) n)) (time ri) (wavelength ri)
         (Fin (reflected_flux c (flux r))) (vignetted r) false).
Proof.
  intros Ha Hn Hc. destruct (arrives_hit _ _ _ _ _ _ _ _ _ Ha) as (t & Hh & Hq & ->).
  destruct Ha as [HA HB Hk Hl Hi Hok Hpq]. unfold kth, rv_reflect.
  rewrite (batch_nth _ _ _ _ _ _ Hk). f_equal.
  unfold ray_reflect; cbn [failed Fray pos vel]. rewrite Hl, fwd_point_in, fwd_vel_in by assumption.
  rewrite Hh. rewrite advance_F, <- Hq.
  unfold normal_at in Hn. cbn [F3 vmap cx cy] in *. fold (F3 q). fold (F3 (vel_in A B r)).
  replace (Fin (let (cx, _, _) := q in cx)) with (Fin (cx q)) by reflexivity.
  rewrite Hn, reflect_vel_F. destruct c as [c|]; reflexivity.
Qed.

(** ** Refraction *)
Definition sideR (u n : vR) : R := if Rlt_dec 0 (dotR u n) then -1 else 1.
Lemma side_cases u n : (0 < dotR u n /\ sideR u n = -1) \/ (dotR u n <= 0 /\ sideR u n = 1).
Proof. unfold sideR. destruct (Rlt_dec _ _); [left|right]; split; lra. Qed.
Lemma orient_F u n : orient (F3 u) (F3 n) = (F3 (timesR (sideR u n) n), Fin (sideR u n * dotR u n)).
Proof.
  unfold orient. rewrite dot3_F. xunf.
  destruct (side_cases u n) as [[H ->]|[H ->]].
  - rewrite xltb_t by assumption. f_equal; [|f_equal; ring]. apply vec3_eq; cbn; f_equal; ring.
  - rewrite xltb_f by lra. f_equal; [|f_equal; ring]. apply vec3_eq; cbn; f_equal; ring.
Qed.
Definition sin2R (u n : vR) (n1 n2 : R) : R := (n1 / n2) * (n1 / n2) * (1 - dotR u n * dotR u n).
(** The refracted velocity. *)
Definition refrR (u n : vR) (n1 n2 : R) : vR :=
  let s := sideR u n in
  let eta := n1 / n2 in
  let f := eta * (s * dotR u n) + sqrt (1 - sin2R u n n1 n2) in
  timesR (/ n2) (minusR (timesR eta u) (timesR (f * s) n)).
Lemma side_sq u n : sideR u n * sideR u n = 1.
Proof. destruct (side_cases u n) as [[_ ->]|[_ ->]]; ring. Qed.

Lemma refract_vel_F u n n1 n2 : n2 <> 0 ->
  refract_vel (F3 u) (F3 (timesR (sideR u n) n)) (Fin (sideR u n * dotR u n)) (Fin n1) (Fin n2)
  = if Rlt_dec 1 (sin2R u n n1 n2) then None else Some (F3 (refrR u n n1 n2)).
Proof.
  intros H2. unfold refract_vel. xunf. rewrite xdiv_fin by assumption. cbn [xmul xsub xadd].
  assert (E : n1 / n2 * (n1 / n2) * (1 - sideR u n * dotR u n * (sideR u n * dotR u n)) = sin2R u n n1 n2).
  { unfold sin2R. replace (sideR u n * dotR u n * (sideR u n * dotR u n))
      with ((sideR u n * sideR u n) * (dotR u n * dotR u n)) by ring. rewrite side_sq. ring. }
  rewrite E. cbn [xltb]. destruct (Rlt_dec 1 (sin2R u n n1 n2)); [reflexivity|].
  rewrite xsqrt_fin by lra. cbn [xmul xsub xadd]. rewrite !xdiv_fin by assumption.
  f_equal. unfold refrR. apply vec3_eq; cbn; f_equal; field; assumption.
Qed.

Lemma refr_props u n n1 n2 : dotR u u = 1 -> dotR n n = 1 -> 0 < n1 -> 0 < n2 ->
  sin2R u n n1 n2 <= 1 ->
  let w := timesR n2 (refrR u n n1 n2) in
  dotR w w = 1 /\
  timesR n2 (tangR w n) = timesR n1 (tangR u n) /\
  dotR w n = - sideR u n * sqrt (1 - sin2R u n n1 n2).
Proof.
  intros Hu Hn H1 H2 Hs w.
  set (c := sqrt (1 - sin2R u n n1 n2)). set (s := sideR u n). set (eta := n1 / n2).
  assert (Hc : c * c = 1 - sin2R u n n1 n2) by (apply sqrt_sqrt; lra).
  assert (Hss : s * s = 1) by apply side_sq.
  assert (W : w = minusR (timesR eta u) (timesR ((eta * (s * dotR u n) + c) * s) n)).
  { unfold w, refrR. fold s eta c. apply vec3_eq; cbn; field; lra. }
  assert (Wn : dotR w n = - s * c).
  { rewrite W. transitivity (eta * dotR u n - (eta * (s * dotR u n) + c) * s * dotR n n).
    { unfR; cbn; ring. } rewrite Hn.
    replace ((eta * (s * dotR u n) + c) * s * 1) with (eta * dotR u n * (s * s) + c * s) by ring.
    rewrite Hss. ring. }
  split; [|split; [|exact Wn]].
  - rewrite W. set (f := (eta * (s * dotR u n) + c) * s).
    transitivity (eta * eta * dotR u u - 2 * eta * f * dotR u n + f * f * dotR n n).
    { unfR; cbn; ring. } rewrite Hu, Hn. unfold f.
    transitivity (eta * eta - 2 * eta * eta * (s * s) * dotR u n * dotR u n - 2 * eta * s * c * dotR u n
                  + (s * s) * (eta * eta * (s * s) * (dotR u n * dotR u n) + 2 * eta * s * dotR u n * c + c * c)).
    { ring. } rewrite Hss, Hc. unfold sin2R. fold eta. ring.
  - unfold tangR. rewrite Wn, W.
    assert (E : forall a b, n2 * (eta * a - (eta * (s * dotR u n) + c) * s * b - - s * c * b)
                       = n1 * (a - dotR u n * b)).
    { intros a b. replace ((eta * (s * dotR u n) + c) * s * b)
        with (eta * (s * s) * dotR u n * b + c * s * b) by ring. rewrite Hss.
      unfold eta. field. lra. }
    apply vec3_eq; cbn; apply E.
Qed.

(** Everything refract does to a ray that reaches the surface. *)
Lemma refract_nth niter s m1 m2 A B l k r ri q n c n2 :
  arrives niter s A B l k r ri q -> normal_at s q n -> vel_in A B r <> zeroR ->
  getN m2 (Fin (wavelength r)) = Fin n2 -> 0 < n2 ->
  let v := vel_in A B r in
  kth k (rv_refract niter s m1 m2 (Some (Fcs B)) (option_map Fcoat c) (Frv (RV l A)))
   (if Rlt_dec 1 (sin2R (unitR v) n (index_of v) n2)
    then Ray (F3 q) vnan (time ri) (wavelength ri) (Fin (transmitted_flux c (flux r))) true true
    else Ray (F3 q) (F3 (refrR (unitR v) n (index_of v) n2)) (time ri) (wavelength ri)
             (Fin (transmitted_flux c (flux r))) (vignetted r) false).
Proof.
  intros Ha Hn Hv H2 H2p v. destruct (arrives_hit _ _ _ _ _ _ _ _ _ Ha) as (t & Hh & Hq & ->).
  destruct Ha as [HA HB Hk Hl Hi Hok Hpq]. unfold kth, rv_refract.
  rewrite (batch_nth _ _ _ _ _ _ Hk). f_equal.
  unfold ray_refract; cbn [failed Fray pos vel]. rewrite Hl, fwd_point_in, fwd_vel_in by assumption.
  rewrite Hh. rewrite advance_F, <- Hq. fold v. rewrite nv_F, invspeed_F by exact Hv.
  cbn [wavelength Fray]. rewrite H2. unfold normal_at in Hn.
  change (cx (F3 q)) with (Fin (cx q)). change (cy (F3 q)) with (Fin (cy q)).
  rewrite Hn, orient_F, refract_vel_F by lra.
  destruct (Rlt_dec _ _), c as [c|]; reflexivity.
Qed.
