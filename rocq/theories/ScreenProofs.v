(** Proofs for C57 (screens), C59 (reversibility), C60 (paraboloid focus). *)
From Coq Require Import Reals List ZArith Bool Lra Psatz.
From Verif Require Import Num NumR Vec CoordSys Surface Medium Ray Bundle Spec OpticsSpec
  XRFacts CoordFacts FrameProofs RayFacts NormalFacts RefractProofs OpticsProofs.
Import ListNotations.
Open Scope R_scope.

(** ** C59 *)
Definition negR (v : vR) : vR := timesR (-1) v.
Lemma neg_dot a b : dotR (negR a) b = - dotR a b.
Proof. unfold negR, dotR; cbn; ring. Qed.
Lemma neg_len a : lenR (negR a) = lenR a.
Proof. unfold lenR. f_equal. unfold negR, dotR; cbn; ring. Qed.
Lemma neg_zero a : negR a = zeroR -> a = zeroR.
Proof.
  intros H. apply vec3_eq; [apply (f_equal cx) in H|apply (f_equal cy) in H|apply (f_equal cz) in H];
  cbn in *; lra.
Qed.
Lemma unit_neg a : unitR (negR a) = negR (unitR a).
Proof. unfold unitR. rewrite neg_len. apply vec3_eq; cbn; ring. Qed.

Lemma refr_back u n n1 n2 : dotR u u = 1 -> dotR n n = 1 -> 0 < n1 -> 0 < n2 ->
  sin2R u n n1 n2 <= 1 ->
  let w := timesR n2 (refrR u n n1 n2) in
  dotR w n <> 0 ->
  sin2R (negR w) n n2 n1 <= 1 /\ refrR (negR w) n n2 n1 = negR (timesR (/ n1) u).
Proof.
  intros Hu Hn H1 H2 Hs w Hw.
  destruct (refr_props u n n1 n2 Hu Hn H1 H2 Hs) as (_ & _ & HD). fold w in HD.
  assert (Hc : sqrt (1 - sin2R u n n1 n2) * sqrt (1 - sin2R u n n1 n2) = 1 - sin2R u n n1 n2)
    by (apply sqrt_sqrt; lra).
  pose proof (sqrt_pos (1 - sin2R u n n1 n2)) as Hcp.
  assert (W : w = minusR (timesR (n1 / n2) u)
                  (timesR ((n1 / n2 * (sideR u n * dotR u n) + sqrt (1 - sin2R u n n1 n2)) * sideR u n) n)).
  { unfold w, refrR. apply vec3_eq; cbn; field; lra. }
  set (c := sqrt (1 - sin2R u n n1 n2)) in *.
  assert (Hcne : c <> 0) by (intros E; apply Hw; rewrite HD, E; ring).
  pose proof (side_sq u n) as Hss. set (s := sideR u n) in *.
  assert (S' : sideR (negR w) n = - s).
  { unfold sideR. rewrite neg_dot, HD. destruct (side_cases u n) as [[Hx Hy]|[Hx Hy]]; fold s in Hy; rewrite Hy in *.
    - destruct (Rlt_dec _ _); nra.
    - destruct (Rlt_dec _ _); nra. }
  assert (Sin : sin2R (negR w) n n2 n1 = 1 - dotR u n * dotR u n).
  { unfold sin2R at 1. rewrite neg_dot, HD.
    replace (- (- s * c) * - (- s * c)) with ((s * s) * (c * c)) by ring. rewrite Hss, Hc.
    unfold sin2R. field. lra. }
  pose proof (cos_le u n Hu Hn) as Hcos.
  split; [rewrite Sin; pose proof (sq_nonneg (dotR u n)); lra|].
  unfold refrR. rewrite S', Sin, neg_dot, HD.
  replace (1 - (1 - dotR u n * dotR u n)) with (dotR u n * dotR u n) by ring.
  assert (Q : sqrt (dotR u n * dotR u n) = - (s * dotR u n)).
  { destruct (side_cases u n) as [[Hx Hy]|[Hx Hy]]; fold s in Hy; rewrite Hy.
    - rewrite sqrt_square by lra. ring.
    - replace (dotR u n * dotR u n) with ((- dotR u n) * (- dotR u n)) by ring.
      rewrite sqrt_square by lra. ring. }
  rewrite Q.
  replace ((n2 / n1 * (- s * - (- s * c)) + - (s * dotR u n)) * - s)
    with (n2 / n1 * c * s * (s * s) + (s * s) * dotR u n) by (unfold Rdiv; ring).
  rewrite Hss, W.
  set (a := dotR u n) in *.
  replace ((n1 / n2 * (s * a) + c) * s) with (n1 / n2 * (s * s) * a + c * s) by ring. rewrite Hss.
  unfold negR. apply vec3_eq; cbn; field; lra.
Qed.

Lemma times_unit v k : 0 < k -> lenR v = / k -> timesR k v = unitR v.
Proof. intros Hk H. unfold unitR. rewrite H. f_equal. field. lra. Qed.

(** Refract out, turn round, refract back. *)
Lemma refract_reversible niter niter' s m1 m1' m2 m2' A B A' B' l l' k k' r ri r2 ri' q n n2 v' c c' out back :
  arrives niter s A B l k r ri q -> normal_at s q n -> vel_in A B r <> zeroR ->
  getN m2 (Fin (wavelength r)) = Fin n2 -> 0 < n2 ->
  kth k (rv_refract niter s m1 m2 (Some (Fcs B)) (option_map Fcoat c) (Frv (RV l A))) out ->
  failed out = false -> vel out = F3 v' -> dotR v' n <> 0 ->
  arrives niter' s A' B' l' k' r2 ri' q -> vel_in A' B' r2 = negR v' ->
  getN m1' (Fin (wavelength r2)) = Fin (index_of (vel_in A B r)) ->
  kth k' (rv_refract niter' s m2' m1' (Some (Fcs B')) (option_map Fcoat c') (Frv (RV l' A'))) back ->
  failed back = false /\ vel back = F3 (negR (vel_in A B r)).
Proof.
  intros Ha Hn Hv H2 H2p Hk Hf Hv' Hg Ha2 Hr2 Hm1 Hb.
  pose proof (normal_at_unit _ _ _ Hn) as Hu. pose proof (unit_unit _ Hv) as Huu.
  pose proof (index_pos _ Hv) as H1p.
  pose proof (refract_nth niter s m1 m2 A B l k r ri q n c n2 Ha Hn Hv H2 H2p) as HR. cbv zeta in HR.
  set (v := vel_in A B r) in *. rewrite (kth_det _ _ _ _ Hk HR) in *.
  destruct (Rlt_dec 1 (sin2R (unitR v) n (index_of v) n2)) as [L|L]; [discriminate|].
  cbn [vel] in Hv'. apply F3_inj in Hv'.
  assert (Hs : sin2R (unitR v) n (index_of v) n2 <= 1) by lra.
  pose proof (len_refr _ _ _ _ Huu Hu H1p H2p Hs) as HL.
  pose proof (refr_nonzero _ _ _ _ Huu Hu H1p H2p Hs) as Hnz. rewrite Hv' in *.
  pose proof (refr_back _ _ _ _ Huu Hu H1p H2p Hs) as RB. cbv zeta in RB. rewrite Hv' in RB.
  assert (Hg' : dotR (timesR n2 v') n <> 0).
  { replace (dotR (timesR n2 v') n) with (n2 * dotR v' n) by (unfold dotR; cbn; ring).
    apply Rmult_integral_contrapositive_currified; lra. }
  destruct (RB Hg') as [RB1 RB2].
  assert (Hv2 : vel_in A' B' r2 <> zeroR) by (rewrite Hr2; intros E; apply Hnz, neg_zero, E).
  pose proof (refract_nth niter' s m2' m1' A' B' l' k' r2 ri' q n c' _ Ha2 Hn Hv2 Hm1 H1p) as HR2.
  cbv zeta in HR2. rewrite Hr2 in HR2.
  assert (I2 : index_of (negR v') = n2) by (unfold index_of; rewrite neg_len, HL; apply Rinv_inv).
  assert (U2 : unitR (negR v') = negR (timesR n2 v')).
  { rewrite unit_neg. f_equal. symmetry. apply times_unit; assumption. }
  rewrite I2, U2 in HR2. rewrite (kth_det _ _ _ _ Hb HR2).
  destruct (Rlt_dec _ _) as [L2|L2]; [lra|]. cbn [failed vel]. split; [reflexivity|].
  rewrite RB2. f_equal. f_equal. unfold index_of. rewrite Rinv_inv. apply unit_back, Hv.
Qed.
Lemma reflect_reversible niter niter' s A B A' B' l l' k k' r ri r2 ri' q n v' out back :
  arrives niter s A B l k r ri q -> normal_at s q n ->
  kth k (rv_reflect niter s (Some (Fcs B)) None (Frv (RV l A))) out -> vel out = F3 v' ->
  arrives niter' s A' B' l' k' r2 ri' q -> vel_in A' B' r2 = negR v' ->
  kth k' (rv_reflect niter' s (Some (Fcs B')) None (Frv (RV l' A'))) back ->
  vel back = F3 (negR (vel_in A B r)).
Proof.
  intros Ha Hn Hk Hv' Ha2 Hr2 Hb. pose proof (normal_at_unit _ _ _ Hn) as Hu.
  pose proof (reflect_nth niter s A B l k r ri q n None Ha Hn (or_introl eq_refl)) as H1.
  pose proof (reflect_nth niter' s A' B' l' k' r2 ri' q n None Ha2 Hn (or_introl eq_refl)) as H2.
  cbn [option_map] in *.
  rewrite (kth_det _ _ _ _ Hk H1) in Hv'. rewrite (kth_det _ _ _ _ Hb H2). cbn [vel] in *.
  apply F3_inj in Hv'. rewrite Hr2, <- Hv'. f_equal.
  replace (reflR (negR (reflR (vel_in A B r) n)) n) with (negR (reflR (reflR (vel_in A B r) n) n)).
  - rewrite refl_refl by assumption. reflexivity.
  - unfold reflR, negR, dotR. apply vec3_eq; cbn; ring.
Qed.

(** ** C57 *)
Definition dirsign (v n : vR) : R := if Rlt_dec (dotR v n) 0 then -1 else 1.
Lemma dirsign_cases v n : (dotR v n < 0 /\ dirsign v n = -1) \/ (0 <= dotR v n /\ dirsign v n = 1).
Proof. unfold dirsign. destruct (Rlt_dec _ _); [left|right]; split; lra. Qed.

Lemma basis n e1 : dotR n n = 1 -> dotR e1 e1 = 1 -> dotR n e1 = 0 ->
  let e2 := crossR n e1 in
  dotR e2 e2 = 1 /\ dotR e1 e2 = 0 /\ dotR n e2 = 0 /\
  forall e, plusR (plusR (timesR (dotR e e1) e1) (timesR (dotR e e2) e2)) (timesR (dotR e n) n) = e.
Proof.
  intros Hn H1 H01 e2.
  assert (H22 : dotR e2 e2 = 1).
  { transitivity (dotR n n * dotR e1 e1 - dotR n e1 * dotR n e1).
    - unfold e2, dotR, crossR; cbn; ring. - rewrite Hn, H1, H01; ring. }
  assert (H12 : dotR e1 e2 = 0) by (unfold e2, dotR, crossR; cbn; ring).
  assert (H02 : dotR n e2 = 0) by (unfold e2, dotR, crossR; cbn; ring).
  repeat split; auto. intros e.
  set (M := M3 (cx e1) (cx e2) (cx n) (cy e1) (cy e2) (cy n) (cz e1) (cz e2) (cz n)).
  assert (O : orthonormal M).
  { assert (col0 M = e1 /\ col1 M = e2 /\ col2 M = n) as (M0 & M1 & M2)
      by (destruct e1, n; repeat split; reflexivity).
    unfold orthonormal. rewrite M0, M1, M2.
    repeat split; auto; rewrite dotR_comm; assumption. }
  transitivity (applyR M (applyR (transR M) e)); [|apply orth_apply_rl, O].
  unfold M, applyR, transR, dotR. apply vec3_eq; cbn; ring.
Qed.

Definition e1R (n : vR) : vR :=
  let d := sqrt (cz n * cz n + cx n * cx n) in V3 (cz n / d) 0 (- cx n / d).
Definition screenR (v n : vR) (gx gy : R) : R * vR * vR * R * R :=
  let u := unitR v in
  let s := dirsign v n in
  let e1 := e1R n in
  let e2 := crossR n e1 in
  let c1 := dotR u e1 - s * (gx * cx e1 + gy * cy e1) in
  let c2 := dotR u e2 - s * (gx * cx e2 + gy * cy e2) in
  (s, e1, e2, c1, c2).

Lemma screen_vel_F s screen p v n gx gy :
  v <> zeroR -> normal s (Fin (cx p)) (Fin (cy p)) = F3 n -> (cx n <> 0 \/ cz n <> 0) ->
  grad screen (Fin (cx p)) (Fin (cy p)) = (Fin gx, Fin gy) ->
  let '(s3, e1, e2, c1, c2) := screenR v n gx gy in
  screen_vel s screen (F3 p) (F3 v) =
   if Rlt_dec (1 - c1 * c1 - c2 * c2) 0 then vnan
   else F3 (timesR (lenR v) (plusR (plusR (timesR c1 e1) (timesR c2 e2))
              (timesR (s3 * sqrt (1 - c1 * c1 - c2 * c2)) n))).
Proof.
  intros Hv Hn Hne Hg. unfold screenR. cbv zeta.
  unfold screen_vel. change (cx (F3 p)) with (Fin (cx p)). change (cy (F3 p)) with (Fin (cy p)).
  rewrite Hn, Hg. xunf.
  assert (Hd : 0 < cz n * cz n + cx n * cx n).
  { pose proof (sq_nonneg (cz n)). pose proof (sq_nonneg (cx n)). destruct Hne; nra. }
  pose proof (sqrt_lt_R0 _ Hd) as Hd'. pose proof (dot_pos v Hv) as Hvv. pose proof (len_pos v Hv) as Hl.
  fold (dotR v v). rewrite (xsqrt_fin (dotR v v)), (xsqrt_fin (cz n * cz n + _)) by lra.
  fold (lenR v). rewrite !xdiv_fin by lra. cbn [xmul xadd xsub xopp].
  set (d := sqrt (cz n * cz n + cx n * cx n)) in *.
  assert (C3 : cx v * (1 / lenR v) * cx n + cy v * (1 / lenR v) * cy n + cz v * (1 / lenR v) * cz n
            = dotR v n / lenR v) by (unfold dotR; field; lra).
  rewrite C3.
  assert (LT : xltb (Fin (dotR v n / lenR v)) (Fin 0) = if Rlt_dec (dotR v n) 0 then true else false).
  { destruct (Rlt_dec (dotR v n) 0).
    - apply xltb_t. unfold Rdiv. pose proof (Rinv_0_lt_compat _ Hl). nra.
    - apply xltb_f. unfold Rdiv. pose proof (Rinv_0_lt_compat _ Hl). nra. }
  rewrite LT. unfold dirsign.
  assert (E1 : e1R n = V3 (cz n / d) 0 (- cx n / d)) by reflexivity.
  destruct (Rlt_dec (dotR v n) 0);
  cbv beta zeta iota;
  match goal with |- context [xsqrt (Fin (1 - ?a * ?a - ?b * ?b))] =>
    match goal with |- context [Rlt_dec (1 - ?a' * ?a' - ?b' * ?b') 0] =>
      replace a' with a by (rewrite E1; unfold unitR, dotR, crossR; cbn; field; lra);
      replace b' with b by (rewrite E1; unfold unitR, dotR, crossR; cbn; field; lra);
      set (c1 := a); set (c2 := b) end end;
  (destruct (Rlt_dec (1 - c1 * c1 - c2 * c2) 0) as [Hr|Hr];
   [rewrite xsqrt_neg by assumption; reflexivity|]);
  rewrite xsqrt_fin by lra; cbn [xmul xadd xsub xopp];
  rewrite E1; apply vec3_eq; cbn; f_equal; ring.
Qed.

Lemma screen_nth niter s screen A B l k r ri q : arrives niter s A B l k r ri q ->
  kth k (rv_screen niter s screen (Some (Fcs B)) (Frv (RV l A)))
   (Ray (F3 q) (screen_vel s screen (F3 q) (F3 (vel_in A B r)))
        (nadd (time ri) (sag screen (Fin (cx q)) (Fin (cy q)))) (wavelength ri) (flux ri) (vignetted ri) false).
Proof.
  intros Ha. destruct (arrives_hit _ _ _ _ _ _ _ _ _ Ha) as (t & Hh & Hq & ->).
  destruct Ha as [HA HB Hk Hl Hi Hok Hpq]. unfold kth, rv_screen.
  rewrite (batch_nth _ _ _ _ _ _ Hk). f_equal.
  unfold ray_screen; cbn [failed Fray pos vel]. rewrite Hl, fwd_point_in, fwd_vel_in by assumption.
  rewrite Hh. rewrite advance_F, <- Hq. reflexivity.
Qed.

Lemma vnan_not_F3 v : vnan <> F3 v.
Proof. destruct v; cbn; discriminate. Qed.

Lemma screen_len v n e1 c1 c2 s3 : dotR n n = 1 -> dotR e1 e1 = 1 -> dotR n e1 = 0 -> s3 * s3 = 1 ->
  0 <= 1 - c1 * c1 - c2 * c2 -> v <> zeroR ->
  let e2 := crossR n e1 in
  let w := plusR (plusR (timesR c1 e1) (timesR c2 e2)) (timesR (s3 * sqrt (1 - c1 * c1 - c2 * c2)) n) in
  let v' := timesR (lenR v) w in
  lenR v' = lenR v /\ unitR v' = w /\ dotR w n = s3 * sqrt (1 - c1 * c1 - c2 * c2) /\
  dotR w e1 = c1 /\ dotR w e2 = c2.
Proof.
  intros Hn H1 H01 Hs Hr Hv e2 w v'.
  destruct (basis n e1 Hn H1 H01) as (H22 & H12 & H02 & _). fold e2 in H22, H12, H02.
  set (c3 := s3 * sqrt (1 - c1 * c1 - c2 * c2)) in *.
  assert (W : forall x, dotR w x = c1 * dotR e1 x + c2 * dotR e2 x + c3 * dotR n x).
  { intros x. unfold w, dotR; cbn; ring. }
  assert (We1 : dotR w e1 = c1) by (rewrite W, H1, H01, (dotR_comm e2), H12; ring).
  assert (We2 : dotR w e2 = c2) by (rewrite W, H12, H22, H02; ring).
  assert (Wn : dotR w n = c3) by (rewrite W, Hn, (dotR_comm e1), H01, (dotR_comm e2), H02; ring).
  assert (WW : dotR w w = 1).
  { rewrite W, (dotR_comm e1), (dotR_comm e2), (dotR_comm n), We1, We2, Wn.
    assert (C3 : c3 * c3 = 1 - c1 * c1 - c2 * c2).
    { unfold c3. replace (s3 * sqrt (1 - c1 * c1 - c2 * c2) * (s3 * sqrt (1 - c1 * c1 - c2 * c2)))
        with ((s3 * s3) * (sqrt (1 - c1 * c1 - c2 * c2) * sqrt (1 - c1 * c1 - c2 * c2))) by ring.
      rewrite Hs, sqrt_sqrt by assumption. ring. }
    rewrite C3. ring. }
  pose proof (len_pos v Hv) as Hl.
  assert (LV : lenR v' = lenR v).
  { unfold v'. rewrite len_times by lra. unfold lenR at 2. rewrite WW, sqrt_1. ring. }
  repeat split; auto. unfold unitR. rewrite LV. unfold v'. rewrite times_times, Rinv_l by lra.
  apply times_1.
Qed.

Lemma e1R_props n : dotR n n = 1 -> (cx n <> 0 \/ cz n <> 0) -> dotR (e1R n) (e1R n) = 1 /\ dotR n (e1R n) = 0.
Proof.
  intros Hn Hne. assert (Hd : 0 < cz n * cz n + cx n * cx n).
  { pose proof (sq_nonneg (cz n)). pose proof (sq_nonneg (cx n)). destruct Hne; nra. }
  pose proof (sqrt_lt_R0 _ Hd) as Hd'. pose proof (sqrt_sqrt (cz n * cz n + cx n * cx n)) as S.
  unfold e1R. set (d := sqrt (cz n * cz n + cx n * cx n)) in *. unfold dotR; cbn. split.
  - replace (cz n / d * (cz n / d) + 0 * 0 + - cx n / d * (- cx n / d))
      with ((cz n * cz n + cx n * cx n) / (d * d)) by (field; lra).
    rewrite S by lra. field. lra.
  - field. lra.
Qed.

Lemma screen_law niter s screen A B l k r ri q n gx gy h r' v' :
  arrives niter s A B l k r ri q -> normal_at s q n -> (cx n <> 0 \/ cz n <> 0) ->
  vel_in A B r <> zeroR ->
  grad screen (Fin (cx q)) (Fin (cy q)) = (Fin gx, Fin gy) ->
  sag screen (Fin (cx q)) (Fin (cy q)) = Fin h ->
  kth k (rv_screen niter s screen (Some (Fcs B)) (Frv (RV l A))) r' -> vel r' = F3 v' ->
  let v := vel_in A B r in
  let dir := dirsign v n in
  r' = Ray (pos ri) (F3 v') (nadd (time ri) (Fin h)) (wavelength ri) (flux ri) (vignetted ri) (failed ri) /\
  lenR v' = lenR v /\
  (forall e, dotR e n = 0 -> dotR (unitR v') e = dotR (unitR v) e - dir * (gx * cx e + gy * cy e)) /\
  0 <= dir * dotR v' n /\
  (gx = 0 -> gy = 0 -> v' = v).
Proof.
  intros Ha Hn Hne Hv Hg Hh Hk Hv' v dir.
  pose proof (normal_at_unit _ _ _ Hn) as Hu.
  pose proof (screen_nth niter s screen A B l k r ri q Ha) as HS.
  pose proof (screen_vel_F s screen q v n gx gy Hv Hn Hne Hg) as SV.
  rewrite (kth_det _ _ _ _ Hk HS) in *. cbn [vel] in Hv'. fold v in Hv'.
  assert (R' : Ray (F3 q) (screen_vel s screen (F3 q) (F3 v))
        (nadd (time ri) (sag screen (Fin (cx q)) (Fin (cy q)))) (wavelength ri) (flux ri) (vignetted ri) false
     = Ray (pos ri) (F3 v') (nadd (time ri) (Fin h)) (wavelength ri) (flux ri) (vignetted ri) (failed ri)).
  { rewrite Hv', Hh, (ar_q _ _ _ _ _ _ _ _ _ Ha), (ar_ok _ _ _ _ _ _ _ _ _ Ha). reflexivity. }
  split; [exact R'|]. clear R' Hk HS.
  unfold screenR in SV. cbv zeta in SV. fold dir in SV. rewrite Hv' in SV.
  destruct (e1R_props n Hu Hne) as [He1 Hne1]. set (e1 := e1R n) in *. set (e2 := crossR n e1) in *.
  set (c1 := dotR (unitR v) e1 - dir * (gx * cx e1 + gy * cy e1)) in *.
  set (c2 := dotR (unitR v) e2 - dir * (gx * cx e2 + gy * cy e2)) in *.
  destruct (Rlt_dec _ _) as [Hr|Hr]; [symmetry in SV; exfalso; exact (vnan_not_F3 _ SV)|].
  apply F3_inj in SV.
  assert (D2 : dir * dir = 1) by (unfold dir; destruct (dirsign_cases v n) as [[_ ->]|[_ ->]]; ring).
  destruct (screen_len v n e1 c1 c2 dir Hu He1 Hne1 D2 ltac:(lra) Hv) as (L & U & Wn & W1 & W2).
  destruct (basis n e1 Hu He1 Hne1) as (H22 & H12 & H02 & HB). fold e2 in H22, H12, H02, HB, L, U, Wn, W1, W2.
  rewrite <- SV in L, U.
  set (w := plusR (plusR (timesR c1 e1) (timesR c2 e2)) (timesR (dir * sqrt (1 - c1 * c1 - c2 * c2)) n)) in *.
  pose proof (len_pos v Hv) as Hl.
  split; [exact L|]. split; [|split].
  - intros e He. rewrite U.
    assert (E : e = plusR (timesR (dotR e e1) e1) (timesR (dotR e e2) e2)).
    { rewrite <- (HB e) at 1. rewrite He. apply vec3_eq; cbn; ring. }
    transitivity (dotR e e1 * dotR w e1 + dotR e e2 * dotR w e2).
    { rewrite E at 1. unfold dotR; cbn; ring. }
    rewrite W1, W2. unfold c1, c2.
    transitivity (dotR (unitR v) (plusR (timesR (dotR e e1) e1) (timesR (dotR e e2) e2))
      - dir * (gx * cx (plusR (timesR (dotR e e1) e1) (timesR (dotR e e2) e2))
             + gy * cy (plusR (timesR (dotR e e1) e1) (timesR (dotR e e2) e2)))).
    { set (a := dotR e e1). set (b := dotR e e2). unfold dotR; cbn; ring. }
    rewrite <- E. reflexivity.
  - rewrite SV. replace (dotR (timesR (lenR v) w) n) with (lenR v * dotR w n) by (unfold dotR; cbn; ring).
    rewrite Wn. pose proof (sqrt_pos (1 - c1 * c1 - c2 * c2)).
    replace (dir * (lenR v * (dir * sqrt (1 - c1 * c1 - c2 * c2))))
      with ((dir * dir) * (lenR v * sqrt (1 - c1 * c1 - c2 * c2))) by ring. rewrite D2. nra.
  - intros -> ->. 
    assert (C1 : c1 = dotR (unitR v) e1) by (unfold c1; ring).
    assert (C2 : c2 = dotR (unitR v) e2) by (unfold c2; ring).
    pose proof (unit_unit v Hv) as UU.
    assert (N1 : 1 - c1 * c1 - c2 * c2 = dotR (unitR v) n * dotR (unitR v) n).
    { assert (P : dotR (unitR v) (unitR v) = dotR (unitR v) e1 * dotR (unitR v) e1
        + dotR (unitR v) e2 * dotR (unitR v) e2 + dotR (unitR v) n * dotR (unitR v) n).
      { rewrite <- (HB (unitR v)) at 2. set (a := dotR (unitR v) e1). set (b := dotR (unitR v) e2).
        set (c := dotR (unitR v) n).
        transitivity (a * dotR (unitR v) e1 + b * dotR (unitR v) e2 + c * dotR (unitR v) n);
        [unfold dotR; cbn; ring|reflexivity]. }
      rewrite UU in P. rewrite C1, C2. lra. }
    assert (DN : dotR (unitR v) n = dotR v n / lenR v) by (unfold unitR, dotR; cbn; field; lra).
    assert (SQ : dir * sqrt (1 - c1 * c1 - c2 * c2) = dotR (unitR v) n).
    { rewrite N1. pose proof (Rinv_0_lt_compat _ Hl) as IL. unfold dir.
      destruct (dirsign_cases v n) as [[Hx ->]|[Hx ->]].
      - replace (dotR (unitR v) n * dotR (unitR v) n) with ((- dotR (unitR v) n) * (- dotR (unitR v) n)) by ring.
        rewrite sqrt_square; [ring|]. rewrite DN. unfold Rdiv. nra.
      - rewrite sqrt_square; [ring|]. rewrite DN. unfold Rdiv. nra. }
    rewrite SV. unfold w. rewrite SQ, C1, C2, HB. apply unit_back, Hv.
Qed.
