(** Proofs about perfect imaging by conics. *)
From Coq Require Import Reals List ZArith Bool Lra Psatz.
From Verif Require Import Num NumR Vec CoordSys Surface Medium Obscuration Ray Bundle Optic Spec OpticsSpec XRFacts CoordFacts
  RayFacts NormalFacts RefractProofs OpticsProofs RootFacts IntersectProofs IntersectMore TreeSpec TreeProofs AnalysisProofs AnalysisFocus MoveProofs AxialProofs AxialTrace StigSpec.
Import ListNotations.
Open Scope R_scope.

(** ** Vectors *)
Lemma refl_char u w m G c lam : dotR u u = dotR w w -> minusR u w = timesR lam G -> lam <> 0 -> m = timesR c G -> dotR m m = 1 -> reflR u m = w.
Proof.
  intros Huw E Hl -> Hm.
  assert (W : w = minusR u (timesR lam G)) by (rewrite <- E; apply vec3_eq; cbn; ring).
  assert (D : 2 * dotR u G = lam * dotR G G).
  { apply (Rmult_eq_reg_l lam); [|exact Hl]. rewrite W in Huw.
    assert (K : dotR (minusR u (timesR lam G)) (minusR u (timesR lam G)) = dotR u u - lam * (2 * dotR u G) + lam * (lam * dotR G G)) by (unfold dotR; cbn; ring).
    lra. }
  assert (M : c * c * dotR G G = 1) by (rewrite <- Hm; unfold dotR; cbn; ring).
  rewrite W. unfold reflR.
  assert (K : timesR (2 * dotR u (timesR c G)) (timesR c G) = timesR lam G); [|rewrite K; reflexivity].
  transitivity (timesR (c * c * (2 * dotR u G)) G); [apply vec3_eq; unfold dotR; cbn; ring|]. rewrite D.
  replace (c * c * (lam * dotR G G)) with lam; [reflexivity|]. transitivity (lam * (c * c * dotR G G)); [rewrite M; ring|ring].
Qed.
Lemma refr_char u w m k1 k2 lam : dotR u u = 1 -> dotR w w = 1 -> dotR m m = 1 -> 0 < k1 -> 0 < k2 -> sin2R u m k1 k2 <= 1 ->
  minusR (timesR k1 u) (timesR k2 w) = timesR lam m -> 0 < dotR u m * dotR w m -> refrR u m k1 k2 = timesR (/ k2) w.
Proof.
  intros Hu Hw Hm H1 H2 Hs E P.
  assert (W : w = timesR (/ k2) (minusR (timesR k1 u) (timesR lam m))).
  { rewrite <- E. apply vec3_eq; cbn; field; lra. }
  (* normal component of w *)
  assert (A : k2 * dotR w m = k1 * dotR u m - lam).
  { rewrite W. transitivity (k1 * dotR u m - lam * dotR m m); [unfold dotR; cbn; field; lra|rewrite Hm; ring]. }
  assert (B : dotR w m * dotR w m = 1 - sin2R u m k1 k2).
  { assert (k2 * k2 = k1 * k1 - 2 * k1 * lam * dotR u m + lam * lam).
    { transitivity (k2 * k2 * dotR w w); [rewrite Hw; ring|]. rewrite W at 1 2.
      transitivity (k1 * k1 * dotR u u - 2 * k1 * lam * dotR u m + lam * lam * dotR m m); [unfold dotR; cbn; field; lra|]. rewrite Hu, Hm. ring. }
    apply (Rmult_eq_reg_l (k2 * k2)); [|nra]. unfold sin2R.
    transitivity ((k2 * dotR w m) * (k2 * dotR w m)); [ring|]. rewrite A.
    transitivity (k2 * k2 - k1 * k1 * (1 - dotR u m * dotR u m)); [|field; lra]. rewrite H. ring. }
  set (s := sqrt (1 - sin2R u m k1 k2)).
  assert (S : s * s = dotR w m * dotR w m) by (unfold s; rewrite sqrt_sqrt by lra; symmetry; exact B).
  assert (S0 : 0 <= s) by apply sqrt_pos.
  unfold refrR. cbv zeta. fold s. f_equal.
  assert (K : dotR w m = - sideR u m * s).
  { destruct (side_cases u m) as [[G ->]|[G ->]]; [assert (0 < dotR w m) by nra|assert (dotR w m < 0) by nra]; nra. }
  assert (L : lam = k2 * ((k1 / k2 * (sideR u m * dotR u m) + s) * sideR u m)).
  { transitivity (k1 * dotR u m - k2 * dotR w m); [lra|]. rewrite K. pose proof (side_sq u m) as Q.
    transitivity (k1 * dotR u m * (sideR u m * sideR u m) + k2 * s * sideR u m); [rewrite Q; ring|field; lra]. }
  rewrite W at 1. rewrite L. apply vec3_eq; cbn; field; lra.
Qed.

(** ** The conic *)
Section Conic.
  Context (rad k e : R) (q : vR) (Hr : rad <> 0) (Hk : 1 + k <> 0) (He : 0 <= e) (Hek : k = - (e * e)).
  Context (Hon : on_sag (Quadric (Fin rad) (Fin k)) q).
  Let G : vR := V3 (- cx q) (- cy q) (rad - (1 + k) * cz q).
  Let d1 := e * cz q + rad / (1 + e).
  Let d2 := rad / (1 - e) - e * cz q.
  Lemma conic_e1 : 1 - e <> 0.
  Proof. intros E. apply Hk. rewrite Hek. replace e with 1 by lra. ring. Qed.
  Lemma conic_whole : cx q * cx q + cy q * cy q = 2 * rad * cz q - (1 + k) * (cz q * cz q).
  Proof. apply (on_sag_iff (ShQuadric rad k)) in Hon; [|cbn; auto]. destruct Hon as (W & _). cbn in W. lra. Qed.
  Lemma conic_vertex : 0 <= rad * (rad - (1 + k) * cz q).
  Proof. apply (on_sag_iff (ShQuadric rad k)) in Hon; [|cbn; auto]. destruct Hon as (_ & V). exact V. Qed.
  Lemma conic_d1 : dotR (minusR q (V3 0 0 (rad / (1 + e)))) (minusR q (V3 0 0 (rad / (1 + e)))) = d1 * d1.
  Proof.
    pose proof conic_whole as W. unfold dotR; cbn. unfold d1. rewrite !Rminus_0_r, W, Hek. field. lra.
  Qed.
  Lemma conic_d2 : dotR (minusR q (V3 0 0 (rad / (1 - e)))) (minusR q (V3 0 0 (rad / (1 - e)))) = d2 * d2.
  Proof.
    pose proof conic_whole as W. pose proof conic_e1. unfold dotR; cbn. unfold d2. rewrite !Rminus_0_r, W, Hek. field. lra.
  Qed.
  Lemma conic_sum : d1 + d2 = 2 * rad / (1 + k).
  Proof. pose proof conic_e1. unfold d1, d2. rewrite Hek. field. split; [nra|split; lra]. Qed.
  Lemma conic_rz : 0 <= rad * cz q.
  Proof.
    pose proof conic_whole as W. pose proof conic_vertex as V. destruct (Rle_dec 0 (rad * cz q)) as [H|H]; [exact H|exfalso].
    assert (P : 0 <= cz q * (2 * rad - (1 + k) * cz q)) by nra.
    assert (P2 : 0 <= (rad * cz q) * (2 * (rad * rad) - (1 + k) * (rad * cz q))).
    { replace ((rad * cz q) * (2 * (rad * rad) - (1 + k) * (rad * cz q))) with (rad * rad * (cz q * (2 * rad - (1 + k) * cz q))) by ring. nra. }
    assert (0 < rad * rad) by nra. nra.
  Qed.
  Lemma conic_d1_sign : 0 < rad * d1.
  Proof.
    pose proof conic_rz. unfold d1. replace (rad * (e * cz q + rad / (1 + e))) with (e * (rad * cz q) + rad * rad / (1 + e)) by (field; lra).
    assert (0 < rad * rad / (1 + e)) by (apply Rdiv_lt_0_compat; nra). nra.
  Qed.
  Lemma conic_d2_sign : 0 < rad * (1 + k) * d2.
  Proof.
    pose proof conic_e1. pose proof conic_vertex. unfold d2.
    replace (rad * (1 + k) * (rad / (1 - e) - e * cz q)) with (rad * rad * (1 + e) - e * (rad * ((1 + k) * cz q))) by (rewrite Hek; field; lra).
    assert (0 < rad * rad) by nra. nra.
  Qed.
  Lemma conic_normal m : normal (Quadric (Fin rad) (Fin k)) (Fin (cx q)) (Fin (cy q)) = F3 m ->
    exists c, m = timesR c G /\ c <> 0 /\ rad - (1 + k) * cz q <> 0.
  Proof.
    intros E. set (x := cx q) in *. set (y := cy q) in *. pose proof conic_whole as W. fold x y in W. pose proof conic_vertex as V. unfold G. fold x y.
    cbn [normal] in E. unfold radial_normal in E. cbn [nadd nmul NumXR xadd xmul nsqrt] in E. rewrite xsqrt_fin in E by nra.
    destruct (Req_dec (sqrt (x * x + y * y)) 0) as [Z|Z].
    - xunf. rewrite (xeqb_t _ _ Z) in E. apply sqrt_eq_0 in Z; [|nra]. assert (x = 0) by nra. assert (y = 0) by nra.
      assert (Z0 : cz q = 0).
      { assert (P : cz q * (2 * rad - (1 + k) * cz q) = 0) by nra. apply Rmult_integral in P. destruct P as [P|P]; [exact P|]. exfalso. nra. }
      exists (/ rad). change (zhat (T := XR)) with (F3 (V3 0 0 1)) in E. apply F3_inj in E. subst m. rewrite Z0. split; [apply vec3_eq; cbn; [rewrite H|rewrite H0|]; field; exact Hr|].
      split; [apply Rinv_neq_0_compat, Hr|]. rewrite Rmult_0_r. lra.
    - xunf. rewrite xeqb_f in E by exact Z. set (rr := sqrt (x * x + y * y)) in *. assert (Rr : rr * rr = x * x + y * y) by (apply sqrt_sqrt; nra).
      unfold quadric_dzdr in E. xunf. rewrite xeqb_f in E by exact Hr. cbn [negb] in E.
      rewrite (xdiv_fin (k + 1) rad) in E by exact Hr. rewrite (xdiv_fin _ rad) in E by exact Hr. cbn [xmul xsub] in E.
      set (S2 := 1 - rr * rr * ((k + 1) / rad / rad)) in *.
      assert (HS : S2 * (rad * rad) = (rad - (1 + k) * cz q) * (rad - (1 + k) * cz q)).
      { unfold S2. rewrite Rr, W. field. exact Hr. }
      assert (S0 : 0 <= S2).
      { assert (RP : 0 < rad * rad) by nra. assert (SQ : 0 <= S2 * (rad * rad)) by (rewrite HS; apply Rle_0_sqr). clear - RP SQ. nra. }
      rewrite xsqrt_fin in E by exact S0. set (S := sqrt S2) in *. assert (SS : S * S = S2) by (apply sqrt_sqrt; exact S0). assert (SP : 0 <= S) by apply sqrt_pos.
      assert (RS : rad - (1 + k) * cz q = rad * S).
      { assert (K : (rad - (1 + k) * cz q) * (rad - (1 + k) * cz q) = (rad * S) * (rad * S)) by (rewrite <- HS, <- SS; ring).
        set (a := rad - (1 + k) * cz q) in *. assert (KK : (rad * a) * (rad * a) = (rad * rad * S) * (rad * rad * S)) by (transitivity (rad * rad * (a * a)); [ring|rewrite K; ring]).
        assert (P0 : 0 <= rad * rad * S) by (assert (0 <= rad * rad) by nra; nra). apply (Rmult_eq_reg_l rad); [|exact Hr].
        replace (rad * (rad * S)) with (rad * rad * S) by ring. clear - KK P0 V. set (b := rad * a) in *. set (c := rad * rad * S) in *. nra. }
      cbn [xmul] in E. destruct (Req_dec S 0) as [S00|S00].
      + exfalso. rewrite S00, Rmult_0_r in E. apply (f_equal cx) in E. cbn [cx F3 vmap] in E.
        assert (RR0 : 0 < rr) by (pose proof (sqrt_pos (x * x + y * y)); unfold rr in *; lra).
        replace (xdiv (Fin rr) (Fin 0)) with PInf in E.
        2:{ cbn. unfold xsgn. destruct (Req_EM_T 0 0); [|lra]. destruct (Rlt_dec 0 rr); [reflexivity|lra]. }
        apply mul_fin in E. destruct E as (? & ? & E & _ & _). apply mul_fin in E. destruct E as (? & ? & _ & E & _). discriminate.
      + assert (RSn : rad * S <> 0) by (apply Rmult_integral_contrapositive; auto). rewrite (xdiv_fin rr (rad * S)) in E by exact RSn. cbn [xmul xadd] in E.
        set (dz := rr / (rad * S)) in *. assert (0 < sqrt (1 + dz * dz)) by (apply sqrt_lt_R0; nra). rewrite xsqrt_fin in E by nra. rewrite (xdiv_fin 1) in E by lra.
        set (nz := 1 / sqrt (1 + dz * dz)) in *. cbn [xopp] in E. rewrite !xdiv_fin in E by exact Z. cbn [xmul] in E.
        exists (nz / (rad * S)). rewrite RS. split.
        * apply F3_inj. transitivity (V3 (Fin (- x / rr * dz * nz)) (Fin (- y / rr * dz * nz)) (Fin nz)); [symmetry; exact E|]. apply vec3_eq; cbn; f_equal; unfold dz; field; auto.
        * split; [|exact RSn]. unfold Rdiv, nz. apply Rmult_integral_contrapositive. split; [|apply Rinv_neq_0_compat, RSn].
          unfold Rdiv. rewrite Rmult_1_l. apply Rinv_neq_0_compat. lra.
  Qed.
End Conic.

(** ** Frames *)
Lemma axis_local B z : good_frame B -> local_point B (axis_point B z) = V3 0 0 z.
Proof. intros H. apply local_of_global, H. Qed.
Lemma passes_local A B r t z : good_frame A -> good_frame B -> passes A r t (axis_point B z) ->
  plusR (chg_pt A B (pos r)) (timesR (t - time r) (chg_vec A B (vel r))) = V3 0 0 z.
Proof.
  intros HA HB H. rewrite chg_pt_local, chg_vec_local by assumption. rewrite <- (axis_local B z HB), <- H.
  apply vec3_eq; cbn; ring.
Qed.
Lemma passes_here B r t z : plusR (pos r) (timesR (t - time r) (vel r)) = V3 0 0 z -> passes B r t (axis_point B z).
Proof. intros H. unfold passes, axis_point. rewrite <- H. apply vec3_eq; cbn; ring. Qed.
Lemma chg_vec_dot A B v : good_frame A -> good_frame B -> dotR (chg_vec A B v) (chg_vec A B v) = dotR v v.
Proof.
  intros HA HB. rewrite chg_vec_local. unfold local_dir, global_dir. rewrite orth_dot by (apply orth_trans, HB). apply orth_dot, HA.
Qed.
Lemma chg_vec_len A B v : good_frame A -> good_frame B -> lenR (chg_vec A B v) = lenR v.
Proof. intros. unfold lenR. rewrite chg_vec_dot by assumption. reflexivity. Qed.
(** Signed quotient of lengths. *)
Lemma len_ratio v tau d : timesR tau v <> zeroR -> dotR (timesR tau v) (timesR tau v) = d * d ->
  tau <> 0 /\ 0 < lenR v /\ (tau = d * / lenR v \/ tau = - (d * / lenR v)).
Proof.
  intros Nz E.
  assert (T : tau <> 0) by (intros ->; apply Nz; apply vec3_eq; cbn; ring).
  assert (V : v <> zeroR) by (intros ->; apply Nz; apply vec3_eq; cbn; ring).
  pose proof (len_pos v V) as L. split; [exact T|]. split; [exact L|].
  assert (K : (tau * lenR v) * (tau * lenR v) = d * d).
  { transitivity (tau * tau * (lenR v * lenR v)); [ring|]. rewrite RefractProofs.len_sq, <- E. unfold dotR; cbn; ring. }
  assert (P : (tau * lenR v - d) * (tau * lenR v + d) = 0) by lra.
  apply Rmult_integral in P. destruct P as [P|P]; [left|right]; apply (Rmult_eq_reg_r (lenR v)); try lra.
  - rewrite Rmult_assoc, Rinv_l by lra. lra.
  - transitivity (- d); [lra|field; lra].
Qed.

(** ** One mirror *)
Section Mirror.
  Context (rad e : R) (q : vR) (Hr : rad <> 0) (He : 0 <= e) (H1 : e <> 1).
  Context (Hon : on_sag (Quadric (Fin rad) (Fin (- (e * e)))) q).
  Let f1 := V3 0 0 (rad / (1 + e)).
  Let f2 := V3 0 0 (rad / (1 - e)).
  Let d1 := e * cz q + rad / (1 + e).
  Let d2 := rad / (1 - e) - e * cz q.
  Lemma ecc_k : 1 + - (e * e) <> 0.
  Proof. intros E. apply H1. assert (P : (1 - e) * (1 + e) = 0) by lra. apply Rmult_integral in P. destruct P; lra. Qed.
  Lemma d1_nz : d1 <> 0.
  Proof. pose proof (conic_d1_sign rad (- (e * e)) e q Hr ecc_k He Hon) as P. unfold d1. intros E. rewrite E in P. lra. Qed.
  Lemma d2_nz : d2 <> 0.
  Proof. pose proof (conic_d2_sign rad (- (e * e)) e q Hr ecc_k He eq_refl Hon) as P. unfold d2. intros E. rewrite E in P. lra. Qed.
  (** Both unit vectors to the foci, added up, are along the normal. *)
  Lemma conic_bisect : plusR (timesR d2 (minusR q f1)) (timesR d1 (minusR q f2)) =
    timesR (- (d1 + d2)) (V3 (- cx q) (- cy q) (rad - (1 + - (e * e)) * cz q)).
  Proof.
    assert (1 - e <> 0) by lra. unfold d1, d2, f1, f2. apply vec3_eq; cbn; field; split; lra.
  Qed.
  Lemma mirror_near v m tau : normal (Quadric (Fin rad) (Fin (- (e * e)))) (Fin (cx q)) (Fin (cy q)) = F3 m -> tau <> 0 ->
    minusR q f1 = timesR tau v -> reflR v m = timesR (d1 / (tau * d2)) (minusR f2 q).
  Proof.
    intros Hm T E. pose proof d1_nz as N1. pose proof d2_nz as N2.
    destruct (conic_normal rad (- (e * e)) q Hr ecc_k Hon m Hm) as (c & -> & C0 & _).
    set (G := V3 (- cx q) (- cy q) (rad - (1 + - (e * e)) * cz q)) in *.
    assert (V : v = timesR (/ tau) (minusR q f1)) by (rewrite E; apply vec3_eq; cbn; field; exact T).
    assert (D1 : dotR (minusR q f1) (minusR q f1) = d1 * d1) by (apply (conic_d1 rad (- (e * e)) e q Hr ecc_k He eq_refl Hon)).
    assert (D2 : dotR (minusR q f2) (minusR q f2) = d2 * d2) by (apply (conic_d2 rad (- (e * e)) e q Hr ecc_k eq_refl Hon)).
    apply (refl_char v _ _ G c (- (d1 + d2) / (tau * d2))).
    - transitivity (/ tau * / tau * (d1 * d1)); [rewrite V, <- D1; unfold dotR; cbn; ring|].
      transitivity (d1 / (tau * d2) * (d1 / (tau * d2)) * (d2 * d2)); [field; auto|rewrite <- D2; unfold dotR; cbn; ring].
    - transitivity (timesR (/ (tau * d2)) (plusR (timesR d2 (minusR q f1)) (timesR d1 (minusR q f2)))).
      + rewrite V. clearbody d1 d2 f1 f2. apply vec3_eq; cbn; field; auto.
      + rewrite conic_bisect. fold G. clearbody d1 d2 G. apply vec3_eq; cbn; field; auto.
    - pose proof (conic_sum rad (- (e * e)) e q ecc_k He eq_refl) as S. fold d1 d2 in S.
      unfold Rdiv. apply Rmult_integral_contrapositive. split; [rewrite S|apply Rinv_neq_0_compat, Rmult_integral_contrapositive; auto].
      pose proof ecc_k as EK. intros Z. apply Hr. apply (Rmult_eq_reg_r (2 / (1 + - (e * e)))); [|unfold Rdiv; apply Rmult_integral_contrapositive; split; [lra|apply Rinv_neq_0_compat; exact EK]].
      rewrite Rmult_0_l. transitivity (- - (2 * rad / (1 + - (e * e)))); [field; exact EK|rewrite Z; ring].
    - reflexivity.
    - apply (normal_unit _ _ _ _ Hm).
  Qed.
  Lemma mirror_far v m tau : normal (Quadric (Fin rad) (Fin (- (e * e)))) (Fin (cx q)) (Fin (cy q)) = F3 m -> tau <> 0 ->
    minusR q f2 = timesR tau v -> reflR v m = timesR (d2 / (tau * d1)) (minusR f1 q).
  Proof.
    intros Hm T E. pose proof d1_nz as N1. pose proof d2_nz as N2.
    destruct (conic_normal rad (- (e * e)) q Hr ecc_k Hon m Hm) as (c & -> & C0 & _).
    set (G := V3 (- cx q) (- cy q) (rad - (1 + - (e * e)) * cz q)) in *.
    assert (V : v = timesR (/ tau) (minusR q f2)) by (rewrite E; apply vec3_eq; cbn; field; exact T).
    assert (D1 : dotR (minusR q f1) (minusR q f1) = d1 * d1) by (apply (conic_d1 rad (- (e * e)) e q Hr ecc_k He eq_refl Hon)).
    assert (D2 : dotR (minusR q f2) (minusR q f2) = d2 * d2) by (apply (conic_d2 rad (- (e * e)) e q Hr ecc_k eq_refl Hon)).
    apply (refl_char v _ _ G c (- (d1 + d2) / (tau * d1))).
    - transitivity (/ tau * / tau * (d2 * d2)); [rewrite V, <- D2; unfold dotR; cbn; ring|].
      transitivity (d2 / (tau * d1) * (d2 / (tau * d1)) * (d1 * d1)); [field; auto|rewrite <- D1; unfold dotR; cbn; ring].
    - transitivity (timesR (/ (tau * d1)) (plusR (timesR d2 (minusR q f1)) (timesR d1 (minusR q f2)))).
      + rewrite V. clearbody d1 d2 f1 f2. apply vec3_eq; cbn; field; auto.
      + rewrite conic_bisect. fold G. clearbody d1 d2 G. apply vec3_eq; cbn; field; auto.
    - pose proof (conic_sum rad (- (e * e)) e q ecc_k He eq_refl) as S. fold d1 d2 in S.
      unfold Rdiv. apply Rmult_integral_contrapositive. split; [rewrite S|apply Rinv_neq_0_compat, Rmult_integral_contrapositive; auto].
      pose proof ecc_k as EK. intros Z. apply Hr. apply (Rmult_eq_reg_r (2 / (1 + - (e * e)))); [|unfold Rdiv; apply Rmult_integral_contrapositive; split; [lra|apply Rinv_neq_0_compat; exact EK]].
      rewrite Rmult_0_l. transitivity (- - (2 * rad / (1 + - (e * e)))); [field; exact EK|rewrite Z; ring].
    - reflexivity.
    - apply (normal_unit _ _ _ _ Hm).
  Qed.
End Mirror.
Lemma lands_inv niter i b A r B r1 : (forall s, i_kind i <> KScreen s) -> i_cs i = Fcs B -> lands niter i b A r B r1 ->
  exists u v', bends i b (wavelength r) (pos r1) (chg_vec A B (vel r)) v' /\ pos r1 = plusR (chg_pt A B (pos r)) (timesR u (chg_vec A B (vel r))) /\
    vel r1 = v' /\ time r1 = time r + u /\ wavelength r1 = wavelength r.
Proof.
  intros Hk Hc (E & F & _). destruct (iface_inv niter i b A B (Fray r) r1 (Fcs B) Hk Hc E F) as (r0 & u & v' & Er & F0 & H).
  apply Fray_inj in Er. subst r0. cbv zeta in H. destruct H as (_ & Hb & ->). exists u, v'. cbn. auto.
Qed.
Lemma focus_off rad e q z d : dotR (minusR q (V3 0 0 z)) (minusR q (V3 0 0 z)) = d * d -> d <> 0 -> rad <> 0 -> e <> 1 -> minusR q (V3 0 0 z) <> zeroR.
Proof. intros E D _ _ Z. rewrite Z in E. unfold dotR in E; cbn in E. assert (P : d * d = 0) by lra. apply Rmult_integral in P. destruct P; auto. Qed.
(** Before or after: [a] has the sign of the distance d, and D + d is the whole way. *)
Lemma before_after n a tau d D t t1 : 0 < n -> 0 < a * d -> tau = t1 - t -> (tau = d * n \/ tau = - (d * n)) ->
  (t < t1 /\ t + n * ((d + D) * (a / Rabs a)) - t1 = tau * D / d) \/ (t1 < t /\ t - n * ((d + D) * (a / Rabs a)) - t1 = tau * D / d).
Proof.
  intros Hn Ha Ht R. assert (d <> 0) by nra.
  assert (Sg : 0 < a /\ a / Rabs a = 1 \/ a < 0 /\ a / Rabs a = -1).
  { destruct (Rtotal_order 0 a) as [P|[P|P]]; [left|exfalso; nra|right]; (split; [exact P|]); [rewrite Rabs_right by lra|rewrite Rabs_left by lra]; field; lra. }
  destruct R as [R|R], Sg as [(P & ->)|(P & ->)]; [left|right|right|left]; (split; [nra|]); rewrite R; replace t1 with (tau + t) by lra; rewrite R; field; assumption.
Qed.
Lemma conic_near niter i b A B r r1 rad e t : conic_mirror i B rad e -> good_frame A -> lands niter i b A r B r1 -> passes A r t (near_focus B rad e) ->
  (t < time r1 /\ passes B r1 (t + index_of (vel r) * (2 * Rabs rad / (1 - e * e))) (far_focus B rad e)) \/
  (time r1 < t /\ passes B r1 (t - index_of (vel r) * (2 * Rabs rad / (1 - e * e))) (far_focus B rad e)).
Proof.
  intros (Ki & Si & Ci & HB & Hr & He & H1) HA La Pa.
  destruct (lands_inv niter i b A r B r1 ltac:(rewrite Ki; discriminate) Ci La) as (u & v' & Hb & Ep & Ev & Et & _).
  destruct La as (_ & _ & On). rewrite Si in On. pose proof (ecc_k e He H1) as Ek.
  unfold bends in Hb. rewrite Ki in Hb. destruct Hb as (m & Hm & ->). rewrite Si in Hm.
  set (q := pos r1) in *. set (v := chg_vec A B (vel r)) in *. apply passes_local in Pa; [|assumption..]. fold v in Pa.
  set (tau := time r1 - t). assert (Q : minusR q (V3 0 0 (rad / (1 + e))) = timesR tau v).
  { rewrite <- Pa, Ep. unfold tau. rewrite Et. apply vec3_eq; cbn; ring. }
  set (d1 := e * cz q + rad / (1 + e)). set (d2 := rad / (1 - e) - e * cz q).
  pose proof (conic_d1 rad _ e q Hr Ek He eq_refl On) as D1. fold d1 in D1.
  pose proof (d1_nz rad e q Hr He H1 On) as N1. pose proof (d2_nz rad e q Hr He H1 On) as N2. fold d1 in N1. fold d2 in N2.
  pose proof (conic_d1_sign rad _ e q Hr Ek He On) as S1. fold d1 in S1.
  pose proof (conic_sum rad _ e q Ek He eq_refl) as Sm. fold d1 d2 in Sm.
  assert (Nz : timesR tau v <> zeroR) by (rewrite <- Q; apply (focus_off rad e _ _ d1); assumption).
  destruct (len_ratio v tau d1 Nz) as (T & L & R); [rewrite <- Q; exact D1|].
  assert (Ll : lenR v = lenR (vel r)) by (apply chg_vec_len; assumption). rewrite Ll in *.
  assert (W := mirror_near rad e q Hr He H1 On v m tau Hm T Q). fold d1 d2 in W.
  assert (E1 : 1 - e <> 0) by lra.
  assert (Go : forall t2, t2 - time r1 = tau * d2 / d1 -> passes B r1 t2 (far_focus B rad e)).
  { intros t2 E2. apply passes_here. fold q. rewrite Ev, W, E2. clearbody d1 d2. set (f := rad / (1 - e)). apply vec3_eq; cbn; fold f; field; auto. }
  assert (I0 : 0 < / lenR (vel r)) by (apply Rinv_0_lt_compat; exact L). unfold index_of. set (n := / lenR (vel r)) in *.
  replace ((2 * Rabs rad / (1 - e * e))) with ((d1 + d2) * (rad / Rabs (rad))).
  - destruct (before_after n (rad) tau d1 d2 t (time r1) I0 S1 eq_refl R) as [(? & ?)|(? & ?)]; [left|right]; auto.
  - rewrite Sm. replace (1 - e * e) with (1 + - (e * e)) by ring. assert (AA : rad * rad = Rabs rad * Rabs rad) by (rewrite <- Rabs_mult; symmetry; apply Rabs_right; nra). transitivity (2 * (rad * rad) / Rabs rad / (1 + - (e * e))); [|rewrite AA]; field; split; auto using Rabs_no_R0.
Qed.
Lemma conic_far niter i b A B r r1 rad e t : conic_mirror i B rad e -> good_frame A -> lands niter i b A r B r1 -> passes A r t (far_focus B rad e) ->
  (t < time r1 /\ passes B r1 (t + index_of (vel r) * Rabs (2 * rad / (1 - e * e))) (near_focus B rad e)) \/
  (time r1 < t /\ passes B r1 (t - index_of (vel r) * Rabs (2 * rad / (1 - e * e))) (near_focus B rad e)).
Proof.
  intros (Ki & Si & Ci & HB & Hr & He & H1) HA La Pa.
  destruct (lands_inv niter i b A r B r1 ltac:(rewrite Ki; discriminate) Ci La) as (u & v' & Hb & Ep & Ev & Et & _).
  destruct La as (_ & _ & On). rewrite Si in On. pose proof (ecc_k e He H1) as Ek.
  unfold bends in Hb. rewrite Ki in Hb. destruct Hb as (m & Hm & ->). rewrite Si in Hm.
  set (q := pos r1) in *. set (v := chg_vec A B (vel r)) in *. apply passes_local in Pa; [|assumption..]. fold v in Pa.
  set (tau := time r1 - t). assert (Q : minusR q (V3 0 0 (rad / (1 - e))) = timesR tau v).
  { rewrite <- Pa, Ep. unfold tau. rewrite Et. apply vec3_eq; cbn; ring. }
  set (d1 := e * cz q + rad / (1 + e)). set (d2 := rad / (1 - e) - e * cz q).
  pose proof (conic_d2 rad _ e q Hr Ek eq_refl On) as D1. fold d2 in D1.
  pose proof (d1_nz rad e q Hr He H1 On) as N1. pose proof (d2_nz rad e q Hr He H1 On) as N2. fold d1 in N1. fold d2 in N2.
  pose proof (conic_d2_sign rad _ e q Hr Ek He eq_refl On) as S1. fold d2 in S1.
  pose proof (conic_sum rad _ e q Ek He eq_refl) as Sm. fold d1 d2 in Sm.
  assert (Nz : timesR tau v <> zeroR) by (rewrite <- Q; apply (focus_off rad e _ _ d2); assumption).
  destruct (len_ratio v tau d2 Nz) as (T & L & R); [rewrite <- Q; exact D1|].
  assert (Ll : lenR v = lenR (vel r)) by (apply chg_vec_len; assumption). rewrite Ll in *.
  assert (W := mirror_far rad e q Hr He H1 On v m tau Hm T Q). fold d1 d2 in W.
  assert (E1 : 1 - e <> 0) by lra.
  assert (Go : forall t2, t2 - time r1 = tau * d1 / d2 -> passes B r1 t2 (near_focus B rad e)).
  { intros t2 E2. apply passes_here. fold q. rewrite Ev, W, E2. clearbody d1 d2. set (f := rad / (1 + e)). apply vec3_eq; cbn; fold f; field; auto. }
  assert (I0 : 0 < / lenR (vel r)) by (apply Rinv_0_lt_compat; exact L). unfold index_of. set (n := / lenR (vel r)) in *.
  replace (Rabs (2 * rad / (1 - e * e))) with ((d2 + d1) * (rad * (1 + - (e * e)) / Rabs (rad * (1 + - (e * e))))).
  - destruct (before_after n (rad * (1 + - (e * e))) tau d2 d1 t (time r1) I0 S1 eq_refl R) as [(? & ?)|(? & ?)]; [left|right]; auto.
  - rewrite (Rplus_comm d2), Sm. replace (1 - e * e) with (1 + - (e * e)) by ring. set (c := 1 + - (e * e)) in *. unfold Rdiv. rewrite !Rabs_mult, Rabs_inv, (Rabs_right 2) by lra.
    assert (AA : rad * rad = Rabs rad * Rabs rad) by (rewrite <- Rabs_mult; symmetry; apply Rabs_right; nra).
    transitivity (2 * (rad * rad) * / (Rabs rad * Rabs c)); [|rewrite AA]; field; repeat split; auto using Rabs_no_R0.
Qed.

(** ** One refracting surface *)
Lemma conic_front rad e q : rad <> 0 -> 0 <= e -> e <> 1 -> on_sag (Quadric (Fin rad) (Fin (- (e * e)))) q ->
  let G := V3 (- cx q) (- cy q) (rad - (1 + - (e * e)) * cz q) in
  dotR (minusR (V3 0 0 (rad / (1 - e))) q) G = rad * (rad / (1 - e) - e * cz q) /\ dotR (V3 0 0 1) G = rad - (1 + - (e * e)) * cz q.
Proof.
  intros Hr He H1 On. pose proof (conic_whole rad _ q Hr (ecc_k e He H1) On) as W. cbv zeta. unfold dotR; cbn. split; [|ring].
  transitivity ((cx q * cx q + cy q * cy q) + (rad / (1 - e) - cz q) * (rad - (1 + - (e * e)) * cz q)); [ring|]. rewrite W. field. lra.
Qed.
Lemma bent_fin v m n v' : bent v m (Fin n) v' -> n <> 0 /\ sin2R (unitR v) m (index_of v) n <= 1 /\ v' = refrR (unitR v) m (index_of v) n.
Proof. intros [(k & E & H)|([E|E] & _)]; [injection E as <-; exact H|discriminate..]. Qed.
Lemma len_axis w : lenR (V3 0 0 w) = Rabs w.
Proof. unfold lenR, dotR; cbn. replace (0 * 0 + 0 * 0 + w * w) with (w * w) by ring. apply sqrt_Rsqr_abs. Qed.
Lemma conic_focusing niter i b A B r r1 rad e n2 z0 w : conic_lens i b B rad e (wavelength r) n2 -> good_frame A -> lands niter i b A r B r1 ->
  vel_in A B r = V3 0 0 w -> cz (pos_in A B r) = z0 -> index_of (vel r) = e * n2 ->
  passes B r1 (time r - z0 / w + w / Rabs w * (n2 * (rad / (1 - e)))) (far_focus B rad e).
Proof.
  intros (Ki & Si & Ci & HB & Hr & He & H1 & Hn & N2) HA La Hv Hz He2.
  destruct (lands_inv niter i b A r B r1 ltac:(rewrite Ki; discriminate) Ci La) as (u & v' & Hb & Ep & Ev & Et & _).
  destruct La as (_ & _ & On). rewrite Si in On. pose proof (ecc_k e He H1) as Ek.
  unfold bends in Hb. rewrite Ki in Hb. destruct Hb as (m & Hm & Vz & Hbt). rewrite Si in Hm. rewrite Hn in Hbt.
  assert (Pi : pos_in A B r = chg_pt A B (pos r)) by (symmetry; apply chg_pt_local; assumption).
  assert (Vi : chg_vec A B (vel r) = V3 0 0 w) by (rewrite chg_vec_local; exact Hv). rewrite Vi in *. rewrite Pi in Hz.
  assert (W0 : w <> 0) by (intros ->; apply Vz; reflexivity).
  assert (Iv : index_of (V3 0 0 w) = e * n2).
  { unfold index_of. rewrite <- Vi, chg_vec_len by assumption. exact He2. }
  apply bent_fin in Hbt. destruct Hbt as (_ & S2 & Hv'). rewrite Iv in *. set (q := pos r1) in *.
  assert (I1 : / Rabs w = e * n2) by (rewrite <- Iv; unfold index_of; rewrite len_axis; reflexivity).
  assert (I0 : 0 < e * n2) by (rewrite <- I1; apply Rinv_0_lt_compat, Rabs_pos_lt, W0).
  assert (E0 : 0 < e) by nra. assert (E1 : 1 - e <> 0) by lra.
  set (sg := w / Rabs w). assert (SS : sg * sg = 1).
  { unfold sg. assert (AA : w * w = Rabs w * Rabs w) by (rewrite <- Rabs_mult; symmetry; apply Rabs_right; nra). transitivity ((w * w) / (Rabs w * Rabs w)); [field|rewrite AA; field]; apply Rabs_no_R0, W0. }
  assert (U : unitR (V3 0 0 w) = V3 0 0 sg) by (unfold unitR; rewrite len_axis; apply vec3_eq; cbn; unfold sg; field; apply Rabs_no_R0, W0).
  rewrite U in *.
  destruct (conic_normal rad _ q Hr Ek On m Hm) as (c & Em & C0 & F0).
  destruct (conic_front rad e q Hr He H1 On) as (DG & ZG).
  set (G := V3 (- cx q) (- cy q) (rad - (1 + - (e * e)) * cz q)) in *.
  set (d2 := rad / (1 - e) - e * cz q) in *. pose proof (d2_nz rad e q Hr He H1 On) as Nd. fold d2 in Nd.
  pose proof (conic_d2 rad _ e q Hr Ek eq_refl On) as D2. fold d2 in D2.
  set (f2 := V3 0 0 (rad / (1 - e))) in *.
  set (ww := timesR (sg / d2) (minusR f2 q)).
  assert (Vx := conic_vertex rad _ q Hr Ek On). fold G in Vx.
  assert (Fin_ : v' = timesR (/ n2) ww).
  { rewrite Hv'. apply (refr_char _ ww m (e * n2) n2 (- (n2 * sg / d2) / c)); try assumption.
    - unfold dotR; cbn. lra.
    - transitivity (sg * sg * (dotR (minusR q f2) (minusR q f2)) / (d2 * d2)); [unfold ww, dotR; cbn; field; auto|]. rewrite SS, D2. field. exact Nd.
    - apply (normal_unit _ _ _ _ Hm).
    - rewrite Em.
      transitivity (timesR (/ d2) (minusR (timesR (e * n2 * d2) (V3 0 0 sg)) (timesR (n2 * sg) (minusR f2 q)))); [unfold ww; clearbody d2; apply vec3_eq; cbn; field; auto|].
      transitivity (timesR (/ d2) (timesR (- (n2 * sg)) G)); [f_equal; unfold G, d2, f2; apply vec3_eq; cbn; field; lra|].
      clearbody d2 G. apply vec3_eq; cbn; field; auto.
    - rewrite Em. replace (dotR (V3 0 0 sg) (timesR c G)) with (sg * c * dotR (V3 0 0 1) G) by (unfold dotR; cbn; ring).
      replace (dotR ww (timesR c G)) with (sg * c * (dotR (minusR f2 q) G / d2)) by (unfold ww, dotR; cbn; field; auto).
      rewrite ZG, DG. replace (rad * d2 / d2) with rad by (field; auto).
      replace (sg * c * (rad - (1 + - (e * e)) * cz q) * (sg * c * rad)) with (sg * sg * (c * c) * (rad * (rad - (1 + - (e * e)) * cz q))) by ring.
      rewrite SS. assert (0 < c * c) by nra. assert (0 <> rad * (rad - (1 + - (e * e)) * cz q)) by (intros Z; symmetry in Z; apply Rmult_integral in Z; destruct Z; auto). nra. }
  apply passes_here. fold q. fold f2. rewrite Ev, Fin_. unfold ww.
  assert (Qz : cz q = z0 + u * w) by (rewrite Ep, <- Hz; cbn; ring).
  assert (Iw : / w = sg * (e * n2)) by (rewrite <- I1; unfold sg; transitivity (w * / (Rabs w * Rabs w)); [rewrite <- Rabs_mult, Rabs_right by nra; field; exact W0|field; apply Rabs_no_R0, W0]).
  assert (TT : time r - z0 / w + sg * (n2 * (rad / (1 - e))) - time r1 = sg * (n2 * d2)).
  { rewrite Et. unfold Rdiv at 1. assert (u = (cz q - z0) * / w) by (rewrite Qz; field; exact W0). rewrite H, Iw. unfold d2. ring. }
  rewrite TT. transitivity (plusR q (timesR (sg * sg) (minusR f2 q))); [clearbody d2 f2; apply vec3_eq; cbn; field; split; auto; lra|].
  rewrite SS. apply vec3_eq; cbn; ring.
Qed.
Lemma conic_collimating niter i b A B r r1 rad e n2 t : conic_lens i b B rad e (wavelength r) n2 -> good_frame A -> lands niter i b A r B r1 ->
  passes A r t (far_focus B rad e) -> n2 = e * index_of (vel r) ->
  let s := Rabs (rad / (1 - e)) / (rad / (1 - e)) in
  (t < time r1 /\ vel r1 = V3 0 0 (- s / n2) /\ time r1 - cz (pos r1) / cz (vel r1) = t + index_of (vel r) * Rabs (rad / (1 - e))) \/
  (time r1 < t /\ vel r1 = V3 0 0 (s / n2) /\ time r1 - cz (pos r1) / cz (vel r1) = t - index_of (vel r) * Rabs (rad / (1 - e))).
Proof.
  intros (Ki & Si & Ci & HB & Hr & He & H1 & Hn & N2) HA La Pa He2. cbv zeta.
  destruct (lands_inv niter i b A r B r1 ltac:(rewrite Ki; discriminate) Ci La) as (u & v' & Hb & Ep & Ev & Et & _).
  destruct La as (_ & _ & On). rewrite Si in On. pose proof (ecc_k e He H1) as Ek.
  unfold bends in Hb. rewrite Ki in Hb. destruct Hb as (m & Hm & Vz & Hbt). rewrite Si in Hm. rewrite Hn in Hbt.
  set (v := chg_vec A B (vel r)) in *. apply passes_local in Pa; [|assumption..]. fold v in Pa.
  assert (Iv : index_of v = index_of (vel r)) by (unfold index_of, v; rewrite chg_vec_len by assumption; reflexivity).
  rewrite <- Iv in *. apply bent_fin in Hbt. destruct Hbt as (_ & S2 & Hv').
  pose proof (len_pos v Vz) as L. assert (I0 : 0 < index_of v) by (apply Rinv_0_lt_compat; exact L). set (n1 := index_of v) in *.
  assert (E0 : 0 < e) by (destruct (Req_dec e 0) as [->|]; lra). assert (E1 : 1 - e <> 0) by lra.
  set (q := pos r1) in *. set (tau := time r1 - t).
  destruct (conic_normal rad _ q Hr Ek On m Hm) as (c & Em & C0 & F0).
  destruct (conic_front rad e q Hr He H1 On) as (DG & ZG).
  set (G := V3 (- cx q) (- cy q) (rad - (1 + - (e * e)) * cz q)) in *.
  set (d2 := rad / (1 - e) - e * cz q) in *. pose proof (d2_nz rad e q Hr He H1 On) as Nd. fold d2 in Nd.
  pose proof (conic_d2 rad _ e q Hr Ek eq_refl On) as D2. fold d2 in D2.
  pose proof (conic_d2_sign rad _ e q Hr Ek He eq_refl On) as Sd. fold d2 in Sd.
  set (f2 := V3 0 0 (rad / (1 - e))) in *.
  assert (Q : minusR q f2 = timesR tau v).
  { rewrite <- Pa, Ep. unfold tau. rewrite Et. apply vec3_eq; cbn; ring. }
  assert (Nz : timesR tau v <> zeroR) by (rewrite <- Q; apply (focus_off rad e _ _ d2); assumption).
  destruct (len_ratio v tau d2 Nz) as (T & _ & R); [rewrite <- Q; exact D2|]. change (/ lenR v) with n1 in R.
  assert (exists eta, eta * eta = 1 /\ tau = eta * (d2 * n1)) as (eta & EE & Eta).
  { destruct R as [R|R]; [exists 1|exists (-1)]; split; lra. }
  assert (U : unitR v = timesR (eta / d2) (minusR q f2)).
  { rewrite Q, Eta. unfold unitR. change (/ lenR v) with n1. transitivity (timesR (eta * eta * n1) v); [rewrite EE; apply vec3_eq; cbn; ring|clearbody d2; apply vec3_eq; cbn; field; auto]. }
  assert (Vx := conic_vertex rad _ q Hr Ek On).
  assert (Fin_ : v' = timesR (/ n2) (V3 0 0 (- eta))).
  { rewrite Hv'. apply (refr_char _ _ m n1 n2 (- (n1 * eta / d2) / c)); try assumption.
    - unfold unitR. transitivity (/ lenR v * / lenR v * (lenR v * lenR v)); [rewrite RefractProofs.len_sq; unfold dotR; cbn; ring|field; lra].
    - unfold dotR; cbn. lra.
    - apply (normal_unit _ _ _ _ Hm).
    - rewrite Em, U.
      transitivity (timesR (/ d2) (minusR (timesR (n1 * eta) (minusR q f2)) (timesR (n2 * d2) (V3 0 0 (- eta))))); [clearbody d2 f2; apply vec3_eq; cbn; field; auto|].
      transitivity (timesR (/ d2) (timesR (- (n1 * eta)) G)); [f_equal; rewrite He2; unfold G, d2, f2; apply vec3_eq; cbn; field; lra|].
      clearbody d2 G. apply vec3_eq; cbn; field; auto.
    - rewrite Em, U.
      replace (dotR (timesR (eta / d2) (minusR q f2)) (timesR c G)) with (- eta * c * (dotR (minusR f2 q) G / d2)) by (clearbody d2 f2 G; unfold dotR; cbn; field; auto).
      replace (dotR (V3 0 0 (- eta)) (timesR c G)) with (- eta * c * dotR (V3 0 0 1) G) by (unfold dotR; cbn; ring).
      rewrite ZG, DG. replace (rad * d2 / d2) with rad by (field; auto).
      replace (- eta * c * rad * (- eta * c * (rad - (1 + - (e * e)) * cz q))) with (eta * eta * (c * c) * (rad * (rad - (1 + - (e * e)) * cz q))) by ring.
      rewrite EE. assert (0 < c * c) by nra. assert (0 <> rad * (rad - (1 + - (e * e)) * cz q)) by (intros Z; symmetry in Z; apply Rmult_integral in Z; destruct Z; auto). nra. }
  assert (V1 : vel r1 = V3 0 0 (- eta / n2)) by (rewrite Ev, Fin_; apply vec3_eq; cbn; field; lra).
  assert (Tm : time r1 - cz q / cz (vel r1) = t + eta * n1 * (rad / (1 - e))).
  { rewrite V1. cbn [cz]. assert (time r1 = t + tau) by (unfold tau; ring). rewrite H, Eta. 
    assert (e0 : eta <> 0) by (intros Z; rewrite Z in EE; lra). assert (IE : / eta = eta) by (apply (Rmult_eq_reg_l eta); [rewrite Rinv_r by exact e0; lra|exact e0]).
    replace (cz q / (- eta / n2)) with (- (cz q * n2) * / eta) by (field; split; [lra|exact e0]). rewrite IE.
    transitivity (t + eta * (d2 * n1) + eta * (cz q * n2)); [ring|]. rewrite He2. unfold d2. field. exact E1. }
  set (F := rad / (1 - e)) in *.
  assert (SF : 0 < F * d2).
  { assert (P : 0 < (1 - e) * (1 - e)) by nra. assert (K : rad * (1 + - (e * e)) * d2 = F * d2 * ((1 + e) * ((1 - e) * (1 - e)))) by (unfold F; field; exact E1). rewrite K in Sd.
    assert (0 < (1 + e) * ((1 - e) * (1 - e))) by nra. nra. }
  assert (FF : F <> 0) by (intros Z; rewrite Z in SF; lra).
  assert (Sg : 0 < F /\ Rabs F = F \/ F < 0 /\ Rabs F = - F).
  { destruct (Rtotal_order 0 F) as [P|[P|P]]; [left|congruence|right]; (split; [exact P|]); [apply Rabs_right; lra|apply Rabs_left; lra]. }
  assert (Ee : eta = 1 \/ eta = -1) by (assert (P : (eta - 1) * (eta + 1) = 0) by lra; apply Rmult_integral in P; destruct P; lra).
  clearbody F d2. unfold tau in Eta.
  destruct Ee as [->| ->], Sg as [(P & ->)|(P & ->)]; rewrite Tm, V1; [left|right|right|left]; (split; [assert (0 < d2 \/ d2 < 0) as [?|?] by (destruct (Rtotal_order d2 0) as [?|[?|?]]; auto; contradiction); nra|]);
    (split; [f_equal; field; split; lra|ring]).
Qed.

(** ** Chains of mirrors *)
Lemma mirror_index niter i b A B r r1 rad e : conic_mirror i B rad e -> good_frame A -> lands niter i b A r B r1 -> index_of (vel r1) = index_of (vel r).
Proof.
  intros (Ki & Si & Ci & HB & Hr & He & H1) HA La.
  destruct (lands_inv niter i b A r B r1 ltac:(rewrite Ki; discriminate) Ci La) as (u & v' & Hb & Ep & Ev & Et & _).
  unfold bends in Hb. rewrite Ki in Hb. destruct Hb as (m & Hm & ->). unfold index_of. rewrite Ev, refl_len by (apply (normal_unit _ _ _ _ Hm)).
  rewrite chg_vec_len by assumption. reflexivity.
Qed.
Lemma major_signs rad e : rad <> 0 -> 0 <= e -> e <> 1 ->
  (2 * Rabs rad / (1 - e * e) = 2 * rad / (1 - e * e) \/ 2 * Rabs rad / (1 - e * e) = - (2 * rad / (1 - e * e))) /\
  (Rabs (2 * rad / (1 - e * e)) = 2 * rad / (1 - e * e) \/ Rabs (2 * rad / (1 - e * e)) = - (2 * rad / (1 - e * e))).
Proof.
  intros Hr He H1. pose proof (ecc_k e He H1). split.
  - unfold Rabs. destruct (Rcase_abs rad); [right|left; reflexivity]. field. lra.
  - unfold Rabs. destruct (Rcase_abs _); auto.
Qed.
Lemma leg_pass niter l b A r r1 t : leg_ok l -> good_frame A -> lands niter (l_iface l) b A r (l_frame l) r1 -> passes A r t (focus_in l) ->
  passes (l_frame l) r1 (t + index_of (vel r) * major_axis l) (focus_out l) \/ passes (l_frame l) r1 (t + index_of (vel r) * - major_axis l) (focus_out l).
Proof.
  intros Hl HA La Pa. assert (Hl' := Hl). destruct Hl' as (_ & _ & _ & HB & Hr & He & H1). destruct (major_signs _ _ Hr He H1) as (M1 & M2).
  unfold focus_in, focus_out in *. destruct (l_flip l).
  - destruct (conic_far niter _ b A _ r r1 _ _ t Hl HA La Pa) as [(_ & P)|(_ & P)]; destruct M2 as [M|M]; rewrite M in P; [left|right|right|left]; (eapply (eq_ind _ (fun x => passes _ _ x _)); [exact P|unfold major_axis; ring]).
  - destruct (conic_near niter _ b A _ r r1 _ _ t Hl HA La Pa) as [(_ & P)|(_ & P)]; destruct M1 as [M|M]; rewrite M in P; [left|right|right|left]; (eapply (eq_ind _ (fun x => passes _ _ x _)); [exact P|unfold major_axis; ring]).
Qed.
Lemma lands_frame niter i b A r B r1 C : i_cs i = Fcs C -> (forall s, i_kind i <> KScreen s) -> lands niter i b A r B r1 -> B = C.
Proof.
  intros Hc Hk (E & F & _). destruct (iface_inv niter i b A C (Fray r) r1 (Fcs B) Hk Hc E F) as (r0 & u & v' & Er & F0 & H).
  apply Fray_inj in Er. subst r0. cbv zeta in H. destruct H as (Hh & Hb & _). rewrite (iface_do niter i b A C r u v' Hk Hc F0 Hh Hb) in E.
  apply (f_equal rvcs) in E. cbn in E. apply Fcs_inj in E. symmetry; exact E.
Qed.
Lemma chain_pass niter b ls : (forall l, In l ls -> leg_ok l) -> forall A r C r2 t g0 g1, good_frame A -> confocal g0 ls g1 ->
  through niter b A r (map l_iface ls) C r2 -> passes A r t g0 ->
  exists x, signed_sum ls x /\ passes C r2 (t + index_of (vel r) * x) g1 /\ index_of (vel r2) = index_of (vel r).
Proof.
  induction ls as [|l ls IH]; intros Hl A r C r2 t g0 g1 HA Hc Th Pa; cbn [map] in Th.
  - inversion Th; subst. cbn in Hc. subst g1. exists 0. split; [constructor|]. rewrite Rmult_0_r, Rplus_0_r. auto.
  - inversion Th as [|A' r' i is B r1 C' r2' La Th']; subst. destruct Hc as (<- & Hc).
    assert (L0 : leg_ok l) by (apply Hl; left; reflexivity). assert (L0' := L0). destruct L0' as (Ki & Si & Ci & HB & _).
    assert (B = l_frame l) by (apply (lands_frame niter (l_iface l) b A r B r1); [exact Ci|rewrite Ki; discriminate|exact La]). subst B.
    pose proof (mirror_index niter _ b A _ r r1 _ _ L0 HA La) as Ix.
    destruct (leg_pass niter l b A r r1 t L0 HA La Pa) as [P|P];
      destruct (IH (fun l' H => Hl l' (or_intror H)) _ r1 C r2 _ _ g1 HB Hc Th' P) as (x & Sx & Px & Ex);
      (exists (major_axis l + x) + exists (- major_axis l + x)); (split; [constructor; exact Sx|]); (split; [|congruence]);
      rewrite Ix in Px; (eapply (eq_ind _ (fun x => passes _ _ x _)); [exact Px|ring]).
Qed.
Lemma through_in_turn niter b A r is C r2 : through niter b A r is C r2 -> in_turn niter b is (RV [Fray r] (Fcs A)) = RV [Fray r2] (Fcs C).
Proof. intros H. induction H as [|A r i is B r1 C r2 (E & _) H IH]; [reflexivity|]. unfold in_turn in *. cbn [fold_left]. rewrite E. exact IH. Qed.

(** ** Paraboloids *)
Section Para.
  Context (rad : R) (q : vR) (Hr : rad <> 0) (Hon : on_sag (Paraboloid (Fin rad)) q).
  Lemma para_whole : cx q * cx q + cy q * cy q = 2 * rad * cz q.
  Proof. apply (on_sag_iff (ShParaboloid rad)) in Hon; [|exact Hr]. destruct Hon as (W & _). cbn in W. lra. Qed.
  Lemma para_sign : 0 < rad * (cz q + rad / 2).
  Proof. pose proof para_whole. assert (0 < rad * rad) by nra. nra. Qed.
  Lemma para_normal m : normal (Paraboloid (Fin rad)) (Fin (cx q)) (Fin (cy q)) = F3 m -> exists c, m = timesR c (V3 (- cx q) (- cy q) rad).
  Proof.
    intros E. cbn [normal] in E. rewrite paraboloid_normal_F in E by exact Hr. apply F3_inj in E. subst m.
    eexists (/ sqrt (1 + (cx q * cx q + cy q * cy q) / rad / rad) / rad). apply vec3_eq; cbn; field; split; auto; apply Rgt_not_eq, sqrt_lt_R0;
    replace ((cx q * cx q + cy q * cy q) / rad / rad) with ((cx q / rad) * (cx q / rad) + (cy q / rad) * (cy q / rad)) by (field; assumption); nra.
  Qed.
  Let d := cz q + rad / 2.
  Lemma para_dist : dotR (minusR q (V3 0 0 (rad / 2))) (minusR q (V3 0 0 (rad / 2))) = d * d.
  Proof. pose proof para_whole as W. unfold dotR; cbn. rewrite !Rminus_0_r, W. unfold d. field. Qed.
End Para.
Lemma para_nz rad q : rad <> 0 -> on_sag (Paraboloid (Fin rad)) q -> cz q + rad / 2 <> 0.
Proof. intros Hr On E. pose proof (para_sign rad q Hr On) as P. rewrite E in P. lra. Qed.
Lemma para_focusing niter i b A B r r1 rad z0 w : paraboloid_mirror i B rad -> good_frame A -> lands niter i b A r B r1 ->
  vel_in A B r = V3 0 0 w -> w <> 0 -> cz (pos_in A B r) = z0 ->
  passes B r1 (time r - (z0 + rad / 2) / w) (axis_point B (rad / 2)) /\ index_of (vel r1) = index_of (vel r).
Proof.
  intros (Ki & Si & Ci & HB & Hr) HA La Hv W0 Hz.
  destruct (lands_inv niter i b A r B r1 ltac:(rewrite Ki; discriminate) Ci La) as (u & v' & Hb & Ep & Ev & Et & _).
  destruct La as (_ & _ & On). rewrite Si in On.
  unfold bends in Hb. rewrite Ki in Hb. destruct Hb as (m & Hm & ->). rewrite Si in Hm.
  assert (Pi : pos_in A B r = chg_pt A B (pos r)) by (symmetry; apply chg_pt_local; assumption).
  assert (Vi : chg_vec A B (vel r) = V3 0 0 w) by (rewrite chg_vec_local; exact Hv).
  split; [|unfold index_of; rewrite Ev, refl_len by (apply (normal_unit _ _ _ _ Hm)); rewrite chg_vec_len by assumption; reflexivity].
  rewrite Vi in *. rewrite Pi in Hz.
  set (q := pos r1) in *. destruct (para_normal rad q Hr m Hm) as (c & Em).
  pose proof (para_dist rad q Hr On) as D. pose proof (para_nz rad q Hr On) as Nd. set (d := cz q + rad / 2) in *. set (f := V3 0 0 (rad / 2)) in *.
  assert (Rf : reflR (V3 0 0 w) m = timesR (- (w / d)) (minusR f q)).
  { apply (refl_char _ _ _ (V3 (- cx q) (- cy q) rad) c (w / d)).
    - transitivity (w / d * (w / d) * (d * d)); [unfold dotR; cbn; field; exact Nd|]. rewrite <- D. clearbody d f. unfold dotR; cbn; ring.
    - transitivity (timesR (w / d) (minusR (timesR d (V3 0 0 1)) (minusR q f))); [clearbody d f; apply vec3_eq; cbn; field; exact Nd|].
      f_equal. unfold d, f. apply vec3_eq; cbn; field.
    - intros Z. apply W0. apply (Rmult_eq_reg_r (/ d)); [|apply Rinv_neq_0_compat, Nd]. rewrite Rmult_0_l. exact Z.
    - exact Em.
    - apply (normal_unit _ _ _ _ Hm). }
  apply passes_here. fold q f. rewrite Ev, Rf, Et.
  assert (Qz : cz q = z0 + u * w) by (rewrite Ep, <- Hz; cbn; ring).
  assert (TT : time r - (z0 + rad / 2) / w - (time r + u) = - (d / w)) by (unfold d; rewrite Qz; field; exact W0).
  rewrite TT. clearbody d f. apply vec3_eq; cbn; field; auto.
Qed.
Lemma para_collimating niter i b A B r r1 rad t : paraboloid_mirror i B rad -> good_frame A -> lands niter i b A r B r1 ->
  passes A r t (axis_point B (rad / 2)) ->
  exists w, vel r1 = V3 0 0 w /\ w <> 0 /\ index_of (vel r1) = index_of (vel r) /\
  ((t < time r1 /\ 0 < rad * w /\ time r1 - cz (pos r1) / w = t + index_of (vel r) * (Rabs rad / 2)) \/
   (time r1 < t /\ rad * w < 0 /\ time r1 - cz (pos r1) / w = t - index_of (vel r) * (Rabs rad / 2))).
Proof.
  intros (Ki & Si & Ci & HB & Hr) HA La Pa.
  destruct (lands_inv niter i b A r B r1 ltac:(rewrite Ki; discriminate) Ci La) as (u & v' & Hb & Ep & Ev & Et & _).
  destruct La as (_ & _ & On). rewrite Si in On.
  unfold bends in Hb. rewrite Ki in Hb. destruct Hb as (m & Hm & ->). rewrite Si in Hm.
  set (v := chg_vec A B (vel r)) in *. apply passes_local in Pa; [|assumption..]. fold v in Pa.
  assert (Ix : index_of (vel r1) = index_of (vel r)) by (unfold index_of; rewrite Ev, refl_len by (apply (normal_unit _ _ _ _ Hm)); unfold v; rewrite chg_vec_len by assumption; reflexivity).
  set (q := pos r1) in *. destruct (para_normal rad q Hr m Hm) as (c & Em).
  pose proof (para_sign rad q Hr On) as Sg.
  pose proof (para_dist rad q Hr On) as D. pose proof (para_nz rad q Hr On) as Nd. set (d := cz q + rad / 2) in *. set (f := V3 0 0 (rad / 2)) in *.
  set (tau := time r1 - t). assert (Q : minusR q f = timesR tau v).
  { rewrite <- Pa, Ep. unfold tau. rewrite Et. apply vec3_eq; cbn; ring. }
  assert (Nz : timesR tau v <> zeroR).
  { rewrite <- Q. intros Z. rewrite Z in D. unfold dotR in D; cbn in D. assert (P : d * d = 0) by lra. apply Rmult_integral in P. destruct P; auto. }
  destruct (len_ratio v tau d Nz) as (T & L & R); [rewrite <- Q; exact D|].
  assert (Ll : lenR v = lenR (vel r)) by (apply chg_vec_len; assumption). rewrite Ll in *.
  assert (V : v = timesR (/ tau) (minusR q f)) by (rewrite Q; apply vec3_eq; cbn; field; exact T).
  assert (Rf : reflR v m = V3 0 0 (d / tau)).
  { apply (refl_char _ _ _ (V3 (- cx q) (- cy q) rad) c (- / tau)).
    - transitivity (/ tau * / tau * (d * d)); [rewrite V, <- D; clearbody d f tau; unfold dotR; cbn; ring|unfold dotR; cbn; field; exact T].
    - rewrite V. unfold d, f. clearbody tau. apply vec3_eq; cbn; field; exact T.
    - apply Ropp_neq_0_compat, Rinv_neq_0_compat, T.
    - exact Em.
    - apply (normal_unit _ _ _ _ Hm). }
  exists (d / tau). rewrite Ev, Rf. split; [reflexivity|]. split; [unfold Rdiv; apply Rmult_integral_contrapositive; split; [exact Nd|apply Rinv_neq_0_compat, T]|].
  split; [rewrite <- Rf, <- Ev; exact Ix|].
  assert (I0 : 0 < / lenR (vel r)) by (apply Rinv_0_lt_compat; exact L). unfold index_of. set (n := / lenR (vel r)) in *.
  assert (E1 : time r1 - cz q / (d / tau) = t + tau * (rad / 2) / d).
  { replace (time r1) with (t + tau) by (unfold tau; ring). unfold d. clearbody tau. field. split; [unfold d in Nd; lra|exact T]. }
  rewrite E1. clearbody d. clear E1.
  assert (S2 : 0 < rad /\ 0 < d /\ Rabs rad = rad \/ rad < 0 /\ d < 0 /\ Rabs rad = - rad).
  { destruct (Rtotal_order 0 rad) as [P|[P|P]]; [left|congruence|right]; (split; [exact P|]); (split; [nra|]); [apply Rabs_right; lra|apply Rabs_left; lra]. }
  assert (Dt : rad * (d / tau) = rad * d * / tau) by (unfold Rdiv; ring). rewrite Dt.
  destruct R as [R|R], S2 as [(P & Pd & ->)|(P & Pd & ->)]; [left|right|right|left];
    (assert (Ts : 0 < tau \/ tau < 0) by (destruct (Rtotal_order tau 0) as [?|[?|?]]; [right|contradiction|left]; assumption)).
  - assert (0 < tau) by nra. split; [unfold tau in *; lra|]. split; [assert (0 < / tau) by (apply Rinv_0_lt_compat; assumption); nra|]. rewrite R. field. exact Nd.
  - assert (tau < 0) by nra. split; [unfold tau in *; lra|]. split; [assert (/ tau < 0) by (apply Rinv_lt_0_compat; assumption); nra|]. rewrite R. field. exact Nd.
  - assert (tau < 0) by nra. split; [unfold tau in *; lra|]. split; [assert (/ tau < 0) by (apply Rinv_lt_0_compat; assumption); nra|]. rewrite R. field. exact Nd.
  - assert (0 < tau) by nra. split; [unfold tau in *; lra|]. split; [assert (0 < / tau) by (apply Rinv_0_lt_compat; assumption); nra|]. rewrite R. field. exact Nd.
Qed.
(** Light from infinity along the axis of a paraboloid, relayed by conics: all of it passes one point. *)
Lemma telescope_focus niter b i P rad ls A r C r2 g1 z0 w : paraboloid_mirror i P rad -> (forall l, In l ls -> leg_ok l) -> good_frame A ->
  confocal (axis_point P (rad / 2)) ls g1 -> through niter b A r (i :: map l_iface ls) C r2 ->
  vel_in A P r = V3 0 0 w -> w <> 0 -> cz (pos_in A P r) = z0 ->
  exists x, signed_sum ls x /\ passes C r2 (time r - (z0 + rad / 2) / w + index_of (vel r) * x) g1.
Proof.
  intros Hi Hl HA Hc Th Hv W0 Hz. inversion Th as [|A' r' i' is B r1 C' r2' La Th']; subst.
  assert (Hi' := Hi). destruct Hi' as (Ki & Si & Ci & HB & Hr).
  assert (B = P) by (apply (lands_frame niter i b A r B r1); [exact Ci|rewrite Ki; discriminate|exact La]). subst B.
  destruct (para_focusing niter i b A P r r1 rad _ w Hi HA La Hv W0 eq_refl) as (Pf & Ix).
  destruct (chain_pass niter b ls Hl P r1 C r2 _ _ g1 HB Hc Th' Pf) as (x & Sx & Px & _). rewrite Ix in Px. eauto.
Qed.
Lemma two_mirrors niter b i P rad j S rad2 e A r B r1 C r2 z0 w : paraboloid_mirror i P rad -> conic_mirror j S rad2 e -> good_frame A ->
  near_focus S rad2 e = axis_point P (rad / 2) -> lands niter i b A r B r1 -> lands niter j b B r1 C r2 ->
  vel_in A P r = V3 0 0 w -> w <> 0 -> cz (pos_in A P r) = z0 ->
  let t := time r - (z0 + rad / 2) / w in
  C = S /\ ((t < time r2 /\ passes C r2 (t + index_of (vel r) * (2 * Rabs rad2 / (1 - e * e))) (far_focus S rad2 e)) \/
           (time r2 < t /\ passes C r2 (t - index_of (vel r) * (2 * Rabs rad2 / (1 - e * e))) (far_focus S rad2 e))).
Proof.
  intros Hi Hj HA Hf La Lb Hv W0 Hz. cbv zeta.
  assert (Hi' := Hi). destruct Hi' as (Ki & Si & Ci & HB & Hr). assert (Hj' := Hj). destruct Hj' as (Kj & Sj & Cj & HS & _).
  assert (B = P) by (apply (lands_frame niter i b A r B r1); [exact Ci|rewrite Ki; discriminate|exact La]). subst B.
  assert (C = S) by (apply (lands_frame niter j b P r1 C r2); [exact Cj|rewrite Kj; discriminate|exact Lb]). subst C. split; [reflexivity|].
  destruct (para_focusing niter i b A P r r1 rad _ w Hi HA La Hv W0 Hz) as (Pf & Ix). rewrite <- Ix.
  apply (conic_near niter j b P S r1 r2 rad2 e); try assumption. rewrite Hf. exact Pf.
Qed.
