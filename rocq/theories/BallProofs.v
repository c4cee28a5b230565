(** Proofs about concentric spheres. *)
From Coq Require Import Reals List ZArith Bool Lra Psatz.
From Verif Require Import Num NumR Vec CoordSys Surface Medium Obscuration Ray Bundle Optic Spec OpticsSpec XRFacts CoordFacts
  RayFacts NormalFacts RefractProofs OpticsProofs TreeSpec TreeProofs AxialTrace StigSpec StigProofs FlatSpec FlatProofs AplanSpec AplanProofs BallSpec.
Import ListNotations.
Open Scope R_scope.

(** A surface changes the slowness along its normal only. *)
Lemma kick (i : iface XR) (b : bool) (w : R) (p v v' : vR) : v <> zeroR ->
  (i_kind i = KRefractive -> exists n, getN (if b then i_in i else i_out i) (Fin w) = Fin n /\ 0 < n) -> bends i b w p v v' ->
  0 < index_of v' /\
  (timesR (index_of v' * index_of v') v' = timesR (index_of v * index_of v) v \/
   exists k m, normal (i_surf i) (Fin (cx p)) (Fin (cy p)) = F3 m /\
     timesR (index_of v' * index_of v') v' = plusR (timesR (index_of v * index_of v) v) (timesR k m)).
Proof.
  intros V0 Hn Hb. pose proof (len_pos v V0) as L. assert (I0 : 0 < index_of v) by (apply Rinv_0_lt_compat; exact L).
  unfold bends in Hb. destruct (i_kind i) eqn:Kd; try (subst v'; split; [exact I0|left; reflexivity]).
  - destruct Hb as (m & Hm & _ & Hbt). destruct (Hn eq_refl) as (n2 & En & P2). rewrite En in Hbt. apply bent_fin in Hbt. destruct Hbt as (_ & S2 & Hv).
    pose proof (proj1 (normal_unit _ _ _ _ Hm)) as MM.
    destruct (refr_props (unitR v) m (index_of v) n2 (unit_dot v V0) MM I0 P2 S2) as (W1 & W2 & _). rewrite <- Hv in W1, W2.
    rewrite (len_of v' n2 P2 W1). split; [exact P2|]. right.
    exists (n2 * dotR (timesR n2 v') m - index_of v * dotR (unitR v) m), m. split; [exact Hm|].
    assert (U : unitR v = timesR (index_of v) v) by reflexivity. rewrite U in *. clear U.
    set (n := index_of v) in *. set (a := dotR (timesR n2 v') m) in *. set (c := dotR (timesR n v) m) in *.
    pose proof (f_equal cx W2) as X. pose proof (f_equal cy W2) as Y. pose proof (f_equal cz W2) as Z. unfold tangR in X, Y, Z. fold a c in X, Y, Z.
    clearbody n a c. apply vec3_eq; cbn in *; lra.
  - destruct Hb as (m & Hm & ->). pose proof (proj1 (normal_unit _ _ _ _ Hm)) as MM.
    assert (E : index_of (reflR v m) = index_of v).
    { unfold index_of, lenR. do 2 f_equal. unfold reflR. set (d := dotR v m). transitivity (dotR v v - 4 * d * dotR v m + 4 * d * d * dotR m m); [unfold dotR; cbn; ring|].
      rewrite MM. unfold d. ring. }
    rewrite E. split; [exact I0|]. right. exists (- (2 * (index_of v * index_of v) * dotR v m)), m. split; [exact Hm|].
    unfold reflR. set (d := dotR v m). set (n := index_of v). clearbody d n. apply vec3_eq; cbn; ring.
Qed.
Lemma moment_at A r t g Q : passes A r t g -> crossR (minusR g Q) (slowness A r) = moment Q A r.
Proof.
  intros <-. unfold moment, slowness. set (P := global_point A (pos r)). set (V := global_dir A (vel r)). set (n := index_of (vel r) * _). set (u := t - time r).
  clearbody P V n u. apply vec3_eq; cbn; ring.
Qed.
Lemma cross_add a x y : crossR a (plusR x y) = plusR (crossR a x) (crossR a y).
Proof. apply vec3_eq; cbn; ring. Qed.
Lemma shell_step niter b Q s A r C r1 : shell b (wavelength r) Q s -> good_frame A -> vel r <> zeroR -> lands niter (s_iface s) b A r C r1 ->
  C = s_frame s /\ wavelength r1 = wavelength r /\ vel r1 <> zeroR /\ moment Q C r1 = moment Q A r.
Proof.
  intros ((rad & Hr & Hs & HQ) & Hc & HB & Hk) HA V0 La.
  assert (NS : forall k, i_kind (s_iface s) <> KScreen k) by (intros k E; rewrite E in Hk; exact Hk).
  pose proof (lands_frame niter _ b A r C r1 _ Hc NS La) as ->. split; [reflexivity|]. set (B := s_frame s) in *.
  destruct (lands_inv niter _ b A r B r1 NS Hc La) as (u & v' & Hb & Ep & Ev & Et & Ew). destruct La as (_ & _ & On). rewrite Hs in On.
  set (v := chg_vec A B (vel r)) in *.
  assert (VZ : v <> zeroR).
  { intros E. apply V0. assert (LV : lenR (vel r) = lenR v) by (unfold v; rewrite chg_vec_len by assumption; reflexivity).
    destruct (Req_dec (dotR (vel r) (vel r)) 0) as [Z|Z].
    - unfold dotR in Z. apply vec3_eq; cbn; nra.
    - exfalso. rewrite E in LV. unfold lenR in LV. assert (dotR zeroR zeroR = 0) as D by (unfold dotR; cbn; ring). rewrite D, sqrt_0 in LV. apply sqrt_eq_0 in LV; [exact (Z LV)|unfold dotR; nra]. }
  assert (Iv : index_of v = index_of (vel r)) by (unfold index_of, v; rewrite chg_vec_len by assumption; reflexivity).
  destruct (kick (s_iface s) b (wavelength r) (pos r1) v v' VZ) as (I1 & K).
  { intros E. rewrite E in Hk. exact Hk. }
  { exact Hb. }
  rewrite <- Ev in *. split; [tauto|]. split.
  { intros E. rewrite E in I1. unfold index_of, lenR in I1. replace (dotR zeroR zeroR) with 0 in I1 by (unfold dotR; cbn; ring). rewrite sqrt_0, Rinv_0 in I1. lra. }
  assert (TD : forall k x, timesR k (global_dir B x) = global_dir B (timesR k x)) by (intros; unfold global_dir, applyR; apply vec3_eq; cbn; ring).
  assert (SA : slowness A r = global_dir B (timesR (index_of v * index_of v) v)).
  { unfold slowness. rewrite <- Iv, <- TD. f_equal. unfold v. rewrite chg_vec_global by exact HB. reflexivity. }
  assert (Pa : passes A r (time r1) (global_point B (pos r1))).
  { unfold passes. rewrite Ep, Et. rewrite <- (chg_pt_global A B (pos r)) by assumption. rewrite <- (chg_vec_global A B (vel r)) by assumption. fold v.
    unfold global_point, global_dir, applyR. apply vec3_eq; cbn; ring. }
  rewrite <- (moment_at A r _ _ Q Pa). unfold moment. unfold slowness at 1. rewrite TD, SA.
  destruct K as [K|(k & m & Hm & K)]; rewrite K; [reflexivity|].
  rewrite Hs in Hm. destruct (ball_normal rad (pos r1) Hr On m Hm) as (c & -> & _).
  assert (EQ : minusR (global_point B (pos r1)) Q = global_dir B (V3 (cx (pos r1)) (cy (pos r1)) (cz (pos r1) - rad))).
  { rewrite <- HQ. unfold axis_point, global_point, global_dir, applyR. apply vec3_eq; cbn; ring. }
  rewrite EQ. set (x := timesR (index_of v * index_of v) v).
  replace (global_dir B (plusR x (timesR k (timesR c (V3 (- cx (pos r1)) (- cy (pos r1)) (rad - cz (pos r1)))))))
    with (plusR (global_dir B x) (timesR (- (k * c)) (global_dir B (V3 (cx (pos r1)) (cy (pos r1)) (cz (pos r1) - rad))))) by (unfold global_dir, applyR; clearbody x; apply vec3_eq; cbn; ring).
  rewrite cross_add. set (y := global_dir B (V3 _ _ _)). generalize (global_dir B x). intros z. clearbody y. apply vec3_eq; cbn; ring.
Qed.
Lemma shells niter b Q ss : forall A r C r2, (forall s, In s ss -> shell b (wavelength r) Q s) -> good_frame A -> vel r <> zeroR ->
  through niter b A r (map s_iface ss) C r2 -> good_frame C /\ vel r2 <> zeroR /\ moment Q C r2 = moment Q A r.
Proof.
  induction ss as [|s ss IH]; intros A r C r2 Hl HA V0 Th; cbn [map] in Th.
  - inversion Th; subst. auto.
  - inversion Th as [|A' r' i is B r1 C' r2' La Th']; subst. pose proof (Hl s (or_introl eq_refl)) as L0.
    destruct (shell_step niter b Q s A r B r1 L0 HA V0 La) as (-> & W & V1 & M).
    assert (HB : good_frame (s_frame s)) by apply L0.
    destruct (IH _ r1 C r2 (fun l' H => eq_ind_r (fun w => shell b w Q l') (Hl l' (or_intror H)) W) HB V1 Th') as (GC & V2 & M').
    split; [exact GC|]. split; [exact V2|congruence].
Qed.
(** Lengths of moments are index times distance. *)
Lemma moment_length Q A r t g : good_frame A -> vel r <> zeroR -> passes A r t g -> dotR (minusR g Q) (global_dir A (vel r)) = 0 ->
  dotR (moment Q A r) (moment Q A r) = index_of (vel r) * index_of (vel r) * dotR (minusR g Q) (minusR g Q).
Proof.
  intros HA V0 Pa O. rewrite <- (moment_at A r t g Q Pa). pose proof (len_pos _ V0) as L. unfold slowness. set (n := index_of (vel r)). set (V := global_dir A (vel r)) in *.
  assert (VV : n * n * dotR V V = 1).
  { unfold V, global_dir. rewrite orth_dot by exact HA. rewrite <- RefractProofs.len_sq. unfold n, index_of. field. lra. }
  set (d := minusR g Q) in *. clearbody d V n.
  transitivity (n * n * (n * n * dotR V V) * dotR d d - n * n * (n * n) * (dotR d V * dotR d V)); [unfold dotR; cbn; ring|]. rewrite VV, O. ring.
Qed.
Lemma moment_zero Q A r : good_frame A -> vel r <> zeroR -> moment Q A r = zeroR -> exists t, passes A r t Q.
Proof.
  intros HA V0 M. pose proof (len_pos _ V0) as L. set (V := global_dir A (vel r)). set (P := global_point A (pos r)). set (d := minusR Q P).
  assert (VV : 0 < dotR V V) by (unfold V, global_dir; rewrite orth_dot by exact HA; rewrite <- RefractProofs.len_sq; nra).
  exists (time r + dotR d V / dotR V V). unfold passes. fold V P.
  set (n := index_of (vel r) * index_of (vel r)). assert (N : n <> 0) by (unfold n, index_of; apply Rmult_integral_contrapositive; split; apply Rinv_neq_0_compat; lra).
  assert (X : crossR d V = zeroR).
  { unfold moment, slowness in M. fold V P n in M. unfold d. clearbody V P n. pose proof (f_equal cx M) as X. pose proof (f_equal cy M) as Y. pose proof (f_equal cz M) as Z.
    cbn in X, Y, Z. apply vec3_eq; cbn; apply (Rmult_eq_reg_l n); try exact N; lra. }
  assert (E : timesR (dotR d V / dotR V V) V = d).
  { clearbody d V. pose proof (f_equal cx X) as E1. pose proof (f_equal cy X) as E2. pose proof (f_equal cz X) as E3. cbn in E1, E2, E3.
    apply vec3_eq; cbn; apply (Rmult_eq_reg_r (dotR V V)); try lra; unfold Rdiv; rewrite !Rmult_assoc.
    - rewrite (Rmult_comm (cx V)), <- (Rmult_assoc (/ dotR V V)), Rinv_l, Rmult_1_l by lra. unfold dotR. apply Rminus_diag_uniq.
      transitivity (cz V * (cz d * cx V - cx d * cz V) - cy V * (cx d * cy V - cy d * cx V)); [ring|rewrite ?E1, ?E2, ?E3; ring].
    - rewrite (Rmult_comm (cy V)), <- (Rmult_assoc (/ dotR V V)), Rinv_l, Rmult_1_l by lra. unfold dotR. apply Rminus_diag_uniq.
      transitivity (cx V * (cx d * cy V - cy d * cx V) - cz V * (cy d * cz V - cz d * cy V)); [ring|rewrite ?E1, ?E2, ?E3; ring].
    - rewrite (Rmult_comm (cz V)), <- (Rmult_assoc (/ dotR V V)), Rinv_l, Rmult_1_l by lra. unfold dotR. apply Rminus_diag_uniq.
      transitivity (cy V * (cy d * cz V - cz d * cy V) - cx V * (cz d * cx V - cx d * cz V)); [ring|rewrite ?E1, ?E2, ?E3; ring]. }
  replace (time r + dotR d V / dotR V V - time r) with (dotR d V / dotR V V) by ring. rewrite E. unfold d. clearbody P. apply vec3_eq; cbn; ring.
Qed.
Lemma distances Q A r C r2 t g t2 g2 : good_frame A -> vel r <> zeroR -> passes A r t g -> dotR (minusR g Q) (global_dir A (vel r)) = 0 ->
  good_frame C -> vel r2 <> zeroR -> passes C r2 t2 g2 -> dotR (minusR g2 Q) (global_dir C (vel r2)) = 0 -> moment Q C r2 = moment Q A r ->
  index_of (vel r2) * lenR (minusR g2 Q) = index_of (vel r) * lenR (minusR g Q).
Proof.
  intros GA VA PA OA GC VC PC OC M. pose proof (moment_length Q A r t g GA VA PA OA) as X. pose proof (moment_length Q C r2 t2 g2 GC VC PC OC) as Y.
  rewrite M, X in Y. rewrite <- !RefractProofs.len_sq in Y.
  assert (0 < index_of (vel r)) by (apply Rinv_0_lt_compat, len_pos; exact VA). assert (0 < index_of (vel r2)) by (apply Rinv_0_lt_compat, len_pos; exact VC).
  assert (0 <= lenR (minusR g Q)) by apply sqrt_pos. assert (0 <= lenR (minusR g2 Q)) by apply sqrt_pos.
  apply Rsqr_inj; [nra|nra|unfold Rsqr; lra].
Qed.
