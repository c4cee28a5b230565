(** Consequences of Malus' theorem: equal paths to a focus, wavefronts and spots. *)
From Coq Require Import Reals List ZArith Bool Lra Psatz Lia.
From Verif Require Import Num NumR Vec CoordSys Surface Ray Bundle Optic Spec OpticsSpec XRFacts CoordFacts
  RayFacts RefractProofs SurfSpec SlopeProofs TreeSpec AxialTrace MalusSpec MalusProofs.
Import ListNotations.
Open Scope R_scope.

Lemma plane_wave_front A rs : good_frame A -> smooth_rays rs -> plane_wave rs -> wavefront_at A rs.
Proof.
  intros GA ((dp & P) & _ & (dt & T)) N. apply (lag_local A _ _ GA). exists dp, dt. split; [exact P|]. split; [exact T|].
  set (w := slowness (vel (rs 0))).
  assert (C : changes (fun _ => w) zeroR) by (repeat split; apply dl_const).
  pose proof (dl_minus _ _ _ _ _ T (changes_dot _ _ _ _ C P)) as D. cbn beta in D.
  assert (Z : dt - (dotR zeroR (pos (rs 0)) + dotR w dp) = 0).
  { eapply uniqueness_limite; [exact D|]. eapply dl_near_ext; [|apply (dl_const (time (rs 0) - dotR w (pos (rs 0))))].
    eapply near_imp; [|exact N]. intros t (_ & E). symmetry. exact E. }
  unfold dotR at 1, zeroR in Z. cbn in Z. lra.
Qed.
Lemma point_source_front A rs : good_frame A -> point_source rs -> wavefront_at A rs.
Proof.
  intros GA N. apply (lag_local A _ _ GA). exists zeroR, 0. split; [|split].
  - eapply changes_near; [|assert (C : changes (fun _ => pos (rs 0)) zeroR) by (repeat split; apply dl_const); exact C].
    eapply near_imp; [|exact N]. intros t (E & _). symmetry. exact E.
  - eapply dl_near_ext; [|apply (dl_const (time (rs 0)))]. eapply near_imp; [|exact N]. intros t (_ & E). symmetry. exact E.
  - unfold dotR, zeroR; cbn. ring.
Qed.

(** ** One point, one time *)
Lemma dl_from f s d : derivable_pt_lim (fun t => f (s + t)) 0 d -> derivable_pt_lim f s d.
Proof.
  intros H eps He. destruct (H eps He) as [al Hal]. exists al. intros h H1 H2. specialize (Hal h H1 H2).
  rewrite !Rplus_0_l, Rplus_0_r in Hal. exact Hal.
Qed.
Lemma global_light A (rs : R -> ray R) : good_frame A -> forall t, dotR (ray_global_vel A (rs t)) (ray_global_vel A (rs t)) = dotR (vel (rs t)) (vel (rs t)).
Proof. intros G t. apply orth_dot, G. Qed.
Lemma arrival_still A rs tau c : good_frame A -> smooth_rays rs -> one_light rs -> wavefront_at A rs ->
  near (fun t => later A (rs t) (tau t) = c) -> derivable_pt_lim (fun t => time (rs t) + tau t) 0 0.
Proof.
  intros GA ((dp0 & P0) & (dv & V) & _) L (dp & dt & P & T & Z) N.
  pose proof (turns_only rs dv L V) as Tz. destruct L as (Nz & LN).
  pose proof (changes_apply (rot A) _ _ V) as GV. change (fun t => applyR (rot A) (vel (rs t))) with (fun t => ray_global_vel A (rs t)) in GV.
  set (v0 := ray_global_vel A (rs 0)) in *. set (w := dotR (vel (rs 0)) (vel (rs 0))) in *.
  assert (W0 : 0 < w) by (apply dot_pos, Nz).
  assert (Cc : changes (fun _ => c) zeroR) by (repeat split; apply dl_const).
  assert (Cm : changes (fun t => minusR c (ray_global_pos A (rs t))) (timesR (-1) dp)).
  { destruct P as (X & Y & ZZ). unfold changes, minusR; cbn. repeat split; (eapply dl_val; [apply (dl_minus (fun _ => _)); [apply dl_const|eassumption]|ring]). }
  pose proof (changes_dot _ _ _ _ GV Cm) as D.
  assert (Tau : near (fun t => dotR (ray_global_vel A (rs t)) (minusR c (ray_global_pos A (rs t))) * / w = tau t)).
  { eapply near_imp; [|exact (near_and _ _ N LN)]. cbv beta. intros t (E & _ & S). rewrite <- E. unfold later.
    replace (dotR (ray_global_vel A (rs t)) (minusR (plusR (ray_global_pos A (rs t)) (timesR (tau t) (ray_global_vel A (rs t)))) (ray_global_pos A (rs t))))
      with (tau t * dotR (ray_global_vel A (rs t)) (ray_global_vel A (rs t))) by (unfold dotR; cbn; ring).
    rewrite (global_light A rs GA), S. fold w. field. lra. }
  assert (Dtau : derivable_pt_lim tau 0 ((dotR (applyR (rot A) dv) (minusR c (ray_global_pos A (rs 0))) + dotR v0 (timesR (-1) dp)) * / w)).
  { eapply dl_near_ext; [exact Tau|]. eapply dl_val; [apply dl_mult; [exact D|apply (dl_const (/ w))]|]. cbv beta. change (ray_global_vel A (rs 0)) with v0. rewrite Rmult_0_r, Rplus_0_r. reflexivity. }
  eapply dl_val; [apply dl_plus; [exact T|exact Dtau]|].
  pose proof (near_0 _ N) as E. assert (Em : minusR c (ray_global_pos A (rs 0)) = timesR (tau 0) v0) by (rewrite <- E; unfold later, v0; apply vec3_eq; cbn; ring).
  rewrite Em. replace (dotR (applyR (rot A) dv) (timesR (tau 0) v0)) with (tau 0 * dotR v0 (applyR (rot A) dv)) by (unfold dotR; cbn; ring).
  unfold v0, ray_global_vel at 1, global_dir. rewrite orth_dot by exact GA. rewrite Tz.
  replace (dotR (ray_global_vel A (rs 0)) (timesR (-1) dp)) with (- dotR v0 dp) by (unfold v0, dotR; cbn; ring).
  rewrite slow_dot in Z. unfold v0 in Z at 2 3. rewrite (global_light A rs GA) in Z. fold w in Z. unfold Rdiv in Z.
  replace ((tau 0 * 0 + - dotR v0 dp) * / w) with (- (dotR v0 dp * / w)) by ring. lra.
Qed.
Lemma still_constant f a b : (forall s, a < s < b -> derivable_pt_lim f s 0) -> forall s1 s2, a < s1 < b -> a < s2 < b -> f s1 = f s2.
Proof.
  intros H.
  assert (G : forall s1 s2, a < s1 < b -> a < s2 < b -> s1 < s2 -> f s1 = f s2).
  { intros s1 s2 H1 H2 Hl.
    assert (pr : forall x, s1 < x < s2 -> derivable_pt f x) by (intros x Hx; exists 0; apply H; lra).
    assert (ct : forall x, s1 <= x <= s2 -> continuity_pt f x) by (intros x Hx; apply derivable_continuous_pt; exists 0; apply H; lra).
    destruct (MVT_cor2 f (fun _ => 0) s1 s2 Hl) as (x & E & _); [intros x Hx; apply H; lra|lra]. }
  intros s1 s2 H1 H2. destruct (Rtotal_order s1 s2) as [L|[->|L]]; [apply G; assumption|reflexivity|symmetry; apply G; assumption].
Qed.
Lemma near_at (P : R -> Prop) a b s : a < s < b -> (forall x, a < x < b -> P x) -> near (fun t => P (s + t)).
Proof.
  intros Hs H. exists (Rmin (s - a) (b - s)). split; [apply Rmin_pos; lra|]. intros t Ht. apply H.
  pose proof (Rmin_l (s - a) (b - s)). pose proof (Rmin_r (s - a) (b - s)). apply Rabs_def2 in Ht. lra.
Qed.
(** C87 *)
Theorem one_point_one_time A rs tau c a b : good_frame A ->
  (forall s, a < s < b -> smooth_rays (from s rs) /\ one_light (from s rs) /\ wavefront_at A (from s rs) /\ later A (rs s) (tau s) = c) ->
  forall s1 s2, a < s1 < b -> a < s2 < b -> time (rs s1) + tau s1 = time (rs s2) + tau s2.
Proof.
  intros GA H. apply (still_constant (fun s => time (rs s) + tau s)). intros s Hs. apply (dl_from (fun s => time (rs s) + tau s)).
  destruct (H s Hs) as (S & L & W & _). apply (arrival_still A (from s rs) (fun t => tau (s + t)) c GA S L W).
  apply (near_at (fun x => later A (rs x) (tau x) = c) a b s Hs). intros x Hx. apply H, Hx.
Qed.
Theorem focus_equal_times niter (o : optic XR) b A rs B rs1 tau c lo hi : good_frame A ->
  (forall s, lo < s < hi -> smooth_rays (from s rs) /\ one_light (from s rs) /\ wavefront_at A (from s rs) /\
     sweeps niter b (visit b o) A (from s rs) B (from s rs1) /\ later B (rs1 s) (tau s) = c) ->
  forall s1 s2, lo < s1 < hi -> lo < s2 < hi -> time (rs1 s1) + tau s1 = time (rs1 s2) + tau s2.
Proof.
  intros GA H s1 s2 H1 H2.
  assert (K : forall s, lo < s < hi -> good_frame B /\ smooth_rays (from s rs1) /\ one_light (from s rs1) /\ wavefront_at B (from s rs1) /\ later B (rs1 s) (tau s) = c).
  { intros s Hs. destruct (H s Hs) as (S & L & W & Sw & E). destruct (sweeps_lag _ _ _ _ _ _ _ 0 Sw GA S L W) as (W1 & GB & S1 & L1 & _). auto. }
  refine (one_point_one_time B rs1 tau c lo hi (proj1 (K s1 H1)) _ s1 s2 H1 H2). intros s Hs. apply (K s Hs).
Qed.

(** ** Spots and wavefronts *)
Lemma sphere_across A rs c dp : on_sphere A rs c -> changes (fun t => ray_global_pos A (rs t)) dp -> dotR (minusR (ray_global_pos A (rs 0)) c) dp = 0.
Proof.
  intros N P. pose proof (changes_minus _ _ c P) as M. pose proof (changes_dot _ _ _ _ M M) as D. cbn beta in D.
  assert (E : dotR dp (minusR (ray_global_pos A (rs 0)) c) + dotR (minusR (ray_global_pos A (rs 0)) c) dp = 0).
  { eapply uniqueness_limite; [exact D|]. set (q := minusR (ray_global_pos A (rs 0)) c). eapply dl_near_ext; [|apply (dl_const (dotR q q))].
    eapply near_imp; [|exact N]. intros t E. cbv beta in E. rewrite <- !len_sq. unfold distR in E. rewrite E. reflexivity. }
  rewrite (dot_comm dp) in E. lra.
Qed.
(** A ray that meets the image at c + eps, tau after leaving the sphere. *)
Theorem transverse_aberration A rs c eps tau dp dt : good_frame A -> vel (rs 0) <> zeroR -> wavefront_at A rs -> on_sphere A rs c ->
  changes (fun t => ray_global_pos A (rs t)) dp -> derivable_pt_lim (fun t => time (rs t)) 0 dt ->
  later A (rs 0) tau = plusR c eps ->
  dt * (tau * dotR (vel (rs 0)) (vel (rs 0))) = dotR eps dp.
Proof.
  intros GA Nz (dp' & dt' & P' & T' & Z) Sp P T E. rewrite <- (changes_unique _ _ _ P P') in Z. rewrite <- (uniqueness_limite _ _ _ _ T T') in Z.
  pose proof (sphere_across A rs c dp Sp P) as X. pose proof (dot_pos _ Nz) as Pz.
  rewrite slow_dot in Z. change (dotR (ray_global_vel A (rs 0)) (ray_global_vel A (rs 0))) with (dotR (applyR (rot A) (vel (rs 0))) (applyR (rot A) (vel (rs 0)))) in Z.
  rewrite orth_dot in Z by exact GA.
  assert (Ee : eps = plusR (minusR (ray_global_pos A (rs 0)) c) (timesR tau (ray_global_vel A (rs 0)))).
  { transitivity (minusR (plusR c eps) c); [apply vec3_eq; cbn; ring|]. rewrite <- E. unfold later. apply vec3_eq; cbn; ring. }
  rewrite Ee. replace (dotR (plusR (minusR (ray_global_pos A (rs 0)) c) (timesR tau (ray_global_vel A (rs 0)))) dp)
    with (dotR (minusR (ray_global_pos A (rs 0)) c) dp + tau * dotR (ray_global_vel A (rs 0)) dp) by (unfold dotR; cbn; ring).
  rewrite X. assert (D : dt = dotR (ray_global_vel A (rs 0)) dp / dotR (vel (rs 0)) (vel (rs 0))) by lra. rewrite D. field. lra.
Qed.
(** Two vectors perpendicular to the same plane are parallel. *)
Lemma parallel a b u v : crossR u v <> zeroR -> dotR a u = 0 -> dotR a v = 0 -> dotR b u = 0 -> dotR b v = 0 -> a <> zeroR -> exists k, b = timesR k a.
Proof.
  intros Hc Au Av Bu Bv Ha. pose proof (dot_pos _ Ha) as Pa. set (w := crossR u v) in *. pose proof (dot_pos _ Hc) as Pw.
  assert (K : forall x, dotR x u = 0 -> dotR x v = 0 -> x = timesR (dotR x w / dotR w w) w).
  { intros x Xu Xv.
    assert (G : timesR (dotR w w) x = timesR (dotR x w) w).
    { unfold w in *. destruct x as [x1 x2 x3], u as [u1 u2 u3], v as [v1 v2 v3]. unfold dotR, crossR in *. cbn [cx cy cz] in *.
      set (w1 := u2 * v3 - u3 * v2) in *. set (w2 := u3 * v1 - u1 * v3) in *. set (w3 := u1 * v2 - u2 * v1) in *.
      assert (C1 : x2 * w3 - x3 * w2 = 0) by (transitivity (u1 * (x1 * v1 + x2 * v2 + x3 * v3) - v1 * (x1 * u1 + x2 * u2 + x3 * u3)); [unfold w2, w3; ring|rewrite Xu, Xv; ring]).
      assert (C2 : x3 * w1 - x1 * w3 = 0) by (transitivity (u2 * (x1 * v1 + x2 * v2 + x3 * v3) - v2 * (x1 * u1 + x2 * u2 + x3 * u3)); [unfold w1, w3; ring|rewrite Xu, Xv; ring]).
      assert (C3 : x1 * w2 - x2 * w1 = 0) by (transitivity (u3 * (x1 * v1 + x2 * v2 + x3 * v3) - v3 * (x1 * u1 + x2 * u2 + x3 * u3)); [unfold w1, w2; ring|rewrite Xu, Xv; ring]).
      clearbody w1 w2 w3. apply vec3_eq; cbn [cx cy cz timesR]; apply Rminus_diag_uniq.
      - transitivity (w2 * (x1 * w2 - x2 * w1) - w3 * (x3 * w1 - x1 * w3)); [ring|rewrite C2, C3; ring].
      - transitivity (w3 * (x2 * w3 - x3 * w2) - w1 * (x1 * w2 - x2 * w1)); [ring|rewrite C1, C3; ring].
      - transitivity (w1 * (x3 * w1 - x1 * w3) - w2 * (x2 * w3 - x3 * w2)); [ring|rewrite C1, C2; ring]. }
    transitivity (timesR (/ dotR w w) (timesR (dotR w w) x)); [apply vec3_eq; cbn; field; lra|]. rewrite G. apply vec3_eq; cbn; field; lra. }
  set (ka := dotR a w / dotR w w) in *. pose proof (K a Au Av) as Ea. pose proof (K b Bu Bv) as Eb. fold ka in Ea.
  assert (Ka : ka <> 0) by (intros Z; apply Ha; rewrite Ea, Z; unfold zeroR; apply vec3_eq; cbn; ring).
  exists (dotR b w / dotR w w / ka). rewrite Eb at 1. rewrite Ea. apply vec3_eq; cbn; field; repeat split; try assumption; lra.
Qed.

(** Two families of rays crossing at one ray, stopped on a sphere about c: if the time does not change along either, the ray goes through c. *)
Theorem flat_front_focus A rs rs' c dp dp' : good_frame A -> rs' 0 = rs 0 -> vel (rs 0) <> zeroR ->
  wavefront_at A rs -> wavefront_at A rs' -> on_sphere A rs c -> on_sphere A rs' c ->
  changes (fun t => ray_global_pos A (rs t)) dp -> changes (fun t => ray_global_pos A (rs' t)) dp' -> crossR dp dp' <> zeroR ->
  derivable_pt_lim (fun t => time (rs t)) 0 0 -> derivable_pt_lim (fun t => time (rs' t)) 0 0 ->
  exists tau, later A (rs 0) tau = c.
Proof.
  intros GA E0 Nz W W' Sp Sp' P P' X T T'.
  assert (Vn : ray_global_vel A (rs 0) <> zeroR).
  { intros Z. pose proof (dot_pos _ Nz) as Pz. rewrite <- (global_light A rs GA 0), Z in Pz. unfold dotR, zeroR in Pz; cbn in Pz; lra. }
  assert (K : forall q dq, q 0 = rs 0 -> wavefront_at A q -> changes (fun t => ray_global_pos A (q t)) dq -> derivable_pt_lim (fun t => time (q t)) 0 0 ->
     dotR (ray_global_vel A (rs 0)) dq = 0).
  { intros q dq Q (dp1 & dt1 & P1 & T1 & Z) Pq Tq. rewrite <- (changes_unique _ _ _ Pq P1) in Z. rewrite <- (uniqueness_limite _ _ _ _ Tq T1) in Z.
    rewrite Q, slow_dot in Z. pose proof (dot_pos _ Vn) as Pz.
    assert (D : dotR (ray_global_vel A (rs 0)) dq / dotR (ray_global_vel A (rs 0)) (ray_global_vel A (rs 0)) = 0) by lra.
    apply (Rmult_eq_compat_r (dotR (ray_global_vel A (rs 0)) (ray_global_vel A (rs 0)))) in D. unfold Rdiv in D. rewrite Rmult_assoc, Rinv_l in D; lra. }
  destruct (parallel (ray_global_vel A (rs 0)) (minusR (ray_global_pos A (rs 0)) c) dp dp' X) as (k & Ek); auto.
  - apply (K rs); auto.
  - apply (K rs'); auto.
  - apply (sphere_across A rs); assumption.
  - rewrite <- E0. apply (sphere_across A rs'); assumption.
  - exists (- k). unfold later.
    transitivity (plusR (ray_global_pos A (rs 0)) (timesR (-1) (timesR k (ray_global_vel A (rs 0))))); [apply vec3_eq; cbn; ring|].
    rewrite <- Ek. apply vec3_eq; cbn; ring.
Qed.
