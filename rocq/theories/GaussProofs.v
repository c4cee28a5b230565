(** Pencils of rays follow the laws of Gaussian optics. *)
From Coq Require Import Reals List ZArith Bool Lra Psatz.
From Verif Require Import Num NumR Vec CoordSys Surface Medium Obscuration Ray Bundle Optic Spec OpticsSpec XRFacts CoordFacts
  RayFacts NormalFacts TreeSpec RefractProofs OpticsProofs AxialTrace StigSpec StigProofs GaussSpec GaussLimits.
Import ListNotations.
Open Scope R_scope.

Section Hit.
  Context (sf : surface XR) (k : R) (HC : curved sf k) (a z c hx hy ux uy zB : R) (Hc : c <> 0).
  Context (X Y Z Vx Vy Vz T : R -> R) (q : R -> vR).
  Context (LX : tends (fun s => X s / s) hx) (LY : tends (fun s => Y s / s) hy) (LZ : tends Z z).
  Context (LVx : tends (fun s => Vx s / s) ux) (LVy : tends (fun s => Vy s / s) uy) (LVz : tends Vz c).
  Context (Hq : nearby (fun s => q s = V3 (X s + T s * Vx s) (Y s + T s * Vy s) (Z s - zB + T s * Vz s) /\ on_sag sf (q s) /\ Rabs (cx (q s)) <= a /\ Rabs (cy (q s)) <= a)).

  Lemma time_bounded : exists M, nearby (fun s => Rabs (T s) <= M).
  Proof.
    destruct HC as (B & _). destruct (B a) as (M & HM). assert (LI := tends_inv _ _ LVz Hc). pose proof (tends_bounded _ _ LI) as BI. pose proof (tends_bounded _ _ LZ) as BZ.
    exists ((M + (Rabs z + 1) + Rabs zB) * (Rabs (/ c) + 1)).
    eapply nearby_impl; [|exact (nearby_and _ _ Hq (nearby_and _ _ (nearby_and _ _ BI BZ) (tends_apart _ _ LVz Hc)))].
    intros s _ ((E & On & A1 & A2) & (I1 & I2) & N). pose proof (HM _ A1 A2 On) as Mq. assert (Ez : cz (q s) = Z s - zB + T s * Vz s) by (rewrite E; reflexivity).
    replace (T s) with ((cz (q s) - Z s + zB) * / Vz s) by (rewrite Ez; field; exact N). rewrite Rabs_mult. apply Rmult_le_compat; auto using Rabs_pos.
    eapply Rle_trans; [apply Rabs_triang|]. apply Rplus_le_compat_r. unfold Rminus. eapply Rle_trans; [apply Rabs_triang|]. rewrite Rabs_Ropp. lra.
  Qed.
  Lemma foot_vanishes : tends (fun s => cx (q s)) 0 /\ tends (fun s => cy (q s)) 0.
  Proof.
    destruct time_bounded as (M & BM). split.
    - apply tends_ext with (fun s => X s + T s * Vx s).
      + eapply nearby_impl; [|exact Hq]. intros s _ (E & _). rewrite E. reflexivity.
      + replace 0 with (0 + 0) by ring. apply tends_plus; [eapply tends_of_ratio; exact LX|]. apply (tends_squeeze Vx T M BM). eapply tends_of_ratio; exact LVx.
    - apply tends_ext with (fun s => Y s + T s * Vy s).
      + eapply nearby_impl; [|exact Hq]. intros s _ (E & _). rewrite E. reflexivity.
      + replace 0 with (0 + 0) by ring. apply tends_plus; [eapply tends_of_ratio; exact LY|]. apply (tends_squeeze Vy T M BM). eapply tends_of_ratio; exact LVy.
  Qed.
  Lemma depth_vanishes : tends (fun s => cz (q s)) 0.
  Proof.
    destruct foot_vanishes as [FX FY]. destruct HC as (_ & Vt & _). intros eps He. destruct (Vt eps He) as (d & D & K).
    destruct (nearby_and _ _ Hq (nearby_and _ _ (FX d D) (FY d D))) as (e & E & Q). exists e. split; [exact E|]. intros s L. destruct (Q s L) as ((_ & On & _) & Q1 & Q2).
    rewrite Rminus_0_r in *. apply K; assumption.
  Qed.
  Lemma time_tends : tends T ((zB - z) / c).
  Proof.
    apply tends_ext with (fun s => (cz (q s) - Z s + zB) * / Vz s).
    - eapply nearby_impl; [|exact (nearby_and _ _ Hq (tends_apart _ _ LVz Hc))]. intros s _ ((E & _) & N). rewrite E. cbn [cz]. field. exact N.
    - eapply tends_value; [apply tends_mul; [apply tends_plus; [apply tends_minus; [exact depth_vanishes|exact LZ]|apply tends_const]|apply tends_inv; [exact LVz|exact Hc]]|].
      unfold Rdiv. f_equal. ring.
  Qed.
  Lemma foot_x : tends (fun s => cx (q s) / s) (hx + (zB - z) / c * ux).
  Proof.
    apply tends_ext with (fun s => X s / s + T s * (Vx s / s)).
    - eapply nearby_impl; [|exact Hq]. intros s N (E & _). rewrite E. cbn [cx]. field. exact N.
    - apply tends_plus; [exact LX|]. apply tends_mul; [exact time_tends|exact LVx].
  Qed.
  Lemma foot_y : tends (fun s => cy (q s) / s) (hy + (zB - z) / c * uy).
  Proof.
    apply tends_ext with (fun s => Y s / s + T s * (Vy s / s)).
    - eapply nearby_impl; [|exact Hq]. intros s N (E & _). rewrite E. cbn [cy]. field. exact N.
    - apply tends_plus; [exact LY|]. apply tends_mul; [exact time_tends|exact LVy].
  Qed.
End Hit.

Lemma normal_tends sf k (HC : curved sf k) q m hx hy : tends (fun s => cx (q s) / s) hx -> tends (fun s => cy (q s) / s) hy ->
  nearby (fun s => normal sf (Fin (cx (q s))) (Fin (cy (q s))) = F3 (m s)) ->
  tends (fun s => cx (m s) / s) (- (k * hx)) /\ tends (fun s => cy (m s) / s) (- (k * hy)) /\ tends (fun s => cz (m s)) 1.
Proof.
  intros LX LY HN. destruct HC as (_ & _ & K). pose proof (tends_of_ratio _ _ LX) as X0. pose proof (tends_of_ratio _ _ LY) as Y0.
  pose proof (tends_bounded _ _ LX) as BX. pose proof (tends_bounded _ _ LY) as BY. set (B := Rabs hx + 1 + (Rabs hy + 1)).
  assert (B0 : 0 < B) by (unfold B; pose proof (Rabs_pos hx); pose proof (Rabs_pos hy); lra).
  assert (Main : forall eps, 0 < eps -> nearby (fun s => Rabs (cx (m s) / s + k * (cx (q s) / s)) < eps /\ Rabs (cy (m s) / s + k * (cy (q s) / s)) < eps /\ Rabs (cz (m s) - 1) < eps)).
  { intros eps He. set (e := Rmin (eps / 2) (eps / 2 / B)). assert (E : 0 < e) by (apply Rmin_glb_lt; [lra|apply Rdiv_lt_0_compat; lra]).
    destruct (K e E) as (d & D & KK).
    eapply nearby_impl; [|exact (nearby_and _ _ HN (nearby_and _ _ (nearby_and _ _ (X0 d D) (Y0 d D)) (nearby_and _ _ BX BY)))].
    intros s N (Hn & (Q1 & Q2) & Q3 & Q4). rewrite Rminus_0_r in Q1, Q2. destruct (KK _ _ _ Q1 Q2 Hn) as (R1 & R2 & R3).
    assert (S0 : 0 < Rabs s) by (apply Rabs_pos_lt, N).
    assert (EB : e * B <= eps / 2). { apply Rle_trans with (eps / 2 / B * B); [apply Rmult_le_compat_r; [lra|apply Rmin_r]|]. right. field. lra. }
    assert (Sum : Rabs (cx (q s)) + Rabs (cy (q s)) <= B * Rabs s).
    { unfold Rdiv in Q3, Q4. rewrite Rabs_mult, Rabs_inv in Q3, Q4.
      assert (Rabs (cx (q s)) <= (Rabs hx + 1) * Rabs s). { replace (Rabs (cx (q s))) with (Rabs (cx (q s)) * / Rabs s * Rabs s) by (field; lra). apply Rmult_le_compat_r; lra. }
      assert (Rabs (cy (q s)) <= (Rabs hy + 1) * Rabs s). { replace (Rabs (cy (q s))) with (Rabs (cy (q s)) * / Rabs s * Rabs s) by (field; lra). apply Rmult_le_compat_r; lra. }
      unfold B. lra. }
    assert (Div : forall w v, Rabs (w + k * v) <= e * (Rabs (cx (q s)) + Rabs (cy (q s))) -> Rabs (w / s + k * (v / s)) < eps).
    { intros w v W. replace (w / s + k * (v / s)) with ((w + k * v) * / s) by (field; exact N). rewrite Rabs_mult, Rabs_inv.
      apply Rmult_lt_reg_r with (Rabs s); [exact S0|]. rewrite Rmult_assoc, Rinv_l by lra. rewrite Rmult_1_r.
      apply Rle_lt_trans with (e * (B * Rabs s)); [eapply Rle_trans; [exact W|apply Rmult_le_compat_l; lra]|].
      apply Rle_lt_trans with (eps / 2 * Rabs s); [rewrite <- Rmult_assoc; apply Rmult_le_compat_r; lra|]. apply Rmult_lt_compat_r; lra. }
    split; [apply Div, R1|split; [apply Div, R2|]]. pose proof (Rmin_l (eps / 2) (eps / 2 / B)). fold e in H. lra. }
  assert (Kx : tends (fun s => cx (m s) / s + k * (cx (q s) / s)) 0).
  { intros eps He. destruct (Main eps He) as (d & D & Q). exists d. split; [exact D|]. intros s L. rewrite Rminus_0_r. apply Q, L. }
  assert (Ky : tends (fun s => cy (m s) / s + k * (cy (q s) / s)) 0).
  { intros eps He. destruct (Main eps He) as (d & D & Q). exists d. split; [exact D|]. intros s L. rewrite Rminus_0_r. apply Q, L. }
  split; [|split].
  - apply tends_ext with (fun s => (cx (m s) / s + k * (cx (q s) / s)) - k * (cx (q s) / s)); [apply nearby_all; intros; ring|].
    eapply tends_value; [apply tends_minus; [exact Kx|apply tends_mul; [apply tends_const|exact LX]]|ring].
  - apply tends_ext with (fun s => (cy (m s) / s + k * (cy (q s) / s)) - k * (cy (q s) / s)); [apply nearby_all; intros; ring|].
    eapply tends_value; [apply tends_minus; [exact Ky|apply tends_mul; [apply tends_const|exact LY]]|ring].
  - intros eps He. destruct (Main eps He) as (d & D & Q). exists d. split; [exact D|]. intros s L. apply Q, L.
Qed.

Section Bend.
  Context (v m : R -> vR) (ux uy c kx ky : R) (Hc : c <> 0).
  Context (LVx : tends (fun s => cx (v s) / s) ux) (LVy : tends (fun s => cy (v s) / s) uy) (LVz : tends (fun s => cz (v s)) c).
  Context (LMx : tends (fun s => cx (m s) / s) kx) (LMy : tends (fun s => cy (m s) / s) ky) (LMz : tends (fun s => cz (m s)) 1).
  Lemma vanish_dot a b a' b' : tends (fun s => a s / s) a' -> tends (fun s => b s / s) b' -> tends (fun s => a s * b s) 0.
  Proof. intros A B. replace 0 with (0 * 0) by ring. apply tends_mul; eapply tends_of_ratio; eassumption. Qed.
  Lemma dot_tends : tends (fun s => dotR (v s) (m s)) c.
  Proof.
    unfold dotR. replace c with (0 + 0 + c * 1) by ring. repeat apply tends_plus.
    - exact (vanish_dot _ _ _ _ LVx LMx).
    - exact (vanish_dot _ _ _ _ LVy LMy).
    - apply tends_mul; assumption.
  Qed.
  Lemma len_tends : tends (fun s => lenR (v s)) (Rabs c).
  Proof.
    unfold lenR. replace (Rabs c) with (sqrt (0 + 0 + c * c)) by (rewrite Rplus_0_l, Rplus_0_l; apply sqrt_Rsqr_abs).
    apply tends_sqrt; [|pose proof (Rle_0_sqr c); unfold Rsqr in *; lra]. unfold dotR. repeat apply tends_plus.
    - exact (vanish_dot _ _ _ _ LVx LVx).
    - exact (vanish_dot _ _ _ _ LVy LVy).
    - apply tends_mul; assumption.
  Qed.
  Lemma refl_tends : tends (fun s => cx (reflR (v s) (m s)) / s) (ux - 2 * c * kx) /\ tends (fun s => cy (reflR (v s) (m s)) / s) (uy - 2 * c * ky) /\
    tends (fun s => cz (reflR (v s) (m s))) (- c).
  Proof.
    split; [|split].
    - apply tends_ext with (fun s => cx (v s) / s - 2 * dotR (v s) (m s) * (cx (m s) / s)).
      + apply nearby_all. intros s N. unfold reflR, minusR, timesR; cbn [cx]. field. exact N.
      + apply tends_minus; [exact LVx|]. apply tends_mul; [apply tends_mul; [apply tends_const|exact dot_tends]|exact LMx].
    - apply tends_ext with (fun s => cy (v s) / s - 2 * dotR (v s) (m s) * (cy (m s) / s)).
      + apply nearby_all. intros s N. unfold reflR, minusR, timesR; cbn [cy]. field. exact N.
      + apply tends_minus; [exact LVy|]. apply tends_mul; [apply tends_mul; [apply tends_const|exact dot_tends]|exact LMy].
    - apply tends_ext with (fun s => cz (v s) - 2 * dotR (v s) (m s) * cz (m s)); [apply nearby_all; intros; reflexivity|].
      eapply tends_value; [apply tends_minus; [exact LVz|apply tends_mul; [apply tends_mul; [apply tends_const|exact dot_tends]|exact LMz]]|ring].
  Qed.
  (** The sign of the direction of travel along the axis. *)
  Let sg := c / Rabs c.
  Lemma abs_c : 0 < Rabs c. Proof. apply Rabs_pos_lt, Hc. Qed.
  Lemma sg_sq : sg * sg = 1. Proof. unfold sg. pose proof abs_c. assert (Rabs c * Rabs c = c * c) by (rewrite <- Rabs_mult; apply Rabs_pos_eq, Rle_0_sqr). field_simplify_eq; [nra|lra]. Qed.
  Lemma unit_dot_tends : tends (fun s => dotR (unitR (v s)) (m s)) sg.
  Proof.
    apply tends_ext with (fun s => / lenR (v s) * dotR (v s) (m s)).
    - apply nearby_all. intros s _. unfold unitR, dotR, timesR; cbn. ring.
    - unfold sg. eapply tends_value; [apply tends_mul; [apply tends_inv; [exact len_tends|pose proof abs_c; lra]|exact dot_tends]|]. unfold Rdiv. ring.
  Qed.
  Lemma side_tends : nearby (fun s => sideR (unitR (v s)) (m s) = - sg).
  Proof.
    pose proof unit_dot_tends as U. destruct (U (/ 2) ltac:(lra)) as (d & D & H). exists d. split; [exact D|]. intros s L. pose proof (H s L) as K.
    assert (S : sg = 1 \/ sg = - 1). { pose proof sg_sq as Q. assert (P : (sg - 1) * (sg + 1) = 0) by lra. apply Rmult_integral in P. lra. }
    unfold sideR. destruct (Rlt_dec _ _) as [G|G]; revert K; unfold Rabs; destruct (Rcase_abs _); destruct S as [S|S]; rewrite S in *; lra.
  Qed.
  Context (n2 : R) (Hn2 : 0 < n2).
  Let n1 := / Rabs c.
  Lemma index_tends : tends (fun s => index_of (v s)) n1.
  Proof. unfold index_of, n1. apply tends_inv; [exact len_tends|pose proof abs_c; lra]. Qed.
  Lemma refr_tends : tends (fun s => cx (refrR (unitR (v s)) (m s) (index_of (v s)) n2) / s) ((n1 * n1 * ux + sg * (n2 - n1) * kx) / (n2 * n2)) /\
    tends (fun s => cy (refrR (unitR (v s)) (m s) (index_of (v s)) n2) / s) ((n1 * n1 * uy + sg * (n2 - n1) * ky) / (n2 * n2)) /\
    tends (fun s => cz (refrR (unitR (v s)) (m s) (index_of (v s)) n2)) (sg / n2).
  Proof.
    pose proof abs_c as P. pose proof sg_sq as Q. pose proof index_tends as IT.
    set (eta := fun s => index_of (v s) / n2). assert (LE : tends eta (n1 / n2)) by (apply tends_mul; [exact IT|apply tends_const]).
    set (g := fun s => eta s * (- sg * dotR (unitR (v s)) (m s)) + sqrt (1 - sin2R (unitR (v s)) (m s) (index_of (v s)) n2)).
    assert (LG : tends g (1 - n1 / n2)).
    { unfold g. replace (1 - n1 / n2) with (n1 / n2 * (- sg * sg) + sqrt (1 - n1 / n2 * (n1 / n2) * (1 - sg * sg))).
      - apply tends_plus; [apply tends_mul; [exact LE|apply tends_mul; [apply tends_const|exact unit_dot_tends]]|].
        apply tends_sqrt; [|rewrite Q; lra]. unfold sin2R. apply tends_minus; [apply tends_const|]. fold (eta). apply tends_mul; [apply tends_mul; exact LE|].
        apply tends_minus; [apply tends_const|apply tends_mul; exact unit_dot_tends].
      - replace (- sg * sg) with (- (sg * sg)) by ring. rewrite Q. replace (1 - n1 / n2 * (n1 / n2) * (1 - 1)) with 1 by ring. rewrite sqrt_1. ring. }
    assert (Eq : nearby (fun s => refrR (unitR (v s)) (m s) (index_of (v s)) n2 = timesR (/ n2) (minusR (timesR (eta s * index_of (v s)) (v s)) (timesR (g s * - sg) (m s))))).
    { eapply nearby_impl; [|exact side_tends]. intros s _ E. unfold refrR. rewrite E. unfold g, eta, unitR, index_of. apply vec3_eq; cbn; ring. }
    split; [|split].
    - apply tends_ext with (fun s => / n2 * (eta s * index_of (v s) * (cx (v s) / s) - g s * - sg * (cx (m s) / s))).
      + eapply nearby_impl; [|exact Eq]. intros s N E. rewrite E. cbn [cx timesR minusR]. field. split; [lra|exact N].
      + eapply tends_value; [apply tends_mul; [apply tends_const|apply tends_minus; [apply tends_mul; [apply tends_mul; [exact LE|exact IT]|exact LVx]|apply tends_mul; [apply tends_mul; [exact LG|apply tends_const]|exact LMx]]]|]. field. lra.
    - apply tends_ext with (fun s => / n2 * (eta s * index_of (v s) * (cy (v s) / s) - g s * - sg * (cy (m s) / s))).
      + eapply nearby_impl; [|exact Eq]. intros s N E. rewrite E. cbn [cy timesR minusR]. field. split; [lra|exact N].
      + eapply tends_value; [apply tends_mul; [apply tends_const|apply tends_minus; [apply tends_mul; [apply tends_mul; [exact LE|exact IT]|exact LVy]|apply tends_mul; [apply tends_mul; [exact LG|apply tends_const]|exact LMy]]]|]. field. lra.
    - apply tends_ext with (fun s => / n2 * (eta s * index_of (v s) * cz (v s) - g s * - sg * cz (m s))).
      + eapply nearby_impl; [|exact Eq]. intros s N E. rewrite E. reflexivity.
      + eapply tends_value; [apply tends_mul; [apply tends_const|apply tends_minus; [apply tends_mul; [apply tends_mul; [exact LE|exact IT]|exact LVz]|apply tends_mul; [apply tends_mul; [exact LG|apply tends_const]|exact LMz]]]|].
        unfold n1, sg. field. split; lra.
  Qed.
End Bend.

(** ** One element *)
Lemma eye_apply v : applyR eyeR v = v. Proof. destruct v. apply vec3_eq; cbn; ring. Qed.
Lemma eye_trans : transR eyeR = eyeR. Proof. reflexivity. Qed.
Lemma at_good z : good_frame (at_z z). Proof. unfold good_frame, at_z; cbn [rot]. unfold orthonormal, eyeR, dotR, col0, col1, col2; cbn. repeat split; ring. Qed.
Lemma at_vec A z v : chg_vec A (at_z z) v = global_dir A v.
Proof. rewrite chg_vec_eq. cbn [rot at_z]. rewrite eye_trans, eye_apply. reflexivity. Qed.
Lemma at_pt A z p : good_frame A -> chg_pt A (at_z z) p = minusR (global_point A p) (V3 0 0 z).
Proof.
  intros HA. pose proof (chg_pt_global A (at_z z) p HA (at_good z)) as H. unfold global_point at 1 in H. cbn [rot origin at_z] in H. rewrite eye_apply in H.
  rewrite <- H. apply vec3_eq; cbn; ring.
Qed.
Lemma at_point z p : global_point (at_z z) p = V3 (cx p) (cy p) (cz p + z).
Proof. unfold global_point; cbn [rot origin at_z]. rewrite eye_apply. apply vec3_eq; cbn; ring. Qed.
Lemma at_dir z v : global_dir (at_z z) v = v. Proof. apply eye_apply. Qed.
Definition reR (x : XR) : R := match x with Fin r => r | _ => 0 end.
Lemma re_F3 m : vmap reR (F3 m) = m. Proof. destruct m; reflexivity. Qed.

Lemma meet_pencil niter reverse a A r e r1 w g : good_frame A -> element_ok reverse w (g_n g) e -> pencil A r w g ->
  nearby (fun s => lands niter (e_iface e) reverse A (r s) (at_z (e_z e)) (r1 s) /\ Rabs (cx (pos (r1 s))) <= a /\ Rabs (cy (pos (r1 s))) <= a) ->
  pencil (at_z (e_z e)) r1 w (meet g e).
Proof.
  intros HA (Ci & HC & Ki) (N0 & Hw & LZ & LVz & LX & LY & LPx & LPy) HL. set (i := e_iface e) in *. set (zB := e_z e) in *. set (k := e_k e) in *.
  set (P := fun s => global_point A (pos (r s))). set (V := fun s => global_dir A (vel (r s))). set (n := g_n g) in *.
  assert (NN : n * n <> 0) by (apply Rmult_integral_contrapositive; split; assumption).
  assert (LVx : tends (fun s => cx (V s) / s) (g_px g / (n * n))).
  { apply tends_ext with (fun s => n * n * (cx (V s) / s) * / (n * n)); [apply nearby_all; intros s N; field; split; assumption|]. apply tends_mul; [exact LPx|apply tends_const]. }
  assert (LVy : tends (fun s => cy (V s) / s) (g_py g / (n * n))).
  { apply tends_ext with (fun s => n * n * (cy (V s) / s) * / (n * n)); [apply nearby_all; intros s N; field; split; assumption|]. apply tends_mul; [exact LPy|apply tends_const]. }
  assert (Scr : forall sc, i_kind i <> KScreen sc) by (intros sc E; rewrite E in Ki; exact Ki).
  set (T := fun s => time (r1 s) - time (r s)). set (q := fun s => pos (r1 s)).
  assert (Inv : nearby (fun s => (q s = V3 (cx (P s) + T s * cx (V s)) (cy (P s) + T s * cy (V s)) (cz (P s) - zB + T s * cz (V s)) /\ on_sag (i_surf i) (q s) /\
      Rabs (cx (q s)) <= a /\ Rabs (cy (q s)) <= a) /\ bends i reverse (wavelength (r s)) (q s) (V s) (vel (r1 s)) /\ wavelength (r1 s) = wavelength (r s))).
  { eapply nearby_impl; [|exact HL]. intros s _ (La & A1 & A2). destruct (lands_inv niter i reverse A (r s) (at_z zB) (r1 s) Scr Ci La) as (u & v' & Hb & Ep & Ev & Et & Ew).
    destruct La as (_ & _ & On). rewrite at_vec in Hb, Ep. rewrite at_pt in Ep by exact HA. fold (V s) in Hb, Ep. fold (P s) in Ep.
    assert (Eu : T s = u) by (unfold T; rewrite Et; ring). subst v'.
    split; [split; [|split; [exact On|split; assumption]]|split; [exact Hb|exact Ew]].
    unfold q. rewrite Ep, Eu. apply vec3_eq; cbn; ring. }
  assert (Hq : nearby (fun s => q s = V3 (cx (P s) + T s * cx (V s)) (cy (P s) + T s * cy (V s)) (cz (P s) - zB + T s * cz (V s)) /\ on_sag (i_surf i) (q s) /\ Rabs (cx (q s)) <= a /\ Rabs (cy (q s)) <= a)).
  { eapply nearby_impl; [|exact Inv]. intros s _ [K _]. exact K. }
  assert (IN : / n <> 0) by (apply Rinv_neq_0_compat, N0).
  pose proof (foot_x (i_surf i) k HC a _ _ _ _ _ _ zB IN _ _ _ _ _ _ T q LX LY LZ LVx LVy LVz Hq) as FX.
  pose proof (foot_y (i_surf i) k HC a _ _ _ _ _ _ zB IN _ _ _ _ _ _ T q LX LY LZ LVx LVy LVz Hq) as FY.
  pose proof (depth_vanishes (i_surf i) k HC a _ _ _ _ _ _ zB IN _ _ _ _ _ _ T q LX LY LZ LVx LVy LVz Hq) as FZ.
  set (x1 := g_x g + g_px g * (zB - g_z g) / n) in *. set (y1 := g_y g + g_py g * (zB - g_z g) / n) in *.
  assert (EX : g_x g + (zB - g_z g) / / n * (g_px g / (n * n)) = x1) by (unfold x1; field; exact N0). rewrite EX in FX.
  assert (EY : g_y g + (zB - g_z g) / / n * (g_py g / (n * n)) = y1) by (unfold y1; field; exact N0). rewrite EY in FY.
  assert (Hv : e_n e <> 0 /\ tends (fun s => cz (vel (r1 s))) (/ e_n e) /\
    tends (fun s => e_n e * e_n e * (cx (vel (r1 s)) / s)) (g_px g - k * (e_n e - n) * x1) /\ tends (fun s => e_n e * e_n e * (cy (vel (r1 s)) / s)) (g_py g - k * (e_n e - n) * y1)).
  { set (m := fun s => vmap reR (normal (i_surf i) (Fin (cx (q s))) (Fin (cy (q s))))).
    assert (Free : (forall s, bends i reverse (wavelength (r s)) (q s) (V s) (vel (r1 s)) -> vel (r1 s) = V s) -> e_n e = n ->
      e_n e <> 0 /\ tends (fun s => cz (vel (r1 s))) (/ e_n e) /\ tends (fun s => e_n e * e_n e * (cx (vel (r1 s)) / s)) (g_px g - k * (e_n e - n) * x1) /\ tends (fun s => e_n e * e_n e * (cy (vel (r1 s)) / s)) (g_py g - k * (e_n e - n) * y1)).
    { intros B ->. split; [exact N0|]. assert (E : nearby (fun s => V s = vel (r1 s))) by (eapply nearby_impl; [|exact Inv]; intros s _ (_ & Hb & _); symmetry; apply B, Hb).
      split; [|split].
      - apply tends_ext with (fun s => cz (V s)); [|exact LVz]. eapply nearby_impl; [|exact E]. intros s _ F. rewrite F. reflexivity.
      - eapply tends_value; [apply tends_ext with (fun s => n * n * (cx (V s) / s)); [|exact LPx]|ring]. eapply nearby_impl; [|exact E]. intros s _ F. rewrite F. reflexivity.
      - eapply tends_value; [apply tends_ext with (fun s => n * n * (cy (V s) / s)); [|exact LPy]|ring]. eapply nearby_impl; [|exact E]. intros s _ F. rewrite F. reflexivity. }
    unfold bends in Inv, Free. destruct (i_kind i) as [| | | | |sc] eqn:K; try (apply Free; [intros s E; exact E|exact Ki]); clear Free.
    - (* refraction *)
      destruct Ki as [Pos Hn].
      assert (NB : nearby (fun s => normal (i_surf i) (Fin (cx (q s))) (Fin (cy (q s))) = F3 (m s) /\ vel (r1 s) = refrR (unitR (V s)) (m s) (index_of (V s)) (Rabs (e_n e)))).
      { eapply nearby_impl; [|exact (nearby_and _ _ Inv Hw)]. intros s _ ((_ & (m0 & Hm & _ & Hb) & _) & W). assert (Em : m s = m0) by (unfold m; rewrite Hm; apply re_F3).
        rewrite W, Hn in Hb. apply bent_fin in Hb. destruct Hb as (_ & _ & Hv). rewrite Em. split; assumption. }
      destruct (normal_tends (i_surf i) k HC q m _ _ FX FY ltac:(eapply nearby_impl; [|exact NB]; intros s _ [Z _]; exact Z)) as (Mx & My & Mz).
      assert (e0 : e_n e <> 0) by (intros Z; rewrite Z in Pos; lra). assert (Ea : 0 < Rabs (e_n e)) by (apply Rabs_pos_lt, e0).
      destruct (refr_tends V m _ _ _ _ _ IN LVx LVy LVz Mx My Mz (Rabs (e_n e)) Ea) as (Rx & Ry & Rz).
      assert (Sq : Rabs (e_n e) * Rabs (e_n e) = e_n e * e_n e) by (rewrite <- Rabs_mult; apply Rabs_pos_eq, Rle_0_sqr).
      assert (Na : Rabs (/ n) = / Rabs n) by apply Rabs_inv. assert (Np : 0 < Rabs n) by (apply Rabs_pos_lt, N0).
      assert (Nsq : Rabs n * Rabs n = n * n) by (rewrite <- Rabs_mult; apply Rabs_pos_eq, Rle_0_sqr).
      assert (Sg : / n / Rabs (/ n) * Rabs (e_n e) = e_n e).
      { rewrite Na. unfold Rabs. destruct (Rcase_abs n), (Rcase_abs (e_n e)); try (field; lra); exfalso; nra. }
      assert (Sg2 : / n / Rabs (/ n) * Rabs n = n). { rewrite Na. replace (/ n / / Rabs n * Rabs n) with (Rabs n * Rabs n / n) by (field; split; lra). rewrite Nsq. field. exact N0. }
      assert (SS : / n / Rabs (/ n) * (/ n / Rabs (/ n)) = 1) by (apply sg_sq, IN). set (sgn := / n / Rabs (/ n)) in *. clearbody sgn.
      split; [exact e0|split; [|split]].
      + apply tends_ext with (fun s => cz (refrR (unitR (V s)) (m s) (index_of (V s)) (Rabs (e_n e)))); [eapply nearby_impl; [|exact NB]; intros s _ [_ Z]; rewrite Z; reflexivity|].
        eapply tends_value; [exact Rz|]. apply Rmult_eq_reg_r with (e_n e); [|exact e0]. rewrite Rinv_l by exact e0. rewrite <- Sg at 2.
        replace (sgn / Rabs (e_n e) * (sgn * Rabs (e_n e))) with (sgn * sgn) by (field; lra). exact SS.
      + apply tends_ext with (fun s => e_n e * e_n e * (cx (refrR (unitR (V s)) (m s) (index_of (V s)) (Rabs (e_n e))) / s)); [eapply nearby_impl; [|exact NB]; intros s _ [_ Z]; rewrite Z; reflexivity|].
        eapply tends_value; [apply tends_mul; [apply tends_const|exact Rx]|]. rewrite Sq.
        rewrite Na, Rinv_inv, Nsq. transitivity (g_px g + (sgn * Rabs (e_n e) - sgn * Rabs n) * - (k * x1)); [field; split; assumption|]. rewrite Sg, Sg2. ring.
      + apply tends_ext with (fun s => e_n e * e_n e * (cy (refrR (unitR (V s)) (m s) (index_of (V s)) (Rabs (e_n e))) / s)); [eapply nearby_impl; [|exact NB]; intros s _ [_ Z]; rewrite Z; reflexivity|].
        eapply tends_value; [apply tends_mul; [apply tends_const|exact Ry]|]. rewrite Sq.
        rewrite Na, Rinv_inv, Nsq. transitivity (g_py g + (sgn * Rabs (e_n e) - sgn * Rabs n) * - (k * y1)); [field; split; assumption|]. rewrite Sg, Sg2. ring.
    - (* reflection *)
      assert (NB : nearby (fun s => normal (i_surf i) (Fin (cx (q s))) (Fin (cy (q s))) = F3 (m s) /\ vel (r1 s) = reflR (V s) (m s))).
      { eapply nearby_impl; [|exact Inv]. intros s _ (_ & (m0 & Hm & Hb) & _). assert (Em : m s = m0) by (unfold m; rewrite Hm; apply re_F3). rewrite Em. split; assumption. }
      destruct (normal_tends (i_surf i) k HC q m _ _ FX FY ltac:(eapply nearby_impl; [|exact NB]; intros s _ [Z _]; exact Z)) as (Mx & My & Mz).
      destruct (refl_tends V m _ _ _ _ _ LVx LVy LVz Mx My Mz) as (Rx & Ry & Rz). rewrite Ki.
      split; [apply Ropp_neq_0_compat, N0|split; [|split]].
      + apply tends_ext with (fun s => cz (reflR (V s) (m s))); [eapply nearby_impl; [|exact NB]; intros s _ [_ Z]; rewrite Z; reflexivity|].
        eapply tends_value; [exact Rz|]. field. exact N0.
      + apply tends_ext with (fun s => - n * - n * (cx (reflR (V s) (m s)) / s)); [eapply nearby_impl; [|exact NB]; intros s _ [_ Z]; rewrite Z; reflexivity|].
        eapply tends_value; [apply tends_mul; [apply tends_const|exact Rx]|]. field. exact N0.
      + apply tends_ext with (fun s => - n * - n * (cy (reflR (V s) (m s)) / s)); [eapply nearby_impl; [|exact NB]; intros s _ [_ Z]; rewrite Z; reflexivity|].
        eapply tends_value; [apply tends_mul; [apply tends_const|exact Ry]|]. field. exact N0.
    - destruct Ki. }
  destruct Hv as (e0 & Hz & Hx & Hy). unfold pencil, meet. fold n zB k x1 y1. cbn [g_n g_z g_x g_y g_px g_py].
  split; [exact e0|]. split; [eapply nearby_impl; [|exact (nearby_and _ _ Inv Hw)]; intros s _ ((_ & _ & E) & W); rewrite E; exact W|].
  split; [|split; [|split; [|split; [|split]]]].
  - apply tends_ext with (fun s => cz (q s) + zB); [apply nearby_all; intros s _; rewrite at_point; reflexivity|]. eapply tends_value; [apply tends_plus; [exact FZ|apply tends_const]|ring].
  - apply tends_ext with (fun s => cz (vel (r1 s))); [apply nearby_all; intros s _; rewrite at_dir; reflexivity|exact Hz].
  - apply tends_ext with (fun s => cx (q s) / s); [apply nearby_all; intros s _; rewrite at_point; reflexivity|exact FX].
  - apply tends_ext with (fun s => cy (q s) / s); [apply nearby_all; intros s _; rewrite at_point; reflexivity|exact FY].
  - apply tends_ext with (fun s => e_n e * e_n e * (cx (vel (r1 s)) / s)); [apply nearby_all; intros s _; rewrite at_dir; reflexivity|exact Hx].
  - apply tends_ext with (fun s => e_n e * e_n e * (cy (vel (r1 s)) / s)); [apply nearby_all; intros s _; rewrite at_dir; reflexivity|exact Hy].
Qed.

(** ** Systems *)
Theorem system niter reverse a w els : forall A r C r2 g, good_frame A -> centred reverse w (g_n g) els -> guided niter reverse a A r els C r2 -> pencil A r w g ->
  pencil C r2 w (fold_left meet els g).
Proof.
  induction els as [|e els IH]; intros A r C r2 g HA HE HG HP; inversion HG; subst; [exact HP|]. destruct HE as [He Hs]. cbn [fold_left].
  apply (IH (at_z (e_z e)) r1); [apply at_good|exact Hs|assumption|]. eapply meet_pencil; eassumption.
Qed.
(** The height at which the lines of the rays cross the plane at z1. *)
Theorem crossing A r w g z1 : pencil A r w g ->
  let t s := (z1 - cz (global_point A (pos (r s)))) / cz (global_dir A (vel (r s))) in
  let Q s := plusR (global_point A (pos (r s))) (timesR (t s) (global_dir A (vel (r s)))) in
  nearby (fun s => cz (Q s) = z1) /\
  tends (fun s => cx (Q s) / s) (g_x g + g_px g * (z1 - g_z g) / g_n g) /\ tends (fun s => cy (Q s) / s) (g_y g + g_py g * (z1 - g_z g) / g_n g).
Proof.
  intros (N0 & _ & LZ & LVz & LX & LY & LPx & LPy). cbv zeta. set (P := fun s => global_point A (pos (r s))) in *. set (V := fun s => global_dir A (vel (r s))) in *. set (n := g_n g) in *.
  assert (IN : / n <> 0) by (apply Rinv_neq_0_compat, N0). pose proof (tends_apart _ _ LVz IN) as Ap.
  assert (LT : tends (fun s => (z1 - cz (P s)) / cz (V s)) ((z1 - g_z g) * n)).
  { eapply tends_value; [apply tends_mul; [apply tends_minus; [apply tends_const|exact LZ]|apply tends_inv; [exact LVz|exact IN]]|]. rewrite Rinv_inv. reflexivity. }
  split; [|split].
  - eapply nearby_impl; [|exact Ap]. intros s _ N. unfold plusR, timesR; cbn [cz]. fold (P s) (V s). field. exact N.
  - apply tends_ext with (fun s => cx (P s) / s + (z1 - cz (P s)) / cz (V s) * / (n * n) * (n * n * (cx (V s) / s))).
    + eapply nearby_impl; [|exact Ap]. intros s N NV. unfold plusR, timesR; cbn [cx]. fold (P s) (V s). field. repeat split; assumption.
    + eapply tends_value; [apply tends_plus; [exact LX|apply tends_mul; [apply tends_mul; [exact LT|apply tends_const]|exact LPx]]|]. field. exact N0.
  - apply tends_ext with (fun s => cy (P s) / s + (z1 - cz (P s)) / cz (V s) * / (n * n) * (n * n * (cy (V s) / s))).
    + eapply nearby_impl; [|exact Ap]. intros s N NV. unfold plusR, timesR; cbn [cy]. fold (P s) (V s). field. repeat split; assumption.
    + eapply tends_value; [apply tends_plus; [exact LY|apply tends_mul; [apply tends_mul; [exact LT|apply tends_const]|exact LPy]]|]. field. exact N0.
Qed.
(** Two Gaussian rays keep their Lagrange invariant. *)
Theorem lagrange els : forall g h, g_n g <> 0 -> Forall (fun e => e_n e <> 0) els -> g_n g = g_n h -> g_z g = g_z h ->
  invariant (fold_left meet els g) (fold_left meet els h) = invariant g h.
Proof.
  induction els as [|e els IH]; intros g h N F E Z; [reflexivity|]. inversion F; subst. cbn [fold_left].
  rewrite IH; trivial. unfold invariant, meet; cbn [g_x g_y g_px g_py]. rewrite <- E, <- Z. field. exact N.
Qed.
(** What tracing a bundle through the interfaces one after another does to the rays of a guided pencil. *)
Theorem guided_traced niter reverse a A r els C r2 : guided niter reverse a A r els C r2 ->
  nearby (fun s => in_turn niter reverse (map e_iface els) (RV [Fray (r s)] (Fcs A)) = RV [Fray (r2 s)] (Fcs C)).
Proof.
  intros H. induction H as [A r|A r e els r1 C r2 N H IH]; [apply nearby_all; reflexivity|].
  eapply nearby_impl; [|exact (nearby_and _ _ N IH)]. intros s _ (((E & _) & _) & K). unfold in_turn in *. cbn [map fold_left]. rewrite E. exact K.
Qed.
(** Where a Gaussian ray is at the plane z1. *)
Lemma at_meet g e z1 : g_n g <> 0 -> e_n e <> 0 ->
  g_x (meet g e) + g_px (meet g e) * (z1 - g_z (meet g e)) / g_n (meet g e) =
  (g_x g + g_px g * (e_z e - g_z g) / g_n g) * (1 - e_k e * (e_n e - g_n g) * (z1 - e_z e) / e_n e) + g_px g * (z1 - e_z e) / e_n e.
Proof. intros N M. unfold meet; cbn [g_x g_px g_z g_n]. field. split; assumption. Qed.
Lemma at_meet_y g e z1 : g_n g <> 0 -> e_n e <> 0 ->
  g_y (meet g e) + g_py (meet g e) * (z1 - g_z (meet g e)) / g_n (meet g e) =
  (g_y g + g_py g * (e_z e - g_z g) / g_n g) * (1 - e_k e * (e_n e - g_n g) * (z1 - e_z e) / e_n e) + g_py g * (z1 - e_z e) / e_n e.
Proof. intros N M. unfold meet; cbn [g_y g_py g_z g_n]. field. split; assumption. Qed.
Lemma one_surface niter reverse a w e A r r1 g z1 : good_frame A -> element_ok reverse w (g_n g) e ->
  guided niter reverse a A r [e] (at_z (e_z e)) r1 -> pencil A r w g ->
  let t s := (z1 - cz (global_point (at_z (e_z e)) (pos (r1 s)))) / cz (global_dir (at_z (e_z e)) (vel (r1 s))) in
  let Q s := plusR (global_point (at_z (e_z e)) (pos (r1 s))) (timesR (t s) (global_dir (at_z (e_z e)) (vel (r1 s)))) in
  tends (fun s => cx (Q s) / s) (g_x (meet g e) + g_px (meet g e) * (z1 - g_z (meet g e)) / g_n (meet g e)) /\
  tends (fun s => cy (Q s) / s) (g_y (meet g e) + g_py (meet g e) * (z1 - g_z (meet g e)) / g_n (meet g e)).
Proof.
  intros HA He HG HP. pose proof (system niter reverse a w [e] A r _ r1 g HA (conj He I) HG HP) as S. cbn [fold_left] in S.
  exact (proj2 (crossing _ _ _ _ z1 S)).
Qed.
Theorem conjugate niter reverse a w e A r r1 z0 n1 p1 p2 z1 : good_frame A ->
  element_ok reverse w n1 e -> guided niter reverse a A r [e] (at_z (e_z e)) r1 -> pencil A r w (Gauss z0 n1 0 0 p1 p2) ->
  e_n e <> 0 -> z1 <> e_z e -> z0 <> e_z e ->
  e_n e / (z1 - e_z e) - n1 / (z0 - e_z e) = e_k e * (e_n e - n1) ->
  let t s := (z1 - cz (global_point (at_z (e_z e)) (pos (r1 s)))) / cz (global_dir (at_z (e_z e)) (vel (r1 s))) in
  let Q s := plusR (global_point (at_z (e_z e)) (pos (r1 s))) (timesR (t s) (global_dir (at_z (e_z e)) (vel (r1 s)))) in
  tends (fun s => cx (Q s) / s) 0 /\ tends (fun s => cy (Q s) / s) 0.
Proof.
  intros HA He HG HP N2 Z1 Z0 E. pose proof (proj1 HP) as N1. cbn [g_n] in N1.
  destruct (one_surface niter reverse a w e A r r1 (Gauss z0 n1 0 0 p1 p2) z1 HA He HG HP) as (Lx & Ly). cbv zeta.
  split; [eapply tends_value; [exact Lx|]|eapply tends_value; [exact Ly|]]; [rewrite at_meet|rewrite at_meet_y]; try assumption; cbn [g_x g_y g_px g_py g_z g_n]; rewrite <- E; field; repeat split; lra.
Qed.
Theorem focus niter reverse a w e A r r1 z0 n1 h1 h2 z1 : good_frame A ->
  element_ok reverse w n1 e -> guided niter reverse a A r [e] (at_z (e_z e)) r1 -> pencil A r w (Gauss z0 n1 h1 h2 0 0) ->
  e_n e <> 0 -> e_k e * (e_n e - n1) * (z1 - e_z e) = e_n e ->
  let t s := (z1 - cz (global_point (at_z (e_z e)) (pos (r1 s)))) / cz (global_dir (at_z (e_z e)) (vel (r1 s))) in
  let Q s := plusR (global_point (at_z (e_z e)) (pos (r1 s))) (timesR (t s) (global_dir (at_z (e_z e)) (vel (r1 s)))) in
  tends (fun s => cx (Q s) / s) 0 /\ tends (fun s => cy (Q s) / s) 0.
Proof.
  intros HA He HG HP N2 E. pose proof (proj1 HP) as N1. cbn [g_n] in N1.
  destruct (one_surface niter reverse a w e A r r1 (Gauss z0 n1 h1 h2 0 0) z1 HA He HG HP) as (Lx & Ly). cbv zeta.
  split; [eapply tends_value; [exact Lx|]|eapply tends_value; [exact Ly|]]; [rewrite at_meet|rewrite at_meet_y]; try assumption; cbn [g_x g_y g_px g_py g_z g_n]; rewrite E; field; repeat split; lra.
Qed.
Theorem pair g e1 e2 : g_n g <> 0 -> e_n e1 <> 0 -> let p1 := e_k e1 * (e_n e1 - g_n g) in let p2 := e_k e2 * (e_n e2 - e_n e1) in
  g_px g = 0 -> g_py g = 0 -> let h := fold_left meet [e1; e2] g in let d := e_z e2 - e_z e1 in
  g_px h = - (p1 + p2 - p1 * p2 * d / e_n e1) * g_x g /\ g_py h = - (p1 + p2 - p1 * p2 * d / e_n e1) * g_y g.
Proof. intros N M p1 p2 Ex Ey h d. unfold h, d, p1, p2, meet; cbn [fold_left g_x g_px g_y g_py g_z g_n]. rewrite Ex, Ey. split; field; split; assumption. Qed.
