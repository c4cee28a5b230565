(** Newton's iteration converges quadratically. *)
From Coq Require Import Reals List ZArith Bool Lra Lia.
From Verif Require Import Num NumR Vec CoordSys Surface Medium Ray Bundle Spec OpticsSpec SurfSpec
  XRFacts NormalFacts RayFacts RefractProofs SlopeProofs SurfMore NewtonSpec.
Import ListNotations.
Open Scope R_scope.

Lemma within_between c r a b t : Rabs (a - c) < r -> Rabs (b - c) < r -> a <= t <= b -> Rabs (t - c) < r.
Proof. intros A B T. apply Rabs_def2 in A. apply Rabs_def2 in B. apply Rabs_def1; lra. Qed.

(** The mean value theorem on an interval around c. *)
Lemma mean_value c r (g g' : R -> R) : (forall t, Rabs (t - c) < r -> derivable_pt_lim g t (g' t)) ->
  forall a b, Rabs (a - c) < r -> Rabs (b - c) < r ->
  exists t, Rabs (t - c) < r /\ Rabs (t - a) <= Rabs (b - a) /\ g b - g a = g' t * (b - a).
Proof.
  intros D a b A B. destruct (Rtotal_order a b) as [L|[->|L]].
  - destruct (MVT_cor2 g g' a b L) as (t & E & T).
    { intros t T. apply D. apply (within_between c r a b); assumption. }
    exists t. split; [apply (within_between c r a b); [assumption|assumption|lra]|]. split; [|exact E].
    rewrite !Rabs_pos_eq by lra. lra.
  - exists b. split; [assumption|]. split; [lra|ring].
  - destruct (MVT_cor2 g g' b a L) as (t & E & T).
    { intros t T. apply D. apply (within_between c r b a); assumption. }
    exists t. split; [apply (within_between c r b a); [assumption|assumption|lra]|]. split; [|lra].
    rewrite !Rabs_left by lra. lra.
Qed.

Lemma step_error c r g g' m M : (forall t, Rabs (t - c) < r -> derivable_pt_lim g t (g' t)) ->
  gap_bounds c r g' m M -> g c = 0 -> forall t, Rabs (t - c) < r ->
  g' t <> 0 /\ Rabs (t - g t / g' t - c) <= M / m * Rabs (t - c) * Rabs (t - c).
Proof.
  intros D (Pm & Hm & HM) G t T.
  assert (C : Rabs (c - c) < r). { rewrite Rminus_diag_eq, Rabs_R0 by reflexivity. assert (P := Rabs_pos (t - c)). lra. }
  assert (N : g' t <> 0). { intros E. specialize (Hm t T). rewrite E, Rabs_R0 in Hm. lra. }
  split; [exact N|]. destruct (mean_value c r g g' D t c T C) as (u & U & UT & E).
  rewrite G in E. replace (t - g t / g' t - c) with ((g' t - g' u) * (t - c) / g' t).
  2:{ replace (g t) with (g' u * (t - c)) by lra. field. exact N. }
  unfold Rdiv. rewrite !Rabs_mult, Rabs_inv. assert (K := HM t u T U). specialize (Hm t T).
  assert (K2 : Rabs (g' t - g' u) <= M * Rabs (t - c)).
  { eapply Rle_trans; [exact K|]. destruct (Rle_dec 0 M) as [PM|NM].
    - apply Rmult_le_compat_l; [exact PM|]. rewrite (Rabs_minus_sym t u), (Rabs_minus_sym t c). exact UT.
    - assert (PU := Rabs_pos (t - u)). assert (PG := Rabs_pos (g' t - g' u)).
      assert (Z : Rabs (t - u) = 0). { destruct PU as [PU|<-]; [|reflexivity]. assert (0 < - M * Rabs (t - u)) by (apply Rmult_lt_0_compat; lra). lra. }
      assert (C2 := HM t c T C). assert (PG2 := Rabs_pos (g' t - g' c)). assert (PC := Rabs_pos (t - c)).
      assert (Z2 : Rabs (t - c) = 0). { destruct PC as [PC|<-]; [|reflexivity]. assert (0 < - M * Rabs (t - c)) by (apply Rmult_lt_0_compat; lra). lra. }
      rewrite Z, Z2. lra. }
  assert (I : / Rabs (g' t) <= / m) by (apply Rinv_le_contravar; assumption).
  assert (I0 : 0 <= / Rabs (g' t)) by (apply Rlt_le, Rinv_0_lt_compat; lra).
  replace (M * / m * Rabs (t - c) * Rabs (t - c)) with (M * Rabs (t - c) * Rabs (t - c) * / m) by ring.
  apply Rmult_le_compat; [apply Rmult_le_pos; apply Rabs_pos|exact I0| |exact I].
  apply Rmult_le_compat_r; [apply Rabs_pos|exact K2].
Qed.

(** One turn of the loop is a Newton step of the gap. *)
Section Ray.
  Context (s : surface R) (p v : vR) (c r : R) (g g' : R -> R) (m M : R).
  Context (Hs : smooth s) (Ha : gap_along s p v c r g g') (Hb : gap_bounds c r g' m M) (Hc : g c = 0) (HM : M * r <= m).

  Lemma ga_d t : Rabs (t - c) < r -> derivable_pt_lim g t (g' t).
  Proof. intros T. apply (Ha t T). Qed.
  Lemma ga_normal t : Rabs (t - c) < r -> exists n, 0 < cz n /\
    normal (Fsurf s) (Fin (cx p + cx v * t)) (Fin (cy p + cy v * t)) = F3 n /\
    cx n * cx v + cy n * cy v + cz n * (cz v + g' t) = 0.
  Proof.
    intros T. destruct (Ha t T) as (Hr & _ & _). destruct (normals_exist s _ _ Hs Hr) as [n Hn]. exists n.
    assert (P : 0 < cz n) by (apply (normals_right s _ _ n Hs Hn)). split; [exact P|]. split; [exact Hn|].
    pose (X := fun h => cx p + cx v * (t + h)). pose (Y := fun h => cy p + cy v * (t + h)).
    pose (Z := fun h => cz p + cz v * (t + h) + g (t + h)). pose (de := r - Rabs (t - c)).
    assert (LL : forall a b, derivable_pt_lim (fun h => a + b * (t + h)) 0 b).
    { intros a b. apply (dl_ext (fun h => (a + b * t) + h * b)); [intros; ring|apply dl_line]. }
    assert (K : dotR n (V3 (cx v) (cy v) (cz v + g' t)) = 0).
    { apply (normals_curve s n X Y Z (cx v) (cy v) (cz v + g' t) de Hs).
      - unfold X, Y. rewrite !Rplus_0_r. exact Hn.
      - unfold de. lra.
      - intros h Hh. unfold X, Y, Z. apply (Ha (t + h)). unfold de in Hh.
        replace (t + h - c) with ((t - c) + h) by ring. eapply Rle_lt_trans; [apply Rabs_triang|]. lra.
      - apply LL.
      - apply LL.
      - unfold Z. apply (derivable_pt_lim_plus (fun h => cz p + cz v * (t + h)) (fun h => g (t + h))); [apply LL|].
        intros e He. destruct (ga_d t T e He) as [d Hd]. exists d. intros h H1 H2. rewrite Rplus_0_l, Rplus_0_r. apply Hd; assumption. }
    unfold dotR in K; cbn [cx cy cz] in K. exact K.
  Qed.

  Definition next (t : R) : R := t - g t / g' t.
  Lemma next_in t : Rabs (t - c) < r -> Rabs (next t - c) <= M / m * Rabs (t - c) * Rabs (t - c) /\ Rabs (next t - c) <= Rabs (t - c).
  Proof.
    intros T. destruct (step_error c r g g' m M ga_d Hb Hc t T) as [_ E]. split; [exact E|].
    eapply Rle_trans; [exact E|]. destruct Hb as (Pm & _ & _). assert (P := Rabs_pos (t - c)).
    rewrite <- (Rmult_1_l (Rabs (t - c))) at 3. apply Rmult_le_compat_r; [exact P|].
    unfold Rdiv. rewrite (Rmult_comm M), Rmult_assoc. apply (Rmult_le_reg_l m); [exact Pm|].
    rewrite <- Rmult_assoc, Rinv_r, Rmult_1_l, Rmult_1_r by lra.
    destruct (Rle_dec 0 M) as [PM|NM].
    - eapply Rle_trans; [|exact HM]. apply Rmult_le_compat_l; lra.
    - assert (0 <= - M * Rabs (t - c)) by (apply Rmult_le_pos; lra). lra.
  Qed.
  Lemma loop_run n : forall t, Rabs (t - c) < r ->
    newton_loop (sag (Fsurf s)) (normal (Fsurf s)) (Fin (cx p)) (Fin (cy p)) (Fin (cz p)) (Fin (cx v)) (Fin (cy v)) (Fin (cz v)) n
      (Fin t) (Fin (cx p + cx v * t)) (Fin (cy p + cy v * t)) (Fin (cz p + cz v * t)) (sag (Fsurf s) (Fin (cx p + cx v * t)) (Fin (cy p + cy v * t)))
    = (small (g (Nat.iter n next t)), Fin (Nat.iter n next t)).
  Proof.
    induction n as [|n IH]; intros t T; cbn [newton_loop].
    - destruct (Ha t T) as (_ & E & _). rewrite E. cbn. unfold small.
      replace (cz p + cz v * t + g t - (cz p + cz v * t)) with (g t) by ring. reflexivity.
    - destruct (ga_normal t T) as ([a b w] & P & -> & K). cbn [cx cy cz] in P, K. destruct (Ha t T) as (_ & E & _). rewrite E.
      destruct (step_error c r g g' m M ga_d Hb Hc t T) as [N _].
      cbn [F3 vmap cx cy cz].
      match goal with |- newton_loop _ _ _ _ _ _ _ _ _ ?d _ _ _ _ = _ => assert (D : d = Fin (next t)) end.
      { assert (Q : a * cx v + b * cy v + w * cz v = - (w * g' t)) by lra.
        assert (Q0 : a * cx v + b * cy v + w * cz v <> 0).
        { rewrite Q. apply Ropp_neq_0_compat, Rmult_integral_contrapositive_currified; lra. }
        cbn. destruct (Req_EM_T _ 0) as [Z|_]; [exfalso; apply Q0; lra|]. f_equal. unfold next.
        replace ((cx p + cx v * t - cx p) * a + (cy p + cy v * t - cy p) * b + (cz p + cz v * t + g t - cz p) * w)
          with ((a * cx v + b * cy v + w * cz v) * t + g t * w) by ring.
        unfold Rdiv. rewrite Rmult_plus_distr_r. rewrite Q. field. split; [exact N|lra]. }
      rewrite D. specialize (IH (next t)). destruct (next_in t T) as [_ B].
      assert (T' : Rabs (next t - c) < r) by lra. specialize (IH T').
      replace (Nat.iter (S n) next t) with (Nat.iter n next (next t)) by (clear; induction n as [|n I]; cbn; [reflexivity|f_equal; exact I]).
      exact IH.
  Qed.
  Lemma newton_run n t : Rabs (t - c) < r ->
    newton (sag (Fsurf s)) (normal (Fsurf s)) (Fin (cx p)) (Fin (cy p)) (Fin (cz p)) (Fin (cx v)) (Fin (cy v)) (Fin (cz v)) (Fin t) n
    = (small (g (Nat.iter n next t)), Fin (Nat.iter n next t)).
  Proof. intros T. exact (loop_run n t T). Qed.

  Lemma iter_error n t : Rabs (t - c) < r ->
    Rabs (Nat.iter n next t - c) <= Rabs (t - c) * (M / m * Rabs (t - c)) ^ (2 ^ n - 1) /\ Rabs (Nat.iter n next t - c) <= Rabs (t - c).
  Proof.
    intros T. assert (PT := Rabs_pos (t - c)). destruct Hb as (Pm & _ & Hl).
    induction n as [|n [IH1 IH2]].
    - cbn. split; lra.
    - set (u := Nat.iter n next t) in *. assert (U : Rabs (u - c) < r) by lra. destruct (next_in u U) as [A B].
      change (Nat.iter (S n) next t) with (next u). split; [|lra].
      assert (PU := Rabs_pos (u - c)). set (e := Rabs (t - c)) in *. set (x := Rabs (u - c)) in *. set (q := M / m * e) in *.
      destruct (Rle_dec 0 M) as [PM|NM].
      + assert (PQ : 0 <= M / m) by (apply Rmult_le_pos; [exact PM|apply Rlt_le, Rinv_0_lt_compat, Pm]).
        eapply Rle_trans; [exact A|]. rewrite Rmult_assoc.
        eapply Rle_trans. { apply Rmult_le_compat_l; [exact PQ|]. apply Rmult_le_compat; [exact PU|exact PU|exact IH1|exact IH1]. }
        right. replace (2 ^ S n - 1)%nat with (S ((2 ^ n - 1) + (2 ^ n - 1)))%nat.
        2:{ cbn [Nat.pow]. assert (1 <= 2 ^ n)%nat by (clear; induction n; cbn; lia). lia. }
        rewrite <- tech_pow_Rmult, pow_add. unfold q. ring.
      + assert (Z : e = 0).
        { destruct PT as [PT|<-]; [|reflexivity]. exfalso.
          assert (C : Rabs (c - c) < r) by (rewrite Rminus_diag_eq, Rabs_R0 by reflexivity; lra).
          assert (K := Hl t c T C). assert (PG := Rabs_pos (g' t - g' c)). fold e in K.
          assert (0 < - M * e) by (apply Rmult_lt_0_compat; lra). lra. }
        rewrite Z in *. assert (X : x = 0) by lra. rewrite X in *. lra.
  Qed.

  Lemma hit_run niter t0 : starts s niter p v t0 -> Rabs (t0 - c) < r ->
    hit (Fsurf s) niter (F3 p) (F3 v) = (small (g (Nat.iter niter next t0)), Fin (Nat.iter niter next t0)).
  Proof.
    intros St T. assert (K := newton_run niter t0 T). revert K. generalize (Nat.iter niter next t0). intros x K.
    unfold hit. destruct s as [|tx ty|rc|rc|rc cc|rc cc cs|cs gradx grady x0 y0 xsize ysize|tb|l]; try (destruct St; fail); cbn [Fsurf tti].
    - cbn [starts] in St. unfold hit in St. cbn [tti] in St. rewrite St. cbn [negb]. exact K.
    - cbn [starts] in St. subst t0. exact K.
    - cbn [starts] in St. subst t0. exact K.
    - destruct l as [|s0 l]; [destruct St|]. cbn [starts] in St. unfold hit in St. cbn [map].
      rewrite St. cbn [negb]. exact K.
  Qed.
  Lemma converges niter t0 : starts s niter p v t0 -> Rabs (t0 - c) < r ->
    exists t, hit (Fsurf s) niter (F3 p) (F3 v) = (small (g t), Fin t) /\
      Rabs (t - c) <= Rabs (t0 - c) * (M / m * Rabs (t0 - c)) ^ (2 ^ niter - 1).
  Proof. intros St T. eexists. split; [exact (hit_run niter t0 St T)|apply (iter_error niter t0 T)]. Qed.

  Lemma gap_small B t : (forall t, Rabs (t - c) < r -> Rabs (g' t) <= B) -> Rabs (t - c) < r -> Rabs (g t) <= B * Rabs (t - c).
  Proof.
    intros H T. assert (C : Rabs (c - c) < r). { rewrite Rminus_diag_eq, Rabs_R0 by reflexivity. assert (P := Rabs_pos (t - c)). lra. }
    destruct (mean_value c r g g' ga_d c t C T) as (u & U & _ & E). rewrite Hc, Rminus_0_r in E. rewrite E, Rabs_mult.
    apply Rmult_le_compat_r; [apply Rabs_pos|apply H, U].
  Qed.
  Lemma found niter t0 B : starts s niter p v t0 -> Rabs (t0 - c) < r -> (forall t, Rabs (t - c) < r -> Rabs (g' t) <= B) ->
    B * (Rabs (t0 - c) * (M / m * Rabs (t0 - c)) ^ (2 ^ niter - 1)) < 1 / 1000000000000 ->
    exists t, hit (Fsurf s) niter (F3 p) (F3 v) = (true, Fin t) /\
      Rabs (t - c) <= Rabs (t0 - c) * (M / m * Rabs (t0 - c)) ^ (2 ^ niter - 1).
  Proof.
    intros St T HB L. destruct (iter_error niter t0 T) as [E E2]. eexists. split; [|exact E].
    rewrite (hit_run niter t0 St T). f_equal. unfold small. destruct (Rlt_dec _ _) as [|N]; [reflexivity|].
    exfalso. apply N. eapply Rle_lt_trans; [|exact L]. eapply Rle_trans; [apply (gap_small B); [exact HB|lra]|].
    apply Rmult_le_compat_l; [|exact E]. eapply Rle_trans; [apply Rabs_pos|exact (HB t0 T)].
  Qed.
  (** With enough iterations the ray is found. *)
  Lemma eventually_found t0 B : (forall niter, starts s niter p v t0) -> Rabs (t0 - c) < r -> (forall t, Rabs (t - c) < r -> Rabs (g' t) <= B) ->
    forall eps, 0 < eps -> exists N, forall niter, (N <= niter)%nat ->
      exists t, hit (Fsurf s) niter (F3 p) (F3 v) = (true, Fin t) /\ Rabs (t - c) < eps.
  Proof.
    intros St T HB eps He. destruct Hb as (Pm & _ & Hl). assert (P := Rabs_pos (t0 - c)). set (e := Rabs (t0 - c)) in *.
    assert (PB : 0 <= B) by (eapply Rle_trans; [apply Rabs_pos|exact (HB t0 T)]).
    destruct (Rle_lt_or_eq_dec 0 e P) as [Pe|Z].
    - assert (PM : 0 <= M).
      { destruct (Rle_dec 0 M) as [|NM]; [assumption|]. exfalso.
        assert (C : Rabs (c - c) < r) by (rewrite Rminus_diag_eq, Rabs_R0 by reflexivity; lra).
        assert (K := Hl t0 c T C). fold e in K. assert (PG := Rabs_pos (g' t0 - g' c)).
        assert (0 < - M * e) by (apply Rmult_lt_0_compat; lra). lra. }
      set (q := M / m * e). assert (Q0 : 0 <= q) by (apply Rmult_le_pos; [apply Rmult_le_pos; [exact PM|apply Rlt_le, Rinv_0_lt_compat, Pm]|lra]).
      assert (Q1 : q < 1).
      { unfold q. apply (Rmult_lt_reg_l m); [exact Pm|]. replace (m * (M / m * e)) with (M * e) by (field; lra). rewrite Rmult_1_r.
        destruct PM as [PM|<-]; [|lra]. eapply Rlt_le_trans; [|exact HM]. apply Rmult_lt_compat_l; assumption. }
      set (w := Rmin (eps / (2 * e)) (1 / 1000000000000 / ((B + 1) * (2 * e)))).
      assert (W : 0 < w).
      { apply Rmin_pos; apply Rdiv_lt_0_compat; try lra. apply Rmult_lt_0_compat; lra. }
      destruct (pow_lt_1_zero q ltac:(rewrite Rabs_pos_eq; assumption) w W) as [N HN].
      exists N. intros niter Hn.
      assert (G : (N <= 2 ^ niter - 1)%nat). { assert (niter < 2 ^ niter)%nat by (apply Nat.pow_gt_lin_r; lia). lia. }
      specialize (HN _ G). rewrite Rabs_pos_eq in HN by (apply pow_le; exact Q0).
      assert (W1 : w <= eps / (2 * e)) by apply Rmin_l. assert (W2 : w <= 1 / 1000000000000 / ((B + 1) * (2 * e))) by apply Rmin_r.
      destruct (found niter t0 B (St niter) T HB) as (t & H1 & H2).
      + fold e q. set (y := q ^ (2 ^ niter - 1)) in *. assert (Y : y < 1 / 1000000000000 / ((B + 1) * (2 * e))) by lra.
        apply (Rmult_lt_compat_r ((B + 1) * (2 * e))) in Y; [|apply Rmult_lt_0_compat; lra].
        replace (1 / 1000000000000 / ((B + 1) * (2 * e)) * ((B + 1) * (2 * e))) with (1 / 1000000000000) in Y by (field; split; lra).
        eapply Rle_lt_trans; [|exact Y]. assert (Y0 : 0 <= y) by (apply pow_le; exact Q0).
        assert (0 <= e * y) by (apply Rmult_le_pos; lra). assert (0 <= B * (e * y)) by (apply Rmult_le_pos; lra). lra.
      + exists t. split; [exact H1|]. eapply Rle_lt_trans; [exact H2|]. fold e q. set (y := q ^ (2 ^ niter - 1)) in *.
        assert (Y : y < eps / (2 * e)) by lra. apply (Rmult_lt_compat_l e) in Y; [|exact Pe].
        replace (e * (eps / (2 * e))) with (eps / 2) in Y by (field; lra). lra.
    - exists 0%nat. intros niter _. destruct (found niter t0 B (St niter) T HB) as (t & H1 & H2).
      + fold e. rewrite <- Z. rewrite Rmult_0_l, Rmult_0_r. lra.
      + exists t. split; [exact H1|]. eapply Rle_lt_trans; [exact H2|]. fold e. rewrite <- Z, Rmult_0_l. exact He.
  Qed.
  (** There is no other intersection nearby. *)
  Lemma only_root u : Rabs (u - c) < r -> g u = 0 -> u = c.
  Proof.
    intros U Z. assert (C : Rabs (c - c) < r). { rewrite Rminus_diag_eq, Rabs_R0 by reflexivity. assert (P := Rabs_pos (u - c)). lra. }
    destruct (mean_value c r g g' ga_d c u C U) as (x & X & _ & E). rewrite Hc, Z in E.
    destruct Hb as (Pm & Hm & _). specialize (Hm x X).
    destruct (Rmult_integral (g' x) (u - c) ltac:(lra)) as [N|N]; [rewrite N, Rabs_R0 in Hm; lra|lra].
  Qed.
End Ray.

(** Rays parallel to the axis of the surface are found in one step. *)
Lemma parallel_found s p v niter t0 h : smooth s -> cx v = 0 -> cy v = 0 -> cz v <> 0 -> regular s (cx p) (cy p) ->
  sag (Fsurf s) (Fin (cx p)) (Fin (cy p)) = Fin h -> starts s niter p v t0 -> (1 <= niter)%nat ->
  hit (Fsurf s) niter (F3 p) (F3 v) = (true, Fin ((h - cz p) / cz v)).
Proof.
  intros Hs X Y Z Hr Hh St Hn. set (c := (h - cz p) / cz v). pose (g := fun t => h - cz p - cz v * t).
  assert (PV : 0 < Rabs (cz v)) by (apply Rabs_pos_lt; exact Z). assert (P := Rabs_pos (t0 - c)).
  set (r := Rabs (t0 - c) + 1). assert (T : Rabs (t0 - c) < r) by (unfold r; lra).
  assert (A : gap_along s p v c r g (fun _ => - cz v)).
  { intros t _. rewrite X, Y, !Rmult_0_l, !Rplus_0_r. split; [exact Hr|]. split; [rewrite Hh; f_equal; unfold g; ring|].
    unfold g. apply (dl_ext (fun t => h - cz p + t * - cz v)); [intros; ring|]. intros e He. exists (mkposreal 1 Rlt_0_1). intros d D _.
    match goal with |- Rabs ?x < _ => replace x with 0 by (field; exact D) end. rewrite Rabs_R0. exact He. }
  assert (B : gap_bounds c r (fun _ => - cz v) (Rabs (cz v)) 0).
  { split; [exact PV|]. split; intros; [rewrite Rabs_Ropp; lra|]. rewrite Rminus_diag_eq, Rabs_R0 by reflexivity. lra. }
  assert (C : g c = 0) by (unfold g, c; field; exact Z).
  destruct (found s p v c r g (fun _ => - cz v) (Rabs (cz v)) 0 Hs A B C ltac:(lra) niter t0 (Rabs (cz v)) St T) as (t & H1 & H2).
  { intros. rewrite Rabs_Ropp. lra. }
  { replace (0 / Rabs (cz v) * Rabs (t0 - c)) with 0 by (field; lra). rewrite pow_i by (assert (2 <= 2 ^ niter)%nat by (apply (Nat.pow_le_mono_r 2 1 niter); lia); lia). lra. }
  rewrite H1. do 2 f_equal. replace (0 / Rabs (cz v) * Rabs (t0 - c)) with 0 in H2 by (field; lra).
  rewrite pow_i in H2 by (assert (2 <= 2 ^ niter)%nat by (apply (Nat.pow_le_mono_r 2 1 niter); lia); lia). rewrite Rmult_0_r in H2.
  assert (Q := Rabs_pos (t - c)). assert (E : Rabs (t - c) = 0) by lra. destruct (Req_dec (t - c) 0) as [|N]; [lra|]. apply Rabs_pos_lt in N. lra.
Qed.
Lemma intersect_found s A B l k ray c r g g' m M bound niter t0 :
  good_frame A -> good_frame B -> nth_error l k = Some ray -> failed ray = false ->
  let p := pos_in A B ray in let v := vel_in A B ray in
  smooth s -> gap_along s p v c r g g' -> gap_bounds c r g' m M -> g c = 0 -> M * r <= m ->
  starts s niter p v t0 -> Rabs (t0 - c) < r -> (forall t, Rabs (t - c) < r -> Rabs (g' t) <= bound) ->
  bound * (Rabs (t0 - c) * (M / m * Rabs (t0 - c)) ^ (2 ^ niter - 1)) < 1 / 1000000000000 ->
  exists t, Rabs (t - c) <= Rabs (t0 - c) * (M / m * Rabs (t0 - c)) ^ (2 ^ niter - 1) /\
    kth k (rv_intersect niter (Fsurf s) (Some (Fcs B)) None (Frv (RV l A)))
      (Fray (Ray (on_line p v t) v (time ray + t) (wavelength ray) (flux ray) (vignetted ray) false)).
Proof.
  intros GA GB Hk Hf p v Hs Ha Hb Hc HM St T HB L.
  destruct (found s p v c r g g' m M Hs Ha Hb Hc HM niter t0 bound St T HB L) as (t & H & E).
  exists t. split; [exact E|]. unfold kth. rewrite (intersect_hit _ niter A B l k ray (Fin t) GA GB Hk Hf H). fold p v. rewrite advance_F. reflexivity.
Qed.
