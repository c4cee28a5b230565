(** The normals of all surfaces are of unit length to within a few roundings. *)
From Coq Require Import Reals ZArith List Bool Lra Lia Psatz Floats.SpecFloat.
From Verif Require Import Num NumF Vec CoordSys Surface Medium Ray Bundle Spec AnalysisProofs FloatSpec FloatProofs FloatErr FloatFrames FloatTrace.
Import ListNotations.
Open Scope R_scope.

Lemma e_small : 0 < ulp1 <= / 1000000000000.
Proof. pose proof ulp_small. rewrite ulp_eq in *. lra. Qed.
Lemma eta_e : 0 < eta <= / 1000000000000 * ulp1.
Proof.
  unfold eta, ulp1. split; [apply two_pos|]. change (-1075)%Z with (-1022 + -53)%Z. rewrite two_add. apply Rmult_le_compat_r; [left; apply two_pos|].
  apply Rle_trans with ulp; [apply two_le; lia|apply ulp_small].
Qed.
Lemma unit_core k A B Q S Z NX NY : 0 <= k <= 100 ->
  Rabs (Q - (1 + A * A + B * B)) <= k * ulp1 * (1 + A * A + B * B) ->
  Rabs (S - sqrt Q) <= ulp1 * sqrt Q + eta -> Rabs (Z - 1 / S) <= ulp1 * Rabs (1 / S) + eta -> S <> 0 -> / 1000 <= Z ->
  Rabs (NX - A * Z) <= ulp1 * Rabs (A * Z) + eta -> Rabs (NY - B * Z) <= ulp1 * Rabs (B * Z) + eta ->
  Rabs (NX * NX + NY * NY + Z * Z - 1) <= (k + 12) * ulp1.
Proof.
  intros K HQ HS HZ S0 Z0 HX HY. pose proof e_small as [e0 e1]. pose proof eta_e as [n0 n1]. set (e := ulp1) in *.
  pose proof (Rle_0_sqr A) as A2. pose proof (Rle_0_sqr B) as B2. unfold Rsqr in *. set (Q1 := 1 + A * A + B * B) in *.
  assert (Q11 : 1 <= Q1) by (unfold Q1; lra).
  assert (ke : 0 <= k * e <= / 1000000000). { split; [apply Rmult_le_pos; lra|]. apply Rle_trans with (100 * e); [apply Rmult_le_compat_r; lra|lra]. }
  apply abs_between in HQ. assert (keQ : 0 <= k * e * Q1 <= / 1000000000 * Q1) by (split; [apply Rmult_le_pos; lra|apply Rmult_le_compat_r; lra]).
  assert (Q99 : 0.99 <= Q) by lra.
  assert (Qs : sqrt Q * sqrt Q = Q) by (apply sqrt_sqrt; lra). pose proof (sqrt_pos Q) as W0. set (w := sqrt Q) in *.
  assert (W99 : 0.99 <= w). { destruct (Rle_lt_dec 0.99 w); [assumption|]. assert (w * w <= 0.99 * 0.99) by (apply Rmult_le_compat; lra). lra. }
  apply abs_between in HS. assert (ew : 0 <= e * w <= / 1000000000000 * w) by (split; [apply Rmult_le_pos; lra|apply Rmult_le_compat_r; lra]).
  assert (nw : eta <= / 1000000 * (e * w)). { assert (e * 0.99 <= e * w) by (apply Rmult_le_compat_l; lra). lra. }
  assert (Sp : 0.98 <= S) by lra.
  rewrite (Rabs_pos_eq (1 / S)) in HZ by (apply Rlt_le, Rdiv_lt_0_compat; lra).
  assert (IS : S * (1 / S) = 1) by (field; lra). assert (IP : 0 < 1 / S) by (apply Rdiv_lt_0_compat; lra). set (i := 1 / S) in *.
  apply abs_between in HZ.
  assert (i0 : / 1001 <= i). { assert (e * i <= / 1000000000000 * i) by (apply Rmult_le_compat_r; lra). lra. }
  assert (S1 : S <= 1001). { assert (S * / 1001 <= S * i) by (apply Rmult_le_compat_l; lra). lra. }
  assert (PS : Rabs (Z * S - 1) <= 1.01 * e).
  { replace (Z * S - 1) with ((Z - i) * S) by (rewrite <- IS; ring). apply Rabs_le.
    assert (Se : S * (e * i) = e) by (replace (S * (e * i)) with (e * (S * i)) by ring; rewrite IS; ring). assert (Sn : S * eta <= 1001 * eta) by (apply Rmult_le_compat_r; lra).
    assert (-(e * i + eta) * S <= (Z - i) * S) by (apply Rmult_le_compat_r; lra).
    assert ((Z - i) * S <= (e * i + eta) * S) by (apply Rmult_le_compat_r; lra). lra. }
  assert (SQ : Rabs (S * S - Q) <= 2.03 * e * Q).
  { rewrite <- Qs. set (d := S - w) in *. replace (S * S - w * w) with (2 * w * d + d * d) by (unfold d; ring).
    assert (D : Rabs d <= 1.01 * (e * w)) by (apply Rabs_le; lra).
    pose proof (abs_mul _ _ _ _ D D) as DD. assert (WD : Rabs (2 * w * d) <= 2 * w * (1.01 * (e * w))).
    { rewrite Rabs_mult, (Rabs_pos_eq (2 * w)) by lra. apply Rmult_le_compat_l; lra. }
    eapply Rle_trans; [apply Rabs_triang|].
    assert ((e * w) * (e * w) <= / 1000000000000 * w * (e * w)) by (apply Rmult_le_compat_r; lra).
    assert (0 <= e * w * w) by (apply Rmult_le_pos; lra). lra. }
  apply abs_between in PS, SQ.
  assert (eQ : e * Q <= 1.001 * (e * Q1)). { replace (1.001 * (e * Q1)) with (e * (1.001 * Q1)) by ring. apply Rmult_le_compat_l; lra. }
  assert (eQ1 : 0 <= e * Q1) by (apply Rmult_le_pos; lra).
  assert (SS : Rabs (S * S - Q1) <= (k + 2.04) * e * Q1) by (apply Rabs_le; lra).
  set (D := (k + 2.04) * e) in *. assert (D0 : 0 <= D <= / 100000000) by (unfold D; lra).
  assert (P2 : Rabs ((Z * S) * (Z * S) - 1) <= 2.03 * e).
  { set (d := Z * S - 1) in *. replace (Z * S * (Z * S) - 1) with (2 * d + d * d) by (unfold d; ring).
    assert (Dd : Rabs d <= 1.01 * e) by (apply Rabs_le; lra). pose proof (abs_mul _ _ _ _ Dd Dd) as DD.
    eapply Rle_trans; [apply Rabs_triang|]. rewrite Rabs_mult, (Rabs_pos_eq 2) by lra.
    assert (e * e <= / 1000000000000 * e) by (apply Rmult_le_compat_r; lra). lra. }
  apply abs_between in P2, SS. pose proof (Rle_0_sqr Z) as ZZ. unfold Rsqr in ZZ.
  assert (H1 : Z * Z * (S * S) <= Z * Z * (Q1 + D * Q1)) by (apply Rmult_le_compat_l; lra).
  assert (H2 : Z * Z * (Q1 - D * Q1) <= Z * Z * (S * S)) by (apply Rmult_le_compat_l; lra).
  set (M := Z * Z * Q1) in *.
  assert (M1 : M - D * M <= 1 + 2.03 * e) by (unfold M; lra). assert (M2 : 1 - 2.03 * e <= M + D * M) by (unfold M; lra).
  assert (Mp : 0 <= M) by (unfold M; apply Rmult_le_pos; lra).
  assert (DM : D * M <= / 100000000 * M) by (apply Rmult_le_compat_r; lra).
  assert (Mb : M <= 1.0001) by lra. assert (DM1 : D * M <= D * 1.0001) by (apply Rmult_le_compat_l; lra).
  assert (ZM : Rabs (M - 1) <= (k + 4.1) * e + / 1000 * e).
  { apply Rabs_le. assert (D * 1.0001 <= (k + 2.05) * e + / 1000 * e).
    { unfold D. assert (k * e <= 100 * e) by (apply Rmult_le_compat_r; lra). 
      assert (0.0001 * (k * e) <= 0.01 * e) by lra. lra. } lra. }
  assert (comp : forall C N, C * C <= Q1 -> Rabs (N - C * Z) <= e * Rabs (C * Z) + eta -> Rabs (N * N - C * C * (Z * Z)) <= 2.1 * e).
  { intros C N HC HN.
    assert (CZ : Rabs (C * Z) <= 1.001).
    { rewrite <- (Rabs_pos_eq 1.001) by lra. apply Rsqr_le_abs_0. unfold Rsqr.
      assert (C * C * (Z * Z) <= Q1 * (Z * Z)) by (apply Rmult_le_compat_r; lra). unfold M in *. lra. }
    assert (eC : e * Rabs (C * Z) <= e * 1.001) by (apply Rmult_le_compat_l; lra).
    set (d := N - C * Z) in *. assert (Dd : Rabs d <= 1.01 * e) by lra.
    replace (N * N - C * C * (Z * Z)) with (2 * ((C * Z) * d) + d * d) by (unfold d; ring).
    pose proof (abs_mul _ _ _ _ CZ Dd). pose proof (abs_mul _ _ _ _ Dd Dd).
    eapply Rle_trans; [apply Rabs_triang|]. rewrite Rabs_mult, (Rabs_pos_eq 2) by lra.
    assert (e * e <= / 1000000000000 * e) by (apply Rmult_le_compat_r; lra). lra. }
  pose proof (comp A NX ltac:(unfold Q1; lra) HX) as CA. pose proof (comp B NY ltac:(unfold Q1; lra) HY) as CB.
  replace (NX * NX + NY * NY + Z * Z - 1) with ((NX * NX - A * A * (Z * Z)) + (NY * NY - B * B * (Z * Z)) + (M - 1)) by (unfold M, Q1; ring).
  eapply Rle_trans; [apply tri3 with (1 := CA) (2 := CB) (3 := ZM)|]. lra.
Qed.

Lemma fin_div_den a b : finF (ndiv a b) -> valF (ndiv a b) <> 0 -> finF b.
Proof. destruct a as [| | |s m e], b as [| | |s' m' e']; cbn; auto. Qed.
Lemma val_n1 : valF (n1 (T := F64)) = 1. Proof. unfold valF, n1; cbn. unfold two. simpl. lra. Qed.
Lemma fin_n1 : finF (n1 (T := F64)). Proof. exact I. Qed.
Lemma unit_float k a b q : 0 <= k <= 100 -> let nz := ndiv n1 (nsqrt q) in
  finF (nmul a nz) -> finF (nmul b nz) -> finF nz -> / 1000 <= valF nz ->
  (finF q -> finF a -> finF b -> Rabs (valF q - (1 + valF a * valF a + valF b * valF b)) <= k * ulp1 * (1 + valF a * valF a + valF b * valF b)) ->
  nearly ((k + 12) * ulp1) (dotR (valV (V3 (nmul a nz) (nmul b nz) nz)) (valV (V3 (nmul a nz) (nmul b nz) nz))) 1.
Proof.
  intros K nz FX FY FZ Z0 HQ. destruct (mul_rounded _ _ FX) as (Fa & _ & RX). destruct (mul_rounded _ _ FY) as (Fb & _ & RY).
  assert (FS : finF (nsqrt q)) by (apply (fin_div_den n1); [exact FZ|fold nz; lra]).
  destruct (sqrt_rounded _ FS) as (Fq & Q0 & RS). destruct (div_rounded _ _ FZ FS) as (_ & S0 & RZ). fold nz in RZ. rewrite val_n1 in RZ.
  unfold rounded in *. rewrite (Rabs_pos_eq (sqrt _)) in RS by apply sqrt_pos.
  unfold nearly, dotR, valV; cbn [cx cy cz]. eapply unit_core; try eassumption. apply HQ; assumption.
Qed.
Lemma sq_err d h A x : 0 <= d <= / 1000000 -> 0 <= h <= / 1000000 -> Rabs (A - x) <= d * Rabs x + h ->
  Rabs (A * A - x * x) <= (2.01 * d + 1.01 * h) * (x * x) + 1.01 * h.
Proof.
  intros D0 H0 H. set (c := A - x) in *. replace (A * A - x * x) with (2 * (x * c) + c * c) by (unfold c; ring).
  pose proof (Rabs_pos x) as X0. assert (XX : Rabs x * Rabs x = x * x) by (rewrite <- Rabs_mult; apply Rabs_pos_eq; apply Rle_0_sqr).
  assert (XC : Rabs (x * c) <= Rabs x * (d * Rabs x + h)) by (apply abs_mul; lra).
  pose proof (abs_mul _ _ _ _ H H) as CC. set (X := Rabs x) in *. rewrite <- XX.
  eapply Rle_trans; [apply Rabs_triang|]. rewrite Rabs_mult, (Rabs_pos_eq 2) by lra.
  assert (2 * X <= 1 + X * X) by (pose proof (Rle_0_sqr (X - 1)); unfold Rsqr in *; lra).
  assert (h * (2 * X) <= h * (1 + X * X)) by (apply Rmult_le_compat_l; lra).
  assert (dX : 0 <= d * X) by (apply Rmult_le_pos; lra).
  assert (d * X * (d * X) <= / 1000000 * (d * X * X)).
  { replace (d * X * (d * X)) with (d * (d * X * X)) by ring. apply Rmult_le_compat_r; [apply Rmult_le_pos; lra|lra]. }
  assert (d * (h * (2 * X)) <= / 1000000 * (h * (2 * X))) by (apply Rmult_le_compat_r; [apply Rmult_le_pos; lra|lra]).
  assert (h * h <= / 1000000 * h) by (apply Rmult_le_compat_r; lra).
  assert (0 <= d * X * X) by (apply Rmult_le_pos; lra). assert (0 <= h * (X * X)) by (apply Rmult_le_pos; nra).
  replace ((d * X + h) * (d * X + h)) with (d * X * (d * X) + d * (h * (2 * X)) + h * h) in CC by ring.
  nra.
Qed.
Ltac tiny := pose proof e_small; pose proof eta_e.
(** Errors relative to 1 plus the sum of squares. *)
Lemma q_poly a b : finF (nadd (nadd (nmul a a) (nmul b b)) n1) ->
  Rabs (valF (nadd (nadd (nmul a a) (nmul b b)) n1) - (1 + valF a * valF a + valF b * valF b)) <= 4 * ulp1 * (1 + valF a * valF a + valF b * valF b).
Proof.
  intros F. destruct (add_rounded _ _ F) as (F1 & _ & R1). destruct (add_rounded _ _ F1) as (F2 & F3 & R2).
  destruct (mul_rounded _ _ F2) as (_ & _ & R3). destruct (mul_rounded _ _ F3) as (_ & _ & R4). rewrite val_n1 in R1. clear F F1 F2 F3. unfold rounded in *.
  pose proof (Rle_0_sqr (valF a)). pose proof (Rle_0_sqr (valF b)). unfold Rsqr in *. rewrite (Rabs_pos_eq (valF a * valF a)) in R3 by lra.
  rewrite (Rabs_pos_eq (valF b * valF b)) in R4 by lra.
  set (s := valF (nadd (nadd _ _) _)) in *. set (t := valF (nadd (nmul a a) (nmul b b))) in *. set (p := valF (nmul a a)) in *. set (p' := valF (nmul b b)) in *.
  set (x := valF a * valF a) in *. set (y := valF b * valF b) in *. clearbody s t p p' x y. tiny. set (e := ulp1) in *. clearbody e.
  apply abs_between in R3, R4.
  assert (ex : 0 <= e * x <= / 1000000000000 * x) by (split; [apply Rmult_le_pos; lra|apply Rmult_le_compat_r; lra]).
  assert (ey : 0 <= e * y <= / 1000000000000 * y) by (split; [apply Rmult_le_pos; lra|apply Rmult_le_compat_r; lra]).
  assert (P : Rabs (p + p') <= 1.01 * (x + y) + 3 * eta) by (apply Rabs_le; lra).
  assert (eP : e * Rabs (p + p') <= e * (1.01 * (x + y) + 3 * eta)) by (apply Rmult_le_compat_l; lra).
  assert (ee : e * eta <= eta) by (replace eta with (1 * eta) at 2 by ring; apply Rmult_le_compat_r; lra).
  assert (Tt : Rabs (t - (p + p')) <= 1.01 * (e * x + e * y) + 4 * eta) by lra. apply abs_between in Tt.
  assert (T1 : Rabs (t + 1) <= 1.01 * (1 + x + y)) by (apply Rabs_le; lra).
  assert (eT : e * Rabs (t + 1) <= e * (1.01 * (1 + x + y))) by (apply Rmult_le_compat_l; lra).
  apply abs_between in R1. apply Rabs_le. lra.
Qed.
Lemma q_bicubic a b : finF (nadd (nadd n1 (nmul a a)) (nmul b b)) ->
  Rabs (valF (nadd (nadd n1 (nmul a a)) (nmul b b)) - (1 + valF a * valF a + valF b * valF b)) <= 4 * ulp1 * (1 + valF a * valF a + valF b * valF b).
Proof.
  intros F. destruct (add_rounded _ _ F) as (F1 & F3 & R1). destruct (add_rounded _ _ F1) as (_ & F2 & R2).
  destruct (mul_rounded _ _ F2) as (_ & _ & R3). destruct (mul_rounded _ _ F3) as (_ & _ & R4). rewrite val_n1 in R2. clear F F1 F2 F3. unfold rounded in *.
  pose proof (Rle_0_sqr (valF a)). pose proof (Rle_0_sqr (valF b)). unfold Rsqr in *. rewrite (Rabs_pos_eq (valF a * valF a)) in R3 by lra.
  rewrite (Rabs_pos_eq (valF b * valF b)) in R4 by lra.
  set (s := valF (nadd (nadd _ _) _)) in *. set (t := valF (nadd n1 (nmul a a))) in *. set (p := valF (nmul a a)) in *. set (p' := valF (nmul b b)) in *.
  set (x := valF a * valF a) in *. set (y := valF b * valF b) in *. clearbody s t p p' x y. tiny. set (e := ulp1) in *. clearbody e.
  apply abs_between in R3, R4.
  assert (ex : 0 <= e * x <= / 1000000000000 * x) by (split; [apply Rmult_le_pos; lra|apply Rmult_le_compat_r; lra]).
  assert (ey : 0 <= e * y <= / 1000000000000 * y) by (split; [apply Rmult_le_pos; lra|apply Rmult_le_compat_r; lra]).
  assert (P : Rabs (1 + p) <= 1.01 * (1 + x)) by (apply Rabs_le; lra).
  assert (eP : e * Rabs (1 + p) <= e * (1.01 * (1 + x))) by (apply Rmult_le_compat_l; lra).
  assert (Tt : Rabs (t - (1 + p)) <= 1.01 * (e + e * x) + 4 * eta) by lra. apply abs_between in Tt.
  assert (T1 : Rabs (t + p') <= 1.01 * (1 + x + y)) by (apply Rabs_le; lra).
  assert (eT : e * Rabs (t + p') <= e * (1.01 * (1 + x + y))) by (apply Rmult_le_compat_l; lra).
  apply abs_between in R1. apply Rabs_le. lra.
Qed.
Lemma sum_sq a b : finF (nadd (nmul a a) (nmul b b)) -> finF a /\ finF b /\
  Rabs (valF (nadd (nmul a a) (nmul b b)) - (valF a * valF a + valF b * valF b)) <= 2.01 * ulp1 * (valF a * valF a + valF b * valF b) + 4 * eta.
Proof.
  intros F1. destruct (add_rounded _ _ F1) as (F2 & F3 & R2).
  destruct (mul_rounded _ _ F2) as (Fa & _ & R3). destruct (mul_rounded _ _ F3) as (Fb & _ & R4). split; [exact Fa|split; [exact Fb|]].
  clear F1 F2 F3 Fa Fb. unfold rounded in *.
  pose proof (Rle_0_sqr (valF a)). pose proof (Rle_0_sqr (valF b)). unfold Rsqr in *. rewrite (Rabs_pos_eq (valF a * valF a)) in R3 by lra.
  rewrite (Rabs_pos_eq (valF b * valF b)) in R4 by lra.
  set (t := valF (nadd (nmul a a) (nmul b b))) in *. set (p := valF (nmul a a)) in *. set (p' := valF (nmul b b)) in *.
  set (x := valF a * valF a) in *. set (y := valF b * valF b) in *. clearbody t p p' x y. tiny. set (e := ulp1) in *. clearbody e.
  apply abs_between in R3, R4.
  assert (ex : 0 <= e * x <= / 1000000000000 * x) by (split; [apply Rmult_le_pos; lra|apply Rmult_le_compat_r; lra]).
  assert (ey : 0 <= e * y <= / 1000000000000 * y) by (split; [apply Rmult_le_pos; lra|apply Rmult_le_compat_r; lra]).
  assert (P : Rabs (p + p') <= 1.001 * (x + y) + 3 * eta) by (apply Rabs_le; lra).
  assert (eP : e * Rabs (p + p') <= e * (1.001 * (x + y) + 3 * eta)) by (apply Rmult_le_compat_l; lra).
  assert (ee : e * eta <= / 1000 * eta) by (apply Rmult_le_compat_r; lra).
  apply abs_between in R2. apply Rabs_le. lra.
Qed.
Lemma q_parab x y c : let a := nmul (nopp x) c in let b := nmul (nopp y) c in
  let q := nadd n1 (nmul (nmul (nadd (nmul x x) (nmul y y)) c) c) in
  Rabs (valF c) <= two 400 -> finF q -> finF a -> finF b ->
  Rabs (valF q - (1 + valF a * valF a + valF b * valF b)) <= 9 * ulp1 * (1 + valF a * valF a + valF b * valF b).
Proof.
  intros a b q Hc Fq Fa Fb.
  destruct (add_rounded _ _ Fq) as (_ & F1 & R1). destruct (mul_rounded _ _ F1) as (F2 & _ & R2). destruct (mul_rounded _ _ F2) as (F3 & _ & R3).
  destruct (sum_sq _ _ F3) as (_ & _ & R4). destruct (mul_rounded _ _ Fa) as (Fx & _ & RA). destruct (mul_rounded _ _ Fb) as (Fy & _ & RB).
  destruct (opp_exact _ Fx) as [_ Ex]. destruct (opp_exact _ Fy) as [_ Ey]. rewrite Ex in RA. rewrite Ey in RB. rewrite val_n1 in R1.
  unfold rounded in *. fold a in RA. fold b in RB. fold q in R1.
  assert (NC : 0 <= eta * (valF c * valF c) <= / 1000000 * ulp1 /\ 0 <= eta * Rabs (valF c) <= / 1000000 * ulp1).
  { tiny. pose proof (abs_mul _ _ _ _ Hc Hc) as C2. pose proof (Rle_abs (valF c * valF c)). pose proof (Rle_0_sqr (valF c)) as C0. unfold Rsqr in C0. pose proof (Rabs_pos (valF c)).
    assert (K : eta * (two 400 * two 400) <= / 1000000 * ulp1).
    { rewrite <- two_add. unfold eta, ulp1. rewrite <- two_add. replace (-1075 + (400 + 400))%Z with (-222 + -53)%Z by lia. rewrite two_add.
      apply Rmult_le_compat_r; [left; apply two_pos|]. apply Rle_trans with ulp; [apply two_le; lia|]. pose proof ulp_small. lra. }
    assert (T4 : 1 <= two 400) by (change 1 with (two 0); apply two_le; lia).
    assert (eta * (valF c * valF c) <= eta * (two 400 * two 400)) by (apply Rmult_le_compat_l; lra).
    assert (eta * Rabs (valF c) <= eta * (two 400 * two 400)) by (apply Rmult_le_compat_l; [lra|nra]).
    repeat split; try lra; apply Rmult_le_pos; lra. }
  clearbody a b q. clear F1 F2 F3 Fq Fa Fb Fx Fy Ex Ey Hc.
  set (t := valF (nadd (nmul x x) (nmul y y))) in *. set (s1 := valF (nmul (nadd (nmul x x) (nmul y y)) c)) in *.
  set (s2 := valF (nmul (nmul (nadd (nmul x x) (nmul y y)) c) c)) in *.
  set (X := valF x) in *. set (Y := valF y) in *. set (C := valF c) in *. set (A := valF a) in *. set (B := valF b) in *. set (Q := valF q) in *.
  clearbody t s1 s2 X Y C A B Q. clear a b q x y c. tiny. set (e := ulp1) in *. set (n := eta) in *. clearbody e n. destruct NC as [NC NC1].
  pose proof (Rabs_pos C) as C0. assert (CC : Rabs C * Rabs C = C * C) by (rewrite <- Rabs_mult; apply Rabs_pos_eq; apply Rle_0_sqr).
  pose proof (Rle_0_sqr X) as X2. pose proof (Rle_0_sqr Y) as Y2. pose proof (Rle_0_sqr C) as C2. unfold Rsqr in *.
  set (W := X * X + Y * Y) in *. assert (W0 : 0 <= W) by (unfold W; lra).
  set (U := W * (C * C)). assert (U0 : 0 <= U) by (unfold U; apply Rmult_le_pos; lra). assert (eU : 0 <= e * U) by (apply Rmult_le_pos; lra).
  assert (eW : 0 <= e * W <= / 1000000000000 * W) by (split; [apply Rmult_le_pos; lra|apply Rmult_le_compat_r; lra]).
  assert (Tb : Rabs t <= 1.0001 * W + 5 * n) by (apply abs_between in R4; apply Rabs_le; lra).
  (* s1 against W C *)
  assert (S1 : Rabs (s1 - W * C) <= (3.03 * e * W + 5 * n) * Rabs C + n).
  { replace (s1 - W * C) with ((s1 - t * C) + (t - W) * C) by ring. eapply Rle_trans; [apply Rabs_triang|]. rewrite (Rabs_mult (t - W)).
    rewrite (Rabs_mult t) in R3. assert (Rabs (t - W) * Rabs C <= (2.01 * e * W + 4 * n) * Rabs C) by (apply Rmult_le_compat_r; lra).
    assert (e * Rabs t <= e * (1.0001 * W + 5 * n)) by (apply Rmult_le_compat_l; lra).
    assert (e * n <= / 1000 * n) by (apply Rmult_le_compat_r; lra).
    assert (e * Rabs t * Rabs C <= (1.0001 * e * W + n) * Rabs C) by (apply Rmult_le_compat_r; lra).
    assert (0 <= e * W * Rabs C) by (apply Rmult_le_pos; lra). lra. }
  assert (WC : Rabs (W * C) = W * Rabs C) by (rewrite Rabs_mult, (Rabs_pos_eq W) by lra; reflexivity).
  assert (S1b : Rabs s1 <= 1.0001 * W * Rabs C + 6 * n * Rabs C + n).
  { replace s1 with ((s1 - W * C) + W * C) by ring. eapply Rle_trans; [apply Rabs_triang|]. rewrite WC.
    assert (3.03 * e * W * Rabs C <= 0.0001 * W * Rabs C) by (apply Rmult_le_compat_r; lra).
    assert (0 <= n * Rabs C) by lra. lra. }
  assert (S2 : Rabs (s2 - U) <= 4.05 * e * U + 0.01 * e).
  { replace (s2 - U) with ((s2 - s1 * C) + (s1 - W * C) * C) by (unfold U; ring). eapply Rle_trans; [apply Rabs_triang|]. rewrite (Rabs_mult (s1 - W * C)).
    rewrite (Rabs_mult s1) in R2.
    assert (Rabs (s1 - W * C) * Rabs C <= ((3.03 * e * W + 5 * n) * Rabs C + n) * Rabs C) by (apply Rmult_le_compat_r; lra).
    assert (Rabs s1 * Rabs C <= (1.0001 * W * Rabs C + 6 * n * Rabs C + n) * Rabs C) by (apply Rmult_le_compat_r; lra).
    assert (E1 : ((3.03 * e * W + 5 * n) * Rabs C + n) * Rabs C = 3.03 * (e * U) + 5 * (n * (C * C)) + n * Rabs C) by (unfold U; rewrite <- CC; ring).
    assert (E2 : (1.0001 * W * Rabs C + 6 * n * Rabs C + n) * Rabs C = 1.0001 * U + 6 * (n * (C * C)) + n * Rabs C) by (unfold U; rewrite <- CC; ring).
    assert (e * (Rabs s1 * Rabs C) <= e * (1.0001 * U + 6 * (n * (C * C)) + n * Rabs C)) by (apply Rmult_le_compat_l; lra).
    assert (e * (6 * (n * (C * C)) + n * Rabs C) <= 1 * (6 * (n * (C * C)) + n * Rabs C)) by (apply Rmult_le_compat_r; lra).
    lra. }
  assert (S2b : Rabs (1 + s2) <= 1.001 * (1 + U)).
  { apply abs_between in S2. assert (e * U <= / 1000000000000 * U) by (apply Rmult_le_compat_r; lra). apply Rabs_le; lra. }
  assert (e * Rabs (1 + s2) <= e * (1.001 * (1 + U))) by (apply Rmult_le_compat_l; lra).
  assert (HA : Rabs (A * A - (- X * C) * (- X * C)) <= (2.01 * e + 1.01 * n) * ((- X * C) * (- X * C)) + 1.01 * n) by (apply sq_err; trivial; lra).
  assert (HB : Rabs (B * B - (- Y * C) * (- Y * C)) <= (2.01 * e + 1.01 * n) * ((- Y * C) * (- Y * C)) + 1.01 * n) by (apply sq_err; trivial; lra).
  assert (AB : Rabs (A * A + B * B - U) <= 2.02 * e * U + 0.01 * e).
  { replace (A * A + B * B - U) with ((A * A - (- X * C) * (- X * C)) + (B * B - (- Y * C) * (- Y * C))) by (unfold U, W; ring).
    eapply Rle_trans; [apply Rabs_triang|].
    assert (n * U <= 0.001 * (e * U)). { replace (0.001 * (e * U)) with (0.001 * e * U) by ring. apply Rmult_le_compat_r; lra. }
    replace (2.02 * e * U + 0.01 * e) with (2.02 * (e * U) + 0.01 * e) by ring.
    assert (U = (- X * C) * (- X * C) + (- Y * C) * (- Y * C)) as EU by (unfold U, W; ring). rewrite EU in *. lra. }
  assert (eU2 : e * U <= / 1000000000000 * U) by (apply Rmult_le_compat_r; lra).
  apply abs_between in AB, S2, R1.
  assert (UB : U <= 1.001 * (A * A + B * B) + 0.001) by lra.
  assert (e * U <= e * (1.001 * (A * A + B * B) + 0.001)) by (apply Rmult_le_compat_l; lra).
  assert (0 <= A * A) by apply Rle_0_sqr. assert (0 <= B * B) by apply Rle_0_sqr. assert (0 <= e * (A * A)) by (apply Rmult_le_pos; lra). assert (0 <= e * (B * B)) by (apply Rmult_le_pos; lra).
  apply Rabs_le. lra.
Qed.
Lemma zero_is x : finF x -> valF x = 0 -> exists s, x = S754_zero s.
Proof.
  destruct x as [s| | |s m e]; try contradiction; intros _ H; [exists s; reflexivity|]. exfalso. unfold valF in H. pose proof (two_pos e).
  assert (0 < IZR (Z.pos m)) by (apply IZR_lt; lia). destruct s; nra.
Qed.
Lemma ranged_radius x y : ranged x y -> let r := nsqrt (nadd (nmul x x) (nmul y y)) in finF r /\
  (valF r <> 0 -> 0 < valF r /\ Rabs (valF r * valF r - (valF x * valF x + valF y * valF y)) <= 4.2 * ulp1 * (valF x * valF x + valF y * valF y)).
Proof.
  intros (Fx & Fy & H) r. destruct H as [[Hx Hy]|[L S8]].
  { destruct (zero_is x Fx Hx) as [s ->]. destruct (zero_is y Fy Hy) as [s' ->]. unfold r. destruct s, s'; cbn; split; try exact I; intros C; exfalso; apply C; reflexivity. }
  pose proof (Rle_0_sqr (valF x)) as X0. pose proof (Rle_0_sqr (valF y)) as Y0. unfold Rsqr in *.
  assert (E9 : two 801 = 2 * two 800) by (replace 801%Z with (1 + 800)%Z by lia; rewrite two_add; unfold two at 1; simpl; lra).
  assert (E97 : two 801 < two 970) by (apply two_lt; lia). pose proof (two_pos 800) as T8. tiny.
  assert (F2 : finF (nmul x x)) by (apply mul_finite; trivial; rewrite Rabs_pos_eq; lra).
  assert (F3 : finF (nmul y y)) by (apply mul_finite; trivial; rewrite Rabs_pos_eq; lra).
  destruct (mul_rounded _ _ F2) as (_ & _ & R3). destruct (mul_rounded _ _ F3) as (_ & _ & R4). unfold rounded in R3, R4.
  rewrite (Rabs_pos_eq (valF x * valF x)) in R3 by lra. rewrite (Rabs_pos_eq (valF y * valF y)) in R4 by lra.
  assert (T81 : 1 <= two 800) by (change 1 with (two 0); apply two_le; lia).
  assert (F1 : finF (nadd (nmul x x) (nmul y y))).
  { apply add_finite; trivial. apply abs_between in R3, R4.
    assert (ulp1 * (valF x * valF x) <= 0.1 * (valF x * valF x)) by (apply Rmult_le_compat_r; lra).
    assert (ulp1 * (valF y * valF y) <= 0.1 * (valF y * valF y)) by (apply Rmult_le_compat_r; lra).
    eapply Rle_lt_trans; [|exact E97]. apply Rabs_le. lra. }
  destruct (sum_sq _ _ F1) as (_ & _ & R2). set (q := nadd (nmul x x) (nmul y y)) in *. set (W := valF x * valF x + valF y * valF y) in *.
  assert (nW : eta <= / 1000 * (ulp1 * W)).
  { apply Rle_trans with (/ 1000 * (ulp1 * two (-800))). 2:{ apply Rmult_le_compat_l; [lra|]. apply Rmult_le_compat_l; lra. }
    apply (eta_small (two (-800))). split; apply two_le; lia. }
  set (e := ulp1) in *. set (n := eta) in *. assert (W0 : 0 < W) by (pose proof (two_pos (-800)); lra).
  assert (eW : 0 <= e * W <= / 1000000000000 * W) by (split; [apply Rmult_le_pos; lra|apply Rmult_le_compat_r; lra]).
  apply abs_between in R2. assert (Q0 : 0.99 * W <= valF q <= 1.01 * W) by lra.
  assert (F : finF r).
  { apply sqrt_finite; trivial; [lra|]. apply Rle_lt_trans with (two 801); [|exact E97]. rewrite <- (sqrt_Rsqr (two 801)) by lra.
    apply sqrt_le_1_alt. unfold Rsqr. rewrite E9. nra. }
  split; [exact F|]. intros N. destruct (sqrt_rounded _ F) as (_ & _ & RS). fold r in RS. unfold rounded in RS. rewrite (Rabs_pos_eq (sqrt _)) in RS by apply sqrt_pos.
  assert (Qs : sqrt (valF q) * sqrt (valF q) = valF q) by (apply sqrt_sqrt; lra). pose proof (sqrt_pos (valF q)) as V0. set (w := sqrt (valF q)) in *.
  assert (wL : two (-402) <= w).
  { destruct (Rle_lt_dec (two (-402)) w) as [P|P]; [exact P|]. exfalso. pose proof (two_pos (-402)).
    assert (w * w <= two (-402) * two (-402)) by (apply Rmult_le_compat; lra). rewrite <- two_add in H2.
    assert (two (-402 + -402) = two (-4) * two (-800)) by (rewrite <- two_add; reflexivity).
    assert (two (-4) = / 16) by (unfold two; simpl; lra). pose proof (two_pos (-800)). nra. }
  assert (nw : n <= / 1000 * (e * w)).
  { apply Rle_trans with (/ 1000 * (e * two (-402))). 2:{ apply Rmult_le_compat_l; [lra|]. apply Rmult_le_compat_l; lra. }
    apply (eta_small (two (-402))). split; apply two_le; lia. }
  fold e in RS. fold n in RS. set (rv := valF r) in *. set (Q := valF q) in *.
  assert (wp : 0 < w) by (pose proof (two_pos (-402)); lra).
  assert (ew : 0 <= e * w <= / 1000000000000 * w) by (split; [apply Rmult_le_pos; lra|apply Rmult_le_compat_r; lra]).
  assert (SQ : Rabs (rv * rv - Q) <= 2.03 * e * Q).
  { rewrite <- Qs. set (d := rv - w) in *. replace (rv * rv - w * w) with (2 * w * d + d * d) by (unfold d; ring).
    assert (D : Rabs d <= 1.01 * (e * w)) by lra.
    pose proof (abs_mul _ _ _ _ D D) as DD. assert (WD : Rabs (2 * w * d) <= 2 * w * (1.01 * (e * w))).
    { rewrite Rabs_mult, (Rabs_pos_eq (2 * w)) by lra. apply Rmult_le_compat_l; lra. }
    eapply Rle_trans; [apply Rabs_triang|].
    assert ((e * w) * (e * w) <= / 1000000000000 * w * (e * w)) by (apply Rmult_le_compat_r; lra).
    assert (0 <= e * w * w) by (apply Rmult_le_pos; lra). lra. }
  split; [apply abs_between in RS; lra|].
  assert (e * Q <= e * (1.01 * W)) by (apply Rmult_le_compat_l; lra).
  apply abs_between in SQ. apply Rabs_le. lra.
Qed.
Lemma q_radial x y g : ranged x y -> let r := nsqrt (nadd (nmul x x) (nmul y y)) in
  let a := nmul (ndiv (nopp x) r) g in let b := nmul (ndiv (nopp y) r) g in let q := nadd n1 (nmul g g) in
  finF q -> finF a -> finF b ->
  Rabs (valF q - (1 + valF a * valF a + valF b * valF b)) <= 14 * ulp1 * (1 + valF a * valF a + valF b * valF b).
Proof.
  intros RG r a b q Fq Fa Fb. destruct (ranged_radius x y RG) as [Fr Hr]. fold r in Fr, Hr.
  destruct (add_rounded _ _ Fq) as (_ & F1 & R1). destruct (mul_rounded _ _ F1) as (Fg & _ & R2).
  destruct (mul_rounded _ _ Fa) as (Fa1 & _ & RA). destruct (mul_rounded _ _ Fb) as (Fb1 & _ & RB).
  destruct (div_rounded _ _ Fa1 Fr) as (Fx & N & DA). destruct (div_rounded _ _ Fb1 Fr) as (Fy & _ & DB).
  destruct (opp_exact _ Fx) as [_ Ex]. destruct (opp_exact _ Fy) as [_ Ey]. rewrite Ex in DA. rewrite Ey in DB. rewrite val_n1 in R1.
  destruct (Hr N) as [Rp Rr]. unfold rounded in *. fold a in RA. fold b in RB. fold q in R1.
  set (A := valF a) in *. set (B := valF b) in *. set (Q := valF q) in *. set (U := valF (ndiv (nopp x) r)) in *. set (V := valF (ndiv (nopp y) r)) in *.
  set (G := valF g) in *. set (gg := valF (nmul g g)) in *. set (X := valF x) in *. set (Y := valF y) in *. set (rr := valF r) in *.
  clearbody A B Q U V G gg X Y rr. clear Ex Ey Fx Fy Fa1 Fb1 Fg F1 Hr Fr RG Fq Fa Fb. clear a b q r x y g. tiny.
  set (e := ulp1) in *. set (n := eta) in *. clearbody e n.
  pose proof (Rle_0_sqr X) as X2. pose proof (Rle_0_sqr Y) as Y2. pose proof (Rle_0_sqr G) as G2. unfold Rsqr in *. rewrite (Rabs_pos_eq (G * G)) in R2 by lra.
  assert (HU : Rabs (U * U - (- X / rr) * (- X / rr)) <= (2.01 * e + 1.01 * n) * ((- X / rr) * (- X / rr)) + 1.01 * n) by (apply sq_err; trivial; lra).
  assert (HV : Rabs (V * V - (- Y / rr) * (- Y / rr)) <= (2.01 * e + 1.01 * n) * ((- Y / rr) * (- Y / rr)) + 1.01 * n) by (apply sq_err; trivial; lra).
  assert (ir : 0 < / (rr * rr)) by (apply Rinv_0_lt_compat; nra).
  set (W := X * X + Y * Y) in *. set (k := W / (rr * rr)).
  assert (K1 : Rabs (1 - k) <= 4.2 * e * k).
  { replace (1 - k) with ((rr * rr - W) * / (rr * rr)) by (unfold k; field; lra). rewrite Rabs_mult, (Rabs_pos_eq (/ _)) by lra.
    replace (4.2 * e * k) with (4.2 * e * W * / (rr * rr)) by (unfold k, Rdiv; ring). apply Rmult_le_compat_r; lra. }
  assert (k0 : 0 <= k) by (unfold k, Rdiv; apply Rmult_le_pos; unfold W; lra).
  assert (ek : e * k <= / 1000000000000 * k) by (apply Rmult_le_compat_r; lra). apply abs_between in K1. assert (kb : k <= 1.001) by lra.
  assert (ek1 : e * k <= e * 1.001) by (apply Rmult_le_compat_l; lra).
  assert (UV : Rabs (U * U + V * V - 1) <= 6.3 * e).
  { replace (U * U + V * V - 1) with ((U * U - (- X / rr) * (- X / rr)) + (V * V - (- Y / rr) * (- Y / rr)) + (k - 1)) by (unfold k, W; field; lra).
    assert (EK : k = (- X / rr) * (- X / rr) + (- Y / rr) * (- Y / rr)) by (unfold k, W; field; lra).
    assert (Kk : Rabs (k - 1) <= 4.205 * e) by (apply Rabs_le; lra).
    eapply Rle_trans; [apply tri3 with (1 := HU) (2 := HV) (3 := Kk)|].
    assert (n * k <= n * 1.001) by (apply Rmult_le_compat_l; lra). rewrite EK in *. lra. }
  assert (HA : Rabs (A * A - (U * G) * (U * G)) <= (2.01 * e + 1.01 * n) * ((U * G) * (U * G)) + 1.01 * n) by (apply sq_err; trivial; lra).
  assert (HB : Rabs (B * B - (V * G) * (V * G)) <= (2.01 * e + 1.01 * n) * ((V * G) * (V * G)) + 1.01 * n) by (apply sq_err; trivial; lra).
  set (T := G * G) in *. assert (eT : 0 <= e * T <= / 1000000000000 * T) by (split; [apply Rmult_le_pos; lra|apply Rmult_le_compat_r; lra]).
  assert (AB : Rabs (A * A + B * B - T) <= 8.4 * e * T + 0.01 * e).
  { replace (A * A + B * B - T) with ((A * A - (U * G) * (U * G)) + (B * B - (V * G) * (V * G)) + (U * U + V * V - 1) * T) by (unfold T; ring).
    assert (M : Rabs ((U * U + V * V - 1) * T) <= 6.3 * e * T) by (apply abs_mul; trivial; rewrite Rabs_pos_eq; lra).
    eapply Rle_trans; [apply tri3 with (1 := HA) (2 := HB) (3 := M)|].
    assert (ES : (U * G) * (U * G) + (V * G) * (V * G) = (U * U + V * V) * T) by (unfold T; ring).
    apply abs_between in UV. assert (UT : (U * U + V * V) * T <= 1.001 * T) by (apply Rmult_le_compat_r; lra).
    set (P := (U * G) * (U * G)) in *. set (P' := (V * G) * (V * G)) in *.
    assert ((2.01 * e + 1.01 * n) * (P + P') <= (2.02 * e) * (1.001 * T)) by (apply Rmult_le_compat; try lra; [unfold P, P'; apply Rplus_le_le_0_compat; apply Rle_0_sqr]). lra. }
  apply abs_between in R2, AB.
  assert (S2b : Rabs (1 + gg) <= 1.001 * (1 + T)) by (apply Rabs_le; lra).
  assert (e * Rabs (1 + gg) <= e * (1.001 * (1 + T))) by (apply Rmult_le_compat_l; lra). apply abs_between in R1.
  assert (TB : T <= 1.001 * (A * A + B * B) + 0.001) by lra.
  assert (e * T <= e * (1.001 * (A * A + B * B) + 0.001)) by (apply Rmult_le_compat_l; lra).
  assert (0 <= A * A) by apply Rle_0_sqr. assert (0 <= B * B) by apply Rle_0_sqr. assert (0 <= e * (A * A)) by (apply Rmult_le_pos; lra). assert (0 <= e * (B * B)) by (apply Rmult_le_pos; lra).
  apply Rabs_le. lra.
Qed.

Lemma zhat_unit : nearly (13 * ulp) (dotR (valV (zhat (T := F64))) (valV zhat)) 1.
Proof.
  unfold nearly, valV, zhat, dotR; cbn [cx cy cz]. rewrite val_n1, val_n0. replace (0 * 0 + 0 * 0 + 1 * 1 - 1) with 0 by ring. rewrite Rabs_R0.
  pose proof ulp_small. lra.
Qed.
Lemma nearly_le a b x y : a <= b -> nearly a x y -> nearly b x y. Proof. unfold nearly; lra. Qed.
Lemma q_inv_le R : finF R -> two (-399) <= Rabs (valF R) -> finF (ndiv n1 R) -> Rabs (valF (ndiv n1 R)) <= two 400.
Proof.
  intros F H Fi. destruct (div_rounded _ _ Fi F) as (_ & N & D). rewrite val_n1 in D. unfold rounded in D. tiny.
  assert (I : Rabs (1 / valF R) <= two 399).
  { unfold Rdiv. rewrite Rmult_1_l, Rabs_inv. replace (two 399) with (/ two (-399)) by (rewrite <- two_inv; reflexivity). apply Rinv_le_contravar; [apply two_pos|exact H]. }
  assert (E : two 400 = 2 * two 399) by (replace 400%Z with (1 + 399)%Z by lia; rewrite two_add; unfold two at 1; simpl; lra).
  assert (1 <= two 399) by (change 1 with (two 0); apply two_le; lia).
  replace (valF (ndiv n1 R)) with ((valF (ndiv n1 R) - 1 / valF R) + 1 / valF R) by ring. eapply Rle_trans; [apply Rabs_triang|].
  pose proof (Rabs_pos (1 / valF R)). assert (ulp1 * Rabs (1 / valF R) <= / 1000000000000 * Rabs (1 / valF R)) by (apply Rmult_le_compat_r; lra). lra.
Qed.
Lemma tilted_unit tx ty : finF tx -> finF ty -> Rabs (valF tx) <= 1 -> Rabs (valF ty) <= 1 ->
  let nz := nsqrt (nsub (nsub n1 (nmul tx tx)) (nmul ty ty)) in finF nz -> / 1000 <= valF nz ->
  nearly (13 * ulp) (dotR (valV (V3 (nopp tx) (nopp ty) nz)) (valV (V3 (nopp tx) (nopp ty) nz))) 1.
Proof.
  intros Fx Fy Bx By nz Fz Z0. destruct (sqrt_rounded _ Fz) as (F1 & Q0 & RS). destruct (sub_rounded _ _ F1) as (F2 & F3 & R1). destruct (sub_rounded _ _ F2) as (_ & F4 & R2).
  destruct (mul_rounded _ _ F3) as (_ & _ & R3). destruct (mul_rounded _ _ F4) as (_ & _ & R4). rewrite val_n1 in R2. fold nz in RS.
  unfold nearly, dotR, valV; cbn [cx cy cz]. rewrite (proj2 (opp_exact _ (opp_finite _ Fx))), (proj2 (opp_exact _ (opp_finite _ Fy))).
  unfold rounded in *. rewrite (Rabs_pos_eq (sqrt _)) in RS by apply sqrt_pos.
  pose proof (Rle_0_sqr (valF tx)) as X0. pose proof (Rle_0_sqr (valF ty)) as Y0. unfold Rsqr in *. rewrite (Rabs_pos_eq (valF tx * valF tx)) in R4 by lra. rewrite (Rabs_pos_eq (valF ty * valF ty)) in R3 by lra.
  pose proof (abs_mul _ _ _ _ Bx Bx) as BX. pose proof (abs_mul _ _ _ _ By By) as BY. rewrite Rabs_pos_eq in BX by lra. rewrite Rabs_pos_eq in BY by lra.
  replace (- valF tx * - valF tx) with (valF tx * valF tx) by ring. replace (- valF ty * - valF ty) with (valF ty * valF ty) by ring.
  assert (Qs : sqrt (valF (nsub (nsub n1 (nmul tx tx)) (nmul ty ty))) * sqrt (valF (nsub (nsub n1 (nmul tx tx)) (nmul ty ty))) = valF (nsub (nsub n1 (nmul tx tx)) (nmul ty ty))) by (apply sqrt_sqrt; lra).
  pose proof (sqrt_pos (valF (nsub (nsub n1 (nmul tx tx)) (nmul ty ty)))) as W0.
  set (w := sqrt _) in *. set (Q := valF (nsub (nsub n1 (nmul tx tx)) (nmul ty ty))) in *. set (t := valF (nsub n1 (nmul tx tx))) in *.
  set (p := valF (nmul tx tx)) in *. set (p' := valF (nmul ty ty)) in *. set (X := valF tx * valF tx) in *. set (Y := valF ty * valF ty) in *. set (Z := valF nz) in *.
  clearbody w Q t p p' X Y Z. clear F1 F2 F3 F4 Fz Bx By Fx Fy. tiny. rewrite ulp_eq. set (e := ulp1) in *. set (n := eta) in *. clearbody e n.
  assert (eX : e * X <= e * 1) by (apply Rmult_le_compat_l; lra). assert (eY : e * Y <= e * 1) by (apply Rmult_le_compat_l; lra).
  apply abs_between in R3, R4.
  assert (P1 : Rabs (1 - p) <= 1.01) by (apply Rabs_le; lra). assert (e * Rabs (1 - p) <= e * 1.01) by (apply Rmult_le_compat_l; lra). apply abs_between in R2.
  assert (P2 : Rabs (t - p') <= 2.1) by (apply Rabs_le; lra). assert (e * Rabs (t - p') <= e * 2.1) by (apply Rmult_le_compat_l; lra). apply abs_between in R1.
  assert (Qb : Q <= 1.01) by lra. assert (wb : w <= 1.01) by nra.
  assert (ew : e * w <= e * 1.01) by (apply Rmult_le_compat_l; lra).
  set (d := Z - w) in *. assert (D : Rabs d <= 1.02 * e) by lra.
  assert (ZQ : Rabs (Z * Z - Q) <= 2.2 * e).
  { rewrite <- Qs. replace (Z * Z - w * w) with (2 * (w * d) + d * d) by (unfold d; ring).
    assert (Wd : Rabs (w * d) <= 1.01 * (1.02 * e)) by (apply abs_mul; trivial; rewrite Rabs_pos_eq; lra). pose proof (abs_mul _ _ _ _ D D).
    eapply Rle_trans; [apply Rabs_triang|]. rewrite Rabs_mult, (Rabs_pos_eq 2) by lra. assert (e * e <= / 1000000000000 * e) by (apply Rmult_le_compat_r; lra). lra. }
  apply abs_between in ZQ. apply Rabs_le. lra.
Qed.
Theorem normal_unit s x y : mild s x y -> let n := normal s x y in finV n -> / 1000 <= valF (cz n) -> nearly (13 * ulp) (dotR (valV n) (valV n)) 1.
Proof.
  assert (W : forall k z, k <= 14 -> nearly ((k + 12) * ulp1) z 1 -> nearly (13 * ulp) z 1).
  { intros k z K. apply nearly_le. rewrite ulp_eq. pose proof e_small. nra. }
  intros M n. unfold n. clear n. destruct s; cbn [normal mild] in *.
  - intros _ _. apply zhat_unit.
  - destruct M as (Fx & Fy & Bx & By). intros (_ & _ & Fz) Z. apply tilted_unit; assumption.
  - unfold sphere_normal. destruct (_ || _); [intros; apply zhat_unit|]. cbv zeta. intros (FX & FY & FZ) Z; cbn [cx cy cz] in *.
    apply (W 14); [lra|]. apply unit_float; trivial; [lra|]. apply q_radial; assumption.
  - destruct M as (FR & BR). unfold paraboloid_normal. destruct (neqb _ n0); [intros; apply zhat_unit|]. cbv zeta. intros (FX & FY & FZ) Z; cbn [cx cy cz] in *.
    apply (W 9); [lra|]. apply unit_float; trivial; [lra|]. apply q_parab. apply q_inv_le; trivial. destruct (mul_rounded _ _ FX) as (F & _). destruct (mul_rounded _ _ F) as (_ & F' & _). exact F'.
  - unfold radial_normal. destruct (neqb _ n0); [intros; apply zhat_unit|]. cbv zeta. intros (FX & FY & FZ) Z; cbn [cx cy cz] in *.
    apply (W 14); [lra|]. apply unit_float; trivial; [lra|]. apply q_radial; assumption.
  - unfold radial_normal. destruct (neqb _ n0); [intros; apply zhat_unit|]. cbv zeta. intros (FX & FY & FZ) Z; cbn [cx cy cz] in *.
    apply (W 14); [lra|]. apply unit_float; trivial; [lra|]. apply q_radial; assumption.
  - unfold poly_normal. cbv zeta. intros (FX & FY & FZ) Z; cbn [cx cy cz] in *. apply (W 4); [lra|]. apply unit_float; trivial; [lra|]. intros Fq _ _. apply q_poly. exact Fq.
  - unfold bicubic_normal. destruct (table_grad tb x y) as [dx dy]. destruct (nisnan dx); [intros (F & _); destruct F|]. intros (FX & FY & FZ) Z; cbn [cx cy cz] in *.
    apply (W 4); [lra|]. apply unit_float; trivial; [lra|]. intros Fq Fa Fb. destruct (opp_exact _ Fa) as [_ Ea]. destruct (opp_exact _ Fb) as [_ Eb]. rewrite Ea, Eb.
    replace (- valF dx * - valF dx) with (valF dx * valF dx) by ring. replace (- valF dy * - valF dy) with (valF dy * valF dy) by ring. apply q_bicubic. exact Fq.
  - destruct (fold_left _ _ _) as [nx ny]. intros (FX & FY & FZ) Z; cbn [cx cy cz] in *. apply (W 4); [lra|]. apply unit_float; trivial; [lra|]. intros Fq _ _. apply q_poly. exact Fq.
Qed.
