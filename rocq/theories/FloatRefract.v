(** Refraction in double precision. *)
From Coq Require Import Reals ZArith List Bool Lra Lia Psatz Floats.SpecFloat.
From Verif Require Import Num NumF Vec CoordSys Surface Medium Ray Bundle Spec XRFacts CoordFacts AnalysisProofs FloatSpec FloatProofs FloatErr FloatFrames FloatTrace FloatNormal.
Import ListNotations.
Open Scope R_scope.

(** * Real arithmetic *)
Lemma mul_le a b x : 0 <= a <= b -> 0 <= x -> 0 <= a * x <= b * x.
Proof. intros. split; [apply Rmult_le_pos; lra|apply Rmult_le_compat_r; lra]. Qed.
(** 1 / sqrt of a sum of squares. *)
Lemma inv_core e h S sq r N : 0 < e <= / 1000000000000 -> 0 <= h <= / 1000000000000 * e -> / 21 <= S <= 1.5 ->
  Rabs (sq - S) <= 4 * e * S -> Rabs (r - sqrt sq) <= e * sqrt sq + h -> Rabs (N - 1 / r) <= e * Rabs (1 / r) + h ->
  Rabs (N * N * S - 1) <= 9 * e /\ 0 < N <= 5.
Proof.
  intros E H HS Q R D.
  assert (eS : 0 <= e * S <= / 1000000000000 * S) by (apply mul_le; lra). apply abs_between in Q.
  assert (Sq : / 22 <= sq <= 1.6) by lra.
  pose proof (sqrt_sqrt sq ltac:(lra)) as SS. pose proof (sqrt_lt_R0 sq ltac:(lra)) as S0. set (s := sqrt sq) in *. clearbody s.
  assert (s1 : 0.2 <= s <= 1.3) by nra.
  assert (es : 0 <= e * s <= / 1000000000000 * s) by (apply mul_le; lra). apply abs_between in R.
  assert (r0 : 0.19 <= r <= 1.31) by lra.
  assert (D' : Rabs (N * r - 1) <= 1.001 * e).
  { replace (N * r - 1) with ((N - 1 / r) * r) by (field; lra). rewrite Rabs_mult, (Rabs_pos_eq r) by lra.
    eapply Rle_trans; [apply Rmult_le_compat_r; [lra|exact D]|]. rewrite Rabs_pos_eq by (apply Rlt_le, Rdiv_lt_0_compat; lra).
    replace ((e * (1 / r) + h) * r) with (e + h * r) by (field; lra). assert (0 <= h * r <= h * 1.31) by (split; [apply Rmult_le_pos|apply Rmult_le_compat_l]; lra). lra. }
  apply abs_between in D'.
  assert (N0 : 0 < N <= 5.5) by nra.
  assert (R2 : Rabs (r * r - s * s) <= 2.1 * (e * (s * s))).
  { replace (r * r - s * s) with ((r - s) * (r + s)) by ring. rewrite Rabs_mult. rewrite (Rabs_pos_eq (r + s)) by lra.
    assert (A : Rabs (r - s) <= 1.001 * (e * s)) by (apply Rabs_le; assert (e * 0.2 <= e * s) by (apply Rmult_le_compat_l; lra); lra).
    eapply Rle_trans; [apply Rmult_le_compat; [apply Rabs_pos|lra|exact A|]|]. instantiate (1 := 2.01 * s). lra.
    assert (0 <= e * (s * s)) by (apply Rmult_le_pos; nra). nra. }
  assert (ss : 0 <= e * (s * s) <= 1.01 * (e * S)).
  { rewrite SS. split; [apply Rmult_le_pos; lra|]. replace (1.01 * (e * S)) with (e * (1.01 * S)) by ring. apply Rmult_le_compat_l; lra. }
  apply abs_between in R2. rewrite SS in R2.
  assert (P : Rabs (S - r * r) <= 6.2 * (e * S)) by (apply Rabs_le; rewrite SS in ss; lra).
  assert (NS : 0 <= N * N * S).
  { apply Rmult_le_pos; [apply Rmult_le_pos|]; lra. }
  assert (NR : Rabs (N * r * (N * r) - 1) <= 2.003 * e).
  { set (z := N * r) in *. assert (- (1.001 * e) <= z - 1 <= 1.001 * e) by lra. set (y := z - 1) in *. replace (z * z - 1) with (2 * y + y * y) by (unfold y; ring).
    assert (0 <= y * y) by (pose proof (Rle_0_sqr y); unfold Rsqr in *; lra).
    assert (Y : Rabs y <= 1.001 * e) by (apply Rabs_le; lra). pose proof (abs_mul _ _ _ _ Y Y) as YY. pose proof (Rle_abs (y * y)).
    assert (e * e <= / 1000000000000 * e) by (apply Rmult_le_compat_r; lra). apply Rabs_le; lra. }
  assert (X : Rabs (N * N * (S - r * r)) <= 6.2 * (e * (N * N * S))).
  { rewrite Rabs_mult, (Rabs_pos_eq (N * N)) by nra. assert (0 <= N * N) by nra. pose proof (Rmult_le_compat_l _ _ _ H0 P). lra. }
  set (M := N * N * S) in *. assert (EM : M - 1 = N * N * (S - r * r) + (N * r * (N * r) - 1)) by (unfold M; ring).
  assert (eM : 0 <= e * M <= / 1000000000000 * M) by (apply mul_le; lra). apply abs_between in X, NR.
  assert (M <= 1.001) by lra.
  assert (e * M <= e * 1.001) by (apply Rmult_le_compat_l; lra).
  split; [apply Rabs_le; lra|]. split; [lra|].
  assert (/ 21 * (N * N) <= 1.001). { unfold M in *. assert (N * N * / 21 <= N * N * S) by (apply Rmult_le_compat_l; [nra|lra]). lra. }
  destruct (Rle_lt_dec N 5) as [K|K]; [exact K|]. assert (5 * 5 < N * N) by (apply Rmult_le_0_lt_compat; lra). lra.
Qed.
(** A vector scaled by N: each product rounded. *)
Lemma scale_core e h N a A b B c C : 0 < e <= / 1000000000000 -> 0 <= h <= / 1000000000000 * e ->
  Rabs (A - a * N) <= e * Rabs (a * N) + h -> Rabs (B - b * N) <= e * Rabs (b * N) + h -> Rabs (C - c * N) <= e * Rabs (c * N) + h ->
  Rabs (N * N * (a * a + b * b + c * c) - 1) <= 9 * e ->
  Rabs (A * A + B * B + C * C - 1) <= 12 * e.
Proof.
  intros E H HA HB HC HN. assert (He : 0 <= e <= / 1000000) by lra. assert (Hh : 0 <= h <= / 1000000) by lra.
  pose proof (sq_err e h _ _ He Hh HA) as QA. pose proof (sq_err e h _ _ He Hh HB) as QB. pose proof (sq_err e h _ _ He Hh HC) as QC.
  set (x := a * N) in *. set (y := b * N) in *. set (z := c * N) in *.
  assert (EN : N * N * (a * a + b * b + c * c) = x * x + y * y + z * z) by (unfold x, y, z; ring). rewrite EN in HN.
  assert (0 <= x * x) by (apply Rle_0_sqr). assert (0 <= y * y) by (apply Rle_0_sqr). assert (0 <= z * z) by (apply Rle_0_sqr).
  set (X := x * x) in *. set (Y := y * y) in *. set (Z := z * z) in *. apply abs_between in HN.
  set (k := 2.01 * e + 1.01 * h) in *. assert (0 <= k <= 2.02 * e) by (unfold k; lra).
  assert (k * (X + Y + Z) <= 2.02 * e * 1.001) by (apply Rmult_le_compat; lra).
  apply abs_between in QA, QB, QC. apply Rabs_le. lra.
Qed.

Lemma rnd_le e h a x B : 0 < e -> Rabs (a - x) <= e * Rabs x + h -> Rabs x <= B -> Rabs (a - x) <= e * B + h.
Proof. intros E H X. pose proof (Rmult_le_compat_l e _ _ (Rlt_le _ _ E) X). lra. Qed.
Lemma abs_near a x d B : Rabs (a - x) <= d -> Rabs x <= B -> Rabs a <= B + d.
Proof. intros. replace a with (x + (a - x)) by ring. eapply Rle_trans; [apply Rabs_triang|lra]. Qed.
(** Snell's construction in rounded arithmetic: the result has length 1 / n2. *)
Section Snell.
  Context (e h u1 u2 u3 k1 k2 k3 al eta al2 o eta2 q c s g f n2_ : R).
  Context (E : 0 < e <= / 1000000000000) (H : 0 <= h <= / 1000000000000 * e).
  Context (HU : Rabs (u1 * u1 + u2 * u2 + u3 * u3 - 1) <= 12 * e) (HK : Rabs (k1 * k1 + k2 * k2 + k3 * k3 - 1) <= 29 * e).
  Context (Hal : Rabs (al - (u1 * k1 + u2 * k2 + u3 * k3)) <= 21 * e) (Heta : 0 <= eta <= 2).
  Context (Ral2 : Rabs (al2 - al * al) <= e * Rabs (al * al) + h) (Ro : Rabs (o - (1 - al2)) <= e * Rabs (1 - al2) + h).
  Context (Reta2 : Rabs (eta2 - eta * eta) <= e * Rabs (eta * eta) + h) (Rq : Rabs (q - eta2 * o) <= e * Rabs (eta2 * o) + h).
  Context (Rc : Rabs (c - (1 - q)) <= e * Rabs (1 - q) + h) (c0 : 0 <= c) (Rs : Rabs (s - sqrt c) <= e * Rabs (sqrt c) + h).
  Context (Rg : Rabs (g - eta * al) <= e * Rabs (eta * al) + h) (Rf : Rabs (f - (g + s)) <= e * Rabs (g + s) + h).
  Lemma comp_le x y z d : Rabs (x * x + y * y + z * z - 1) <= d -> d <= / 1000 -> Rabs x <= 1.001.
  Proof.
    intros A D. apply abs_between in A. assert (0 <= y * y) by apply Rle_0_sqr. assert (0 <= z * z) by apply Rle_0_sqr.
    assert (X : x * x <= 1.001 * 1.001) by lra. apply Rsqr_le_abs_0 in X. rewrite (Rabs_pos_eq 1.001) in X by lra. exact X.
  Qed.
  Lemma e26 : 26 * e <= / 1000. Proof. lra. Qed.
  Lemma sk_al : Rabs al <= 1.002.
  Proof.
    eapply Rle_trans; [eapply abs_near; [exact Hal|]|]. instantiate (1 := 1.001). 2: lra.
    apply abs_between in HU, HK.
    assert (C : (u1 * k1 + u2 * k2 + u3 * k3) * (u1 * k1 + u2 * k2 + u3 * k3) <= (u1 * u1 + u2 * u2 + u3 * u3) * (k1 * k1 + k2 * k2 + k3 * k3)).
    { pose proof (Rle_0_sqr (u1 * k2 - u2 * k1)). pose proof (Rle_0_sqr (u1 * k3 - u3 * k1)). pose proof (Rle_0_sqr (u2 * k3 - u3 * k2)). unfold Rsqr in *. lra. }
    assert (0 <= u1 * u1) by apply Rle_0_sqr. assert (0 <= u2 * u2) by apply Rle_0_sqr. assert (0 <= u3 * u3) by apply Rle_0_sqr.
    assert (0 <= k1 * k1) by apply Rle_0_sqr. assert (0 <= k2 * k2) by apply Rle_0_sqr. assert (0 <= k3 * k3) by apply Rle_0_sqr.
    assert (P : (u1 * u1 + u2 * u2 + u3 * u3) * (k1 * k1 + k2 * k2 + k3 * k3) <= 1.0001 * 1.0001) by (apply Rmult_le_compat; lra).
    assert (X : Rsqr (u1 * k1 + u2 * k2 + u3 * k3) <= Rsqr 1.001) by (unfold Rsqr; lra). apply Rsqr_le_abs_0 in X. rewrite (Rabs_pos_eq 1.001) in X by lra. exact X.
  Qed.
  Lemma sk_al2 : 0 <= al * al <= 1.005.
  Proof. split; [apply Rle_0_sqr|]. pose proof (abs_mul _ _ _ _ sk_al sk_al). pose proof (Rle_abs (al * al)). lra. Qed.
  Lemma sk_o : Rabs (o - (1 - al * al)) <= 2.1 * e /\ -0.01 <= o <= 1.01.
  Proof.
    pose proof sk_al2 as A. assert (D : Rabs (al2 - al * al) <= 1.01 * e).
    { eapply Rle_trans; [eapply rnd_le; [apply E|exact Ral2|]|]. instantiate (1 := 1.005). rewrite Rabs_pos_eq; lra. lra. }
    apply abs_between in D. assert (D2 : Rabs (o - (1 - al2)) <= 1.01 * e).
    { eapply Rle_trans; [eapply rnd_le; [apply E|exact Ro|]|]. instantiate (1 := 1.006). apply Rabs_le; lra. lra. }
    apply abs_between in D2. split; [apply Rabs_le; lra|lra].
  Qed.
  Definition QQ := eta * eta * (1 - al * al).
  Lemma sk_eta : 0 <= eta * eta <= 4. Proof. split; [apply Rmult_le_pos|replace 4 with (2 * 2) by ring; apply Rmult_le_compat]; lra. Qed.
  Lemma sk_q : Rabs (q - QQ) <= 17 * e.
  Proof.
    destruct sk_o as [O1 O2]. pose proof sk_eta as N. pose proof sk_al2.
    assert (D : Rabs (eta2 - eta * eta) <= 4.01 * e).
    { eapply Rle_trans; [eapply rnd_le; [apply E|exact Reta2|]|]. instantiate (1 := 4). rewrite Rabs_pos_eq; lra. lra. }
    assert (Ao : Rabs o <= 1.01) by (apply Rabs_le; lra).
    assert (A2 : Rabs eta2 <= 4.001) by (eapply Rle_trans; [eapply abs_near; [exact D|]|]; [rewrite Rabs_pos_eq; [apply N|lra]|lra]).
    pose proof (abs_mul _ _ _ _ A2 Ao) as P.
    assert (R1 : Rabs (q - eta2 * o) <= 4.1 * e) by (eapply Rle_trans; [eapply rnd_le; [apply E|exact Rq|exact P]|lra]).
    pose proof (abs_mul _ _ _ _ D Ao) as P1.
    assert (An : Rabs (eta * eta) <= 4) by (rewrite Rabs_pos_eq; lra).
    pose proof (abs_mul _ _ _ _ An O1) as P2.
    replace (q - QQ) with ((q - eta2 * o) + (eta2 - eta * eta) * o + eta * eta * (o - (1 - al * al))) by (unfold QQ; ring).
    eapply Rle_trans; [apply tri3; [exact R1|exact P1|exact P2]|]. lra.
  Qed.
  Lemma sk_Q : -0.03 <= QQ.
  Proof. unfold QQ. pose proof sk_eta. pose proof sk_al2. assert (eta * eta * (-0.005) <= eta * eta * (1 - al * al)) by (apply Rmult_le_compat_l; lra). lra. Qed.
  Lemma sk_c : Rabs (c - (1 - QQ)) <= 18.2 * e /\ c <= 1.04.
  Proof.
    pose proof sk_q as Hq. apply abs_between in Hq. pose proof sk_Q.
    assert (L : Rabs (1 - q) <= 1.04).
    { destruct (Rle_lt_dec (1 - q) 0) as [N|N]; [|apply Rabs_le; lra]. rewrite (Rabs_left1 (1 - q)) in Rc by lra. apply abs_between in Rc.
      assert (e * - (1 - q) <= / 1000 * - (1 - q)) by (apply Rmult_le_compat_r; lra). apply Rabs_le. lra. }
    assert (R1 : Rabs (c - (1 - q)) <= 1.1 * e) by (eapply Rle_trans; [eapply rnd_le; [apply E|exact Rc|exact L]|lra]).
    apply abs_between in R1. pose proof (Rle_abs (1 - q)). split; [apply Rabs_le; lra|].
    assert (q0 : -0.0301 <= q) by lra. lra.
  Qed.
  Lemma sk_s : Rabs (s * s - c) <= 2.2 * e /\ Rabs s <= 1.03.
  Proof.
    destruct sk_c as [_ C1]. assert (He : 0 <= e <= / 1000000) by lra. assert (Hh : 0 <= h <= / 1000000) by lra.
    pose proof (sq_err e h _ _ He Hh Rs) as Q. rewrite (sqrt_sqrt c c0) in Q.
    assert (A : Rabs (s * s - c) <= 2.2 * e).
    { eapply Rle_trans; [exact Q|]. assert ((2.01 * e + 1.01 * h) * c <= (2.02 * e) * 1.04) by (apply Rmult_le_compat; lra). lra. }
    split; [exact A|]. apply abs_between in A. assert (X : Rsqr s <= Rsqr 1.03) by (unfold Rsqr; lra). apply Rsqr_le_abs_0 in X. rewrite (Rabs_pos_eq 1.03) in X by lra. exact X.
  Qed.
  Lemma sk_f : Rabs (f - (eta * al + s)) <= 5.3 * e /\ Rabs f <= 3.05.
  Proof.
    destruct sk_s as [_ S1]. pose proof sk_al as A. assert (An : Rabs eta <= 2) by (rewrite Rabs_pos_eq; lra). pose proof (abs_mul _ _ _ _ An A) as P.
    assert (G : Rabs (g - eta * al) <= 2.01 * e) by (eapply Rle_trans; [eapply rnd_le; [apply E|exact Rg|exact P]|lra]).
    assert (Ag : Rabs g <= 2.005) by (eapply Rle_trans; [eapply abs_near; [exact G|exact P]|lra]).
    assert (Ags : Rabs (g + s) <= 3.04) by (eapply Rle_trans; [apply Rabs_triang|lra]).
    assert (F : Rabs (f - (g + s)) <= 3.1 * e) by (eapply Rle_trans; [eapply rnd_le; [apply E|exact Rf|exact Ags]|lra]).
    split; [|eapply Rle_trans; [eapply abs_near; [exact F|exact Ags]|lra]]. apply abs_between in F, G. apply Rabs_le. lra.
  Qed.
  Definition W1 := eta * u1 - f * k1. Definition W2 := eta * u2 - f * k2. Definition W3 := eta * u3 - f * k3.
  Lemma sk_W : Rabs (W1 * W1 + W2 * W2 + W3 * W3 - 1) <= 607 * e.
  Proof.
    destruct sk_f as [F1 F2]. destruct sk_s as [S1 S2]. destruct sk_c as [C1 _]. pose proof sk_eta as N.
    set (d := f - (eta * al + s)) in *.
    assert (EW : W1 * W1 + W2 * W2 + W3 * W3 - 1 =
      (eta * eta * (u1 * u1 + u2 * u2 + u3 * u3 - 1) + 2 * eta * f * (al - (u1 * k1 + u2 * k2 + u3 * k3)) + f * f * (k1 * k1 + k2 * k2 + k3 * k3 - 1))
      + ((s * s - c) + (c - (1 - QQ)) + (2 * s * d + d * d))) by (unfold W1, W2, W3, d, QQ; ring).
    rewrite EW.
    assert (An : Rabs (eta * eta) <= 4) by (rewrite Rabs_pos_eq; lra). assert (Ae : Rabs (2 * eta) <= 4) by (rewrite Rabs_pos_eq; lra).
    pose proof (abs_mul _ _ _ _ An HU) as T1. pose proof (abs_mul _ _ _ _ (abs_mul _ _ _ _ Ae F2) Hal) as T2. pose proof (abs_mul _ _ _ _ (abs_mul _ _ _ _ F2 F2) HK) as T3.
    assert (A2s : Rabs (2 * s) <= 2.06) by (rewrite Rabs_mult, (Rabs_pos_eq 2) by lra; lra).
    pose proof (abs_mul _ _ _ _ A2s F1) as T4. pose proof (abs_mul _ _ _ _ F1 F1) as T5.
    assert (ee : e * e <= / 1000000000000 * e) by (apply Rmult_le_compat_r; lra).
    eapply Rle_trans; [apply Rabs_triang|]. eapply Rle_trans; [apply Rplus_le_compat; [apply tri3; [exact T1|exact T2|exact T3]|apply tri3; [exact S1|exact C1|eapply Rle_trans; [apply Rabs_triang|apply Rplus_le_compat; [exact T4|exact T5]]]]|]. lra.
  Qed.
  (** One component, to the end. *)
  Context (Hn2 : / 2 <= n2_ <= 5).
  Lemma sk_comp u k W a b w v : W = eta * u - f * k -> Rabs u <= 1.001 -> Rabs k <= 1.001 -> Rabs W <= 1.001 ->
    Rabs (a - eta * u) <= e * Rabs (eta * u) + h -> Rabs (b - f * k) <= e * Rabs (f * k) + h -> Rabs (w - (a - b)) <= e * Rabs (a - b) + h ->
    Rabs (v - w / n2_) <= e * Rabs (w / n2_) + h -> Rabs (n2_ * v * (n2_ * v) - W * W) <= 25 * e.
  Proof.
    intros -> Uu Uk UW Ra Rb Rw Rv. destruct sk_f as [_ F2]. assert (An : Rabs eta <= 2) by (rewrite Rabs_pos_eq; lra).
    set (W := eta * u - f * k) in *.
    pose proof (rnd_le _ _ _ _ _ (proj1 E) Ra (abs_mul _ _ _ _ An Uu)) as A1. pose proof (rnd_le _ _ _ _ _ (proj1 E) Rb (abs_mul _ _ _ _ F2 Uk)) as B1.
    assert (D : Rabs (a - b - W) <= 5.1 * e) by (unfold W; apply abs_between in A1, B1; apply Rabs_le; lra).
    assert (Ad : Rabs (a - b) <= 1.002) by (eapply Rle_trans; [eapply abs_near; [exact D|exact UW]|lra]).
    pose proof (rnd_le _ _ _ _ _ (proj1 E) Rw Ad) as W1'.
    assert (D2 : Rabs (w - W) <= 6.2 * e) by (apply abs_between in D, W1'; apply Rabs_le; lra).
    assert (Aw : Rabs w <= 1.002) by (eapply Rle_trans; [eapply abs_near; [exact D2|exact UW]|lra]).
    assert (V : Rabs (n2_ * v - w) <= 1.01 * e).
    { replace (n2_ * v - w) with (n2_ * (v - w / n2_)) by (field; lra). rewrite Rabs_mult, (Rabs_pos_eq n2_) by lra.
      eapply Rle_trans; [apply Rmult_le_compat_l; [lra|exact Rv]|]. unfold Rdiv at 1. rewrite Rabs_mult, Rabs_inv, (Rabs_pos_eq n2_) by lra.
      replace (n2_ * (e * (Rabs w * / n2_) + h)) with (e * Rabs w + n2_ * h) by (field; lra).
      assert (e * Rabs w <= e * 1.002) by (apply Rmult_le_compat_l; lra). assert (n2_ * h <= 5 * h) by (apply Rmult_le_compat_r; lra). lra. }
    assert (D3 : Rabs (n2_ * v - W) <= 7.3 * e) by (apply abs_between in V, D2; apply Rabs_le; lra).
    set (z := n2_ * v) in *. replace (z * z - W * W) with (2 * W * (z - W) + (z - W) * (z - W)) by ring.
    assert (A2W : Rabs (2 * W) <= 2.002) by (rewrite Rabs_mult, (Rabs_pos_eq 2) by lra; lra).
    pose proof (abs_mul _ _ _ _ A2W D3) as T4. pose proof (abs_mul _ _ _ _ D3 D3) as T5.
    assert (ee : e * e <= / 1000000000000 * e) by (apply Rmult_le_compat_r; lra).
    eapply Rle_trans; [apply Rabs_triang|]. lra.
  Qed.
End Snell.

(** * In doubles *)
Lemma dot_self v : finF (dot3 v v) -> / 21 <= dotR (valV v) (valV v) <= 1.5 ->
  Rabs (valF (dot3 v v) - dotR (valV v) (valV v)) <= 4 * ulp1 * dotR (valV v) (valV v).
Proof.
  unfold dot3, dotR, valV; cbn [cx cy cz]. intros F S. destruct (add_rounded _ _ F) as (F1 & F2 & R1).
  destruct (sum_sq _ _ F1) as (_ & _ & R2). destruct (mul_rounded _ _ F2) as (_ & _ & R3). unfold rounded in *. clear F F1 F2.
  set (t := valF (nadd (nadd (nmul (cx v) (cx v)) (nmul (cy v) (cy v))) (nmul (cz v) (cz v)))) in *.
  set (w := valF (nadd (nmul (cx v) (cx v)) (nmul (cy v) (cy v)))) in *. set (q := valF (nmul (cz v) (cz v))) in *.
  assert (0 <= valF (cx v) * valF (cx v)) by apply Rle_0_sqr. assert (0 <= valF (cy v) * valF (cy v)) by apply Rle_0_sqr. assert (0 <= valF (cz v) * valF (cz v)) by apply Rle_0_sqr.
  rewrite (Rabs_pos_eq (valF (cz v) * valF (cz v))) in R3 by lra.
  set (z := valF (cz v) * valF (cz v)) in *. set (xy := valF (cx v) * valF (cx v) + valF (cy v) * valF (cy v)) in *.
  pose proof e_small as [e0 e1]. pose proof eta_e as [h0 h1]. set (e := ulp1) in *. assert (0 <= xy) by (unfold xy; lra). clearbody t w q z xy e.
  assert (0 <= e * z <= / 1000000000000 * z) by (apply mul_le; lra). assert (0 <= e * xy <= / 1000000000000 * xy) by (apply mul_le; lra).
  assert (e * / 21 <= e * (xy + z)) by (apply Rmult_le_compat_l; lra).
  apply abs_between in R2, R3. assert (A : Rabs (w + q) <= 1.001 * (xy + z)) by (apply Rabs_le; lra).
  pose proof (Rmult_le_compat_l e _ _ (Rlt_le _ _ e0) A). apply abs_between in R1. apply Rabs_le. lra.
Qed.
(** The normalised velocity. *)
Lemma normalised v : finV (scale v (invspeed v)) -> / 21 <= dotR (valV v) (valV v) <= 1.5 ->
  finF (invspeed v) -> finF (nsqrt (dot3 v v)) ->
  let N := valF (invspeed v) in let u := valV (scale v (invspeed v)) in
  Rabs (N * N * dotR (valV v) (valV v) - 1) <= 9 * ulp1 /\ 0 < N <= 5 /\ Rabs (dotR u u - 1) <= 12 * ulp1.
Proof.
  intros (F1 & F2 & F3) S FI FS. cbv zeta. destruct (sqrt_rounded _ FS) as (Fd & D0 & RS). pose proof (dot_self v Fd S) as D.
  destruct (div_rounded _ _ FI FS) as (_ & S0 & RI). fold (invspeed v) in RI. unfold rounded in RS, RI. rewrite val_n1 in RI.
  rewrite (Rabs_pos_eq (sqrt _)) in RS by apply sqrt_pos.
  pose proof e_small as E. pose proof eta_e as H. assert (H' : 0 <= eta <= / 1000000000000 * ulp1) by lra.
  destruct (inv_core _ _ _ _ _ _ E H' S D RS RI) as [A B]. split; [exact A|split; [exact B|]].
  unfold scale, valV in *; cbn [cx cy cz] in *.
  destruct (mul_rounded _ _ F1) as (_ & _ & M1). destruct (mul_rounded _ _ F2) as (_ & _ & M2). destruct (mul_rounded _ _ F3) as (_ & _ & M3).
  unfold rounded in *. unfold dotR in *; cbn [cx cy cz] in *. exact (scale_core _ _ _ _ _ _ _ _ _ E H' M1 M2 M3 A).
Qed.
Lemma val_neg1 : valF (nofZ (T := F64) (-1)) = -1. Proof. unfold valF; cbn. unfold two. simpl. lra. Qed.
Lemma flip_rounded a : finF (nmul a (nofZ (-1))) -> finF a /\ Rabs (valF (nmul a (nofZ (-1))) - - valF a) <= ulp1 * Rabs (valF a) + eta.
Proof.
  intros F. destruct (mul_rounded _ _ F) as (Fa & _ & R). split; [exact Fa|]. unfold rounded in R. rewrite val_neg1 in R.
  replace (valF a * -1) with (- valF a) in R by ring. rewrite Rabs_Ropp in R. exact R.
Qed.
Lemma inrange_unit : inrange (1.001 * 1.001) /\ 3 * (1.001 * 1.001) <= two 900.
Proof.
  destruct room_1 as [A B]. assert (two 3 = 8) by (unfold two; simpl; lra). assert (two 3 <= two 900) by (apply two_le; lia). unfold inrange.
  split; [split|]; lra.
Qed.
Lemma inrange_speed : inrange (1.3 * 1.3) /\ 3 * (1.3 * 1.3) <= two 900.
Proof.
  destruct room_1 as [A B]. assert (two 3 = 8) by (unfold two; simpl; lra). assert (two 3 <= two 900) by (apply two_le; lia). unfold inrange.
  split; [split|]; lra.
Qed.
Lemma comp_dot v B : 0 <= B -> dotR v v <= B * B -> Rabs (cx v) <= B /\ Rabs (cy v) <= B /\ Rabs (cz v) <= B.
Proof.
  intros B0 H. unfold dotR in H. assert (0 <= cx v * cx v) by apply Rle_0_sqr. assert (0 <= cy v * cy v) by apply Rle_0_sqr. assert (0 <= cz v * cz v) by apply Rle_0_sqr.
  assert (K : forall x, x * x <= B * B -> Rabs x <= B). { intros x X. apply Rsqr_le_abs_0 in X. rewrite (Rabs_pos_eq B) in X by lra. exact X. }
  conj; apply K; lra.
Qed.
Lemma speed_finite v : finV v -> / 21 <= dotR (valV v) (valV v) <= 1.5 -> finF (nsqrt (dot3 v v)).
Proof.
  intros Fv S. destruct inrange_speed as [I1 I2]. destruct (comp_dot (valV v) 1.3) as (C1 & C2 & C3); [lra|lra|]. cbn [cx cy cz valV] in C1, C2, C3.
  destruct Fv as (F1 & F2 & F3). pose proof ulp_small.
  assert (C : close (3 * (1.3 * 0 + 1.3 * 0 + 0 * 0) + 8 * ulp * (1.3 * 1.3)) (dot3 v v) (dotR (valV v) (valV v))).
  { unfold dot3, dotR, valV; cbn [cx cy cz]. apply close_dot3; trivial; try lra; apply fin_close; assumption. }
  destruct C as [Fd D]. apply abs_between in D. apply sqrt_finite; [exact Fd|lra|].
  apply Rle_lt_trans with (two 1); [|apply two_lt; lia]. assert (two 1 = 2) by (unfold two; simpl; lra). rewrite H0.
  apply Rle_trans with (sqrt (2 * 2)); [apply sqrt_le_1_alt; lra|]. rewrite sqrt_square; lra.
Qed.
(** The normal turned against the ray, and the cosine. *)
Lemma orient_core nv n : finV nv -> Rabs (dotR (valV nv) (valV nv) - 1) <= 12 * ulp1 -> Rabs (dotR (valV n) (valV n) - 1) <= 26 * ulp1 -> finV n ->
  let m := fst (orient nv n) in let al := snd (orient nv n) in finV m -> finF al ->
  Rabs (dotR (valV m) (valV m) - 1) <= 29 * ulp1 /\ Rabs (valF al - dotR (valV nv) (valV m)) <= 21 * ulp1.
Proof.
  intros Fu HU HN Fn. cbv zeta. pose proof e_small as [e0 e1]. pose proof eta_e as [h0 h1]. pose proof ulp_eq as UE.
  assert (BU : dotR (valV nv) (valV nv) <= 1.001 * 1.001) by (apply abs_between in HU; lra). assert (BN : dotR (valV n) (valV n) <= 1.001 * 1.001) by (apply abs_between in HN; lra).
  destruct (comp_dot _ 1.001 ltac:(lra) BU) as (U1 & U2 & U3). destruct (comp_dot _ 1.001 ltac:(lra) BN) as (N1 & N2 & N3). cbn [cx cy cz valV] in *.
  assert (LD : Rabs (dotR (valV nv) (valV n)) <= 1.001 * 1.001).
  { eapply Rle_trans; [apply dot_len|]. apply Rmult_le_compat; try (unfold lenR; apply sqrt_pos); apply len_le; lra. }
  destruct inrange_unit as [I1 I2]. destruct Fu as (Fu1 & Fu2 & Fu3). destruct Fn as (Fn1 & Fn2 & Fn3).
  assert (C : close (3 * (1.001 * 0 + 1.001 * 0 + 0 * 0) + 8 * ulp * (1.001 * 1.001)) (dot3 nv n) (dotR (valV nv) (valV n))).
  { unfold dot3, dotR, valV; cbn [cx cy cz]. apply close_dot3; trivial; try lra; apply fin_close; assumption. }
  destruct C as [Fd D]. unfold orient. destruct (nltb _ _); cbn [fst snd]; intros Fm Fa.
  2:{ split; [lra|]. rewrite UE in D. lra. }
  destruct Fm as (Fm1 & Fm2 & Fm3); cbn [cx cy cz] in *.
  destruct (flip_rounded _ Fm1) as [_ M1]. destruct (flip_rounded _ Fm2) as [_ M2]. destruct (flip_rounded _ Fm3) as [_ M3]. destruct (flip_rounded _ Fa) as [_ A].
  unfold valV, dotR in *; cbn [cx cy cz] in *.
  set (a := valF (nmul (dot3 nv n) (nofZ (-1)))) in *. set (d := valF (dot3 nv n)) in *.
  set (k1 := valF (nmul (cx n) (nofZ (-1)))) in *. set (k2 := valF (nmul (cy n) (nofZ (-1)))) in *. set (k3 := valF (nmul (cz n) (nofZ (-1)))) in *.
  set (x1 := valF (cx n)) in *. set (x2 := valF (cy n)) in *. set (x3 := valF (cz n)) in *. set (u1 := valF (cx nv)) in *. set (u2 := valF (cy nv)) in *. set (u3 := valF (cz nv)) in *.
  clearbody a d k1 k2 k3 x1 x2 x3 u1 u2 u3. set (e := ulp1) in *. clearbody e.
  assert (He : 0 <= e <= / 1000000) by lra. assert (Hh : 0 <= eta <= / 1000000) by lra.
  assert (Q : forall k x, Rabs (k - - x) <= e * Rabs x + eta -> Rabs (k * k - x * x) <= (2.01 * e + 1.01 * eta) * (x * x) + 1.01 * eta).
  { intros k x K. rewrite <- (Rabs_Ropp x) in K. pose proof (sq_err e eta _ _ He Hh K) as Z. replace (- x * - x) with (x * x) in Z by ring. exact Z. }
  pose proof (Q _ _ M1) as Q1. pose proof (Q _ _ M2) as Q2. pose proof (Q _ _ M3) as Q3. clear Q.
  assert (0 <= x1 * x1) by apply Rle_0_sqr. assert (0 <= x2 * x2) by apply Rle_0_sqr. assert (0 <= x3 * x3) by apply Rle_0_sqr.
  set (kk := 2.01 * e + 1.01 * eta) in *. assert (0 <= kk <= 2.02 * e) by (unfold kk; lra).
  assert (kk * (x1 * x1 + x2 * x2 + x3 * x3) <= 2.02 * e * 1.003) by (apply Rmult_le_compat; lra).
  split.
  { apply abs_between in Q1, Q2, Q3, HN. apply Rabs_le. lra. }
  assert (T : forall u k x, Rabs u <= 1.001 -> Rabs x <= 1.001 -> Rabs (k - - x) <= e * Rabs x + eta -> Rabs (u * (k - - x)) <= 1.01 * e).
  { intros u k x U X K. assert (L : Rabs (k - - x) <= e * 1.001 + eta) by (pose proof (Rmult_le_compat_l e _ _ (Rlt_le _ _ e0) X); lra).
    pose proof (abs_mul _ _ _ _ U L). lra. }
  pose proof (T _ _ _ U1 N1 M1) as T1. pose proof (T _ _ _ U2 N2 M2) as T2. pose proof (T _ _ _ U3 N3 M3) as T3. clear T.
  assert (Bd : Rabs d <= 1.01) by (eapply Rle_trans; [eapply abs_near; [exact D|exact LD]|]; lra).
  pose proof (Rmult_le_compat_l e _ _ (Rlt_le _ _ e0) Bd).
  apply abs_between in A, D, T1, T2, T3. apply Rabs_le. lra.
Qed.

Lemma refract_vel_some {T} `{Num T} (nv n : vec3 T) (al k1 k2 : T) w : refract_vel nv n al k1 k2 = Some w ->
  let eta := ndiv k1 k2 in let q := nmul (nmul eta eta) (nsub n1 (nmul al al)) in let f := nadd (nmul eta al) (nsqrt (nsub n1 q)) in
  w = V3 (ndiv (nsub (nmul eta (cx nv)) (nmul f (cx n))) k2) (ndiv (nsub (nmul eta (cy nv)) (nmul f (cy n))) k2) (ndiv (nsub (nmul eta (cz nv)) (nmul f (cz n))) k2).
Proof. unfold refract_vel. destruct (nltb _ _); [discriminate|]. intros E. injection E as <-. reflexivity. Qed.
(** One refraction: the outgoing speed is 1 / n2. *)
Theorem refract_speed v n n2_ w : finV v -> finV n -> / 21 <= dotR (valV v) (valV v) <= 1.5 -> Rabs (dotR (valV n) (valV n) - 1) <= 13 * ulp ->
  finF n2_ -> / 2 <= valF n2_ <= 5 -> 1 <= 3.9 * (valF n2_ * valF n2_ * dotR (valV v) (valV v)) ->
  let nv := scale v (invspeed v) in refract_vel nv (fst (orient nv n)) (snd (orient nv n)) (invspeed v) n2_ = Some w -> finV w ->
  Rabs (valF n2_ * valF n2_ * dotR (valV w) (valV w) - 1) <= 350 * ulp.
Proof.
  intros Fv Fn S HN F2 B2 Rt nv. pose proof ulp_eq as UE.
  assert (HN' : Rabs (dotR (valV n) (valV n) - 1) <= 26 * ulp1) by (rewrite UE in HN; lra).
  pose proof (speed_finite v Fv S) as FS. pose proof (orient_core nv n) as OC. cbv zeta in OC.
  set (m := fst (orient nv n)) in *. set (al := snd (orient nv n)) in *. clearbody m al. intros W. apply refract_vel_some in W. cbv zeta in W. rewrite W. clear W w. set (et := ndiv (invspeed v) n2_) in *.
  set (q := nmul (nmul et et) (nsub n1 (nmul al al))) in *. set (f := nadd (nmul et al) (nsqrt (nsub n1 q))) in *.
  intros (G1 & G2 & G3). cbn [cx cy cz] in G1, G2, G3.
  destruct (div_rounded _ _ G1 F2) as (H1 & N2 & D1). destruct (div_rounded _ _ G2 F2) as (H2 & _ & D2). destruct (div_rounded _ _ G3 F2) as (H3 & _ & D3).
  destruct (sub_rounded _ _ H1) as (A1 & B1 & S1). destruct (sub_rounded _ _ H2) as (A2 & B2' & S2). destruct (sub_rounded _ _ H3) as (A3 & B3 & S3).
  destruct (mul_rounded _ _ A1) as (Fe & Fu1 & Ma1). destruct (mul_rounded _ _ A2) as (_ & Fu2 & Ma2). destruct (mul_rounded _ _ A3) as (_ & Fu3 & Ma3).
  destruct (mul_rounded _ _ B1) as (Ff & Fm1 & Mb1). destruct (mul_rounded _ _ B2') as (_ & Fm2 & Mb2). destruct (mul_rounded _ _ B3) as (_ & Fm3 & Mb3).
  destruct (add_rounded _ _ Ff) as (Fg & Fs & Rf). fold f in Rf. destruct (mul_rounded _ _ Fg) as (_ & Fal & Rg). destruct (sqrt_rounded _ Fs) as (Fc & C0 & Rs).
  destruct (sub_rounded _ _ Fc) as (_ & Fq & Rc). destruct (mul_rounded _ _ Fq) as (Fe2 & Fo & Rq). fold q in Rq. destruct (mul_rounded _ _ Fe2) as (_ & _ & Re2).
  destruct (sub_rounded _ _ Fo) as (_ & Fal2 & Ro). destruct (mul_rounded _ _ Fal2) as (_ & _ & Ral2).
  rewrite val_n1 in Rc, Ro.
  assert (FU : finV nv) by (unfold finV; conj; assumption). assert (FM : finV m) by (unfold finV; conj; assumption).
  assert (FI : finF (invspeed v)) by (apply (mul_rounded (cx v) (invspeed v)); exact Fu1).
  destruct (normalised v FU S FI FS) as (Nn & N0 & Uu). fold nv in Uu.
  destruct (OC FU Uu HN' Fn FM Fal) as [MM AL]. clear OC.
  pose proof e_small as E. pose proof eta_e as H. assert (H' : 0 <= eta <= / 1000000000000 * ulp1) by lra.
  destruct (div_rounded _ _ Fe F2) as (_ & _ & Re). fold et in Re.
  assert (Et : 0 <= valF et <= 2).
  { unfold rounded in Re. set (N := valF (invspeed v)) in *. set (k := valF n2_) in *. set (SS := dotR (valV v) (valV v)) in *.
    assert (X1 : N / k <= 1.98).
    { apply Rmult_le_reg_r with k; [lra|]. unfold Rdiv. rewrite Rmult_assoc, Rinv_l, Rmult_1_r by lra.
      destruct (Rle_lt_dec N (1.98 * k)) as [L|L]; [exact L|exfalso].
      assert (1.98 * k * (1.98 * k) <= N * N) by (apply Rmult_le_compat; lra).
      assert (1.98 * k * (1.98 * k) * SS <= N * N * SS) by (apply Rmult_le_compat_r; lra). apply abs_between in Nn. lra. }
    assert (X0 : 0.1 <= N / k).
    { apply Rmult_le_reg_r with k; [lra|]. unfold Rdiv. rewrite Rmult_assoc, Rinv_l, Rmult_1_r by lra.
      destruct (Rle_lt_dec (0.1 * k) N) as [L|L]; [exact L|exfalso]. assert (N * N <= 0.5 * 0.5) by (apply Rmult_le_compat; lra).
      assert (N * N * SS <= 0.5 * 0.5 * 1.5) by (apply Rmult_le_compat; try lra; apply Rmult_le_pos; lra). apply abs_between in Nn. lra. }
    rewrite (Rabs_pos_eq (N / k)) in Re by lra. assert (ulp1 * (N / k) <= ulp1 * 1.98) by (apply Rmult_le_compat_l; lra). apply abs_between in Re. lra. }
  unfold rounded in *. unfold dotR, valV in *; cbn [cx cy cz] in *. fold et in Ma1, Ma2, Ma3, Rg, Re2.
  assert (S29 : 29 * ulp1 <= / 1000) by lra. assert (S12 : 12 * ulp1 <= / 1000) by lra. assert (S607 : 607 * ulp1 <= / 1000) by lra.
  pose proof (sk_W _ _ _ _ _ _ _ _ _ _ _ _ _ _ _ _ _ _ E H' Uu MM AL Et Ral2 Ro Re2 Rq Rc C0 Rs Rg Rf) as WW.
  assert (rot : forall a b c, a + b + c = b + c + a) by (intros; ring).
  assert (CU1 := comp_le _ _ _ _ Uu S12). assert (CM1 := comp_le _ _ _ _ MM S29). assert (CW1 := comp_le _ _ _ _ WW S607).
  assert (Uu2 := Uu). rewrite rot in Uu2. assert (MM2 := MM). rewrite rot in MM2. assert (WW2 := WW). rewrite rot in WW2.
  assert (CU2 := comp_le _ _ _ _ Uu2 S12). assert (CM2 := comp_le _ _ _ _ MM2 S29). assert (CW2 := comp_le _ _ _ _ WW2 S607).
  rewrite rot in Uu2, MM2, WW2.
  assert (CU3 := comp_le _ _ _ _ Uu2 S12). assert (CM3 := comp_le _ _ _ _ MM2 S29). assert (CW3 := comp_le _ _ _ _ WW2 S607).
  pose proof (fun u k W a b w v => sk_comp _ _ _ _ _ _ _ _ _ _ _ _ _ _ _ _ _ _ _ E H' Uu MM AL Et Ral2 Ro Re2 Rq Rc C0 Rs Rg Rf B2 u k W a b w v) as K.
  pose proof (K _ _ _ _ _ _ _ eq_refl CU1 CM1 CW1 Ma1 Mb1 S1 D1) as K1.
  pose proof (K _ _ _ _ _ _ _ eq_refl CU2 CM2 CW2 Ma2 Mb2 S2 D2) as K2.
  pose proof (K _ _ _ _ _ _ _ eq_refl CU3 CM3 CW3 Ma3 Mb3 S3 D3) as K3.
  apply abs_between in K1, K2, K3, WW. rewrite UE. apply Rabs_le. unfold W1, W2, W3 in *. lra.
Qed.
Lemma refract_cases {T} `{Num T} s dr d m2 co niter (r : ray T) : let r' := ray_refract s dr d m2 co niter r in let v := fwd_vel d (vel r) in
  let nv := scale v (invspeed v) in let n := normal s (cx (pos r')) (cy (pos r')) in failed r' = false ->
  failed r = false /\ wavelength r' = wavelength r /\
  refract_vel nv (fst (orient nv n)) (snd (orient nv n)) (invspeed v) (getN m2 (wavelength r)) = Some (vel r').
Proof.
  cbv zeta. unfold ray_refract. destruct (failed r) eqn:F; [congruence|]. destruct (hit _ _ _ _) as [[] dt]; [|discriminate].
  set (p := advance _ _ _). set (nv := scale _ _). destruct (orient nv (normal s (cx p) (cy p))) as [n al] eqn:O.
  destruct (refract_vel _ _ _ _ _) as [w|] eqn:W; [|discriminate]. cbn [failed pos vel wavelength]. intros _. split; [reflexivity|split; [reflexivity|]].
  rewrite O. exact W.
Qed.
Lemma lenses_failed niter l : forall rv i r r', nth_error (rays rv) i = Some r -> nth_error (rays (lenses niter l rv)) i = Some r' -> failed r' = false -> failed r = false.
Proof.
  induction l as [|[[[[s c] m1] m2] co] l IH]; intros rv i r r' Hi Hi' Nf.
  - cbn [lenses fold_left] in Hi'. congruence.
  - set (ct := mkCT (rvcs rv) c). set (r1 := ray_refract s (ct_dr ct) (ct_drot ct) m2 co niter r).
    assert (Hi1 : nth_error (rays (rv_refract niter s m1 m2 (Some c) co rv)) i = Some r1) by (unfold rv_refract, batch; cbn [rays dest]; rewrite nth_error_map, Hi; reflexivity).
    pose proof (IH _ i r1 r' Hi1 Hi' Nf) as N1. exact (proj1 (refract_cases s (ct_dr ct) (ct_drot ct) m2 co niter r N1)).
Qed.
Theorem lenses_speed niter tau l : tau <= / 10000 -> forall n rv i r r', nth_error (rays rv) i = Some r -> nth_error (rays (lenses niter l rv)) i = Some r' ->
  Forall (fun c => finC c /\ nearly_orthonormal tau (valM (rot c))) (rvcs rv :: map (fun m => snd (fst (fst (fst m)))) l) -> ordinary niter i n l rv ->
  0.9 <= n <= 4 -> finV (vel r) -> Rabs (n * n * dotR (valV (vel r)) (valV (vel r)) - 1) <= 350 * ulp -> failed r' = false ->
  let n' := last_index n (wavelength r) l in finV (vel r') /\ Rabs (n' * n' * dotR (valV (vel r')) (valV (vel r')) - 1) <= 350 * ulp.
Proof.
  intros T. pose proof ulp_small as [U0 U1]. induction l as [|[[[[s c] m1] m2] co] l IH]; intros n rv i r r' Hi Hi' FF G Hn Fv Hv Nf.
  - cbn [lenses fold_left] in Hi'. rewrite Hi in Hi'. apply (f_equal (fun o => match o with Some x => x | None => r end)) in Hi'. cbv beta iota in Hi'. rewrite <- Hi'. cbv zeta. cbn [last_index fold_left].
    split; assumption.
  - cbn [map fst snd] in FF. inversion FF as [|? ? (Cf & Of) F' E1]; subst. inversion F' as [|? ? (Cc & Nc) F'' E2]; subst.
    cbn [ordinary] in G.
    set (rv1 := rv_refract niter s m1 m2 (Some c) co rv) in *. set (ct := mkCT (rvcs rv) c) in *. set (r1 := ray_refract s (ct_dr ct) (ct_drot ct) m2 co niter r).
    assert (Hi1 : nth_error (rays rv1) i = Some r1) by (unfold rv1, rv_refract, batch; cbn [rays dest]; rewrite nth_error_map, Hi; reflexivity).
    change (lenses niter ((s, c, m1, m2, co) :: l) rv) with (lenses niter l rv1) in Hi'.
    assert (Nf1 : failed r1 = false) by exact (lenses_failed niter l rv1 i r1 r' Hi1 Hi' Nf).
    destruct (refract_cases s (ct_dr ct) (ct_drot ct) m2 co niter r Nf1) as (_ & Wl & RV). fold r1 in Wl, RV.
    destruct (G r1 Hi1 Nf1) as (M & Fn & Sn & F1 & Fi & Bi & Bn & G'). rewrite Wl in *. pose proof (normal_unit _ _ _ M Fn Sn) as NU. unfold nearly in NU.
    set (k := getN m2 (wavelength r)) in *.
    set (nn := normal s (cx (pos r1)) (cy (pos r1))) in *. clearbody nn. set (V := dotR (valV (vel r)) (valV (vel r))) in *. apply abs_between in Hv.
    assert (nn2 : 0.81 <= n * n <= 16). { split; [replace 0.81 with (0.9 * 0.9) by lra|replace 16 with (4 * 4) by lra]; apply Rmult_le_compat; lra. }
    assert (V0 : 0 <= V) by apply dot_nonneg.
    assert (V1 : V <= 1.3). { assert (0.81 * V <= n * n * V) by (apply Rmult_le_compat_r; lra). lra. }
    assert (V2 : / 17 <= V). { assert (n * n * V <= 16 * V) by (apply Rmult_le_compat_r; lra). lra. }
    assert (Lv : lenR (valV (vel r)) <= 1.2) by (apply len_le; fold V; lra).
    assert (T' : tau <= / 100) by lra. pose proof (nearly_tau _ _ (proj1 Of)) as T0.
    destruct (frame_speed tau (rvcs rv) c (vel r) Cf Cc T' Of Nc Fv Lv) as [Fw Hw]. fold ct in Fw, Hw. fold V in Hw.
    set (w := fwd_vel (ct_drot ct) (vel r)) in *. apply abs_between in Hw.
    assert (K : finV (vel r1) /\ Rabs (valF k * valF k * dotR (valV (vel r1)) (valV (vel r1)) - 1) <= 350 * ulp).
    { split; [exact F1|]. apply (refract_speed w nn k (vel r1)); trivial; try lra.
      assert (B1 : n * n <= (1.9 * valF k) * (1.9 * valF k)) by (apply Rmult_le_compat; lra).
      assert (B3 : n * n * dotR (valV w) (valV w) <= (1.9 * valF k) * (1.9 * valF k) * dotR (valV w) (valV w)) by (apply Rmult_le_compat_r; [apply dot_nonneg|exact B1]).
      assert (B4 : 0.98 <= n * n * dotR (valV w) (valV w)).
      { assert (n * n * (V - 0.0011) <= n * n * dotR (valV w) (valV w)) by (apply Rmult_le_compat_l; lra). lra. }
      lra. }
    destruct K as [_ K].
    assert (Kn : 0.9 <= valF k <= 4) by exact Bi.
    pose proof (IH (valF k) rv1 i r1 r' Hi1 Hi' F' G' Kn F1 K Nf) as Z. cbv zeta in Z |- *. rewrite Wl in Z. exact Z.
Qed.
