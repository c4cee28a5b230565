(** C47, C48: refractive indices. *)
From Coq Require Import Reals List ZArith Bool Lra Psatz Lia.
From Verif Require Import Num NumR Medium XRFacts MediaSpec.
Import ListNotations.
Open Scope R_scope.

(** *** Tables *)
Lemma nth_map_fin l i : nth_error (map Fin l) i = option_map Fin (nth_error l i).
Proof. apply nth_error_map. Qed.
Lemma search_found args w i al au k d : increasing args ->
  nth_error args i = Some al -> nth_error args (S i) = Some au -> al <= w < au ->
  (S i = k + d)%nat -> (1 <= k)%nat -> forall n, (d < n)%nat ->
  table_search (map Fin args) (Fin w) k n = S i.
Proof.
  intros Hi Ha Hu Hw. revert k. induction d as [|d IH]; intros k Hk H1 n Hn; (destruct n as [|n]; [lia|]);
    cbn [table_search]; rewrite nth_map_fin.
  - replace k with (S i) by lia. rewrite Hu. cbn [option_map]. cbn [nltb NumXR]. rewrite xltb_t by lra. reflexivity.
  - destruct (nth_error args k) as [b|] eqn:E.
    + cbn [option_map nltb NumXR]. rewrite xltb_f.
      * apply IH; lia.
      * destruct (Nat.eq_dec k i) as [->|Hne].
        -- rewrite Ha in E. injection E; intros <-; lra.
        -- assert (b < al) by (apply (Hi k i); [lia|assumption|assumption]). lra.
    + exfalso. apply nth_error_None in E. assert (i < length args)%nat by (apply nth_error_Some; congruence). lia.
Qed.
Lemma increasing_le l i j a b : increasing l -> (i <= j)%nat -> nth_error l i = Some a -> nth_error l j = Some b -> a <= b.
Proof.
  intros H Hij Ha Hb. destruct (Nat.eq_dec i j) as [->|]; [rewrite Ha in Hb; injection Hb; lra|].
  apply Rlt_le. apply (H i j); auto. lia.
Qed.
Lemma ends (l : list R) : l <> [] -> exists a0 aN, nth_error l 0 = Some a0 /\ nth_error l (length l - 1) = Some aN.
Proof.
  intros H. destruct (nth_error l 0) as [a0|] eqn:E0.
  - destruct (nth_error l (length l - 1)) as [aN|] eqn:EN; [eauto|]. exfalso.
    apply nth_error_None in EN. destruct l; [congruence|cbn in EN; lia].
  - apply nth_error_None in E0. destruct l; [congruence|cbn in E0; lia].
Qed.
Lemma table_between args vals i al vl au vu w : increasing args -> rows args vals i al vl au vu -> al <= w < au ->
  table_getN (map Fin args) (map Fin vals) (Fin w) = Some (Fin (chord al vl au vu w)).
Proof.
  intros Hi (Ha & Hv & Hu & Hvu) Hw. unfold table_getN. rewrite map_length, !nth_map_fin.
  assert (Hl : (S i < length args)%nat) by (apply nth_error_Some; congruence).
  destruct (ends args) as (a0 & aN & E0 & EN); [destruct args; [destruct i; discriminate|discriminate]|].
  rewrite E0, EN. cbn [option_map nltb NumXR].
  assert (a0 <= al) by (apply (increasing_le args 0 i); auto; lia).
  assert (au <= aN) by (apply (increasing_le args (S i) (length args - 1)); auto; lia).
  rewrite !xltb_f by lra.
  rewrite (search_found args w i al au 1 i) by (auto; lia).
  replace (S i - 1)%nat with i by lia. rewrite Ha, Hu, Hv, Hvu. cbn [option_map].
  unfold chord. xunf. rewrite xdiv_fin by lra. cbn [xadd]. do 2 f_equal. field. lra.
Qed.
Lemma chord_between al vl au vu w : al <= w < au -> Rmin vl vu <= chord al vl au vu w <= Rmax vl vu.
Proof.
  intros H. unfold chord. assert (0 <= (w - al) / (au - al) <= 1).
  { split.
    - apply Rmult_le_pos; [lra|]. apply Rlt_le, Rinv_0_lt_compat; lra.
    - apply (Rmult_le_reg_r (au - al)); [lra|]. unfold Rdiv. rewrite Rmult_assoc, Rinv_l by lra. lra. }
  set (f := (w - al) / (au - al)) in *. unfold Rmin, Rmax. destruct (Rle_dec vl vu); nra.
Qed.
Theorem table_interpolates : forall args vals i al vl au vu w,
  increasing args -> rows args vals i al vl au vu -> al <= w < au ->
  table_getN (map Fin args) (map Fin vals) (Fin w) = Some (Fin (chord al vl au vu w)) /\
  Rmin vl vu <= chord al vl au vu w <= Rmax vl vu /\
  getN (TableM (map Fin args) (map Fin vals)) (Fin w) = Fin (chord al vl au vu w).
Proof.
  intros args vals i al vl au vu w Hi Hr Hw. pose proof (table_between _ _ _ _ _ _ _ _ Hi Hr Hw) as E.
  split; [exact E|]. split; [apply chord_between, Hw|]. cbn [getN]. rewrite E. reflexivity.
Qed.
Theorem table_nodes : forall args vals i al vl au vu,
  increasing args -> rows args vals i al vl au vu ->
  table_getN (map Fin args) (map Fin vals) (Fin al) = Some (Fin vl).
Proof.
  intros args vals i al vl au vu Hi Hr. assert (al < au).
  { destruct Hr as (H1 & _ & H2 & _). apply (Hi i (S i)); auto. }
  rewrite (table_between _ _ i al vl au vu) by (auto; lra). do 2 f_equal. unfold chord. field. lra.
Qed.
Theorem table_outside : forall args vals a0 aN w,
  nth_error args 0 = Some a0 -> nth_error args (length args - 1) = Some aN -> w < a0 \/ aN < w ->
  table_getN (map Fin args) (map Fin vals) (Fin w) = Some NaN.
Proof.
  intros args vals a0 aN w H0 HN Hw. unfold table_getN. rewrite map_length, !nth_map_fin, H0, HN.
  cbn [option_map nltb NumXR]. destruct (Rlt_dec w a0) as [L|L].
  - rewrite xltb_t by lra. reflexivity.
  - rewrite xltb_f by lra. rewrite xltb_t by lra. reflexivity.
Qed.
Lemma search_end args w : (forall k a, (1 <= k)%nat -> nth_error args k = Some a -> a <= w) ->
  forall n k, (1 <= k)%nat -> (k + n = length args)%nat -> table_search (map Fin args) (Fin w) k n = length args.
Proof.
  intros H. induction n as [|n IH]; intros k H1 Hk; cbn [table_search]; [lia|].
  rewrite nth_map_fin. destruct (nth_error args k) as [b|] eqn:E; cbn [option_map].
  - cbn [nltb NumXR]. rewrite xltb_f by (eapply H; eassumption). apply IH; lia.
  - apply nth_error_None in E. lia.
Qed.
(** At the last tabulated wavelength the search runs off the end of the table. *)
Theorem table_last : forall args vals a0 aN,
  increasing args -> length vals = length args ->
  nth_error args 0 = Some a0 -> nth_error args (length args - 1) = Some aN ->
  table_getN (map Fin args) (map Fin vals) (Fin aN) = None.
Proof.
  intros args vals a0 aN Hi Hl H0 HN. unfold table_getN. rewrite map_length, !nth_map_fin, H0, HN. cbn [option_map nltb NumXR].
  assert (Hp : (0 < length args)%nat) by (apply nth_error_Some; congruence).
  assert (a0 <= aN) by (apply (increasing_le args 0 (length args - 1)); auto; lia).
  rewrite !xltb_f by lra. rewrite (search_end args aN).
  - rewrite (proj2 (nth_error_None args (length args))) by lia.
    destruct (nth_error args (length args - 1)); reflexivity.
  - intros k a Hk Ha. apply (increasing_le args k (length args - 1)); auto.
    assert (k < length args)%nat by (apply nth_error_Some; congruence). lia.
  - lia.
  - lia.
Qed.

(** *** Formulas *)
Lemma micron2 w : w * w * 1000000000000 = microns w ^ 2.
Proof. unfold microns. ring. Qed.
Theorem sellmeier_formula : forall B1 B2 B3 C1 C2 C3 w,
  microns w ^ 2 <> C1 -> microns w ^ 2 <> C2 -> microns w ^ 2 <> C3 ->
  0 <= sellmeier B1 B2 B3 C1 C2 C3 (microns w) ->
  getN (SellmeierM (Fin B1) (Fin B2) (Fin B3) (Fin C1) (Fin C2) (Fin C3)) (Fin w) =
  Fin (sqrt (sellmeier B1 B2 B3 C1 C2 C3 (microns w))).
Proof.
  intros B1 B2 B3 C1 C2 C3 w H1 H2 H3 H. cbn [getN]. unfold sellmeier_getN. xunf. rewrite micron2.
  rewrite !xdiv_fin by lra. cbn [xadd]. apply xsqrt_fin. exact H.
Qed.
Lemma sellmeier_term B C x : x <> C -> B * x / (x - C) = B + B * C / (x - C).
Proof. intros H. field. lra. Qed.
Lemma pole_mono B C x y : 0 <= B -> 0 <= C -> C < x <= y -> B * C / (y - C) <= B * C / (x - C).
Proof.
  intros HB HC H. unfold Rdiv. apply Rmult_le_compat_l; [nra|]. apply Rinv_le_contravar; lra.
Qed.
Theorem sellmeier_dispersion : forall B1 B2 B3 C1 C2 C3 w1 w2,
  0 <= B1 -> 0 <= B2 -> 0 <= B3 -> 0 <= C1 -> 0 <= C2 -> 0 <= C3 ->
  0 < w1 <= w2 -> C1 < microns w1 ^ 2 -> C2 < microns w1 ^ 2 -> C3 < microns w1 ^ 2 ->
  exists m1 m2, let glass := SellmeierM (Fin B1) (Fin B2) (Fin B3) (Fin C1) (Fin C2) (Fin C3) in
    getN glass (Fin w1) = Fin m1 /\ getN glass (Fin w2) = Fin m2 /\ 1 <= m2 <= m1.
Proof.
  intros B1 B2 B3 C1 C2 C3 w1 w2 HB1 HB2 HB3 HC1 HC2 HC3 Hw H1 H2 H3.
  assert (Hm : microns w1 ^ 2 <= microns w2 ^ 2) by (unfold microns; nra).
  assert (L2 : 1 <= sellmeier B1 B2 B3 C1 C2 C3 (microns w2)).
  { unfold sellmeier. assert (P : forall B C, 0 <= B -> 0 <= C -> C < microns w2 ^ 2 -> 0 <= B * microns w2 ^ 2 / (microns w2 ^ 2 - C)).
    { intros B C HB HC HL. apply Rmult_le_pos; [nra|]. apply Rlt_le, Rinv_0_lt_compat; lra. }
    pose proof (P B1 C1 HB1 HC1 ltac:(lra)). pose proof (P B2 C2 HB2 HC2 ltac:(lra)). pose proof (P B3 C3 HB3 HC3 ltac:(lra)). lra. }
  assert (L1 : sellmeier B1 B2 B3 C1 C2 C3 (microns w2) <= sellmeier B1 B2 B3 C1 C2 C3 (microns w1)).
  { unfold sellmeier. rewrite !sellmeier_term by lra.
    pose proof (pole_mono B1 C1 (microns w1 ^ 2) (microns w2 ^ 2) HB1 HC1 ltac:(lra)).
    pose proof (pole_mono B2 C2 (microns w1 ^ 2) (microns w2 ^ 2) HB2 HC2 ltac:(lra)).
    pose proof (pole_mono B3 C3 (microns w1 ^ 2) (microns w2 ^ 2) HB3 HC3 ltac:(lra)). lra. }
  eexists _, _. cbv zeta. split; [apply sellmeier_formula; lra|]. split; [apply sellmeier_formula; lra|].
  split; [rewrite <- sqrt_1 at 1|]; apply sqrt_le_1_alt; assumption.
Qed.
Theorem sumita_formula : forall A0 A1 A2 A3 A4 A5 w, w <> 0 ->
  0 <= sumita A0 A1 A2 A3 A4 A5 (microns w) ->
  getN (SumitaM (Fin A0) (Fin A1) (Fin A2) (Fin A3) (Fin A4) (Fin A5)) (Fin w) =
  Fin (sqrt (sumita A0 A1 A2 A3 A4 A5 (microns w))).
Proof.
  intros A0 A1 A2 A3 A4 A5 w Hw H. assert (Hm : microns w <> 0) by (unfold microns; lra).
  cbn [getN]. unfold sumita_getN. xunf. rewrite micron2.
  rewrite !xdiv_fin by (apply pow_nonzero, Hm). cbn [xadd xmul].
  replace (A0 + A1 * microns w ^ 2 + _) with (sumita A0 A1 A2 A3 A4 A5 (microns w)); [apply xsqrt_fin, H|].
  unfold sumita. field. exact Hm.
Qed.
Theorem air_formula : forall p t h w, w <> 0 -> / (microns w) ^ 2 <> 146 -> / (microns w) ^ 2 <> 41 ->
  warm (celsius t) <> 0 ->
  getN (AirM (Fin p) (Fin t) (Fin h)) (Fin w) = Fin (air p t h w).
Proof.
  intros p t h w Hw H146 H41 HT. cbn [getN]. unfold air_getN. xunf.
  assert (Hww : w * w <> 0) by (apply Rmult_integral_contrapositive_currified; assumption).
  rewrite (xdiv_fin (1 / 1000000000000)) by assumption.
  replace (1 / 1000000000000 / (w * w)) with (/ microns w ^ 2) by (unfold microns; field; exact Hw).
  set (s := / microns w ^ 2) in *. unfold warm, celsius in HT. cbn [xsub xadd xmul].
  rewrite !xdiv_fin by lra. cbn [xadd xmul].
  cbn [xmul xsub xadd].
  f_equal. unfold air. fold s. unfold refractivity, dry_air, warm, celsius, mmHg in *. field. repeat split; lra.
Qed.

(** Air in ordinary weather: the index as a function of s. *)
Lemma weather_bounds p t h : weather p t h ->
  0 < mmHg p <= 7501 /\ 7 / 10 <= warm (celsius t) /\ 0 <= mmHg h <= mmHg p /\
  99 / 100 <= 1 + (1049 / 1000 - 157 / 10000 * celsius t) / 1000000 * mmHg p.
Proof.
  intros (Hp & Ht & Hh). unfold mmHg, celsius, warm. repeat split; try lra.
  assert (0 < p * (750061683 / 100000000) <= 7501) by lra. set (P := p * (750061683 / 100000000)) in *.
  assert (- 1 <= 1049 / 1000 - 157 / 10000 * (t - 27315 / 100)) by lra.
  set (c := 1049 / 1000 - 157 / 10000 * (t - 27315 / 100)) in *. nra.
Qed.
Lemma pole_incr c x y : 0 < c -> y < c -> x < y -> / (c - x) < / (c - y).
Proof. intros. apply Rinv_lt_contravar; [apply Rmult_lt_0_compat; lra|lra]. Qed.
Lemma dry_incr x y : x < y -> y < 41 -> dry_air x < dry_air y.
Proof.
  intros H Hy. unfold dry_air. pose proof (pole_incr 146 x y ltac:(lra) ltac:(lra) H).
  pose proof (pole_incr 41 x y ltac:(lra) Hy H). unfold Rdiv. lra.
Qed.
Lemma dry_zero : 272 <= dry_air 0.
Proof. unfold dry_air. lra. Qed.
Lemma refr_incr p t h x y : weather p t h -> x < y -> y < 41 ->
  refractivity (mmHg p) (celsius t) (mmHg h) x < refractivity (mmHg p) (celsius t) (mmHg h) y.
Proof.
  intros Hw Hxy Hy. destruct (weather_bounds _ _ _ Hw) as (HP & HD & HF & HK). unfold refractivity.
  set (P := mmHg p) in *. set (F := mmHg h) in *. set (D := warm (celsius t)) in *.
  set (K := 1 + (1049 / 1000 - 157 / 10000 * celsius t) / 1000000 * P) in *.
  pose proof (dry_incr x y Hxy Hy) as Hd.
  assert (HPK : 0 < P * K) by nra. assert (HI : 0 < / D) by (apply Rinv_0_lt_compat; lra).
  replace (dry_air x * P * K / (720883 / 1000 * D)) with (dry_air x * (P * K) * (1000 / 720883) * / D) by (field; lra).
  replace (dry_air y * P * K / (720883 / 1000 * D)) with (dry_air y * (P * K) * (1000 / 720883) * / D) by (field; lra).
  replace ((624 / 10000 - 680 / 1000000 * x) / D * F) with ((624 / 10000 - 680 / 1000000 * x) * F * / D) by (field; lra).
  replace ((624 / 10000 - 680 / 1000000 * y) / D * F) with ((624 / 10000 - 680 / 1000000 * y) * F * / D) by (field; lra).
  rewrite <- !Rmult_minus_distr_r. apply Rmult_lt_compat_r; [exact HI|].
  assert (dry_air x * (P * K) < dry_air y * (P * K)) by (apply Rmult_lt_compat_r; assumption).
  assert ((624 / 10000 - 680 / 1000000 * y) * F <= (624 / 10000 - 680 / 1000000 * x) * F) by (apply Rmult_le_compat_r; lra).
  lra.
Qed.
Lemma refr_pos p t h s : weather p t h -> 0 <= s < 41 -> 0 < refractivity (mmHg p) (celsius t) (mmHg h) s.
Proof.
  intros Hw Hs. apply Rlt_le_trans with (refractivity (mmHg p) (celsius t) (mmHg h) 0).
  2:{ destruct (Req_dec s 0) as [->|]; [lra|]. apply Rlt_le, refr_incr; auto; lra. }
  destruct (weather_bounds _ _ _ Hw) as (HP & HD & HF & HK). unfold refractivity.
  set (P := mmHg p) in *. set (F := mmHg h) in *. set (D := warm (celsius t)) in *.
  set (K := 1 + (1049 / 1000 - 157 / 10000 * celsius t) / 1000000 * P) in *.
  pose proof dry_zero as H0. assert (HI : 0 < / D) by (apply Rinv_0_lt_compat; lra).
  replace (dry_air 0 * P * K / (720883 / 1000 * D) - (624 / 10000 - 680 / 1000000 * 0) / D * F) with
    ((dry_air 0 * (P * K) * (1000 / 720883) - 624 / 10000 * F) * / D) by (field; lra).
  apply Rmult_lt_0_compat; [|exact HI].
  assert (99 / 100 * P <= P * K) by nra. assert (272 * (99 / 100 * P) <= dry_air 0 * (P * K)) by (apply Rmult_le_compat; nra).
  lra.
Qed.
Lemma beyond_uv_real p t h w : weather p t h -> beyond_uv w ->
  getN (AirM (Fin p) (Fin t) (Fin h)) (Fin w) = Fin (air p t h w).
Proof.
  intros Hw [H0 H41]. destruct (weather_bounds _ _ _ Hw) as (_ & HD & _). apply air_formula; lra.
Qed.
Lemma inv_micron_pos w : 0 < w -> 0 < / (microns w) ^ 2.
Proof. intros H. apply Rinv_0_lt_compat, pow_lt. unfold microns. lra. Qed.
Theorem air_above_one : forall p t h w, weather p t h -> beyond_uv w ->
  exists n, getN (AirM (Fin p) (Fin t) (Fin h)) (Fin w) = Fin n /\ 1 < n.
Proof.
  intros p t h w Hw Hb. eexists. split; [apply beyond_uv_real; assumption|]. destruct Hb as [H0 H41].
  unfold air. pose proof (refr_pos p t h (/ microns w ^ 2) Hw) as H. pose proof (inv_micron_pos w H0). lra.
Qed.
Theorem air_dispersion : forall p t h w1 w2, weather p t h -> beyond_uv w1 -> w1 < w2 ->
  exists m1 m2, getN (AirM (Fin p) (Fin t) (Fin h)) (Fin w1) = Fin m1 /\
    getN (AirM (Fin p) (Fin t) (Fin h)) (Fin w2) = Fin m2 /\ m2 < m1.
Proof.
  intros p t h w1 w2 Hw [H0 H41] H. assert (HI : / microns w2 ^ 2 < / microns w1 ^ 2).
  { unfold microns. apply Rinv_lt_contravar; [apply Rmult_lt_0_compat; apply pow_lt; lra|]. nra. }
  eexists _, _. split; [apply beyond_uv_real; [assumption|split; assumption]|].
  split; [apply beyond_uv_real; [assumption|split; lra]|].
  unfold air. pose proof (refr_incr p t h _ _ Hw HI H41). lra.
Qed.
