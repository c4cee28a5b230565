(** Obscurations in doubles decide as in exact arithmetic, away from the edges. *)
From Coq Require Import Reals ZArith List Bool Lra Lia Floats.SpecFloat.
From Verif Require Import Num NumR NumF Vec CoordSys Ray Bundle XRFacts Obscuration ObscSpec ObscProofs FloatSpec FloatProofs FloatErr FloatCmp EdgeSpec.
Import ListNotations.
Open Scope R_scope.

Definition dbl (a : F64) : Prop := finF a /\ valid a.
Lemma double_dbl B a : double B a -> dbl a. Proof. intros [[F _] V]. split; assumption. Qed.

Lemma same_ltb a b : dbl a -> dbl b -> nltb a b = nltb (exact a) (exact b).
Proof.
  intros [Fa Va] [Fb Vb]. pose proof (ltb_ok a b Fa Fb Va Vb) as H. unfold exact. cbn [nltb NumXR xltb].
  destruct (Rlt_dec (valF a) (valF b)) as [L|L]; [apply H; exact L|]. destruct (nltb a b); [|reflexivity]. exfalso. apply L, H. reflexivity.
Qed.
Lemma same_leb a b : dbl a -> dbl b -> nleb a b = nleb (exact a) (exact b).
Proof.
  intros [Fa Va] [Fb Vb]. pose proof (leb_ok a b Fa Fb Va Vb) as H. unfold exact. cbn [nleb NumXR xleb].
  destruct (Rle_dec (valF a) (valF b)) as [L|L]; [apply H; exact L|]. destruct (nleb a b); [|reflexivity]. exfalso. apply L, H. reflexivity.
Qed.
Lemma same_eqb a b : dbl a -> dbl b -> neqb a b = neqb (exact a) (exact b).
Proof.
  intros [Fa Va] [Fb Vb]. pose proof (eqb_ok a b Fa Fb Va Vb) as H. unfold exact. cbn [neqb NumXR xeqb].
  destruct (Req_EM_T (valF a) (valF b)) as [L|L]; [apply H; exact L|]. destruct (neqb a b); [|reflexivity]. exfalso. apply L, H. reflexivity.
Qed.
(** Two computed numbers compare as the exact ones when these are further apart than the errors. *)
Lemma far_ltb e f a b x y : close e a x -> close f b y -> valid a -> valid b -> e + f < Rabs (x - y) -> nltb a b = nltb (Fin x) (Fin y).
Proof.
  intros [Fa Ha] [Fb Hb] Va Vb D. rewrite same_ltb by (split; assumption). unfold exact. cbn [nltb NumXR xltb].
  assert (A : - e <= valF a - x <= e) by (unfold Rabs in Ha; destruct (Rcase_abs _); lra).
  assert (B : - f <= valF b - y <= f) by (unfold Rabs in Hb; destruct (Rcase_abs _); lra).
  unfold Rabs in D. destruct (Rcase_abs (x - y)); destruct (Rlt_dec (valF a) (valF b)), (Rlt_dec x y); try reflexivity; exfalso; lra.
Qed.
Lemma far_leb e f a b x y : close e a x -> close f b y -> valid a -> valid b -> e + f < Rabs (x - y) -> nleb a b = nleb (Fin x) (Fin y).
Proof.
  intros [Fa Ha] [Fb Hb] Va Vb D. rewrite same_leb by (split; assumption). unfold exact. cbn [nleb NumXR xleb].
  assert (A : - e <= valF a - x <= e) by (unfold Rabs in Ha; destruct (Rcase_abs _); lra).
  assert (B : - f <= valF b - y <= f) by (unfold Rabs in Hb; destruct (Rcase_abs _); lra).
  unfold Rabs in D. destruct (Rcase_abs (x - y)); destruct (Rle_dec (valF a) (valF b)), (Rle_dec x y); try reflexivity; exfalso; lra.
Qed.
Lemma itself a : finF a -> close 0 a (valF a).
Proof. intros F. split; [exact F|]. rewrite Rminus_diag_eq by reflexivity. rewrite Rabs_R0. lra. Qed.

Lemma mid_room S : midrange S -> inrange4 S.
Proof. intros [L U]. split; [apply Rle_trans with (two (-400)); [apply two_le; lia|exact L] | apply Rle_trans with (two 400); [exact U|apply two_le; lia]]. Qed.
Lemma mid_pos S : midrange S -> 0 < S. Proof. intros M. apply room_pos, mid_room, M. Qed.
Lemma room1 S : inrange4 S -> inrange S. Proof. intros H. replace S with (1 * S) by ring. apply room; [exact H|lra]. Qed.

(** ** The distance to a point *)
Lemma hyp_lip a b c d : Rabs (hyp a b - hyp c d) <= Rabs (a - c) + Rabs (b - d).
Proof.
  assert (T : forall a b c d, hyp a b <= hyp c d + (Rabs (a - c) + Rabs (b - d))).
  { clear. intros a b c d. unfold hyp. pose proof (sqrt_pos (c * c + d * d)) as P. set (s := sqrt (c * c + d * d)) in *.
    assert (Q : s * s = c * c + d * d) by (unfold s; apply sqrt_sqrt; nra).
    pose proof (Rabs_pos (a - c)). pose proof (Rabs_pos (b - d)). set (u := Rabs (a - c)) in *. set (v := Rabs (b - d)) in *.
    assert (U : u * u = (a - c) * (a - c)) by (unfold u; rewrite <- Rabs_mult; apply Rabs_pos_eq, (Rle_0_sqr)).
    assert (V : v * v = (b - d) * (b - d)) by (unfold v; rewrite <- Rabs_mult; apply Rabs_pos_eq, (Rle_0_sqr)).
    assert (C : Rabs c <= s). { apply Rsqr_incr_0_var; [|exact P]. unfold Rsqr. rewrite <- Rabs_mult, Rabs_pos_eq; nra. }
    assert (D : Rabs d <= s). { apply Rsqr_incr_0_var; [|exact P]. unfold Rsqr. rewrite <- Rabs_mult, Rabs_pos_eq; nra. }
    assert (CU : c * (a - c) <= s * u). { eapply Rle_trans; [apply Rle_abs|]. rewrite Rabs_mult. fold u. apply Rmult_le_compat_r; assumption. }
    assert (DV : d * (b - d) <= s * v). { eapply Rle_trans; [apply Rle_abs|]. rewrite Rabs_mult. fold v. apply Rmult_le_compat_r; assumption. }
    apply Rsqr_incr_0_var; [|lra]. unfold Rsqr. rewrite sqrt_sqrt by nra. nra. }
  pose proof (T a b c d). pose proof (T c d a b) as H'. rewrite (Rabs_minus_sym c a), (Rabs_minus_sym d b) in H'.
  unfold Rabs at 1. destruct (Rcase_abs _); lra.
Qed.
Lemma sqrt_dev a b d e : 0 <= a -> 0 <= b -> 0 <= d -> 0 <= e -> Rabs (a - b) <= d * b + e * e -> Rabs (sqrt a - sqrt b) <= d * sqrt b + e.
Proof.
  intros A B D E H. pose proof (sqrt_pos a) as P. pose proof (sqrt_pos b) as Q. set (s := sqrt a) in *. set (t := sqrt b) in *.
  assert (SS : s * s = a) by (apply sqrt_sqrt; exact A). assert (TT : t * t = b) by (apply sqrt_sqrt; exact B). rewrite <- SS, <- TT in H.
  destruct (Rle_lt_dec (Rabs (s - t)) (d * t + e)) as [G|G]; [exact G|exfalso].
  assert (K : Rabs (s * s - t * t) = Rabs (s - t) * (s + t)).
  { replace (s * s - t * t) with ((s - t) * (s + t)) by ring. rewrite Rabs_mult, (Rabs_pos_eq (s + t)); lra. }
  rewrite K in H. set (g := Rabs (s - t)) in *.
  assert (Z : g <= s + t) by (unfold g, Rabs; destruct (Rcase_abs _); lra).
  pose proof (Rmult_le_pos _ _ D Q). assert (X : e <= s + t) by lra. assert (Y : 0 < s + t) by lra. clearbody g s t.
  assert ((d * t + e) * (s + t) < g * (s + t)) by (apply Rmult_lt_compat_r; assumption).
  assert (e * e <= e * (s + t)) by (apply Rmult_le_compat_l; assumption).
  assert (d * t * t <= d * t * (s + t)) by (apply Rmult_le_compat_l; [assumption|lra]). lra.
Qed.
Lemma round_sign m e l : 0 <= valF (binary_round_aux prec emax false m e l).
Proof.
  unfold binary_round_aux. destruct (shr_fexp _ _ _ _ _) as [k e1]. destruct (shr_fexp _ _ _ _ _) as [k2 e2].
  destruct (shr_m k2) as [|p|p]; cbn [valF]; try lra. destruct (Zle_bool e2 (emax - prec)); cbn [valF]; try lra.
  pose proof (two_pos e2). assert (0 < IZR (Z.pos p)) by (apply IZR_lt; lia). nra.
Qed.
Lemma square_sign a : 0 <= valF (nmul a a).
Proof.
  destruct a as [s|s| |s m e]; cbn [nmul NumF64 SFmul valF]; try lra; try (destruct s; cbn; lra).
  rewrite xorb_nilpotent. apply round_sign.
Qed.
Lemma add_sign a b : 0 <= valF a -> 0 <= valF b -> 0 <= valF (nadd a b).
Proof.
  assert (N : forall m e, ~ 0 <= valF (S754_finite true m e)).
  { intros m e H. cbn [valF] in H. pose proof (two_pos e). assert (0 < IZR (Z.pos m)) by (apply IZR_lt; lia). assert (0 < IZR (Z.pos m) * two e) by (apply Rmult_lt_0_compat; assumption). lra. }
  destruct a as [s|s| |s m e], b as [t|t| |t n f]; cbn [nadd NumF64 SFadd]; intros A B; try assumption; try (cbn [valF]; lra).
  - destruct (Bool.eqb s t); cbn; lra.
  - destruct (Bool.eqb s t); cbn; lra.
  - destruct s; [exfalso; exact (N _ _ A)|]. destruct t; [exfalso; exact (N _ _ B)|]. cbn [cond_Zopp].
    destruct (Z.pos (fst (shl_align m e (Z.min e f))) + Z.pos (fst (shl_align n f (Z.min e f))))%Z eqn:E; [cbn; lra| |discriminate E].
    clear E. cbn [binary_normalize]. unfold binary_round. destruct (shl_align _ _ _). apply round_sign.
Qed.
Lemma ulp1_small : 0 < ulp1 <= / 2000000000000. Proof. pose proof ulp_small. rewrite ulp_eq in *. lra. Qed.
Lemma hypot_close S a b : midrange S -> sized (3 * S) a -> sized (3 * S) b -> close (9 * ulp * S) (nhypot a b) (hyp (valF a) (valF b)).
Proof.
  intros M [Fa Ha] [Fb Hb]. pose proof (mid_pos _ M) as P. pose proof ulp1_small as [U0 U1].
  pose proof (abs_mul _ _ _ _ Ha Ha) as Sa. pose proof (abs_mul _ _ _ _ Hb Hb) as Sb.
  set (A := valF a * valF a) in *. set (B := valF b * valF b) in *.
  assert (A0 : 0 <= A) by (apply Rle_0_sqr). assert (B0 : 0 <= B) by (apply Rle_0_sqr).
  rewrite Rabs_pos_eq in Sa, Sb by assumption.
  assert (Big : 1000 * (S * S) < two 970).
  { destruct M as [_ U]. replace 970%Z with (10 + (400 + (400 + 160)))%Z by lia. rewrite !two_add. assert (two 10 = 1024) by (unfold two; simpl; lra). rewrite H.
    pose proof (two_ge1 160 ltac:(lia)). assert (S * S <= two 400 * two 400) by (apply Rmult_le_compat; lra). assert (0 < two 400 * two 400) by (apply Rmult_lt_0_compat; apply two_pos). nra. }
  assert (SS : 0 < S * S) by nra.
  assert (E0 : 0 < eta) by apply two_pos. assert (E1 : eta <= / 1000000000 * (S * S)).
  { destruct M as [L _]. unfold eta. change (-1075)%Z with (-275 + (-400 + -400))%Z. rewrite !two_add.
    assert (two (-275) <= / 1000000000). { apply Rle_trans with (two (-52)); [apply two_le; lia|]. pose proof ulp_small as [_ Y]. unfold ulp in Y. lra. }
    pose proof (two_pos (-400)). pose proof (two_pos (-275)). apply Rmult_le_compat; try lra; [|apply Rmult_le_compat; lra]. apply Rmult_le_pos; lra. }
  assert (F1 : finF (nmul a a)) by (apply mul_finite; trivial; fold A; rewrite Rabs_pos_eq; lra).
  assert (F2 : finF (nmul b b)) by (apply mul_finite; trivial; fold B; rewrite Rabs_pos_eq; lra).
  destruct (mul_rounded _ _ F1) as (_ & _ & R1). destruct (mul_rounded _ _ F2) as (_ & _ & R2).
  pose proof (square_sign a) as G1. pose proof (square_sign b) as G2. set (p := nmul a a) in *. set (q := nmul b b) in *.
  unfold rounded in R1, R2. fold A in R1. fold B in R2. rewrite (Rabs_pos_eq A) in R1 by assumption. rewrite (Rabs_pos_eq B) in R2 by assumption.
  assert (R1' : - (ulp1 * A + eta) <= valF p - A <= ulp1 * A + eta) by (revert R1; unfold Rabs at 1; destruct (Rcase_abs _); lra).
  assert (R2' : - (ulp1 * B + eta) <= valF q - B <= ulp1 * B + eta) by (revert R2; unfold Rabs at 1; destruct (Rcase_abs _); lra).
  assert (uA : 0 <= ulp1 * A <= / 1000 * A) by (split; nra). assert (uB : 0 <= ulp1 * B <= / 1000 * B) by (split; nra).
  assert (F3 : finF (nadd p q)) by (apply add_finite; trivial; rewrite Rabs_pos_eq; lra).
  destruct (add_rounded _ _ F3) as (_ & _ & R3). pose proof (add_sign _ _ G1 G2) as G3. set (s := nadd p q) in *.
  unfold rounded in R3. rewrite (Rabs_pos_eq (valF p + valF q)) in R3 by lra.
  assert (R3' : - (ulp1 * (valF p + valF q) + eta) <= valF s - (valF p + valF q) <= ulp1 * (valF p + valF q) + eta) by (revert R3; unfold Rabs at 1; destruct (Rcase_abs _); lra).
  set (N := A + B) in *.
  assert (uP : 0 <= ulp1 * (valF p + valF q) <= / 1000 * (valF p + valF q)) by (split; nra).
  assert (uP2 : ulp1 * (valF p + valF q) <= 11/10 * (ulp1 * N) + eta).
  { apply Rle_trans with (ulp1 * (11/10 * N + 3 * eta)); [apply Rmult_le_compat_l; unfold N; lra|]. assert (ulp1 * eta <= / 1000 * eta) by (apply Rmult_le_compat_r; lra). lra. }
  assert (Hs : Rabs (valF s - N) <= (22/10 * ulp1) * N + two (-536) * two (-536)).
  { rewrite <- two_add. change (-536 + -536)%Z with (-1072)%Z. assert (two (-1072) = 8 * eta). { unfold eta. change (-1072)%Z with (3 + -1075)%Z. rewrite two_add. assert (two 3 = 8) by (unfold two; simpl; lra). rewrite H. reflexivity. }
    assert (ulp1 * A + ulp1 * B = ulp1 * N) by (unfold N; ring). assert (0 <= ulp1 * N) by (unfold N; lra).
    unfold N in *. apply Rabs_le. lra. }
  assert (N0 : 0 <= N) by (unfold N; lra). assert (D0 : 0 <= 22/10 * ulp1) by lra.
  pose proof (sqrt_dev _ _ _ _ G3 N0 D0 (Rlt_le _ _ (two_pos (-536))) Hs) as SD.
  fold A B. change (sqrt N) with (hyp (valF a) (valF b)) in SD. set (h := hyp (valF a) (valF b)) in *.
  assert (h0 : 0 <= h) by apply sqrt_pos.
  assert (hS : h <= 5 * S). { apply Rsqr_incr_0_var; [|lra]. unfold Rsqr, h, hyp. fold A B. rewrite sqrt_sqrt by lra. lra. }
  assert (T : two (-536) <= / 1000 * (ulp1 * S)).
  { destruct M as [L _]. unfold ulp1. change (-536)%Z with (-83 + (-53 + -400))%Z. rewrite !two_add.
    assert (two (-83) <= / 1000). { apply Rle_trans with (two (-10)); [apply two_le; lia|rewrite two_10; lra]. }
    pose proof (two_pos (-53)). pose proof (two_pos (-400)). pose proof (two_pos (-83)). apply Rmult_le_compat; try lra; [|apply Rmult_le_compat_l; lra]. apply Rmult_le_pos; lra. }
  assert (uS : 0 < ulp1 * S <= / 1000 * S) by (split; nra).
  assert (uh : 0 <= ulp1 * h <= 5 * (ulp1 * S)) by (split; [apply Rmult_le_pos; lra|replace (5 * (ulp1 * S)) with (ulp1 * (5 * S)) by ring; apply Rmult_le_compat_l; lra]).
  assert (SD' : - (11001/1000 * (ulp1 * S)) <= sqrt (valF s) - h <= 11001/1000 * (ulp1 * S)) by (revert SD; unfold Rabs at 1; destruct (Rcase_abs _); lra).
  assert (Big2 : 10 * S < two 970).
  { destruct M as [_ U]. apply Rle_lt_trans with (10 * two 400); [lra|]. replace 970%Z with (10 + (400 + 560))%Z by lia. rewrite !two_add. assert (two 10 = 1024) by (unfold two; simpl; lra). rewrite H.
    pose proof (two_ge1 560 ltac:(lia)). pose proof (two_pos 400). nra. }
  assert (F4 : finF (nsqrt s)) by (apply sqrt_finite; trivial; lra).
  destruct (sqrt_rounded _ F4) as (_ & _ & R4). split; [exact F4|]. change (nhypot a b) with (nsqrt s).
  unfold rounded in R4. pose proof (sqrt_pos (valF s)) as Q. rewrite (Rabs_pos_eq (sqrt (valF s))) in R4 by exact Q.
  assert (E2 : eta <= ulp1 * S).
  { pose proof (eta_small S (room1 _ (mid_room _ M))). lra. }
  assert (uq : ulp1 * sqrt (valF s) <= 51/10 * (ulp1 * S)).
  { replace (51/10 * (ulp1 * S)) with (ulp1 * (51/10 * S)) by ring. apply Rmult_le_compat_l; lra. }
  rewrite ulp_eq. revert R4. unfold Rabs. destruct (Rcase_abs _), (Rcase_abs _); intros; lra.
Qed.

Lemma ulpS S : midrange S -> 0 < ulp * S <= / 1000000000 * S.
Proof. intros M. pose proof (mid_pos _ M). pose proof ulp_small as [A B]. split; [apply Rmult_lt_0_compat; lra|apply Rmult_le_compat_r; lra]. Qed.
Lemma offset_close S a b : midrange S -> double S a -> double S b -> close (2 * (ulp * S)) (nsub a b) (valF a - valF b) /\ valid (nsub a b).
Proof.
  intros M [[Fa Ha] Va] [[Fb Hb] Vb]. pose proof (ulpS _ M). split; [|apply sub_valid; assumption].
  apply (close_sub 0 0 (2 * S)); auto using itself; try lra.
  - apply room; [apply mid_room, M|lra].
  - unfold Rminus. eapply Rle_trans; [apply Rabs_triang|]. rewrite Rabs_Ropp. lra.
Qed.
Lemma close_sized e B a x : close e a x -> Rabs x <= B -> sized (B + e) a.
Proof. intros [F H] G. split; [exact F|]. replace (valF a) with ((valF a - x) + x) by ring. eapply Rle_trans; [apply Rabs_triang|lra]. Qed.
Lemma distance_close S x y a b : midrange S -> double S x -> double S y -> double S a -> double S b ->
  close (13 * (ulp * S)) (nhypot (nsub x a) (nsub y b)) (hyp (valF x - valF a) (valF y - valF b)) /\ valid (nhypot (nsub x a) (nsub y b)).
Proof.
  intros M X Y A B. destruct (offset_close S x a M X A) as [C1 V1]. destruct (offset_close S y b M Y B) as [C2 V2].
  split; [|apply hypot_valid; assumption]. pose proof (ulpS _ M). pose proof (mid_pos _ M).
  destruct X as [[_ X] _], Y as [[_ Y] _], A as [[_ A] _], B as [[_ B] _].
  assert (Z1 : sized (3 * S) (nsub x a)).
  { destruct C1 as [F1 H1]. split; [exact F1|]. revert H1 X A. unfold Rabs. repeat destruct (Rcase_abs _); lra. }
  assert (Z2 : sized (3 * S) (nsub y b)).
  { destruct C2 as [F1 H1]. split; [exact F1|]. revert H1 Y B. unfold Rabs. repeat destruct (Rcase_abs _); lra. }
  destruct (hypot_close S _ _ M Z1 Z2) as [F H1]. split; [exact F|]. destruct C1 as [_ C1], C2 as [_ C2].
  pose proof (hyp_lip (valF (nsub x a)) (valF (nsub y b)) (valF x - valF a) (valF y - valF b)) as L.
  set (h := hyp (valF x - valF a) (valF y - valF b)) in *. set (g := hyp (valF (nsub x a)) (valF (nsub y b))) in *.
  replace (valF (nhypot (nsub x a) (nsub y b)) - h) with ((valF (nhypot (nsub x a) (nsub y b)) - g) + (g - h)) by ring.
  eapply Rle_trans; [apply Rabs_triang|]. lra.
Qed.
Lemma turned_close S x y a b s c : midrange S -> double S x -> double S y -> double S a -> double S b -> double 1 s -> double 1 c ->
  (close (12 * (ulp * S)) (nadd (nmul (nsub x a) c) (nmul (nsub y b) s)) ((valF x - valF a) * valF c + (valF y - valF b) * valF s) /\
   valid (nadd (nmul (nsub x a) c) (nmul (nsub y b) s))) /\
  (close (12 * (ulp * S)) (nadd (nmul (nopp (nsub x a)) s) (nmul (nsub y b) c)) (- (valF x - valF a) * valF s + (valF y - valF b) * valF c) /\
   valid (nadd (nmul (nopp (nsub x a)) s) (nmul (nsub y b) c))).
Proof.
  intros M X Y A B SN CN. destruct (offset_close S x a M X A) as [C1 V1]. destruct (offset_close S y b M Y B) as [C2 V2].
  pose proof (ulpS _ M) as U. pose proof (mid_pos _ M) as P. pose proof (mid_room _ M) as R4.
  destruct X as [[_ X] _], Y as [[_ Y] _], A as [[_ A] _], B as [[_ B] _], SN as [[Fs Hs] Vs], CN as [[Fc Hc] Vc].
  assert (X2 : Rabs (valF x - valF a) <= 2 * S) by (revert X A; unfold Rabs; repeat destruct (Rcase_abs _); lra).
  assert (Y2 : Rabs (valF y - valF b) <= 2 * S) by (revert Y B; unfold Rabs; repeat destruct (Rcase_abs _); lra).
  assert (O1 : close (2 * (ulp * S)) (nopp (nsub x a)) (- (valF x - valF a))).
  { destruct C1 as [F1 H1]. assert (F := opp_finite _ F1). split; [exact F|]. destruct (opp_exact _ F) as [_ ->].
    replace (- valF (nsub x a) - - (valF x - valF a)) with (- (valF (nsub x a) - (valF x - valF a))) by ring. rewrite Rabs_Ropp. exact H1. }
  assert (X2' : Rabs (- (valF x - valF a)) <= 2 * S) by (rewrite Rabs_Ropp; exact X2).
  assert (R2 : inrange (2 * S)) by (apply room; [exact R4|lra]). assert (R4' : inrange (4 * S)) by (apply room; [exact R4|lra]).
  assert (K : forall d v t, close (2 * (ulp * S)) d v -> Rabs v <= 2 * S -> finF t -> Rabs (valF t) <= 1 -> close (4 * (ulp * S)) (nmul d t) (v * valF t) /\ Rabs (v * valF t) <= 2 * S).
  { intros d v t D Dv Ft Ht. assert (Q : Rabs (v * valF t) <= 2 * S) by (replace (2 * S) with (2 * S * 1) by ring; apply abs_mul; assumption).
    split; [|exact Q]. apply (close_mul _ 0 (2 * S) 1 (2 * S) _ _ _ _ _ R2 D (itself _ Ft)); trivial; lra. }
  assert (G : forall d v t d' v' t', close (2 * (ulp * S)) d v -> Rabs v <= 2 * S -> finF t -> Rabs (valF t) <= 1 ->
    close (2 * (ulp * S)) d' v' -> Rabs v' <= 2 * S -> finF t' -> Rabs (valF t') <= 1 -> close (12 * (ulp * S)) (nadd (nmul d t) (nmul d' t')) (v * valF t + v' * valF t')).
  { intros d v t d' v' t' D1 D2 D3 D4 D5 D6 D7 D8. destruct (K d v t D1 D2 D3 D4) as [E1 E2]. destruct (K d' v' t' D5 D6 D7 D8) as [E3 E4].
    apply (close_add _ _ _ _ _ _ _ _ R4' E1 E3); [eapply Rle_trans; [apply Rabs_triang|lra]|lra|lra]. }
  split; (split; [apply G; trivial|]); apply add_valid; apply mul_valid; trivial. apply opp_valid; trivial.
Qed.
Lemma two_val : valF n2 = 2 /\ finF n2 /\ valid n2.
Proof. split; [|split; [exact I|reflexivity]]. unfold n2. cbn. unfold two. simpl. lra. Qed.
Lemma half_close S w : midrange S -> double S w -> close (ulp * S) (ndiv w n2) (valF w / 2) /\ valid (ndiv w n2).
Proof.
  intros M [[F H] V]. destruct two_val as (E & F2 & V2). pose proof (mid_pos _ M). pose proof (room1 _ (mid_room _ M)) as R1. pose proof (inrange_970 _ R1).
  split; [|apply div_valid; assumption].
  assert (Q : Rabs (valF w / valF n2) <= 5/4 * S).
  { rewrite E. unfold Rdiv. rewrite Rabs_mult, (Rabs_pos_eq (/ 2)) by lra. pose proof (Rabs_pos (valF w)). lra. }
  assert (G : finF (ndiv w n2)) by (apply div_finite; trivial; lra).
  split; [exact G|]. destruct (div_rounded _ _ G F2) as (_ & _ & R). rewrite <- E. apply (rounding _ _ _ R1 Q R).
Qed.
Lemma neg_double S w : double S w -> double S (nopp w) /\ valF (nopp w) = - valF w.
Proof.
  intros [[F H] V]. assert (G := opp_finite _ F). destruct (opp_exact _ G) as [_ E]. split; [|exact E].
  split; [split; [exact G|rewrite E, Rabs_Ropp; exact H]|apply opp_valid, V].
Qed.

(** ** Polygons *)
Lemma abs_between x B : Rabs x <= B <-> - B <= x <= B.
Proof. unfold Rabs. destruct (Rcase_abs x); lra. Qed.
Lemma quotient_bound d S A B C al b ga pi q : 0 < S -> 0 < d <= / 1000000 -> Rabs (A / C) <= 1 -> C <> 0 -> Rabs B <= 2 * S ->
  Rabs (al - A / C) <= d -> Rabs (b - B) <= d * (2 * S) -> Rabs (ga - 1) <= d -> Rabs (pi - al * b) <= d * (3 * S) -> Rabs (q - pi / ga) <= d * (3 * S) ->
  Rabs (pi / ga) <= 3 * S /\ Rabs (q - A * B / C) <= 13 * (d * S).
Proof.
  intros P D HP C0 HB Ha Hb Hg Hp Hq. set (p := A / C) in *. replace (A * B / C) with (p * B) by (unfold p; field; exact C0). clearbody p.
  assert (dS : 0 < d * S <= / 1000000 * S) by (split; [apply Rmult_lt_0_compat; lra|apply Rmult_le_compat_r; lra]).
  assert (E1 : Rabs (al * b - p * B) <= 42/10 * (d * S)).
  { replace (al * b - p * B) with ((al - p) * b + p * (b - B)) by ring. eapply Rle_trans; [apply Rabs_triang|].
    assert (Rabs b <= 21/10 * S). { apply abs_between in Hb, HB. apply abs_between. lra. }
    pose proof (abs_mul _ _ _ _ Ha H). pose proof (abs_mul _ _ _ _ HP Hb). lra. }
  assert (E2 : Rabs (pi - p * B) <= 72/10 * (d * S)) by (apply abs_between in Hp, E1; apply abs_between; lra).
  assert (E3 : Rabs (p * B) <= 2 * S) by (replace (2 * S) with (1 * (2 * S)) by ring; apply abs_mul; assumption).
  assert (E4 : Rabs pi <= 21/10 * S) by (apply abs_between in E2, E3; apply abs_between; lra).
  assert (G : 999999/1000000 <= ga <= 1000001/1000000) by (apply abs_between in Hg; lra).
  assert (I0 : Rabs (/ ga) <= 100001/100000).
  { rewrite Rabs_pos_eq by (left; apply Rinv_0_lt_compat; lra). apply Rmult_le_reg_r with ga; [lra|]. rewrite Rinv_l by lra. lra. }
  assert (E5 : Rabs (pi / ga - pi) <= 22/10 * (d * S)).
  { replace (pi / ga - pi) with (pi * (- (ga - 1) * / ga)) by (field; lra). rewrite Rabs_mult.
    assert (Rabs (- (ga - 1) * / ga) <= d * (100001/100000)) by (apply abs_mul; [rewrite Rabs_Ropp; exact Hg|exact I0]).
    apply Rle_trans with (21/10 * S * (d * (100001/100000))); [|lra]. apply Rmult_le_compat; auto using Rabs_pos. }
  split.
  - apply abs_between in E5, E4. apply abs_between. lra.
  - apply abs_between in Hq, E5, E2. apply abs_between. split; lra.
Qed.
Lemma xinters_close S y y1 y2 x1 x2 : midrange S -> double S y -> double S y1 -> double S y2 -> double S x1 -> double S x2 ->
  Rmin (valF y1) (valF y2) < valF y <= Rmax (valF y1) (valF y2) -> two (-400) <= Rabs (valF y2 - valF y1) ->
  let q := nadd (ndiv (nmul (nsub y y1) (nsub x2 x1)) (nsub y2 y1)) x1 in
  close (10 * (ulp * S)) q ((valF y - valF y1) * (valF x2 - valF x1) / (valF y2 - valF y1) + valF x1) /\ valid q.
Proof.
  intros M Y Y1 Y2 X1 X2 Bt St q. subst q.
  destruct (offset_close S y y1 M Y Y1) as [[F1 _] V1]. destruct (offset_close S x2 x1 M X2 X1) as [[F2 _] V2]. destruct (offset_close S y2 y1 M Y2 Y1) as [[F3 _] V3].
  destruct Y as [[Fy Y] _], Y1 as [[Fy1 Y1] _], Y2 as [[Fy2 Y2] _], X1 as [[Fx1 X1] Vx1], X2 as [[Fx2 X2] _].
  split; [|apply add_valid; [apply div_valid; [apply mul_valid|]|]; assumption].
  destruct (sub_rounded _ _ F1) as (_ & _ & R1). destruct (sub_rounded _ _ F2) as (_ & _ & R2). destruct (sub_rounded _ _ F3) as (_ & _ & R3).
  set (a := nsub y y1) in *. set (b := nsub x2 x1) in *. set (c := nsub y2 y1) in *.
  assert (XB : Rabs (valF x2 - valF x1) <= 2 * S) by (apply abs_between in X1, X2; apply abs_between; lra).
  assert (CB : Rabs (valF y2 - valF y1) <= 2 * S) by (apply abs_between in Y1, Y2; apply abs_between; lra).
  assert (AC : Rabs (valF y - valF y1) <= Rabs (valF y2 - valF y1)).
  { revert Bt. unfold Rmin, Rmax, Rabs. destruct (Rle_dec _ _), (Rcase_abs _), (Rcase_abs _); lra. }
  set (A := valF y - valF y1) in *. set (B := valF x2 - valF x1) in *. set (C := valF y2 - valF y1) in *. clearbody A B C.
  pose proof (mid_pos _ M) as P. pose proof ulp1_small as [U0 U1]. pose proof (ulpS _ M) as US. rewrite ulp_eq in US.
  assert (C0 : C <> 0) by (intros Z; rewrite Z, Rabs_R0 in St; pose proof (two_pos (-400)); lra).
  assert (Cp : 0 < Rabs C) by (apply Rabs_pos_lt; exact C0).
  assert (E0 : 0 < eta) by apply two_pos.
  assert (EC : eta <= / 1000 * (ulp1 * Rabs C)).
  { unfold eta, ulp1. change (-1075)%Z with (-622 + (-53 + -400))%Z. rewrite !two_add. assert (two (-622) <= / 1000). { apply Rle_trans with (two (-10)); [apply two_le; lia|rewrite two_10; lra]. }
    pose proof (two_pos (-53)). pose proof (two_pos (-400)). pose proof (two_pos (-622)). apply Rmult_le_compat; try lra; [|apply Rmult_le_compat_l; lra]. apply Rmult_le_pos; lra. }
  assert (ES : eta <= / 1000 * (ulp1 * S)) by (apply eta_small, room1, mid_room, M).
  assert (ECS : eta <= / 1000 * (ulp1 * S) * Rabs C).
  { destruct M as [L _]. unfold eta, ulp1. replace (/ 1000 * (two (-53) * S) * Rabs C) with (/ 1000 * two (-53) * (S * Rabs C)) by ring.
    change (-1075)%Z with (-222 + -53 + (-400 + -400))%Z. rewrite !two_add. assert (two (-222) <= / 1000). { apply Rle_trans with (two (-10)); [apply two_le; lia|rewrite two_10; lra]. }
    pose proof (two_pos (-53)). pose proof (two_pos (-400)). pose proof (two_pos (-222)). apply Rmult_le_compat.
    - apply Rmult_le_pos; lra.
    - apply Rmult_le_pos; lra.
    - apply Rmult_le_compat_r; lra.
    - apply Rmult_le_compat; lra. }
  set (d := 1001/1000 * ulp1). assert (D : 0 < d <= / 1000000) by (unfold d; lra).
  unfold rounded in R1, R2, R3.
  assert (HA : Rabs (A / C) <= 1). { unfold Rdiv. rewrite Rabs_mult, Rabs_inv. apply Rmult_le_reg_r with (Rabs C); [exact Cp|]. rewrite Rmult_assoc, Rinv_l by lra. lra. }
  assert (Hal : Rabs (valF a / C - A / C) <= d).
  { replace (valF a / C - A / C) with ((valF a - A) / C) by (field; exact C0). unfold Rdiv. rewrite Rabs_mult, Rabs_inv.
    apply Rmult_le_reg_r with (Rabs C); [exact Cp|]. rewrite Rmult_assoc, Rinv_l by lra. unfold d.
    assert (ulp1 * Rabs A <= ulp1 * Rabs C) by (apply Rmult_le_compat_l; lra). lra. }
  assert (Hga : Rabs (valF c / C - 1) <= d).
  { replace (valF c / C - 1) with ((valF c - C) / C) by (field; exact C0). unfold Rdiv. rewrite Rabs_mult, Rabs_inv.
    apply Rmult_le_reg_r with (Rabs C); [exact Cp|]. rewrite Rmult_assoc, Rinv_l by lra. unfold d. lra. }
  assert (Hb : Rabs (valF b - B) <= d * (2 * S)).
  { unfold d. assert (ulp1 * Rabs B <= ulp1 * (2 * S)) by (apply Rmult_le_compat_l; lra). lra. }
  assert (Hb3 : Rabs (valF b) <= 21/10 * S).
  { assert (d * (2 * S) <= / 1000000 * (2 * S)) by (apply Rmult_le_compat_r; lra). apply abs_between in Hb, XB. apply abs_between. lra. }
  assert (Hal1 : Rabs (valF a / C) <= 11/10) by (apply abs_between in Hal, HA; apply abs_between; lra).
  assert (Hab : Rabs (valF a / C * valF b) <= 25/10 * S).
  { apply Rle_trans with (11/10 * (21/10 * S)); [apply abs_mul; assumption|lra]. }
  assert (Aab : Rabs (valF a * valF b) = Rabs (valF a / C * valF b) * Rabs C).
  { rewrite <- Rabs_mult. f_equal. field. exact C0. }
  assert (Big : 6 * (S * S) < two 970).
  { destruct M as [_ U]. replace 970%Z with (10 + (400 + (400 + 160)))%Z by lia. rewrite !two_add. assert (two 10 = 1024) by (unfold two; simpl; lra). rewrite H.
    pose proof (two_ge1 160 ltac:(lia)). assert (S * S <= two 400 * two 400) by (apply Rmult_le_compat; lra). assert (0 < two 400 * two 400) by (apply Rmult_lt_0_compat; apply two_pos). nra. }
  assert (Fp : finF (nmul a b)).
  { apply mul_finite; trivial. rewrite Aab. apply Rle_lt_trans with (25/10 * S * (2 * S)); [apply Rmult_le_compat; auto using Rabs_pos|]. assert (0 < S * S) by (apply Rmult_lt_0_compat; exact P). lra. }
  destruct (mul_rounded _ _ Fp) as (_ & _ & Rp). unfold rounded in Rp. set (p := nmul a b) in *.
  assert (Hp : Rabs (valF p / C - valF a / C * valF b) <= d * (3 * S)).
  { replace (valF p / C - valF a / C * valF b) with ((valF p - valF a * valF b) / C) by (field; exact C0). unfold Rdiv at 1. rewrite Rabs_mult, Rabs_inv.
    apply Rmult_le_reg_r with (Rabs C); [exact Cp|]. rewrite Rmult_assoc, Rinv_l by lra. rewrite Rmult_1_r.
    assert (ulp1 * Rabs (valF a * valF b) <= ulp1 * (25/10 * S) * Rabs C).
    { rewrite Aab, <- Rmult_assoc. apply Rmult_le_compat_r; [lra|]. apply Rmult_le_compat_l; lra. }
    assert (0 <= ulp1 * S * Rabs C) by (apply Rmult_le_pos; lra). unfold d. lra. }
  assert (c0 : valF c <> 0).
  { intros Z. rewrite Z in Hga. unfold Rdiv in Hga. rewrite Rmult_0_l in Hga. apply abs_between in Hga. lra. }
  assert (Epc : valF p / C / (valF c / C) = valF p / valF c) by (field; split; assumption).
  assert (Big2 : 10 * S < two 970).
  { destruct M as [_ U]. apply Rle_lt_trans with (10 * two 400); [lra|]. replace 970%Z with (10 + (400 + 560))%Z by lia. rewrite !two_add. assert (two 10 = 1024) by (unfold two; simpl; lra). rewrite H.
    pose proof (two_ge1 560 ltac:(lia)). pose proof (two_pos 400). nra. }
  assert (dS : 0 < d * S) by (apply Rmult_lt_0_compat; lra).
  assert (Q3 : Rabs (valF p / C / (valF c / C)) <= 3 * S).
  { apply (quotient_bound d S A B C (valF a / C) (valF b) (valF c / C) (valF p / C) (valF p / C / (valF c / C))); trivial.
    rewrite Rminus_diag_eq by reflexivity. rewrite Rabs_R0. lra. }
  assert (Q3' : Rabs (valF p / valF c) <= 3 * S) by (rewrite <- Epc; exact Q3).
  assert (Fq : finF (ndiv p c)) by (apply div_finite; trivial; lra).
  destruct (div_rounded _ _ Fq F3) as (_ & _ & Rq). unfold rounded in Rq. set (q := ndiv p c) in *.
  assert (Hq : Rabs (valF q - valF p / C / (valF c / C)) <= d * (3 * S)).
  { rewrite Epc. assert (ulp1 * Rabs (valF p / valF c) <= ulp1 * (3 * S)) by (apply Rmult_le_compat_l; lra). unfold d. lra. }
  destruct (quotient_bound d S A B C (valF a / C) (valF b) (valF c / C) (valF p / C) (valF q)) as [_ Fin]; trivial.
  assert (EB : Rabs (A * B / C) <= 2 * S).
  { replace (A * B / C) with (A / C * B) by (field; exact C0). replace (2 * S) with (1 * (2 * S)) by ring. apply abs_mul; assumption. }
  assert (CQ : close (13 * (d * S)) q (A * B / C)) by (split; assumption).
  assert (D2 : d * S = 1001/2000 * (ulp * S)) by (unfold d; rewrite ulp_eq; lra).
  assert (R3S : inrange (3 * S)) by (apply room; [apply mid_room, M|lra]).
  apply (close_add _ _ _ _ _ _ _ _ R3S CQ (itself _ Fx1)).
  - eapply Rle_trans; [apply Rabs_triang|lra].
  - rewrite <- ulp_eq in US. lra.
  - rewrite <- ulp_eq in US. lra.
Qed.
Lemma exact_min a b : dbl a -> dbl b -> exact (nmin a b) = nmin (exact a) (exact b) /\ dbl (nmin a b).
Proof. intros A B. unfold nmin. rewrite (same_ltb b a B A). destruct (nltb (exact b) (exact a)); split; trivial. Qed.
Lemma exact_max a b : dbl a -> dbl b -> exact (nmax a b) = nmax (exact a) (exact b) /\ dbl (nmax a b).
Proof. intros A B. unfold nmax. rewrite (same_ltb a b A B). destruct (nltb (exact a) (exact b)); split; trivial. Qed.
(** What an edge has to satisfy. *)
Definition edge_ok (S : R) (x y : F64) (e : (F64 * F64) * (F64 * F64)) : Prop :=
  let '((x1, y1), (x2, y2)) := e in
  (valF y1 = valF y2 \/ two (-400) <= Rabs (valF y2 - valF y1)) /\
  (Rmin (valF y1) (valF y2) < valF y <= Rmax (valF y1) (valF y2) -> valF x1 <> valF x2 ->
   16 * (ulp * S) < Rabs (valF x - ((valF y - valF y1) * (valF x2 - valF x1) / (valF y2 - valF y1) + valF x1))).
Definition point_ok (S : R) (p : F64 * F64) : Prop := double S (fst p) /\ double S (snd p).
Lemma step_same S x y p p2 xi xi' ins : midrange S -> double S x -> double S y -> point_ok S p -> point_ok S p2 -> edge_ok S x y (p, p2) ->
  exists xj xj' ins', poly_step x y (fst p, snd p, xi, ins) p2 = (fst p2, snd p2, xj, ins') /\
    poly_step (exact x) (exact y) (fst (exact2 p), snd (exact2 p), xi', ins) (exact2 p2) = (fst (exact2 p2), snd (exact2 p2), xj', ins').
Proof.
  destruct p as [x1 y1], p2 as [x2 y2]. intros M X Y [X1 Y1] [X2 Y2] [St Cl]. cbn [fst snd] in *. unfold exact2. cbn [fst snd].
  pose proof (double_dbl _ _ X) as DX. pose proof (double_dbl _ _ Y) as DY.
  pose proof (double_dbl _ _ X1) as DX1. pose proof (double_dbl _ _ Y1) as DY1. pose proof (double_dbl _ _ X2) as DX2. pose proof (double_dbl _ _ Y2) as DY2.
  destruct (exact_min y1 y2 DY1 DY2) as [Emin Dmin]. destruct (exact_max y1 y2 DY1 DY2) as [Emax Dmax]. destruct (exact_max x1 x2 DX1 DX2) as [Exm Dxm].
  unfold poly_step.
  rewrite (same_ltb _ _ Dmin DY), (same_leb _ _ DY Dmax), (same_leb _ _ DX Dxm), Emin, Emax, Exm, (same_eqb y1 y2 DY1 DY2), (same_eqb x1 x2 DX1 DX2).
  destruct (nltb (nmin (exact y1) (exact y2)) (exact y)) eqn:B1; [|do 3 eexists; split; reflexivity].
  destruct (nleb (exact y) (nmax (exact y1) (exact y2))) eqn:B2; [|do 3 eexists; split; reflexivity].
  destruct (nleb (exact x) (nmax (exact x1) (exact x2))) eqn:B3; [|do 3 eexists; split; reflexivity].
  unfold exact in B1, B2. rewrite nmin_F in B1. rewrite nmax_F in B2. cbn [nltb nleb NumXR xltb xleb] in B1, B2.
  destruct (Rlt_dec _ _) as [L1|] in B1; [|discriminate B1]. destruct (Rle_dec _ _) as [L2|] in B2; [|discriminate B2].
  assert (Ny : valF y1 <> valF y2).
  { intros E. revert L1 L2. rewrite E. unfold Rmin, Rmax. destruct (Rle_dec _ _); lra. }
  destruct St as [St|St]; [contradiction|].
  assert (Ey : neqb (exact y1) (exact y2) = false) by (unfold exact; cbn [neqb NumXR xeqb]; destruct (Req_EM_T _ _); [contradiction|reflexivity]).
  rewrite Ey. cbn [negb].
  destruct (neqb (exact x1) (exact x2)) eqn:Ex; [do 3 eexists; split; reflexivity|]. cbn [orb].
  assert (Nx : valF x1 <> valF x2).
  { intros E. unfold exact in Ex. cbn [neqb NumXR xeqb] in Ex. destruct (Req_EM_T _ _); [discriminate Ex|contradiction]. }
  destruct (xinters_close S y y1 y2 x1 x2 M Y Y1 Y2 X1 X2 (conj L1 L2) St) as [CQ VQ]. set (q := nadd _ x1) in *.
  assert (Eq : nadd (ndiv (nmul (nsub (exact y) (exact y1)) (nsub (exact x2) (exact x1))) (nsub (exact y2) (exact y1))) (exact x1)
    = Fin ((valF y - valF y1) * (valF x2 - valF x1) / (valF y2 - valF y1) + valF x1)).
  { unfold exact. xunf. rewrite xdiv_fin by lra. reflexivity. }
  rewrite Eq. destruct X as [[Fx _] Vx]. pose proof (ulpS _ M).
  rewrite (far_leb 0 (10 * (ulp * S)) x q (valF x) _ (itself _ Fx) CQ Vx VQ) by (pose proof (Cl (conj L1 L2) Nx); lra).
  do 3 eexists. split; reflexivity.
Qed.
Lemma fold_same S x y l : midrange S -> double S x -> double S y -> forall p xi xi' ins, point_ok S p -> Forall (point_ok S) l ->
  (forall e, In e (walk p l) -> edge_ok S x y e) ->
  snd (fold_left (poly_step x y) l (fst p, snd p, xi, ins)) =
  snd (fold_left (poly_step (exact x) (exact y)) (map exact2 l) (fst (exact2 p), snd (exact2 p), xi', ins)).
Proof.
  intros M X Y. induction l as [|b l IH]; intros p xi xi' ins P F E; [reflexivity|]. inversion F; subst. cbn [fold_left map walk] in *.
  destruct (step_same S x y p b xi xi' ins M X Y P H1 (E _ (or_introl eq_refl))) as (xj & xj' & ins' & -> & ->).
  apply IH; trivial. intros e I. apply E. right. exact I.
Qed.
Lemma polygon_same S x y v : midrange S -> double S x -> double S y -> built S (ObscPolygon v) -> clear_of (16 * ulp * S) (ObscPolygon v) (valF x) (valF y) ->
  poly_contains v x y = poly_contains (map exact2 v) (exact x) (exact y).
Proof.
  intros M X Y [B1 B2] C. destruct v as [|p v]; [reflexivity|]. cbn [map]. unfold poly_contains. destruct p as [xa ya]. cbn [exact2 fst snd].
  replace (map exact2 v ++ [(exact xa, exact ya)]) with (map exact2 (v ++ [(xa, ya)])) by (rewrite map_app; reflexivity).
  apply (fold_same S x y (v ++ [(xa, ya)]) M X Y (xa, ya)).
  - apply B1. left. reflexivity.
  - apply Forall_forall. intros q I. apply in_app_or in I. apply B1. destruct I as [I|[<-|[]]]; [right; exact I|left; reflexivity].
  - rewrite <- edges_walk. intros [[x1 y1] [x2 y2]] I. split; [exact (B2 _ _ I)|]. intros L N. pose proof (C _ _ I L N) as Q. cbn [fst snd] in Q. rewrite <- Rmult_assoc. exact Q.
Qed.
Lemma n0_exact : close 0 (n0 : F64) 0 /\ valid n0.
Proof. split; [|reflexivity]. split; [exact I|]. change (valF n0) with 0. rewrite Rminus_0_r, Rabs_R0. lra. Qed.
Theorem contains_same S x y : midrange S -> double S x -> double S y -> forall o, built S o -> clear_of (16 * ulp * S) o (valF x) (valF y) ->
  contains o x y = contains (exactO o) (exact x) (exact y).
Proof.
  intros M X Y. pose proof (ulpS _ M) as U. fix IH 1. intros o B C. destruct o as [r a b|i r a b|w h a b s c|w a b s c|v|o|l|l]; cbn [built clear_of contains exactO] in *.
  - destruct B as ([[Fr Hr] Vr] & A & B). destruct (distance_close S x y a b M X Y A B) as [D V].
    apply (far_ltb _ _ _ _ _ _ D (itself _ Fr) V Vr). unfold hyp in *. lra.
  - destruct B as ([[Fi Hi] Vi] & [[Fr Hr] Vr] & A & B). destruct (distance_close S x y a b M X Y A B) as [D V]. destruct C as [C1 C2].
    f_equal.
    + apply (far_leb _ _ _ _ _ _ (itself _ Fi) D Vi V). rewrite Rabs_minus_sym. unfold hyp in *. lra.
    + apply (far_ltb _ _ _ _ _ _ D (itself _ Fr) V Vr). unfold hyp in *. lra.
  - destruct B as (W & H & A & B & SN & CN). destruct (turned_close S x y a b s c M X Y A B SN CN) as [[D1 V1] [D2 V2]].
    destruct (half_close S w M W) as [W1 W2]. destruct (neg_double _ _ W) as [W' EW]. destruct (half_close S _ M W') as [W3 W4]. rewrite EW in W3.
    destruct (half_close S h M H) as [H1 H2]. destruct (neg_double _ _ H) as [H' EH]. destruct (half_close S _ M H') as [H3 H4]. rewrite EH in H3.
    destruct C as (C1 & C2 & C3 & C4).
    assert (EU : nadd (nmul (nsub (exact x) (exact a)) (exact c)) (nmul (nsub (exact y) (exact b)) (exact s)) = Fin ((valF x - valF a) * valF c + (valF y - valF b) * valF s)) by reflexivity.
    assert (EV : nadd (nmul (nopp (nsub (exact x) (exact a))) (exact s)) (nmul (nsub (exact y) (exact b)) (exact c)) = Fin (- (valF x - valF a) * valF s + (valF y - valF b) * valF c)) by reflexivity.
    assert (E2 : forall z, ndiv (exact z) n2 = Fin (valF z / 2)) by (intros z; unfold exact; xunf; rewrite xdiv_fin by lra; reflexivity).
    assert (E3 : forall z, ndiv (nopp (exact z)) n2 = Fin (- valF z / 2)) by (intros z; unfold exact; xunf; rewrite xdiv_fin by lra; reflexivity).
    rewrite EU, EV, !E2, !E3. repeat apply (f_equal2 andb).
    + apply (far_ltb _ _ _ _ _ _ W3 D1 W4 V1). rewrite Rabs_minus_sym. match goal with |- _ < Rabs ?t => replace t with ((valF x - valF a) * valF c + (valF y - valF b) * valF s + valF w / 2) by (unfold Rdiv; ring) end. lra.
    + apply (far_ltb _ _ _ _ _ _ D1 W1 V1 W2). lra.
    + apply (far_ltb _ _ _ _ _ _ H3 D2 H4 V2). rewrite Rabs_minus_sym. match goal with |- _ < Rabs ?t => replace t with (- (valF x - valF a) * valF s + (valF y - valF b) * valF c + valF h / 2) by (unfold Rdiv; ring) end. lra.
    + apply (far_ltb _ _ _ _ _ _ D2 H1 V2 H2). lra.
  - destruct B as (W & A & B & SN & CN). destruct (turned_close S x y a b s c M X Y A B SN CN) as [[D1 V1] [D2 V2]].
    destruct (half_close S w M W) as [W1 W2]. destruct (neg_double _ _ W) as [W' EW]. destruct (half_close S _ M W') as [W3 W4]. rewrite EW in W3.
    destruct C as (C1 & C2 & C3).
    assert (EU : nadd (nmul (nsub (exact x) (exact a)) (exact c)) (nmul (nsub (exact y) (exact b)) (exact s)) = Fin ((valF x - valF a) * valF c + (valF y - valF b) * valF s)) by reflexivity.
    assert (EV : nadd (nmul (nopp (nsub (exact x) (exact a))) (exact s)) (nmul (nsub (exact y) (exact b)) (exact c)) = Fin (- (valF x - valF a) * valF s + (valF y - valF b) * valF c)) by reflexivity.
    assert (E2 : forall z, ndiv (exact z) n2 = Fin (valF z / 2)) by (intros z; unfold exact; xunf; rewrite xdiv_fin by lra; reflexivity).
    assert (E3 : forall z, ndiv (nopp (exact z)) n2 = Fin (- valF z / 2)) by (intros z; unfold exact; xunf; rewrite xdiv_fin by lra; reflexivity).
    rewrite EU, EV, !E2, !E3. destruct n0_exact as [Z1 Z2]. repeat apply (f_equal2 andb).
    + apply (far_ltb _ _ _ _ _ _ Z1 D1 Z2 V1). rewrite Rabs_minus_sym, Rminus_0_r. lra.
    + apply (far_ltb _ _ _ _ _ _ W3 D2 W4 V2). rewrite Rabs_minus_sym. match goal with |- _ < Rabs ?t => replace t with (- (valF x - valF a) * valF s + (valF y - valF b) * valF c + valF w / 2) by (unfold Rdiv; ring) end. lra.
    + apply (far_ltb _ _ _ _ _ _ D2 W1 V2 W2). lra.
  - apply (polygon_same S); assumption.
  - f_equal. apply IH; assumption.
  - generalize false. induction l as [|o l IHl]; intros b; [reflexivity|]. cbn [fold_left map fold_right] in *. destruct B as [B Bs], C as [C Cs].
    rewrite (IH o B C). apply IHl; assumption.
  - generalize true. induction l as [|o l IHl]; intros b; [reflexivity|]. cbn [fold_left map fold_right] in *. destruct B as [B Bs], C as [C Cs].
    rewrite (IH o B C). apply IHl; assumption.
Qed.
Theorem circle_same : forall S x y r a b, midrange S -> double S x -> double S y -> double S r -> double S a -> double S b ->
  let D := dist2 (valF x, valF y) (valF a, valF b) in 16 * ulp * S < Rabs (D - valF r) ->
  (contains (ObscCircle r a b) x y = true <-> D < valF r).
Proof.
  intros S x y r a b M X Y K A B D C. rewrite (contains_same S x y M X Y (ObscCircle r a b) (conj K (conj A B)) C).
  cbn [exactO contains]. unfold exact. xunf. cbn [xltb]. unfold D, dist2. cbn [fst snd].
  destruct (Rlt_dec _ _) as [L|L]; split; intros Q; trivial; [discriminate Q|contradiction].
Qed.
Theorem obscure_same : forall S o rv i r, midrange S -> built S o -> nth_error (rays rv) i = Some r ->
  double S (cx (pos r)) -> double S (cy (pos r)) -> clear_of (16 * ulp * S) o (valF (cx (pos r))) (valF (cy (pos r))) ->
  exists r', nth_error (rays (rv_obscure o rv)) i = Some r' /\
    vignetted r' = vignetted r || contains (exactO o) (exact (cx (pos r))) (exact (cy (pos r))) /\
    pos r' = pos r /\ vel r' = vel r /\ time r' = time r /\ wavelength r' = wavelength r /\ flux r' = flux r /\ failed r' = failed r.
Proof.
  intros S o rv i r M B N X Y C. exists (ray_obscure o r). split.
  - unfold rv_obscure. cbn [rays]. rewrite nth_error_map, N. reflexivity.
  - unfold ray_obscure. cbn [vignetted pos vel time wavelength flux failed]. rewrite (contains_same S _ _ M X Y o B C). repeat split.
Qed.
