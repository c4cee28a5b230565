(** Error bounds of the per-ray kernels in double precision. *)
From Coq Require Import Reals ZArith List Bool Lra Lia Floats.SpecFloat.
From Verif Require Import Num NumF Vec CoordSys Surface Ray Bundle Spec FloatSpec FloatProofs.
Import ListNotations.
Open Scope R_scope.

Lemma ulp_eq : ulp = 2 * ulp1. Proof. unfold ulp, ulp1. change (-52)%Z with (1 + -53)%Z. rewrite two_add. unfold two at 1. simpl. lra. Qed.
Lemma two_10 : two (-10) = / 1024. Proof. unfold two. simpl. lra. Qed.
Lemma ulp_small : 0 < ulp <= / 1000000000000.
Proof.
  split; [apply two_pos|]. unfold ulp. change (-52)%Z with (-10 + (-10 + (-10 + (-10 + (-10 + -2)))))%Z. rewrite !two_add, two_10.
  unfold two; simpl. lra.
Qed.
Lemma eta_small C : inrange C -> eta <= / 1000 * (ulp1 * C).
Proof.
  intros [L _]. unfold eta, ulp1. change (-1075)%Z with (-122 + (-53 + -900))%Z. rewrite !two_add.
  assert (H : two (-122) <= / 1000). { apply Rle_trans with (two (-10)). apply two_le; lia. rewrite two_10. lra. }
  pose proof (two_pos (-53)). pose proof (two_pos (-900)). pose proof (two_pos (-122)).
  apply Rmult_le_compat; try lra. apply Rmult_le_pos; lra. apply Rmult_le_compat_l; lra.
Qed.
Lemma inrange_pos C : inrange C -> 0 < C. Proof. intros [L _]. pose proof (two_pos (-900)). lra. Qed.
Lemma inrange_970 C : inrange C -> 2 * C < two 970.
Proof. intros [_ U]. replace 970%Z with (70 + 900)%Z by lia. rewrite two_add. assert (two 10 <= two 70) by (apply two_le; lia).
  assert (two 10 = 1024) by (unfold two; simpl; lra). pose proof (two_pos 900). nra. Qed.
Lemma rounding a z C : inrange C -> Rabs z <= 5/4 * C -> rounded a z -> Rabs (valF a - z) <= ulp * C.
Proof.
  intros R Z H. unfold rounded in H. pose proof (eta_small _ R). rewrite ulp_eq. pose proof (two_pos (-53)). fold ulp1 in *.
  pose proof (inrange_pos _ R). nra.
Qed.
Lemma close_weaken e g a x : close e a x -> e <= g -> close g a x.
Proof. intros [F H] L. split; [assumption|lra]. Qed.
Lemma sized_close B a : sized B a -> close 0 a (valF a) /\ Rabs (valF a) <= B.
Proof. intros [F H]. split; [split|]; trivial. rewrite Rminus_diag_eq by reflexivity. rewrite Rabs_R0. lra. Qed.

Lemma close_add e f C g a x b y : inrange C -> close e a x -> close f b y -> Rabs (x + y) <= C -> e + f <= C / 4 -> e + f + ulp * C <= g ->
  close g (nadd a b) (x + y).
Proof.
  intros R [Fa Ha] [Fb Hb] S E G.
  assert (D : Rabs ((valF a + valF b) - (x + y)) <= e + f).
  { replace (valF a + valF b - (x + y)) with ((valF a - x) + (valF b - y)) by ring. eapply Rle_trans; [apply Rabs_triang|lra]. }
  assert (Z : Rabs (valF a + valF b) <= 5/4 * C).
  { replace (valF a + valF b) with ((valF a + valF b - (x + y)) + (x + y)) by ring. eapply Rle_trans; [apply Rabs_triang|]. lra. }
  pose proof (inrange_970 _ R). pose proof (inrange_pos _ R).
  assert (F : finF (nadd a b)) by (apply add_finite; trivial; lra).
  split; [exact F|]. destruct (add_rounded a b F) as (_ & _ & H1). pose proof (rounding _ _ _ R Z H1).
  replace (valF (nadd a b) - (x + y)) with ((valF (nadd a b) - (valF a + valF b)) + ((valF a + valF b) - (x + y))) by ring.
  eapply Rle_trans; [apply Rabs_triang|lra].
Qed.
Lemma close_sub e f C g a x b y : inrange C -> close e a x -> close f b y -> Rabs (x - y) <= C -> e + f <= C / 4 -> e + f + ulp * C <= g ->
  close g (nsub a b) (x - y).
Proof.
  intros R [Fa Ha] [Fb Hb] S E G.
  assert (D : Rabs ((valF a - valF b) - (x - y)) <= e + f).
  { replace (valF a - valF b - (x - y)) with ((valF a - x) + - (valF b - y)) by ring. eapply Rle_trans; [apply Rabs_triang|]. rewrite Rabs_Ropp. lra. }
  assert (Z : Rabs (valF a - valF b) <= 5/4 * C).
  { replace (valF a - valF b) with ((valF a - valF b - (x - y)) + (x - y)) by ring. eapply Rle_trans; [apply Rabs_triang|]. lra. }
  pose proof (inrange_970 _ R). pose proof (inrange_pos _ R).
  assert (F : finF (nsub a b)) by (apply sub_finite; trivial; lra).
  split; [exact F|]. destruct (sub_rounded a b F) as (_ & _ & H1). pose proof (rounding _ _ _ R Z H1).
  replace (valF (nsub a b) - (x - y)) with ((valF (nsub a b) - (valF a - valF b)) + ((valF a - valF b) - (x - y))) by ring.
  eapply Rle_trans; [apply Rabs_triang|lra].
Qed.
Lemma abs_mul x y A B : Rabs x <= A -> Rabs y <= B -> Rabs (x * y) <= A * B.
Proof. intros. rewrite Rabs_mult. apply Rmult_le_compat; auto using Rabs_pos. Qed.
Lemma close_mul e f A B C g a x b y : inrange C -> close e a x -> close f b y -> Rabs x <= A -> Rabs y <= B -> Rabs (x * y) <= C ->
  A * f + B * e + e * f <= C / 4 -> A * f + B * e + e * f + ulp * C <= g -> close g (nmul a b) (x * y).
Proof.
  intros R [Fa Ha] [Fb Hb] SA SB S E G.
  assert (D : Rabs ((valF a * valF b) - (x * y)) <= A * f + B * e + e * f).
  { replace (valF a * valF b - (x * y)) with (x * (valF b - y) + (valF a - x) * y + (valF a - x) * (valF b - y)) by ring.
    eapply Rle_trans; [apply Rabs_triang|]. apply Rplus_le_compat; [eapply Rle_trans; [apply Rabs_triang|]; apply Rplus_le_compat|].
    - apply abs_mul; trivial.
    - rewrite Rmult_comm. apply abs_mul; trivial.
    - apply abs_mul; trivial. }
  assert (Z : Rabs (valF a * valF b) <= 5/4 * C).
  { replace (valF a * valF b) with ((valF a * valF b - (x * y)) + (x * y)) by ring. eapply Rle_trans; [apply Rabs_triang|]. lra. }
  pose proof (inrange_970 _ R). pose proof (inrange_pos _ R).
  assert (F : finF (nmul a b)) by (apply mul_finite; trivial; lra).
  split; [exact F|]. destruct (mul_rounded a b F) as (_ & _ & H1). pose proof (rounding _ _ _ R Z H1).
  replace (valF (nmul a b) - (x * y)) with ((valF (nmul a b) - (valF a * valF b)) + ((valF a * valF b) - (x * y))) by ring.
  eapply Rle_trans; [apply Rabs_triang|lra].
Qed.
Lemma inrange_between C k : inrange C -> 1 <= k -> k * C <= two 900 -> inrange (k * C).
Proof. intros R K U. pose proof (inrange_pos _ R). destruct R. split; [nra|assumption]. Qed.
(** A sum of three products. *)
Lemma close_dot3 e f A B a1 a2 a3 m1 m2 m3 x1 x2 x3 y1 y2 y3 : inrange (A * B) -> 3 * (A * B) <= two 900 -> 0 <= A -> 0 <= B ->
  close e a1 x1 -> close e a2 x2 -> close e a3 x3 -> close f m1 y1 -> close f m2 y2 -> close f m3 y3 ->
  Rabs x1 <= A -> Rabs x2 <= A -> Rabs x3 <= A -> Rabs y1 <= B -> Rabs y2 <= B -> Rabs y3 <= B ->
  A * f + B * e + e * f <= A * B / 16 ->
  close (3 * (A * f + B * e + e * f) + 8 * ulp * (A * B)) (nadd (nadd (nmul a1 m1) (nmul a2 m2)) (nmul a3 m3)) (x1 * y1 + x2 * y2 + x3 * y3).
Proof.
  intros R U PA PB H1 H2 H3 G1 G2 G3 S1 S2 S3 T1 T2 T3 E. set (D := A * f + B * e + e * f) in *.
  pose proof (inrange_pos _ R) as P. pose proof ulp_small as [U0 U1].
  assert (W : ulp * (A * B) <= / 1000000000000 * (A * B)) by (apply Rmult_le_compat_r; lra).
  pose proof (abs_mul _ _ _ _ S1 T1) as Q1. pose proof (abs_mul _ _ _ _ S2 T2) as Q2. pose proof (abs_mul _ _ _ _ S3 T3) as Q3.
  assert (K1 : close (D + ulp * (A * B)) (nmul a1 m1) (x1 * y1)) by (apply (close_mul e f A B (A * B)); trivial; unfold D in *; lra).
  assert (K2 : close (D + ulp * (A * B)) (nmul a2 m2) (x2 * y2)) by (apply (close_mul e f A B (A * B)); trivial; unfold D in *; lra).
  assert (K3 : close (D + ulp * (A * B)) (nmul a3 m3) (x3 * y3)) by (apply (close_mul e f A B (A * B)); trivial; unfold D in *; lra).
  assert (R2 : inrange (2 * (A * B))) by (apply inrange_between; trivial; lra).
  assert (R3 : inrange (3 * (A * B))) by (apply inrange_between; trivial; lra).
  assert (K12 : close (2 * D + 4 * ulp * (A * B)) (nadd (nmul a1 m1) (nmul a2 m2)) (x1 * y1 + x2 * y2)).
  { apply (close_add _ _ _ _ _ _ _ _ R2 K1 K2); [eapply Rle_trans; [apply Rabs_triang|lra] | lra | lra]. }
  apply (close_add _ _ _ _ _ _ _ _ R3 K12 K3); [eapply Rle_trans; [apply Rabs_triang|] | lra | lra].
  apply Rle_trans with (2 * (A * B) + A * B); [|lra]. apply Rplus_le_compat; [eapply Rle_trans; [apply Rabs_triang|lra]|assumption].
Qed.

(** * Vectors *)
Lemma room S k : inrange4 S -> 1 <= k <= 1000 -> inrange (k * S).
Proof.
  intros [L U] K. pose proof (two_pos (-900)). split. nra. replace 900%Z with (10 + 890)%Z by lia. rewrite two_add.
  assert (two 10 = 1024) by (unfold two; simpl; lra). pose proof (two_pos 890). nra.
Qed.
Lemma room_pos S : inrange4 S -> 0 < S. Proof. intros [L _]. pose proof (two_pos (-900)). lra. Qed.
Lemma room_1 : inrange4 1.
Proof. split; [change 1 with (two 0) | change 1 with (two 0)]; apply two_le; lia. Qed.
Lemma tri3 a b c A B C : Rabs a <= A -> Rabs b <= B -> Rabs c <= C -> Rabs (a + b + c) <= A + B + C.
Proof. intros. eapply Rle_trans; [apply Rabs_triang|]. apply Rplus_le_compat; trivial. eapply Rle_trans; [apply Rabs_triang|lra]. Qed.
Lemma closeV_close e a x : closeV e a x -> close e (cx a) (cx x) /\ close e (cy a) (cy x) /\ close e (cz a) (cz x). Proof. trivial. Qed.

(** * propagate and positionAtTime *)
Lemma step_close S x v t t0 : inrange4 S -> sized S x -> sized 2 v -> sized S t -> sized S t0 ->
  close (13 * ulp * S) (nadd x (nmul v (nsub t t0))) (valF x + valF v * (valF t - valF t0)).
Proof.
  intros R X V Tt T0. pose proof (room_pos _ R) as P. pose proof ulp_small as [U0 U1].
  assert (W : ulp * S <= / 1000000000000 * S) by (apply Rmult_le_compat_r; lra).
  destruct (sized_close _ _ X) as [X1 X2]. destruct (sized_close _ _ V) as [V1 V2].
  destruct (sized_close _ _ Tt) as [T1 T2]. destruct (sized_close _ _ T0) as [T3 T4].
  assert (D : Rabs (valF t - valF t0) <= 2 * S).
  { unfold Rminus. eapply Rle_trans; [apply Rabs_triang|]. rewrite Rabs_Ropp. lra. }
  assert (K1 : close (2 * ulp * S) (nsub t t0) (valF t - valF t0)).
  { apply (close_sub _ _ _ _ _ _ _ _ (room S 2 R ltac:(lra)) T1 T3 D); lra. }
  pose proof (abs_mul _ _ _ _ V2 D) as M.
  assert (K2 : close (8 * ulp * S) (nmul v (nsub t t0)) (valF v * (valF t - valF t0))).
  { apply (close_mul _ _ 2 (2 * S) (4 * S) _ _ _ _ _ (room S 4 R ltac:(lra)) V1 K1 V2 D); lra. }
  apply (close_add _ _ _ _ _ _ _ _ (room S 5 R ltac:(lra)) X1 K2); [eapply Rle_trans; [apply Rabs_triang|lra]|lra|lra].
Qed.
Theorem propagate_accurate S t r : inrange4 S -> sizedV S (pos r) -> sizedV 2 (vel r) -> sized S t -> sized S (time r) ->
  closeV (13 * ulp * S) (pos (ray_propagate t r)) (plusR (valV (pos r)) (timesR (valF t - valF (time r)) (valV (vel r)))).
Proof.
  intros R (X & Y & Z) (VX & VY & VZ) Ht H0. unfold closeV, plusR, timesR, valV, ray_propagate; cbn [pos cx cy cz].
  rewrite !(Rmult_comm (valF t - _)). split; [|split]; apply step_close; trivial.
Qed.
Theorem positionAtTime_accurate S t r : inrange4 S -> sizedV S (pos r) -> sizedV 2 (vel r) -> sized S t -> sized S (time r) ->
  closeV (13 * ulp * S) (ray_positionAtTime t r) (plusR (valV (pos r)) (timesR (valF t - valF (time r)) (valV (vel r)))).
Proof.
  intros R (X & Y & Z) (VX & VY & VZ) Ht H0. unfold closeV, plusR, timesR, valV, ray_positionAtTime; cbn [pos cx cy cz].
  rewrite !(Rmult_comm (valF t - _)). split; [|split]; apply step_close; trivial.
Qed.
