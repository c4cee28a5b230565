(** Sums over roots of unity; Parseval's identity for a two-dimensional discrete Fourier
    transform. *)
From Coq Require Import Reals List ZArith Lra Psatz Lia.
From Verif Require Import WaveSpec AnalysisSpec.
Import ListNotations.
Open Scope R_scope.

Lemma sum_cons x l : sumR (x :: l) = x + sumR l.
Proof. reflexivity. Qed.
Lemma sum_app a b : sumR (a ++ b) = sumR a + sumR b.
Proof. induction a as [|x a IH]; cbn [app]; rewrite ?sum_cons; [cbn; ring|rewrite IH; ring]. Qed.
Lemma sum_ext {A} (f g : A -> R) l : (forall x, In x l -> f x = g x) -> sumR (map f l) = sumR (map g l).
Proof. intros H. f_equal. apply map_ext_in, H. Qed.
Lemma sum_zero {A} (f : A -> R) l : (forall x, In x l -> f x = 0) -> sumR (map f l) = 0.
Proof.
  induction l as [|a l IH]; intros H; [reflexivity|]. cbn [map]. rewrite sum_cons, IH, (H a); [ring|left; reflexivity|].
  intros x Hx. apply H. right. exact Hx.
Qed.
Lemma sum_scale {A} (f : A -> R) k l : sumR (map (fun x => k * f x) l) = k * sumR (map f l).
Proof. induction l as [|a l IH]; [cbn; ring|]. cbn [map]. rewrite !sum_cons, IH. ring. Qed.
Lemma sum_plus {A} (f g : A -> R) l : sumR (map (fun x => f x + g x) l) = sumR (map f l) + sumR (map g l).
Proof. induction l as [|a l IH]; [cbn; ring|]. cbn [map]. rewrite !sum_cons, IH. ring. Qed.
Lemma sum_const {A} c (l : list A) : sumR (map (fun _ => c) l) = INR (length l) * c.
Proof. induction l as [|a l IH]; [cbn; ring|]. cbn [map length]. rewrite sum_cons, IH, S_INR. ring. Qed.
Lemma sum_swap {A B} (f : A -> B -> R) l m :
  sumR (map (fun a => sumR (map (f a) m)) l) = sumR (map (fun b => sumR (map (fun a => f a b) l)) m).
Proof.
  induction l as [|a l IH]; [rewrite (sum_zero (fun _ : B => sumR (map _ [])) m); [reflexivity|intros; reflexivity]|].
  cbn [map]. rewrite sum_cons, IH, <- sum_plus. apply sum_ext. intros b _. cbn [map]. rewrite sum_cons. reflexivity.
Qed.
Lemma sum_flat {A} (f : A -> list R) l : sumR (flat_map f l) = sumR (map (fun a => sumR (f a)) l).
Proof. induction l as [|a l IH]; [reflexivity|]. cbn [flat_map map]. rewrite sum_app, sum_cons, IH. reflexivity. Qed.

(** ** Roots of unity *)
Lemma telescoping n x th : 2 * sin (th / 2) * sumR (map (fun i => cos (x + INR i * th)) (seq 0 n))
  = sin (x + INR n * th - th / 2) - sin (x - th / 2).
Proof.
  induction n as [|n IH]; [cbn; replace (x + 0 * th - th / 2) with (x - th / 2) by field; ring|].
  rewrite seq_S, map_app, sum_app, Rmult_plus_distr_l, IH. cbn [Nat.add map]. rewrite sum_cons. cbn [sumR fold_right].
  rewrite S_INR. replace (x + (INR n + 1) * th - th / 2) with (x + INR n * th + th / 2) by field.
  set (y := x + INR n * th). rewrite (sin_minus y), (sin_plus y). ring.
Qed.
Lemma sin_nonzero m n : (0 < Z.abs m < Z.of_nat n)%Z -> sin (PI * IZR m / INR n) <> 0.
Proof.
  intros [H1 H2] E. pose proof PI_RGT_0 as HP.
  assert (Hn : 0 < INR n) by (rewrite INR_IZR_INZ; apply IZR_lt; lia).
  assert (B : 0 < PI * IZR (Z.abs m) / INR n < PI).
  { split.
    - apply Rdiv_lt_0_compat; [|exact Hn]. apply Rmult_lt_0_compat; [exact HP|apply IZR_lt; lia].
    - apply (Rmult_lt_reg_r (INR n)); [exact Hn|]. unfold Rdiv. rewrite Rmult_assoc, Rinv_l by lra. rewrite Rmult_1_r.
      apply Rmult_lt_compat_l; [exact HP|]. rewrite INR_IZR_INZ. apply IZR_lt. lia. }
  pose proof (sin_gt_0 _ (proj1 B) (proj2 B)) as S.
  destruct (Z.abs_spec m) as [[_ A]|[_ A]]; rewrite A in S; [lra|].
  rewrite opp_IZR in S. replace (PI * - IZR m / INR n) with (- (PI * IZR m / INR n)) in S by (field; lra).
  rewrite sin_neg in S. lra.
Qed.
Lemma cos_period_Z x (k : Z) : cos (x + 2 * PI * IZR k) = cos x.
Proof.
  destruct (Z_le_dec 0 k) as [H|H].
  - rewrite <- (Z2Nat.id k H), <- INR_IZR_INZ. replace (2 * PI * INR (Z.to_nat k)) with (2 * INR (Z.to_nat k) * PI) by ring. apply cos_period.
  - rewrite <- (cos_period (x + 2 * PI * IZR k) (Z.to_nat (- k))). f_equal. rewrite INR_IZR_INZ, Z2Nat.id by lia. rewrite opp_IZR. ring.
Qed.
Lemma sin_period_Z x (k : Z) : sin (x + 2 * PI * IZR k) = sin x.
Proof.
  destruct (Z_le_dec 0 k) as [H|H].
  - rewrite <- (Z2Nat.id k H), <- INR_IZR_INZ. replace (2 * PI * INR (Z.to_nat k)) with (2 * INR (Z.to_nat k) * PI) by ring. apply sin_period.
  - rewrite <- (sin_period (x + 2 * PI * IZR k) (Z.to_nat (- k))). f_equal. rewrite INR_IZR_INZ, Z2Nat.id by lia. rewrite opp_IZR. ring.
Qed.
Lemma roots_of_unity n m x : (0 < Z.abs m < Z.of_nat n)%Z ->
  sumR (map (fun i => cos (x + INR i * (2 * PI * IZR m / INR n))) (seq 0 n)) = 0.
Proof.
  intros H. set (th := 2 * PI * IZR m / INR n).
  assert (Hn : INR n <> 0) by (apply not_0_INR; lia).
  assert (S : sin (th / 2) <> 0).
  { unfold th. replace (2 * PI * IZR m / INR n / 2) with (PI * IZR m / INR n) by (field; exact Hn). apply sin_nonzero, H. }
  pose proof (telescoping n x th) as T.
  replace (x + INR n * th - th / 2) with (x - th / 2 + 2 * PI * IZR m) in T by (unfold th; field; exact Hn).
  rewrite sin_period_Z in T. apply (Rmult_eq_reg_l (2 * sin (th / 2))); lra.
Qed.

(** ** Phasors *)
(** The squared modulus of a sum of phasors. *)
Lemma modulus_pairs {A} (th : A -> R) U :
  sumR (map (fun u => cos (th u)) U) * sumR (map (fun u => cos (th u)) U)
  + sumR (map (fun u => sin (th u)) U) * sumR (map (fun u => sin (th u)) U)
  = sumR (map (fun u => sumR (map (fun u' => cos (th u - th u')) U)) U).
Proof.
  set (C := sumR (map (fun u => cos (th u)) U)). set (S := sumR (map (fun u => sin (th u)) U)).
  transitivity (sumR (map (fun u => cos (th u) * C + sin (th u) * S) U)).
  - rewrite sum_plus. rewrite (sum_ext _ (fun u => C * cos (th u))) by (intros; ring).
    rewrite (sum_ext (fun u => sin (th u) * S) (fun u => S * sin (th u))) by (intros; ring). rewrite !sum_scale. reflexivity.
  - apply sum_ext. intros u _. unfold C, S. rewrite <- !sum_scale, <- sum_plus. apply sum_ext. intros u' _.
    rewrite cos_minus. reflexivity.
Qed.
Lemma modulus_bound {A} (th : A -> R) U :
  sumR (map (fun u => cos (th u)) U) * sumR (map (fun u => cos (th u)) U)
  + sumR (map (fun u => sin (th u)) U) * sumR (map (fun u => sin (th u)) U) <= INR (length U) * INR (length U).
Proof.
  rewrite modulus_pairs.
  assert (L : forall (f : A -> R) l c, (forall x, f x <= c) -> sumR (map f l) <= INR (length l) * c).
  { intros f l c H. induction l as [|a l IH]; [cbn; lra|]. cbn [map length]. rewrite sum_cons, S_INR. specialize (H a). lra. }
  apply L. intros u. rewrite <- (Rmult_1_r (INR (length U))). apply L. intros u'. apply COS_bound.
Qed.
Lemma modulus_rotated {A} (th th' : A -> R) c U : (forall u, In u U -> th u = th' u + c) ->
  sumR (map (fun u => cos (th u)) U) * sumR (map (fun u => cos (th u)) U)
  + sumR (map (fun u => sin (th u)) U) * sumR (map (fun u => sin (th u)) U)
  = sumR (map (fun u => cos (th' u)) U) * sumR (map (fun u => cos (th' u)) U)
  + sumR (map (fun u => sin (th' u)) U) * sumR (map (fun u => sin (th' u)) U).
Proof.
  intros H. rewrite !modulus_pairs. apply sum_ext. intros u Hu. apply sum_ext. intros u' Hu'. f_equal. rewrite (H u Hu), (H u' Hu'). ring.
Qed.

Lemma delta_sum {A} (U : list A) (f : A -> A -> R) c : NoDup U ->
  (forall u, In u U -> f u u = c) -> (forall u u', In u U -> In u' U -> u <> u' -> f u u' = 0) ->
  sumR (map (fun u => sumR (map (f u) U)) U) = INR (length U) * c.
Proof.
  intros ND D O. rewrite <- sum_const. apply sum_ext. intros u Hu.
  destruct (in_split _ _ Hu) as (l1 & l2 & E). subst U. rewrite map_app. cbn [map]. rewrite sum_app, sum_cons.
  rewrite (D u Hu). apply NoDup_remove_2 in ND.
  rewrite !sum_zero; [ring| |]; intros u' Hu'; (apply O; [exact Hu|apply in_app_iff; cbn; tauto|]);
    intros ->; apply ND, in_app_iff; tauto.
Qed.
Theorem parseval2 n o U : (1 <= n)%nat -> NoDup U ->
  (forall u, In u U -> (fst (fst u) < n)%nat /\ (snd (fst u) < n)%nat) ->
  (forall u u', In u U -> In u' U -> fst u = fst u' -> u = u') ->
  sumR (map (fun i => sumR (map (fun j => diffracted n (INR i - o) (INR j - o) U) (seq 0 n))) (seq 0 n)) = INR (n * n) * INR (length U).
Proof.
  intros Hn ND Rng Inj.
  assert (Hn0 : INR n <> 0) by (apply not_0_INR; lia).
  set (f := fun u u' : nat * nat * R => sumR (map (fun i => sumR (map (fun j =>
     cos (phase2 n (INR i - o) (INR j - o) u - phase2 n (INR i - o) (INR j - o) u')) (seq 0 n))) (seq 0 n))).
  transitivity (sumR (map (fun u => sumR (map (f u) U)) U)).
  - transitivity (sumR (map (fun i => sumR (map (fun j => sumR (map (fun u => sumR (map (fun u' =>
       cos (phase2 n (INR i - o) (INR j - o) u - phase2 n (INR i - o) (INR j - o) u')) U)) U)) (seq 0 n))) (seq 0 n))).
    { apply sum_ext. intros i _. apply sum_ext. intros j _. apply modulus_pairs. }
    rewrite (sum_ext _ (fun i => sumR (map (fun u => sumR (map (fun j => sumR (map (fun u' =>
       cos (phase2 n (INR i - o) (INR j - o) u - phase2 n (INR i - o) (INR j - o) u')) U)) (seq 0 n))) U)))
      by (intros i _; apply sum_swap).
    rewrite sum_swap. apply sum_ext. intros u _.
    rewrite (sum_ext _ (fun i => sumR (map (fun u' => sumR (map (fun j =>
       cos (phase2 n (INR i - o) (INR j - o) u - phase2 n (INR i - o) (INR j - o) u')) (seq 0 n))) U)))
      by (intros i _; apply sum_swap).
    rewrite sum_swap. reflexivity.
  - rewrite (delta_sum U f (INR (n * n)) ND); [ring| |].
    + intros u _. unfold f. rewrite (sum_ext _ (fun _ => INR n)).
      * rewrite sum_const, seq_length, mult_INR. reflexivity.
      * intros i _. rewrite (sum_ext _ (fun _ => 1)); [rewrite sum_const, seq_length; ring|].
        intros j _. replace (_ - _) with 0 by ring. apply cos_0.
    + intros u u' Hu Hu' Ne. destruct (Rng u Hu) as [R1 R2]. destruct (Rng u' Hu') as [R3 R4].
      destruct u as [[a b] v], u' as [[a' b'] v']. cbn [fst snd] in *.
      assert (Ix : a <> a' \/ b <> b').
      { destruct (Nat.eq_dec a a') as [->|Na]; [|left; exact Na]. destruct (Nat.eq_dec b b') as [->|Nb]; [|right; exact Nb].
        exfalso. apply Ne. apply Inj; [exact Hu|exact Hu'|reflexivity]. }
      unfold f, phase2; cbn [fst snd].
      destruct Ix as [Na|Nb].
      * rewrite sum_swap. apply sum_zero. intros j _.
        rewrite (sum_ext _ (fun i => cos ((2 * PI * (v - v' - (- (INR a - INR a') * o + (INR b - INR b') * (INR j - o)) / INR n))
            + INR i * (2 * PI * IZR (Z.of_nat a' - Z.of_nat a) / INR n)))).
        { apply roots_of_unity. lia. }
        intros i _. f_equal. rewrite minus_IZR, <- !INR_IZR_INZ. field. exact Hn0.
      * apply sum_zero. intros i _.
        rewrite (sum_ext _ (fun j => cos ((2 * PI * (v - v' - ((INR a - INR a') * (INR i - o) - (INR b - INR b') * o) / INR n))
            + INR j * (2 * PI * IZR (Z.of_nat b' - Z.of_nat b) / INR n)))).
        { apply roots_of_unity. lia. }
        intros j _. f_equal. rewrite minus_IZR, <- !INR_IZR_INZ. field. exact Hn0.
Qed.
