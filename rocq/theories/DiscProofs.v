(** Gauss quadrature on rings and spokes is exact for polynomials in x and y. *)
From Coq Require Import Reals List ZArith Bool Lra Lia Psatz.
From Verif Require Import Num NumR Vec Spec GenSpec PatternSpec GenQuad DiscSpec.
Import ListNotations.
Open Scope R_scope.

(** ** Integrals *)
Lemma integral_unique f a b I J : integral f a b I -> integral f a b J -> I = J.
Proof.
  intros (F & HF & ->) (G & HG & ->).
  assert (K : forall u v, u < v -> F v - G v = F u - G u).
  { intros u v H. destruct (MVT_cor2 (fun x => F x - G x) (fun _ => 0) u v H) as (xi & E & _).
    - intros x _. replace 0 with (f x - f x) by ring. apply (derivable_pt_lim_minus F G); [apply HF|apply HG].
    - lra. }
  destruct (Rtotal_order a b) as [H|[->|H]]; [pose proof (K a b H); lra|lra|pose proof (K b a H); lra].
Qed.
Lemma integral_ext f g a b I : (forall x, f x = g x) -> integral f a b I -> integral g a b I.
Proof. intros E (F & HF & H). exists F. split; [intros x; rewrite <- E; apply HF|exact H]. Qed.
Lemma integral_plus f g a b I J : integral f a b I -> integral g a b J -> integral (fun x => f x + g x) a b (I + J).
Proof.
  intros (F & HF & ->) (G & HG & ->). exists (fun x => F x + G x). split; [|ring].
  intros x. apply (derivable_pt_lim_plus F G); [apply HF|apply HG].
Qed.
Lemma integral_scal k f a b I : integral f a b I -> integral (fun x => k * f x) a b (k * I).
Proof.
  intros (F & HF & ->). exists (fun x => k * F x). split; [|ring].
  intros x. apply (derivable_pt_lim_scal F). apply HF.
Qed.
Lemma integral_pow n a b : integral (fun x => x ^ n) a b ((b ^ S n - a ^ S n) / INR (S n)).
Proof.
  assert (HI : INR (S n) <> 0) by (apply not_0_INR; discriminate).
  exists (fun x => / INR (S n) * x ^ S n). split; [|field; exact HI].
  intros x. replace (x ^ n) with (/ INR (S n) * (INR (S n) * x ^ pred (S n))) by (cbn [pred]; field; exact HI).
  apply (derivable_pt_lim_scal (fun x => x ^ S n)). apply derivable_pt_lim_pow.
Qed.
Lemma annulus_unique eps f I J : annulus_integral eps f I -> annulus_integral eps f J -> I = J.
Proof.
  intros (g & Hg & HI) (h & Hh & HJ). apply (integral_unique g 0 (2 * PI)); [exact HI|].
  apply (integral_ext h); [|exact HJ]. intros th. eapply integral_unique; [apply Hh|apply Hg].
Qed.
Lemma annulus_ext eps f g I : (forall x y, f x y = g x y) -> annulus_integral eps f I -> annulus_integral eps g I.
Proof.
  intros E (h & Hh & HI). exists h. split; [|exact HI]. intros th. apply (integral_ext (fun r => r * f (r * cos th) (r * sin th))); [|apply Hh].
  intros r. rewrite E. reflexivity.
Qed.
Lemma annulus_plus eps f g I J : annulus_integral eps f I -> annulus_integral eps g J ->
  annulus_integral eps (fun x y => f x y + g x y) (I + J).
Proof.
  intros (h & Hh & HI) (k & Hk & HJ). exists (fun th => h th + k th). split; [|apply integral_plus; assumption].
  intros th. apply (integral_ext (fun r => r * f (r * cos th) (r * sin th) + r * g (r * cos th) (r * sin th))); [intros r; ring|].
  apply integral_plus; [apply Hh|apply Hk].
Qed.
Lemma annulus_scal eps c f I : annulus_integral eps f I -> annulus_integral eps (fun x y => c * f x y) (c * I).
Proof.
  intros (h & Hh & HI). exists (fun th => c * h th). split; [|apply integral_scal; assumption].
  intros th. apply (integral_ext (fun r => c * (r * f (r * cos th) (r * sin th)))); [intros r; ring|].
  apply integral_scal, Hh.
Qed.

(** ** Trigonometric polynomials: coefficient, frequency, sine or cosine *)
Definition tterm := (R * Z * bool)%type.
Definition tat (t : tterm) (th : R) : R :=
  fst (fst t) * (if snd t then sin (IZR (snd (fst t)) * th) else cos (IZR (snd (fst t)) * th)).
Definition tsum (l : list tterm) (th : R) : R := sumR (map (fun t => tat t th) l).
Definition tdeg (d : nat) (l : list tterm) : Prop :=
  Forall (fun t : tterm => (- Z.of_nat d <= snd (fst t) <= Z.of_nat d)%Z /\ Z.even (snd (fst t)) = Nat.even d) l.
Definition tmean (l : list tterm) : R :=
  sumR (map (fun t : tterm => if snd t then 0 else if (snd (fst t) =? 0)%Z then fst (fst t) else 0) l).
Definition tcos (l : list tterm) : list tterm :=
  flat_map (fun t : tterm => let '(c, q, s) := t in [(c / 2, (q + 1)%Z, s); (c / 2, (q - 1)%Z, s)]) l.
Definition tsin (l : list tterm) : list tterm :=
  flat_map (fun t : tterm => let '(c, q, s) := t in
    if s then [(c / 2, (q - 1)%Z, false); (- (c / 2), (q + 1)%Z, false)]
    else [(c / 2, (q + 1)%Z, true); (- (c / 2), (q - 1)%Z, true)]) l.
Lemma tsum_cons t l th : tsum (t :: l) th = tat t th + tsum l th.
Proof. reflexivity. Qed.
Lemma tsum_app a b th : tsum (a ++ b) th = tsum a th + tsum b th.
Proof. unfold tsum. rewrite map_app. apply sumR_app. Qed.
Lemma tcos_at l th : tsum (tcos l) th = cos th * tsum l th.
Proof.
  induction l as [|[[c q] s] l IH]; [cbn; ring|]. cbn [tcos flat_map]. fold (tcos l). rewrite tsum_app, IH, !tsum_cons.
  unfold tat; cbn [fst snd]. rewrite plus_IZR, minus_IZR.
  replace ((IZR q + 1) * th) with (IZR q * th + th) by ring. replace ((IZR q - 1) * th) with (IZR q * th - th) by ring.
  change (tsum [] th) with 0. destruct s; rewrite ?sin_plus, ?sin_minus, ?cos_plus, ?cos_minus; field.
Qed.
Lemma tsin_at l th : tsum (tsin l) th = sin th * tsum l th.
Proof.
  induction l as [|[[c q] s] l IH]; [cbn; ring|]. cbn [tsin flat_map]. fold (tsin l). rewrite tsum_app, IH, tsum_cons.
  destruct s; rewrite !tsum_cons; unfold tat; cbn [fst snd]; rewrite plus_IZR, minus_IZR;
  replace ((IZR q + 1) * th) with (IZR q * th + th) by ring; replace ((IZR q - 1) * th) with (IZR q * th - th) by ring;
  change (tsum [] th) with 0; rewrite ?sin_plus, ?sin_minus, ?cos_plus, ?cos_minus; field.
Qed.
Lemma even_S n : Nat.even (S n) = negb (Nat.even n).
Proof. rewrite Nat.even_succ. symmetry. apply Nat.negb_even. Qed.
Lemma zeven_succ q : Z.even (q + 1) = negb (Z.even q).
Proof. change (q + 1)%Z with (Z.succ q). rewrite Z.even_succ, <- Z.negb_even. reflexivity. Qed.
Lemma zeven_pred q : Z.even (q - 1) = negb (Z.even q).
Proof. change (q - 1)%Z with (Z.pred q). rewrite Z.even_pred, <- Z.negb_even. reflexivity. Qed.
Lemma tcos_deg d l : tdeg d l -> tdeg (S d) (tcos l).
Proof.
  induction 1 as [|[[c q] s] l [B P] _ IH]; [constructor|]. cbn [fst snd] in B, P. cbn [tcos flat_map app]. fold (tcos l).
  constructor; [|constructor; [|exact IH]]; cbn [fst snd]; rewrite ?zeven_succ, ?zeven_pred, P, even_S; (split; [lia|reflexivity]).
Qed.
Lemma tsin_deg d l : tdeg d l -> tdeg (S d) (tsin l).
Proof.
  induction 1 as [|[[c q] s] l [B P] _ IH]; [constructor|]. cbn [fst snd] in B, P. cbn [tsin flat_map]. fold (tsin l).
  destruct s; cbn [app]; (constructor; [|constructor; [|exact IH]]; cbn [fst snd]; rewrite ?zeven_succ, ?zeven_pred, P, even_S; (split; [lia|reflexivity])).
Qed.
Fixpoint spow (b : nat) : list tterm := match b with O => [(1, 0%Z, false)] | S b => tsin (spow b) end.
Fixpoint tpow (a b : nat) : list tterm := match a with O => spow b | S a => tcos (tpow a b) end.
Lemma tpow_at a b th : tsum (tpow a b) th = cos th ^ a * sin th ^ b.
Proof.
  induction a as [|a IH]; [induction b as [|b IH]|].
  - cbn. unfold tat; cbn [fst snd]. rewrite Rmult_0_l, cos_0. ring.
  - cbn [tpow spow] in *. rewrite tsin_at, IH. cbn [pow]. ring.
  - cbn [tpow]. rewrite tcos_at, IH. cbn [pow]. ring.
Qed.
Lemma tpow_deg a b : tdeg (a + b) (tpow a b).
Proof.
  induction a as [|a IH]; [induction b as [|b IH]|].
  - constructor; [|constructor]. cbn. split; [lia|reflexivity].
  - cbn [tpow spow plus] in *. apply tsin_deg, IH.
  - cbn [tpow plus]. apply tcos_deg, IH.
Qed.
Lemma tmean_odd d l : tdeg d l -> Nat.even d = false -> tmean l = 0.
Proof.
  intros H Hd. induction H as [|[[c q] s] l [B P] _ IH]; [reflexivity|]. unfold tmean in *. cbn [map sumR fold_right fst snd] in *.
  fold (sumR (map (fun t : tterm => if snd t then 0 else if (snd (fst t) =? 0)%Z then fst (fst t) else 0) l)). rewrite IH.
  destruct s; [ring|]. destruct (Z.eqb_spec q 0) as [->|]; [|ring]. rewrite Hd in P. discriminate.
Qed.
Lemma full_turn q : cos (IZR q * (2 * PI)) = 1 /\ sin (IZR q * (2 * PI)) = 0.
Proof.
  assert (N : forall n : nat, cos (INR n * (2 * PI)) = 1 /\ sin (INR n * (2 * PI)) = 0).
  { intros n. replace (INR n * (2 * PI)) with (0 + 2 * INR n * PI) by ring. rewrite cos_period, sin_period, cos_0, sin_0. split; reflexivity. }
  destruct (Z_le_gt_dec 0 q) as [H|H].
  - rewrite <- (Z2Nat.id q H), <- INR_IZR_INZ. apply N.
  - specialize (N (Z.to_nat (- q))). rewrite INR_IZR_INZ, Z2Nat.id, opp_IZR in N by lia.
    rewrite <- Ropp_mult_distr_l, cos_neg, sin_neg in N. destruct N. split; lra.
Qed.
Lemma tterm_integral (t : tterm) : integral (tat t) 0 (2 * PI)
  (2 * PI * (if snd t then 0 else if (snd (fst t) =? 0)%Z then fst (fst t) else 0)).
Proof.
  destruct t as [[c q] s]. cbn [fst snd]. destruct (Z.eqb_spec q 0) as [->|Hq].
  - apply (integral_ext (fun _ => if s then 0 else c)).
    + intros th. unfold tat; cbn [fst snd]. rewrite Rmult_0_l, sin_0, cos_0. destruct s; ring.
    + exists (fun x => (if s then 0 else c) * x). split; [|destruct s; ring].
      intros x. set (k := if s then 0 else c). pose proof (derivable_pt_lim_scal id k x 1 (derivable_pt_lim_id x)) as D. rewrite Rmult_1_r in D. exact D.
  - replace (2 * PI * (if s then 0 else 0)) with 0 by (destruct s; ring).
    assert (Q : IZR q <> 0) by (apply not_0_IZR; exact Hq). destruct (full_turn q) as [TC TS].
    assert (DL : forall x, derivable_pt_lim (fun x => IZR q * x) x (IZR q)).
    { intros x. pose proof (derivable_pt_lim_scal id (IZR q) x 1 (derivable_pt_lim_id x)) as D. rewrite Rmult_1_r in D. exact D. }
    destruct s.
    + exists (fun x => (- (c / IZR q)) * cos (IZR q * x)). split; [|rewrite TC, (Rmult_0_r (IZR q)), cos_0; ring].
      intros x. unfold tat; cbn [fst snd].
      replace (c * sin (IZR q * x)) with (- (c / IZR q) * (- sin (IZR q * x) * IZR q)) by (field; exact Q).
      apply (derivable_pt_lim_scal (fun x => cos (IZR q * x))). apply (derivable_pt_lim_comp (fun x => IZR q * x) cos); [apply DL|apply derivable_pt_lim_cos].
    + exists (fun x => (c / IZR q) * sin (IZR q * x)). split; [|rewrite TS, (Rmult_0_r (IZR q)), sin_0; ring].
      intros x. unfold tat; cbn [fst snd].
      replace (c * cos (IZR q * x)) with ((c / IZR q) * (cos (IZR q * x) * IZR q)) by (field; exact Q).
      apply (derivable_pt_lim_scal (fun x => sin (IZR q * x))). apply (derivable_pt_lim_comp (fun x => IZR q * x) sin); [apply DL|apply derivable_pt_lim_sin].
Qed.
Lemma tmean_cons t l : tmean (t :: l) = (if snd t then 0 else if (snd (fst t) =? 0)%Z then fst (fst t) else 0) + tmean l.
Proof. reflexivity. Qed.
Lemma tsum_integral l : integral (tsum l) 0 (2 * PI) (2 * PI * tmean l).
Proof.
  induction l as [|t l IH].
  - exists (fun _ => 0). split; [intros x; apply derivable_pt_lim_const|cbn; ring].
  - rewrite tmean_cons, Rmult_plus_distr_l. apply (integral_ext (fun th => tat t th + tsum l th)); [reflexivity|].
    apply integral_plus; [apply tterm_integral|exact IH].
Qed.

(** ** Exactness *)
Lemma weighted_plus fl pol f g : weighted fl pol (fun r th => f r th + g r th) = weighted fl pol f + weighted fl pol g.
Proof. unfold weighted. induction (combine fl pol) as [|x l IH]; [cbn; ring|]. cbn [map sumR fold_right] in *. unfold sumR in IH. rewrite IH. ring. Qed.
Lemma weighted_scal k fl pol f : weighted fl pol (fun r th => k * f r th) = k * weighted fl pol f.
Proof. unfold weighted. induction (combine fl pol) as [|x l IH]; [cbn; ring|]. cbn [map sumR fold_right] in *. unfold sumR in IH. rewrite IH. ring. Qed.
Lemma weighted_ext fl pol f g : (forall r th, f r th = g r th) -> weighted fl pol f = weighted fl pol g.
Proof. intros E. unfold weighted. f_equal. apply map_ext. intros x. rewrite E. reflexivity. Qed.

Section Exact.
  Context (fl : list R) (pol : list (R * R)) (eps : R) (N m : nat)
    (radial : forall k, (k < N)%nat -> weighted fl pol (fun r th => r ^ (2 * k)) = PI * (1 - eps ^ (2 * k + 2)) / INR (k + 1))
    (angular : forall k q, (0 < q < m)%nat ->
       weighted fl pol (fun r th => r ^ k * cos (INR q * th)) = 0 /\ weighted fl pol (fun r th => r ^ k * sin (INR q * th)) = 0).
  Lemma weighted_term k d (t : tterm) : (k < N)%nat -> d = (2 * k)%nat ->
    (Z.abs (snd (fst t)) < Z.of_nat m)%Z ->
    weighted fl pol (fun r th => r ^ d * tat t th)
    = PI * (1 - eps ^ (2 * k + 2)) / INR (k + 1) * (if snd t then 0 else if (snd (fst t) =? 0)%Z then fst (fst t) else 0).
  Proof.
    intros Hk -> Hm. destruct t as [[c q] s]. cbn [fst snd] in *.
    destruct (Z.eqb_spec q 0) as [->|Hq].
    - destruct s; unfold tat; cbn [fst snd].
      + rewrite (weighted_ext _ _ _ (fun r th => 0 * r ^ (2 * k))) by (intros; rewrite Rmult_0_l, sin_0; ring).
        rewrite weighted_scal. ring.
      + rewrite (weighted_ext _ _ _ (fun r th => c * r ^ (2 * k))) by (intros; rewrite Rmult_0_l, cos_0; ring).
        rewrite weighted_scal, radial by exact Hk. ring.
    - destruct (angular (2 * k)%nat (Z.abs_nat q) ltac:(lia)) as [AC AS].
      rewrite INR_IZR_INZ, Zabs2Nat.id_abs in AC, AS.
      destruct s; unfold tat; cbn [fst snd].
      + destruct (Z.abs_eq_or_opp q) as [E|E]; rewrite E in AS; [|rewrite opp_IZR in AS].
        * rewrite (weighted_ext _ _ _ (fun r th => c * (r ^ (2 * k) * sin (IZR q * th)))) by (intros; ring).
          rewrite weighted_scal, AS. ring.
        * rewrite (weighted_ext _ _ _ (fun r th => - c * (r ^ (2 * k) * sin (- IZR q * th)))).
          { rewrite weighted_scal, AS. ring. }
          intros r th. replace (- IZR q * th) with (- (IZR q * th)) by ring. rewrite sin_neg. ring.
      + destruct (Z.abs_eq_or_opp q) as [E|E]; rewrite E in AC; [|rewrite opp_IZR in AC].
        * rewrite (weighted_ext _ _ _ (fun r th => c * (r ^ (2 * k) * cos (IZR q * th)))) by (intros; ring).
          rewrite weighted_scal, AC. ring.
        * rewrite (weighted_ext _ _ _ (fun r th => c * (r ^ (2 * k) * cos (- IZR q * th)))).
          { rewrite weighted_scal, AC. ring. }
          intros r th. replace (- IZR q * th) with (- (IZR q * th)) by ring. rewrite cos_neg. ring.
  Qed.
  Lemma weighted_odd d (t : tterm) : Nat.even d = false -> Z.even (snd (fst t)) = Nat.even d ->
    (Z.abs (snd (fst t)) < Z.of_nat m)%Z -> weighted fl pol (fun r th => r ^ d * tat t th) = 0.
  Proof.
    intros Hd Hp Hm. destruct t as [[c q] s]. cbn [fst snd] in *.
    assert (Hq : q <> 0%Z) by (intros ->; rewrite Hd in Hp; discriminate).
    destruct (angular d (Z.abs_nat q) ltac:(lia)) as [AC AS].
    rewrite INR_IZR_INZ, Zabs2Nat.id_abs in AC, AS.
    destruct s; unfold tat; cbn [fst snd].
    + destruct (Z.abs_eq_or_opp q) as [E|E]; rewrite E in AS; [|rewrite opp_IZR in AS].
      * rewrite (weighted_ext _ _ _ (fun r th => c * (r ^ d * sin (IZR q * th)))) by (intros; ring).
        rewrite weighted_scal, AS. ring.
      * rewrite (weighted_ext _ _ _ (fun r th => - c * (r ^ d * sin (- IZR q * th)))).
        { rewrite weighted_scal, AS. ring. }
        intros r th. replace (- IZR q * th) with (- (IZR q * th)) by ring. rewrite sin_neg. ring.
    + destruct (Z.abs_eq_or_opp q) as [E|E]; rewrite E in AC; [|rewrite opp_IZR in AC].
      * rewrite (weighted_ext _ _ _ (fun r th => c * (r ^ d * cos (IZR q * th)))) by (intros; ring).
        rewrite weighted_scal, AC. ring.
      * rewrite (weighted_ext _ _ _ (fun r th => c * (r ^ d * cos (- IZR q * th)))).
        { rewrite weighted_scal, AC. ring. }
        intros r th. replace (- IZR q * th) with (- (IZR q * th)) by ring. rewrite cos_neg. ring.
  Qed.
  Lemma weighted_tsum d l : tdeg d l -> (d < 2 * N)%nat -> (d < m)%nat ->
    weighted fl pol (fun r th => r ^ d * tsum l th) = (1 - eps ^ (d + 2)) / INR (d + 2) * (2 * PI * tmean l).
  Proof.
    intros HD HN Hm. assert (I2 : INR (d + 2) <> 0) by (apply not_0_INR; lia).
    induction HD as [|t l [B P] HD IH].
    - rewrite (weighted_ext _ _ _ (fun r th => 0 * r ^ d)) by (intros; unfold tsum; cbn; ring). rewrite weighted_scal. unfold tmean; cbn. field. exact I2.
    - rewrite (weighted_ext _ _ _ (fun r th => r ^ d * tat t th + r ^ d * tsum l th)) by (intros; rewrite tsum_cons; ring).
      rewrite weighted_plus, IH, tmean_cons. destruct (Nat.even d) eqn:Ev.
      + assert (E : exists k, d = (2 * k)%nat) by (apply Nat.even_spec in Ev; destruct Ev as [k Hk]; exists k; exact Hk).
        destruct E as (k & E). rewrite (weighted_term k d t) by (lia || exact E). 
        replace (INR (d + 2)) with (2 * INR (k + 1)) in *.
        2:{ rewrite E. replace (2 * k + 2)%nat with (2 * (k + 1))%nat by lia. rewrite mult_INR. reflexivity. }
        rewrite <- E. assert (INR (k + 1) <> 0) by (apply not_0_INR; lia). field. assumption.
      + rewrite weighted_odd by (exact Ev || (rewrite P; exact (eq_sym Ev)) || lia).
        destruct t as [[c q] s]; cbn [fst snd] in *. destruct s; [field; exact I2|].
        destruct (Z.eqb_spec q 0) as [->|]; [discriminate|field; exact I2].
  Qed.
  Lemma polar_mono a b r th : (r * cos th) ^ a * (r * sin th) ^ b = r ^ (a + b) * tsum (tpow a b) th.
  Proof. rewrite tpow_at, !Rpow_mult_distr, pow_add. ring. Qed.
  Lemma annulus_mono a b : annulus_integral eps (fun x y => x ^ a * y ^ b)
    ((1 - eps ^ (a + b + 2)) / INR (a + b + 2) * (2 * PI * tmean (tpow a b))).
  Proof.
    exists (fun th => (1 - eps ^ (a + b + 2)) / INR (a + b + 2) * tsum (tpow a b) th). split.
    - intros th. apply (integral_ext (fun r => tsum (tpow a b) th * r ^ (a + b + 1))).
      { intros r. rewrite polar_mono, pow_add. ring. }
      replace ((1 - eps ^ (a + b + 2)) / INR (a + b + 2) * tsum (tpow a b) th)
        with (tsum (tpow a b) th * ((1 ^ S (a + b + 1) - eps ^ S (a + b + 1)) / INR (S (a + b + 1)))).
      + apply integral_scal, integral_pow.
      + rewrite pow1. replace (S (a + b + 1)) with (a + b + 2)%nat by lia. unfold Rdiv. ring.
    - apply integral_scal, tsum_integral.
  Qed.
  Theorem weighted_poly p d : degree2 d p -> (d < 2 * N)%nat -> (d < m)%nat ->
    annulus_integral eps (at2 p) (weighted fl pol (fun r th => at2 p (r * cos th) (r * sin th))).
  Proof.
    intros HD HN Hm. induction HD as [|[[c a] b] p B _ IH].
    - rewrite (weighted_ext _ _ _ (fun r th => 0 * 1)) by (intros; cbn; ring). rewrite weighted_scal, Rmult_0_l.
      exists (fun _ => 0). split; [|exists (fun _ => 0); split; [intros; apply derivable_pt_lim_const|ring]].
      intros th. exists (fun _ => 0). split; [|ring]. intros x. replace (x * at2 [] (x * cos th) (x * sin th)) with 0 by (cbn; ring). apply derivable_pt_lim_const.
    - cbn [fst snd] in B. rewrite (weighted_ext _ _ _ (fun r th => c * (r ^ (a + b) * tsum (tpow a b) th) + at2 p (r * cos th) (r * sin th))).
      2:{ intros r th. unfold at2. cbn [map sumR fold_right]. unfold mono at 1; cbn [fst snd]. rewrite <- polar_mono. unfold sumR. ring. }
      rewrite weighted_plus, weighted_scal, (weighted_tsum (a + b)) by (apply tpow_deg || lia).
      apply (annulus_ext _ (fun x y => c * (x ^ a * y ^ b) + at2 p x y)).
      { intros x y. unfold at2. cbn [map sumR fold_right]. unfold mono at 2; cbn [fst snd]. unfold sumR. ring. }
      apply annulus_plus; [|exact IH]. apply annulus_scal, annulus_mono.
  Qed.
End Exact.
