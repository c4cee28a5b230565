(** The quadratic root finder shared by sphere, paraboloid and quadric. *)
From Coq Require Import Reals List ZArith Bool Lra Psatz.
From Verif Require Import Num NumR Vec Surface Spec XRFacts NormalFacts.
Import ListNotations.
Open Scope R_scope.

Definition quad (a b c t : R) : R := a * t * t + b * t + c.
Definition discR (a b c : R) : R := b * b - 4 * a * c.

Lemma roots_none a b c : roots (Fin a) (Fin b) (Fin c) = None <-> discR a b c < 0.
Proof.
  unfold roots. xunf. fold (discR a b c). cbn [xltb]. destruct (Rlt_dec (discR a b c) 0).
  - split; auto.
  - split; [discriminate|contradiction].
Qed.
(** Both roots are proper. *)
Lemma roots_two a b c : a <> 0 -> 0 <= discR a b c -> c <> 0 ->
  exists t1 t2, roots (Fin a) (Fin b) (Fin c) = Some (Fin t1, Fin t2) /\
    quad a b c t1 = 0 /\ quad a b c t2 = 0 /\ a * (t1 + t2) = - b /\ a * (t1 * t2) = c.
Proof.
  intros Ha Hd Hc. unfold roots. xunf. fold (discR a b c). rewrite xltb_f by lra.
  pose proof (sqrt_sqrt _ Hd) as S. pose proof (sqrt_pos (discR a b c)) as P.
  rewrite xsqrt_fin by lra. set (d := sqrt (discR a b c)) in *. cbn [xadd xsub xmul].
  assert (H4 : a * c <> 0) by (apply Rmult_integral_contrapositive_currified; assumption).
  assert (DD : b * b - d * d = 4 * (a * c)) by (rewrite S; unfold discR; ring).
  set (t1 := if Rlt_dec 0 b then (- b - d) / (2 * a) else 2 * c / (- b + d)).
  assert (E1 : (if xltb (Fin 0) (Fin b) then xdiv (Fin (- b - d)) (Fin (2 * a))
            else xdiv (Fin (2 * c)) (Fin (- b + d))) = Fin t1).
  { cbn [xltb]. unfold t1. destruct (Rlt_dec 0 b) as [Hb|Hb].
    - rewrite xdiv_fin by lra. reflexivity.
    - rewrite xdiv_fin; [reflexivity|]. intros E. apply H4. nra. }
  rewrite E1.
  assert (T : t1 <> 0 /\ quad a b c t1 = 0).
  { unfold t1. destruct (Rlt_dec 0 b) as [Hb|Hb].
    - split.
      + unfold Rdiv. apply Rmult_integral_contrapositive_currified; [lra|]. apply Rinv_neq_0_compat; lra.
      + unfold quad. replace (a * ((- b - d) / (2 * a)) * ((- b - d) / (2 * a)) + b * ((- b - d) / (2 * a)) + c)
          with ((d * d - b * b) / (4 * a) + c) by (field; lra).
        replace (d * d - b * b) with (- (4 * (a * c))) by lra. field. lra.
    - assert (- b + d <> 0) by (intros E; apply H4; nra). split.
      + unfold Rdiv. apply Rmult_integral_contrapositive_currified; [lra|]. apply Rinv_neq_0_compat; lra.
      + unfold quad. replace (a * (2 * c / (- b + d)) * (2 * c / (- b + d)) + b * (2 * c / (- b + d)) + c)
          with (c * (4 * (a * c) + 2 * b * (- b + d) + (- b + d) * (- b + d)) / ((- b + d) * (- b + d)))
          by (field; lra). rewrite <- DD. field. lra. }
  destruct T as [T0 T1]. clear E1.
  assert (N : a * t1 <> 0) by (apply Rmult_integral_contrapositive_currified; assumption).
  cbn [xmul]. rewrite xdiv_fin by assumption. exists t1, (c / (a * t1)). split; [reflexivity|].
  clearbody t1. unfold quad in *.
  assert (Bq : b = - (a * t1) - c / t1).
  { apply Rmult_eq_reg_r with t1; [|assumption]. field_simplify; [|assumption]. lra. }
  repeat split.
  - assumption.
  - rewrite Bq. field. auto.
  - rewrite Bq. field. auto.
  - field. auto.
Qed.
(** The ray starts on the surface and does not move along it. *)
Lemma roots_zero_pos a b : a <> 0 -> 0 < b -> roots (Fin a) (Fin b) (Fin 0) = Some (Fin (- b / a), Fin 0).
Proof.
  intros Ha Hb. unfold roots. xunf. replace (b * b - 4 * a * 0) with (b * b) by ring.
  rewrite xltb_f by nra. rewrite xsqrt_fin by nra. rewrite sqrt_square by lra.
  cbn [xadd xsub xmul]. rewrite xltb_t by assumption. rewrite xdiv_fin by lra.
  replace ((- b - b) / (2 * a)) with (- b / a) by (field; lra). cbn [xmul].
  rewrite xdiv_fin.
  - repeat f_equal. field. split; lra.
  - replace (a * (- b / a)) with (- b) by (field; lra). lra.
Qed.
Lemma roots_zero_neg a b : b < 0 -> roots (Fin a) (Fin b) (Fin 0) = Some (Fin 0, NaN).
Proof.
  intros Hb. unfold roots. xunf. replace (b * b - 4 * a * 0) with (b * b) by ring.
  rewrite xltb_f by nra. rewrite xsqrt_fin by nra.
  replace (b * b) with ((- b) * (- b)) by ring. rewrite sqrt_square by lra.
  cbn [xadd xsub xmul]. rewrite xltb_f by lra. rewrite xdiv_fin by lra.
  replace (2 * 0 / (- b + - b)) with 0 by (field; lra). cbn [xmul].
  replace (a * 0) with 0 by ring. cbn. unfold xsgn.
  destruct (Req_EM_T 0 0); [|lra]. repeat destruct (Rlt_dec _ _); try lra. reflexivity.
Qed.
Lemma xdiv00 : xdiv (Fin 0) (Fin 0) = NaN.
Proof. cbn. unfold xsgn. destruct (Req_EM_T 0 0); [|lra]. repeat destruct (Rlt_dec _ _); try lra. reflexivity. Qed.
Lemma roots_tangent a : roots (Fin a) (Fin 0) (Fin 0) = Some (NaN, NaN).
Proof.
  unfold roots. xunf. replace (0 * 0 - 4 * a * 0) with 0 by ring. rewrite xltb_f by lra.
  rewrite xsqrt_fin by lra. rewrite sqrt_0. cbn [xadd xsub xmul].
  replace (2 * 0) with 0 by ring. replace (- 0 + 0) with 0 by ring. rewrite xdiv00. reflexivity.
Qed.
Lemma quad_real a b c t : quad a b c t = 0 -> 0 <= discR a b c.
Proof.
  intros H. assert (E : discR a b c = (2 * a * t + b) * (2 * a * t + b) - 4 * a * quad a b c t).
  { unfold discR, quad. ring. }
  rewrite E, H. pose proof (sq_nonneg (2 * a * t + b)). lra.
Qed.
Lemma quad_solves a b c : a <> 0 -> 0 <= discR a b c -> exists t, quad a b c t = 0.
Proof.
  intros Ha Hd. exists ((- b + sqrt (discR a b c)) / (2 * a)). unfold quad.
  pose proof (sqrt_sqrt _ Hd) as S. set (d := sqrt (discR a b c)) in *.
  replace (a * ((- b + d) / (2 * a)) * ((- b + d) / (2 * a)) + b * ((- b + d) / (2 * a)) + c)
    with ((d * d - b * b) / (4 * a) + c) by (field; lra). rewrite S. unfold discR. field. lra.
Qed.

(** std::max / std::min on these values. *)
Lemma nmax_fin x y : nmax (Fin x) (Fin y) = Fin (Rmax x y).
Proof.
  unfold nmax. cbn [nltb NumXR xltb]. destruct (Rlt_dec x y).
  - rewrite Rmax_right by lra. reflexivity.
  - rewrite Rmax_left by lra. reflexivity.
Qed.
Lemma nmin_fin x y : nmin (Fin x) (Fin y) = Fin (Rmin x y).
Proof.
  unfold nmin. cbn [nltb NumXR xltb]. destruct (Rlt_dec y x).
  - rewrite Rmin_right by lra. reflexivity.
  - rewrite Rmin_left by lra. reflexivity.
Qed.
Lemma nmax_nan x : nmax (Fin x) NaN = Fin x.
Proof. reflexivity. Qed.
Lemma nmin_nan x : nmin (Fin x) NaN = Fin x.
Proof. reflexivity. Qed.
Lemma xdiv0_not_fin x t : xdiv (Fin x) (Fin 0) <> Fin t.
Proof.
  cbn. destruct (Req_EM_T 0 0); [|lra]. unfold xsgn. repeat destruct (Rlt_dec _ _); discriminate.
Qed.
(** a = 0. *)
Lemma roots_lin_neg b c : b < 0 -> exists d2, roots (Fin 0) (Fin b) (Fin c) = Some (Fin (- c / b), d2) /\
  forall t, d2 <> Fin t.
Proof.
  intros Hb. unfold roots. xunf. replace (b * b - 4 * 0 * c) with ((- b) * (- b)) by ring.
  rewrite xltb_f by nra. rewrite xsqrt_fin by nra. rewrite sqrt_square by lra.
  cbn [xadd xsub xmul]. rewrite xltb_f by lra. rewrite xdiv_fin by lra.
  replace (2 * c / (- b + - b)) with (- c / b) by (field; lra). eexists; split; [reflexivity|].
  intros t. cbn [xmul]. replace (0 * (- c / b)) with 0 by ring. apply xdiv0_not_fin.
Qed.
Lemma roots_lin_other b c d1 d2 : 0 <= b -> roots (Fin 0) (Fin b) (Fin c) = Some (d1, d2) ->
  (forall t, d1 <> Fin t) /\ d2 = NaN.
Proof.
  intros Hb. unfold roots. xunf. replace (b * b - 4 * 0 * c) with (b * b) by ring.
  rewrite xltb_f by nra. rewrite xsqrt_fin by nra. rewrite sqrt_square by lra.
  cbn [xadd xsub xmul]. replace (2 * 0) with 0 by ring.
  assert (Z : xsgn PInf NaN NInf 0 = NaN /\ xsgn NInf NaN PInf 0 = NaN).
  { unfold xsgn. repeat destruct (Rlt_dec _ _); try lra. auto. }
  destruct Z as [Z1 Z2].
  assert (D : forall x, xdiv (Fin c) (xmul (Fin 0) (xdiv (Fin x) (Fin 0))) = NaN).
  { intros x. cbn. destruct (Req_EM_T 0 0); [|lra].
    assert (W : xsgn PInf NaN NInf x = PInf \/ xsgn PInf NaN NInf x = NInf \/ xsgn PInf NaN NInf x = NaN).
    { unfold xsgn. repeat destruct (Rlt_dec _ _); auto. }
    destruct W as [->|[->| ->]]; cbn; rewrite ?Z1, ?Z2; reflexivity. }
  destruct (Req_dec b 0) as [->|Hne].
  - rewrite xltb_f by lra. replace (- 0 + 0) with 0 by ring.
    intros H; injection H; intros <- <-. split; [intros t; apply xdiv0_not_fin|apply D].
  - rewrite xltb_t by lra. intros H; injection H; intros <- <-. split; [intros t; apply xdiv0_not_fin|apply D].
Qed.
Lemma root_cases a b c t0 t1 t2 : a <> 0 -> a * (t1 + t2) = - b -> a * (t1 * t2) = c ->
  quad a b c t0 = 0 -> t0 = t1 \/ t0 = t2.
Proof.
  intros Ha Hs Hp H. assert (E : a * ((t0 - t1) * (t0 - t2)) = 0).
  { transitivity (a * t0 * t0 - (a * (t1 + t2)) * t0 + a * (t1 * t2)); [ring|].
    rewrite Hs, Hp. unfold quad in H. rewrite <- H. ring. }
  apply Rmult_integral in E. destruct E as [E|E]; [contradiction|].
  apply Rmult_integral in E. destruct E; [left|right]; lra.
Qed.
(** Everything about real selected roots at once. *)
Lemma roots_cases a b c d1 d2 : roots (Fin a) (Fin b) (Fin c) = Some (d1, d2) ->
  (exists t1 t2, d1 = Fin t1 /\ d2 = Fin t2 /\ a <> 0 /\ quad a b c t1 = 0 /\ quad a b c t2 = 0 /\
     forall t0, quad a b c t0 = 0 -> t0 = t1 \/ t0 = t2) \/
  (c = 0 /\ b < 0 /\ a <> 0 /\ d1 = Fin 0 /\ d2 = NaN) \/
  (c = 0 /\ b = 0 /\ d1 = NaN /\ d2 = NaN) \/
  (a = 0 /\ b < 0 /\ d1 = Fin (- c / b) /\ forall t, d2 <> Fin t) \/
  (a = 0 /\ (forall t, d1 <> Fin t) /\ d2 = NaN).
Proof.
  intros H. destruct (Req_dec a 0) as [->|Ha].
  - destruct (Rlt_dec b 0) as [Hb|Hb].
    + destruct (roots_lin_neg b c Hb) as (d & E & Hd). rewrite E in H. injection H; intros <- <-.
      right; right; right; left. auto.
    + right; right; right; right. split; [reflexivity|]. eapply roots_lin_other; [|eassumption]. lra.
  - assert (Hd : 0 <= discR a b c).
    { destruct (Rlt_dec (discR a b c) 0) as [L|L]; [|lra]. apply roots_none in L. congruence. }
    destruct (Req_dec c 0) as [->|Hc].
    + destruct (Rtotal_order b 0) as [Hb|[->|Hb]].
      * rewrite (roots_zero_neg a b Hb) in H. injection H; intros <- <-. right; left; auto.
      * rewrite roots_tangent in H. injection H; intros <- <-. right; right; left; auto.
      * rewrite (roots_zero_pos a b Ha Hb) in H. injection H; intros <- <-. left.
        exists (- b / a), 0. split; [reflexivity|]. split; [reflexivity|]. split; [assumption|].
        split; [unfold quad; field; assumption|]. split; [unfold quad; ring|].
        intros t0. apply root_cases; [assumption|field; assumption|ring].
    + destruct (roots_two a b c Ha Hd Hc) as (t1 & t2 & E & Q1 & Q2 & S & P).
      rewrite E in H. injection H; intros <- <-. left. exists t1, t2.
      repeat split; auto. intros t0. apply root_cases; assumption.
Qed.
