(** Every finite surface normal has length one. *)
From Coq Require Import Reals List ZArith Bool Lra Psatz.
From Verif Require Import Num NumR Vec Surface Spec XRFacts.
Import ListNotations.
Open Scope R_scope.

Lemma sq_nonneg (x : R) : 0 <= x * x.
Proof. nra. Qed.

(** 1/sqrt(q) for a real q >= 1. *)
Lemma unit_nz q : 0 < q -> xdiv (Fin 1) (xsqrt (Fin q)) = Fin (/ sqrt q).
Proof.
  intros H. rewrite xsqrt_fin, xdiv_fin by (try lra; apply Rgt_not_eq, sqrt_lt_R0; lra).
  f_equal. unfold Rdiv. ring.
Qed.
Lemma inv_sqrt_sq q : 0 < q -> / sqrt q * / sqrt q = / q.
Proof.
  intros H. assert (0 < sqrt q) by (apply sqrt_lt_R0; lra).
  rewrite <- Rinv_mult. rewrite sqrt_sqrt by lra. reflexivity.
Qed.
Lemma inv_sqrt_pos q : 0 < q -> 0 < / sqrt q.
Proof. intros. apply Rinv_0_lt_compat, sqrt_lt_R0; lra. Qed.

(** Slopes (a, b) and third component 1/sqrt(q), q = a^2+b^2+1 in any order. *)
Definition slope_unit (q a b : XR) : Prop :=
  forall n : vR,
  V3 (xmul a (xdiv (Fin 1) (xsqrt q))) (xmul b (xdiv (Fin 1) (xsqrt q))) (xdiv (Fin 1) (xsqrt q)) = F3 n ->
  exists a' b', a = Fin a' /\ b = Fin b' /\
    cx n = a' * / sqrt (1 + a' * a' + b' * b') /\ cy n = b' * / sqrt (1 + a' * a' + b' * b') /\
    cz n = / sqrt (1 + a' * a' + b' * b').
Lemma F3_comp a b c n : V3 a b c = F3 n -> a = Fin (cx n) /\ b = Fin (cy n) /\ c = Fin (cz n).
Proof. destruct n; cbn; intros H; injection H; auto. Qed.

Lemma xmul_fin_inv_l a b z : xmul a b = Fin z -> exists a', a = Fin a'.
Proof.
  destruct a as [x| | |], b as [y| | |]; cbn; unfold xsgn; intros H; try discriminate; eauto;
  repeat destruct (Rlt_dec _ _); try discriminate.
Qed.
Lemma xmul_fin_inv_r a b z : xmul a b = Fin z -> exists b', b = Fin b'.
Proof.
  destruct a as [x| | |], b as [y| | |]; cbn; unfold xsgn; intros H; try discriminate; eauto;
  repeat destruct (Rlt_dec _ _); try discriminate.
Qed.
Lemma xadd_fin_inv a b z : xadd a b = Fin z -> exists a' b', a = Fin a' /\ b = Fin b' /\ z = a' + b'.
Proof. destruct a, b; cbn; intros H; try discriminate. injection H; intros; subst. eauto 8. Qed.
Lemma xsub_fin_inv a b z : xsub a b = Fin z -> exists a' b', a = Fin a' /\ b = Fin b' /\ z = a' - b'.
Proof. destruct a, b; cbn; intros H; try discriminate. injection H; intros; subst. eauto 8. Qed.
Lemma xopp_fin_inv a z : xopp a = Fin z -> a = Fin (- z).
Proof. destruct a; cbn; intros H; try discriminate. injection H; intros; subst. f_equal; ring. Qed.

Lemma slope_unit_gen q a b :
  (forall a' b', a = Fin a' -> b = Fin b' -> q = Fin (1 + a' * a' + b' * b')) ->
  slope_unit q a b.
Proof.
  intros Hq n H. apply F3_comp in H. destruct H as (Hx & Hy & Hz).
  destruct (xmul_fin_inv_l _ _ _ Hx) as [a' ->]. destruct (xmul_fin_inv_l _ _ _ Hy) as [b' ->].
  rewrite (Hq a' b' eq_refl eq_refl) in *.
  assert (0 < 1 + a' * a' + b' * b') by nra.
  rewrite unit_nz in * by assumption. cbn in Hx, Hy.
  apply Fin_inj in Hx. apply Fin_inj in Hy. apply Fin_inj in Hz.
  exists a', b'. repeat split; auto.
Qed.

Lemma slope_len a b n :
  cx n = a * / sqrt (1 + a * a + b * b) -> cy n = b * / sqrt (1 + a * a + b * b) ->
  cz n = / sqrt (1 + a * a + b * b) -> dotR n n = 1 /\ 0 < cz n.
Proof.
  intros Hx Hy Hz; unfold dotR; rewrite Hx, Hy. assert (0 < 1 + a * a + b * b) by nra.
  pose proof (inv_sqrt_sq _ H). pose proof (inv_sqrt_pos _ H).
  split; [|lra]. rewrite Hz. cbn. set (k := / sqrt (1 + a*a+b*b)) in *.
  replace (a * k * (a * k) + b * k * (b * k) + k * k) with ((1 + a*a+b*b) * (k * k)) by ring.
  rewrite H0. apply Rinv_r; lra.
Qed.

Lemma radial_len (d : XR) (x y r : R) n :
  0 < r -> r * r = x * x + y * y ->
  V3 (xmul (xmul (xdiv (xopp (Fin x)) (Fin r)) d) (xdiv (Fin 1) (xsqrt (xadd (Fin 1) (xmul d d)))))
     (xmul (xmul (xdiv (xopp (Fin y)) (Fin r)) d) (xdiv (Fin 1) (xsqrt (xadd (Fin 1) (xmul d d)))))
     (xdiv (Fin 1) (xsqrt (xadd (Fin 1) (xmul d d)))) = F3 n ->
  exists e, d = Fin e /\ cx n = - x / r * e * / sqrt (1 + e * e) /\
            cy n = - y / r * e * / sqrt (1 + e * e) /\ cz n = / sqrt (1 + e * e).
Proof.
  intros Hr Hrr H. apply F3_comp in H. destruct H as (Hx & Hy & Hz).
  destruct (xmul_fin_inv_l _ _ _ Hx) as [a Ha]. destruct (xmul_fin_inv_r _ _ _ Ha) as [e ->].
  exists e. cbn [xmul xadd xopp] in *. assert (0 < 1 + e * e) by nra.
  rewrite unit_nz, xdiv_fin in * by lra. cbn [xmul] in *.
  apply Fin_inj in Hx. apply Fin_inj in Hy. apply Fin_inj in Hz. auto.
Qed.
Lemma radial_len_unit e x y r n : 0 < r -> r * r = x * x + y * y ->
  cx n = - x / r * e * / sqrt (1 + e * e) ->
  cy n = - y / r * e * / sqrt (1 + e * e) -> cz n = / sqrt (1 + e * e) ->
  dotR n n = 1 /\ 0 < cz n.
Proof.
  intros Hr Hrr Hx Hy Hz; unfold dotR; rewrite Hx, Hy. assert (0 < 1 + e * e) by nra.
  pose proof (inv_sqrt_sq _ H). pose proof (inv_sqrt_pos _ H).
  split; [|lra]. rewrite Hz. set (k := / sqrt (1 + e*e)) in *.
  replace (- x / r * e * k * (- x / r * e * k) + - y / r * e * k * (- y / r * e * k) + k * k)
    with (((x * x + y * y) / (r * r) * (e * e) + 1) * (k * k)) by (field; lra).
  rewrite <- Hrr, H0. field. split; [lra|nra].
Qed.

Lemma r_of x y : x * x + y * y <> 0 ->
  0 < sqrt (x * x + y * y) /\ sqrt (x * x + y * y) * sqrt (x * x + y * y) = x * x + y * y.
Proof.
  intros H. assert (0 < x * x + y * y).
  { pose proof (sq_nonneg x). pose proof (sq_nonneg y). lra. }
  split; [apply sqrt_lt_R0; lra|apply sqrt_sqrt; lra].
Qed.

Lemma zhat_unit n : zhat = F3 n -> dotR n n = 1 /\ 0 < cz n.
Proof.
  intros H. apply F3_comp in H. destruct H as (Hx & Hy & Hz).
  apply Fin_inj in Hx. apply Fin_inj in Hy. apply Fin_inj in Hz. unfold dotR.
  rewrite <- Hx, <- Hy, <- Hz. lra.
Qed.

Lemma radial_normal_unit dz x y n :
  radial_normal dz (Fin x) (Fin y) = F3 n -> dotR n n = 1 /\ 0 < cz n.
Proof.
  unfold radial_normal. xunf.
  pose proof (sq_nonneg x). pose proof (sq_nonneg y).
  rewrite xsqrt_fin by lra.
  destruct (xeqb _ _) eqn:E; [apply zhat_unit|].
  assert (Hs : sqrt (x * x + y * y) <> 0).
  { intros Hz. rewrite xeqb_t in E by exact Hz. discriminate. }
  assert (Hne : x * x + y * y <> 0).
  { intros Hz. apply Hs. rewrite Hz. apply sqrt_0. }
  destruct (r_of x y Hne) as [Hr Hrr]. intros Heq.
  destruct (radial_len _ _ _ _ _ Hr Hrr Heq) as (e & _ & Hx & Hy & Hz).
  exact (radial_len_unit e x y _ n Hr Hrr Hx Hy Hz).
Qed.

Definition no_tilt_edge (s : surface XR) : Prop := match s with Tilted _ _ => False | _ => True end.

Lemma xsqrt_fin_inv a z : xsqrt a = Fin z -> exists a', a = Fin a' /\ 0 <= a' /\ z = sqrt a'.
Proof.
  destruct a as [x| | |]; cbn; intros H; try discriminate.
  destruct (Rlt_dec x 0); try discriminate. injection H; intros; subst.
  exists x; repeat split; auto; lra.
Qed.

Lemma normal_unit s x y n : normal s (Fin x) (Fin y) = F3 n -> dotR n n = 1 /\ 0 <= cz n.
Proof.
  assert (W : dotR n n = 1 /\ 0 < cz n -> dotR n n = 1 /\ 0 <= cz n) by (intros [? ?]; split; lra).
  destruct s as [|tx ty|R|R|R k|R k cs|cs gx gy x0 y0 xs ys|tb|l]; cbn [normal]; intros H.
  - apply W, zhat_unit, H.
  - unfold tilted_normal in H. xunf. apply F3_comp in H. destruct H as (Hx & Hy & Hz).
    destruct (xsqrt_fin_inv _ _ Hz) as (q & Hq & Hq0 & Hqz).
    apply xopp_fin_inv in Hx. apply xopp_fin_inv in Hy. subst tx ty. cbn in Hq.
    apply Fin_inj in Hq. unfold dotR. rewrite Hqz. rewrite sqrt_sqrt by lra.
    split; [lra|apply sqrt_pos].
  - apply W. unfold sphere_normal in H. revert H. xunf.
    destruct (xeqb R (Fin 0) || xeqb (Fin (x * x + y * y)) (Fin 0)) eqn:E; [apply zhat_unit|].
    apply orb_false_elim in E. destruct E as [_ E].
    assert (Hne : x * x + y * y <> 0).
    { intros Hz. rewrite xeqb_t in E by exact Hz. discriminate. }
    pose proof (sq_nonneg x). pose proof (sq_nonneg y). rewrite xsqrt_fin by lra.
    destruct (r_of x y Hne) as [Hr Hrr]. intros Heq.
    destruct (radial_len _ _ _ _ _ Hr Hrr Heq) as (e & _ & Hx & Hy & Hz).
    exact (radial_len_unit e x y _ n Hr Hrr Hx Hy Hz).
  - apply W. unfold paraboloid_normal in H. revert H. xunf.
    destruct (xeqb _ _) eqn:E; [apply zhat_unit|].
    assert (S : forall Ri : XR, slope_unit (xadd (Fin 1) (xmul (xmul (Fin (x * x + y * y)) Ri) Ri))
                  (xmul (Fin (- x)) Ri) (xmul (Fin (- y)) Ri)).
    { intros Ri. apply slope_unit_gen. intros a' b' Ha Hb.
      destruct (xmul_fin_inv_r _ _ _ Ha) as [ri ->]. cbn in *.
      apply Fin_inj in Ha. apply Fin_inj in Hb. subst. f_equal. ring. }
    intros Heq. apply (S _) in Heq. destruct Heq as (a & b & _ & _ & Hx & Hy & Hz).
    eapply slope_len; eassumption.
  - apply W. eapply radial_normal_unit, H.
  - apply W. eapply radial_normal_unit, H.
  - apply W. unfold poly_normal in H. xunf.
    match type of H with V3 (xmul ?a _) (xmul ?b _) _ = _ =>
      assert (S : slope_unit (xadd (xadd (xmul a a) (xmul b b)) (Fin 1)) a b) end.
    { apply slope_unit_gen. intros a' b' -> ->. cbn. f_equal. ring. }
    apply S in H. destruct H as (a & b & _ & _ & Hx & Hy & Hz). eapply slope_len; eassumption.
  - apply W. unfold bicubic_normal in H. destruct (table_grad _ _ _) as [dx dy].
    destruct (nisnan dx); [destruct n; cbn in H; discriminate|]. xunf.
    assert (S : slope_unit (xadd (xadd (Fin 1) (xmul dx dx)) (xmul dy dy)) (xopp dx) (xopp dy)).
    { apply slope_unit_gen. intros a' b' Ha Hb. apply xopp_fin_inv in Ha. apply xopp_fin_inv in Hb.
      subst. cbn. f_equal. ring. }
    apply S in H. destruct H as (a & b & _ & _ & Hx & Hy & Hz). eapply slope_len; eassumption.
  - apply W. destruct (fold_left _ l _) as [a b]. xunf.
    assert (S : slope_unit (xadd (xadd (xmul a a) (xmul b b)) (Fin 1)) a b).
    { apply slope_unit_gen. intros a' b' -> ->. cbn. f_equal. ring. }
    apply S in H. destruct H as (a' & b' & _ & _ & Hx & Hy & Hz). eapply slope_len; eassumption.
Qed.
