(** Curvatures of surfaces at the vertex. *)
From Coq Require Import Reals List ZArith Bool Lra Lia Psatz.
From Verif Require Import Num NumR Vec Surface Spec OpticsSpec SurfSpec XRFacts NormalFacts SlopeProofs GaussSpec GaussLimits.
Import ListNotations.
Open Scope R_scope.

(** The same in terms of the sag alone. *)
Definition graded (s : surface XR) (k : R) : Prop :=
  (forall a, exists M, forall q, Rabs (cx q) <= a -> Rabs (cy q) <= a -> on_sag s q -> Rabs (cz q) <= M) /\
  (forall eps, 0 < eps -> exists d, 0 < d /\ forall q, Rabs (cx q) < d -> Rabs (cy q) < d -> on_sag s q -> Rabs (cz q) < eps) /\
  (forall eps, 0 < eps -> exists d, 0 < d /\ forall x y, Rabs x < d -> Rabs y < d -> exists a b, has_grad s x y a b /\
     Rabs (a - k * x) <= eps * (Rabs x + Rabs y) /\ Rabs (b - k * y) <= eps * (Rabs x + Rabs y)).

Lemma dl_local f g x d de : 0 < de -> (forall t, Rabs (t - x) < de -> f t = g t) -> derivable_pt_lim f x d -> derivable_pt_lim g x d.
Proof.
  intros D E H eps He. destruct (H eps He) as [e Hd]. assert (P : 0 < Rmin de e) by (apply Rmin_glb_lt; [exact D|apply cond_pos]).
  exists (mkposreal _ P). intros h H1 H2. cbn in H2. pose proof (Rmin_l de e). pose proof (Rmin_r de e). rewrite <- !E; [apply Hd; [exact H1|lra]| |].
  - rewrite Rminus_diag_eq, Rabs_R0; auto.
  - replace (x + h - x) with h by ring. lra.
Qed.
Lemma curve_unique s X Y d1 d2 : sag_curve s X Y d1 -> sag_curve s X Y d2 -> d1 = d2.
Proof.
  intros (f & de & D & Hf & Df) (g & de2 & D2 & Hg & Dg). eapply uniqueness_limite; [|exact Dg].
  apply dl_local with f (Rmin de de2); [apply Rmin_glb_lt; assumption| |exact Df].
  intros t Ht. rewrite Rminus_0_r in Ht. pose proof (Rmin_l de de2). pose proof (Rmin_r de de2). apply Fin_inj. rewrite <- Hf, <- Hg by lra. reflexivity.
Qed.
Lemma grad_unique s x y a b a' b' : has_grad s x y a b -> has_grad s x y a' b' -> a = a' /\ b = b'.
Proof.
  intros H H'. split.
  - pose proof (curve_unique _ _ _ _ _ (grad_slope _ _ _ _ _ H 1 0) (grad_slope _ _ _ _ _ H' 1 0)). lra.
  - pose proof (curve_unique _ _ _ _ _ (grad_slope _ _ _ _ _ H 0 1) (grad_slope _ _ _ _ _ H' 0 1)). lra.
Qed.

Lemma unit_small a b n : dotR n n = 1 -> by_slopes n a b -> 0 <= 1 - cz n <= a * a + b * b /\ cz n <= 1.
Proof.
  unfold dotR. intros U (P & Hx & Hy). rewrite Hx, Hy in U. set (c := cz n) in *. pose proof (Rle_0_sqr a). pose proof (Rle_0_sqr b). unfold Rsqr in *.
  assert (E : c * c * (1 + (a * a + b * b)) = 1) by lra. set (t := a * a + b * b) in *. assert (0 <= t) by (unfold t; lra).
  assert (C1 : c <= 1) by nra. split; [|exact C1]. split; [lra|]. assert (1 - c * c = c * c * t) by lra. assert (1 - c <= 1 - c * c) by nra.
  assert (c * c * t <= t) by nra. lra.
Qed.

(** The slopes of the normals decide. *)
Theorem curved_slopes s k :
  (forall a, exists M, forall q, Rabs (cx q) <= a -> Rabs (cy q) <= a -> on_sag s q -> Rabs (cz q) <= M) ->
  (forall eps, 0 < eps -> exists d, 0 < d /\ forall q, Rabs (cx q) < d -> Rabs (cy q) < d -> on_sag s q -> Rabs (cz q) < eps) ->
  (forall eps, 0 < eps -> exists d, 0 < d /\ forall x y m, Rabs x < d -> Rabs y < d -> normal s (Fin x) (Fin y) = F3 m -> exists a b, by_slopes m a b /\
     Rabs (a - k * x) <= eps * (Rabs x + Rabs y) /\ Rabs (b - k * y) <= eps * (Rabs x + Rabs y)) -> curved s k.
Proof.
  intros B C G. split; [exact B|]. split; [exact C|]. intros eps He.
  set (K := Rabs k + 2). pose proof (Rabs_pos k). assert (K0 : 0 < K) by (unfold K; lra).
  assert (E1 : 0 < Rmin (eps / 2) 1) by (apply Rmin_glb_lt; lra). destruct (G _ E1) as (d & D & Hd).
  set (e2 := Rmin 1 (eps / (32 * (K * K * K)))). assert (K3 : 1 <= K * K * K) by (unfold K; nra).
  assert (K4 : 0 < eps / (32 * (K * K * K))) by (apply Rdiv_lt_0_compat; lra).
  assert (E2 : 0 < e2) by (apply Rmin_glb_lt; lra).
  exists (Rmin d e2). split; [apply Rmin_glb_lt; assumption|]. intros x y m Lx Ly Hm. pose proof (Rmin_l d e2). pose proof (Rmin_r d e2).
  destruct (Hd x y m ltac:(lra) ltac:(lra) Hm) as (a & b & BS & Ha & Hb).
  destruct (normal_unit _ _ _ _ Hm) as (U & _). destruct (unit_small a b m U BS) as (T & C1). destruct BS as (_ & Hx & Hy).
  set (S := Rabs x + Rabs y) in *. pose proof (Rabs_pos x). pose proof (Rabs_pos y). assert (S0 : 0 <= S) by (unfold S; lra).
  pose proof (Rmin_l (eps / 2) 1). pose proof (Rmin_r (eps / 2) 1). set (e1 := Rmin (eps / 2) 1) in *.
  assert (AB : forall u v, Rabs (u - k * v) <= e1 * S -> Rabs v <= S -> Rabs u <= K * S).
  { intros u v Hu Hv. replace u with ((u - k * v) + k * v) by ring. eapply Rle_trans; [apply Rabs_triang|]. rewrite Rabs_mult.
    assert (Rabs k * Rabs v <= Rabs k * S) by (apply Rmult_le_compat_l; lra). assert (e1 * S <= 1 * S) by (apply Rmult_le_compat_r; lra). unfold K. lra. }
  assert (Ba : Rabs a <= K * S) by (apply (AB a x Ha); unfold S; lra). assert (Bb : Rabs b <= K * S) by (apply (AB b y Hb); unfold S; lra).
  assert (QQ : a * a + b * b <= 2 * (K * S) * (K * S)).
  { assert (a * a <= K * S * (K * S)) by (rewrite <- (Rabs_pos_eq (a * a)) by apply Rle_0_sqr; rewrite Rabs_mult; apply Rmult_le_compat; try apply Rabs_pos; assumption).
    assert (b * b <= K * S * (K * S)) by (rewrite <- (Rabs_pos_eq (b * b)) by apply Rle_0_sqr; rewrite Rabs_mult; apply Rmult_le_compat; try apply Rabs_pos; assumption). lra. }
  pose proof (Rmin_l 1 (eps / (32 * (K * K * K)))). pose proof (Rmin_r 1 (eps / (32 * (K * K * K)))). fold e2 in H6, H7.
  assert (S2 : S <= 2 * e2) by (unfold S; lra).
  assert (E3 : e2 * (K * K * K) <= eps / 32).
  { apply Rle_trans with (eps / (32 * (K * K * K)) * (K * K * K)); [apply Rmult_le_compat_r; lra|]. right. field. lra. }
  assert (SS : S * S <= 4 * e2) by (assert (S * S <= (2 * e2) * 2) by (apply Rmult_le_compat; lra); lra).
  assert (KK : 0 < K * K) by nra. assert (K1 : 1 <= K) by (unfold K; lra).
  assert (W : K * (a * a + b * b) <= eps / 4).
  { apply Rle_trans with (K * (2 * (K * S) * (K * S))); [apply Rmult_le_compat_l; lra|].
    replace (K * (2 * (K * S) * (K * S))) with (2 * (K * K * K) * (S * S)) by ring.
    apply Rle_trans with (2 * (K * K * K) * (4 * e2)); [apply Rmult_le_compat_l; lra|lra]. }
  assert (Q0 : 0 <= a * a + b * b) by (pose proof (Rle_0_sqr a); pose proof (Rle_0_sqr b); unfold Rsqr in *; lra).
  assert (W1 : a * a + b * b <= eps / 4) by nra.
  assert (CMP : forall u v w, w = - u * cz m -> Rabs (u - k * v) <= e1 * S -> Rabs u <= K * S -> Rabs (w + k * v) <= eps * S).
  { intros u v w -> Hu Bu. replace (- u * cz m + k * v) with (- (u - k * v) + u * (1 - cz m)) by ring. eapply Rle_trans; [apply Rabs_triang|].
    rewrite Rabs_Ropp, Rabs_mult, (Rabs_pos_eq (1 - cz m)) by lra.
    assert (Rabs u * (1 - cz m) <= K * S * (a * a + b * b)) by (apply Rmult_le_compat; try lra; apply Rabs_pos).
    replace (K * S * (a * a + b * b)) with (K * (a * a + b * b) * S) in * by ring.
    assert (K * (a * a + b * b) * S <= eps / 4 * S) by (apply Rmult_le_compat_r; assumption).
    assert (e1 * S <= eps / 2 * S) by (apply Rmult_le_compat_r; assumption).
    assert (0 <= eps * S) by (apply Rmult_le_pos; lra). lra. }
  split; [eapply CMP; eassumption|]. split; [eapply CMP; eassumption|]. rewrite Rabs_minus_sym, Rabs_pos_eq by lra. lra.
Qed.
(** A surface whose normals are those of its sag is curved as its sag is. *)
Theorem curved_of s k : (forall x y, normal_ok s x y) -> graded s k -> curved s k.
Proof.
  intros N (B & C & G). apply curved_slopes; [exact B|exact C|]. intros eps He. destruct (G eps He) as (d & D & Hd).
  exists d. split; [exact D|]. intros x y m Hx Hy Hm. destruct (Hd x y Hx Hy) as (a & b & Hg & Ha & Hb). destruct (N x y m Hm) as (P & Hg2).
  destruct (grad_unique _ _ _ _ _ _ _ Hg Hg2) as (Ea & Eb). exists a, b.
  split; [split; [exact P|]; split; [rewrite Ea|rewrite Eb]; field; lra|]. split; assumption.
Qed.

(** A sag that is a function of the radius squared. *)
Lemma sq_abs x d : Rabs x < d -> x * x < d * d.
Proof. intros H. pose proof (Rabs_pos x). rewrite <- (Rabs_pos_eq (x * x)) by apply Rle_0_sqr. rewrite Rabs_mult. apply Rmult_le_0_lt_compat; lra. Qed.
Lemma graded_radial s k F D d0 : 0 < d0 -> F 0 = 0 ->
  (forall a, exists M, forall q, Rabs (cx q) <= a -> Rabs (cy q) <= a -> on_sag s q -> Rabs (cz q) <= M) ->
  (forall a b, a * a + b * b < d0 -> sag s (Fin a) (Fin b) = Fin (F (a * a + b * b))) ->
  (forall q, 0 <= q < d0 -> derivable_pt_lim F q (D q)) -> tends D (k / 2) -> graded s k.
Proof.
  intros D0 F0 B HS HD T. split; [exact B|]. split.
  - intros eps He. destruct (dl_near F 0 _ eps (HD 0 ltac:(lra)) He) as (de & Hde & Hn).
    set (d := Rmin 1 (Rmin (d0 / 2) (de / 2))). assert (P : 0 < d) by (unfold d; repeat apply Rmin_glb_lt; lra).
    assert (d <= 1 /\ d <= d0 / 2 /\ d <= de / 2) as (L1 & L2 & L3).
    { unfold d. pose proof (Rmin_l 1 (Rmin (d0 / 2) (de / 2))). pose proof (Rmin_r 1 (Rmin (d0 / 2) (de / 2))). pose proof (Rmin_l (d0 / 2) (de / 2)). pose proof (Rmin_r (d0 / 2) (de / 2)). lra. }
    exists d. split; [exact P|]. intros q Hx Hy On. apply sq_abs in Hx, Hy. assert (DD : d * d <= d) by nra.
    unfold on_sag in On. rewrite HS in On by lra. apply Fin_inj in On. rewrite <- On. set (u := cx q * cx q + cy q * cy q) in *.
    assert (U : 0 <= u) by (unfold u; pose proof (Rle_0_sqr (cx q)); pose proof (Rle_0_sqr (cy q)); unfold Rsqr in *; lra).
    specialize (Hn u). rewrite F0, Rplus_0_l, Rminus_0_r in Hn. apply Hn. rewrite Rabs_pos_eq by exact U. unfold u. lra.
  - intros eps He. destruct (T (eps / 2) ltac:(lra)) as (de & Hde & Hn).
    set (d := Rmin 1 (Rmin (d0 / 4) (de / 4))). assert (P : 0 < d) by (unfold d; repeat apply Rmin_glb_lt; lra).
    assert (d <= 1 /\ d <= d0 / 4 /\ d <= de / 4) as (L1 & L2 & L3).
    { unfold d. pose proof (Rmin_l 1 (Rmin (d0 / 4) (de / 4))). pose proof (Rmin_r 1 (Rmin (d0 / 4) (de / 4))). pose proof (Rmin_l (d0 / 4) (de / 4)). pose proof (Rmin_r (d0 / 4) (de / 4)). lra. }
    exists d. split; [exact P|]. intros x y Hx Hy. pose proof (sq_abs _ _ Hx) as Qx. pose proof (sq_abs _ _ Hy) as Qy. assert (DD : d * d <= d) by nra.
    set (u := x * x + y * y). assert (U : 0 <= u) by (unfold u; pose proof (Rle_0_sqr x); pose proof (Rle_0_sqr y); unfold Rsqr in *; lra).
    exists (2 * D u * x), (2 * D u * y).
    split.
    { apply (radial_slope s x y F (D u) (d0 / 2)); [lra| |apply HD; unfold u in *; lra].
      intros a b Hab. apply HS. apply Rabs_def2 in Hab. lra. }
    pose proof (Rabs_pos x). pose proof (Rabs_pos y).
    destruct (Req_dec u 0) as [Z|Z].
    { assert (x = 0) by (unfold u in Z; nra). assert (y = 0) by (unfold u in Z; nra). subst x y.
      rewrite !Rmult_0_r, Rminus_0_r, Rabs_R0. lra. }
    assert (K : Rabs (D u - k / 2) < eps / 2).
    { apply Hn. rewrite Rabs_pos_eq by exact U. unfold u in *. lra. }
    assert (G : forall v, Rabs (2 * D u * v - k * v) <= eps * Rabs v).
    { intros v. replace (2 * D u * v - k * v) with (2 * (D u - k / 2) * v) by field. rewrite !Rabs_mult, (Rabs_pos_eq 2) by lra. pose proof (Rabs_pos v). nra. }
    split; (eapply Rle_trans; [apply G|]; apply Rmult_le_compat_l; lra).
Qed.

Lemma box_r2 a q : Rabs (cx q) <= a -> Rabs (cy q) <= a -> 0 <= cx q * cx q + cy q * cy q <= 2 * (a * a).
Proof.
  intros Hx Hy. pose proof (Rabs_pos (cx q)). pose proof (Rabs_pos (cy q)).
  assert (cx q * cx q <= a * a) by (rewrite <- (Rabs_pos_eq (cx q * cx q)) by apply Rle_0_sqr; rewrite Rabs_mult; apply Rmult_le_compat; lra).
  assert (cy q * cy q <= a * a) by (rewrite <- (Rabs_pos_eq (cy q * cy q)) by apply Rle_0_sqr; rewrite Rabs_mult; apply Rmult_le_compat; lra).
  pose proof (Rle_0_sqr (cx q)). pose proof (Rle_0_sqr (cy q)). unfold Rsqr in *. lra.
Qed.

(** Plane. *)
Theorem plane_curved : curved Plane 0.
Proof.
  apply curved_of; [apply plane_ok|]. apply graded_radial with (fun _ => 0) (fun _ => 0) 1; [lra|reflexivity| | | |].
  - intros a. exists 0. intros q _ _ On. unfold on_sag in On. cbn in On. apply Fin_inj in On. rewrite <- On, Rabs_R0. lra.
  - reflexivity.
  - intros. apply dl_const.
  - eapply tends_value; [apply tends_const|lra].
Qed.
(** Paraboloid. *)
Theorem paraboloid_curved rad : rad <> 0 -> curved (Paraboloid (Fin rad)) (/ rad).
Proof.
  intros Hr. assert (S : forall a b, sag (Paraboloid (Fin rad)) (Fin a) (Fin b) = Fin ((a * a + b * b) * / (2 * rad))).
  { intros a b. cbn [sag]. unfold paraboloid_sag. xunf. rewrite xeqb_f by exact Hr. cbn [negb].
    rewrite (xdiv_fin 1 2) by lra. rewrite xdiv_fin by exact Hr. cbn [xmul]. f_equal. field. exact Hr. }
  apply curved_of; [apply paraboloid_ok|]. apply graded_radial with (fun v => v * / (2 * rad)) (fun _ => / (2 * rad)) 1; [lra|ring| | | |].
  - intros a. exists (2 * (a * a) * Rabs (/ (2 * rad))). intros q Hx Hy On. unfold on_sag in On. rewrite S in On. apply Fin_inj in On. rewrite <- On.
    destruct (box_r2 a q Hx Hy). rewrite Rabs_mult, Rabs_pos_eq by lra. apply Rmult_le_compat_r; [apply Rabs_pos|lra].
  - intros a b _. apply S.
  - intros q _. eapply dl_val; [apply (dl_mult id (fun _ => / (2 * rad))); [apply derivable_pt_lim_id|apply dl_const]|]. unfold id. ring.
  - eapply tends_value; [apply tends_const|field; exact Hr].
Qed.

(** Sphere. *)
Lemma tends_sqrt_lin c : tends (fun q => sqrt (1 - c * q)) 1.
Proof.
  eapply tends_value; [apply (tends_sqrt _ 1); [|lra]|apply sqrt_1].
  eapply tends_value; [apply (tends_minus _ (fun q => c * q) 1 (c * 0)); [apply tends_const|apply tends_mul; [apply tends_const|apply tends_s]]|ring].
Qed.
Lemma tends_conic rad c : rad <> 0 -> tends (fun q => / (2 * rad * sqrt (1 - c * q))) (/ rad / 2).
Proof.
  intros Hr. eapply tends_value; [apply (tends_inv _ (2 * rad * 1)); [apply tends_mul; [apply tends_const|apply tends_sqrt_lin]|]|].
  - rewrite Rmult_1_r. intros Z. apply Hr. lra.
  - field. exact Hr.
Qed.
Lemma small_lin c q : 0 <= q < / (Rabs c + 1) -> 0 < 1 - c * q.
Proof.
  intros (Q0 & Q). pose proof (Rabs_pos c). pose proof (Rle_abs c). assert (q * (Rabs c + 1) < 1).
  { apply Rmult_lt_reg_r with (/ (Rabs c + 1)); [apply Rinv_0_lt_compat; lra|]. rewrite Rmult_assoc, Rinv_r, Rmult_1_r, Rmult_1_l by lra. exact Q. }
  assert (c * q <= Rabs c * q) by (apply Rmult_le_compat_r; lra). lra.
Qed.
Lemma small_pos c : 0 < / (Rabs c + 1). Proof. pose proof (Rabs_pos c). apply Rinv_0_lt_compat. lra. Qed.
Lemma sphere_sag_inv rad a b z : rad <> 0 -> sag (Sphere (Fin rad)) (Fin a) (Fin b) = Fin z ->
  0 <= 1 - / (rad * rad) * (a * a + b * b) /\ z = rad * (1 - sqrt (1 - / (rad * rad) * (a * a + b * b))).
Proof.
  intros Hr. cbn [sag]. unfold sphere_sag. xunf. rewrite xeqb_f by exact Hr. cbn [negb].
  rewrite !xdiv_fin by exact Hr. cbn [xmul xsub].
  replace (1 - (a * a + b * b) * (1 / rad / rad)) with (1 - / (rad * rad) * (a * a + b * b)) by (field; exact Hr).
  set (u := 1 - _). destruct (Rlt_dec u 0) as [L|L]; [rewrite xsqrt_neg by exact L; discriminate|]. rewrite xsqrt_fin by lra.
  intros E. apply Fin_inj in E. split; [lra|symmetry; exact E].
Qed.
Theorem sphere_curved rad : rad <> 0 -> curved (Sphere (Fin rad)) (/ rad).
Proof.
  intros Hr. apply curved_of; [apply sphere_ok|].
  apply graded_radial with (fun u => rad * (1 - sqrt (1 - / (rad * rad) * u))) (fun q => / (2 * rad * sqrt (1 - / (rad * rad) * q))) (/ (Rabs (/ (rad * rad)) + 1)).
  - apply small_pos.
  - rewrite Rmult_0_r, Rminus_0_r, sqrt_1. ring.
  - intros a. exists (2 * Rabs rad). intros q _ _ On. apply sphere_sag_inv in On; [|exact Hr]. destruct On as (L & ->).
    rewrite Rabs_mult, Rmult_comm. apply Rmult_le_compat_r; [apply Rabs_pos|]. set (u := cx q * cx q + cy q * cy q) in *.
    assert (U : 0 <= / (rad * rad) * u).
    { apply Rmult_le_pos; [left; apply Rinv_0_lt_compat; nra|]. unfold u. pose proof (Rle_0_sqr (cx q)). pose proof (Rle_0_sqr (cy q)). unfold Rsqr in *. lra. }
    pose proof (sqrt_pos (1 - / (rad * rad) * u)). assert (sqrt (1 - / (rad * rad) * u) <= 1) by (rewrite <- sqrt_1 at 2; apply sqrt_le_1; lra).
    rewrite Rabs_pos_eq; lra.
  - intros a b L. apply sphere_sag_F; [exact Hr|]. pose proof (Rle_0_sqr a). pose proof (Rle_0_sqr b). unfold Rsqr in *.
    pose proof (small_lin (/ (rad * rad)) (a * a + b * b) ltac:(lra)). unfold Rdiv. rewrite Rmult_comm. lra.
  - intros q Q. pose proof (small_lin _ _ Q) as L. pose proof (sqrt_lt_R0 _ L). eapply dl_val.
    + apply (dl_mult (fun _ => rad) (fun u => 1 - sqrt (1 - / (rad * rad) * u))); [apply dl_const|].
      apply (derivable_pt_lim_minus (fct_cte 1) (fun u => sqrt (1 - / (rad * rad) * u))); [apply derivable_pt_lim_const|apply dl_sqrt_lin, L].
    + cbn beta. field. split; lra.
  - apply tends_conic, Hr.
Qed.

(** Asphere; the quadric is the asphere without coefficients. *)
Lemma tends_even cs : tends (fun q => sumn (length cs) (fun i => nth i cs 0 * (INR (S i) * q ^ i))) (nth 0 cs 0).
Proof.
  assert (G : forall n (f : nat -> R), tends (fun q => sumn n (fun i => f i * q ^ i)) (match n with O => 0 | _ => f O end)).
  { induction n as [|n IH]; intros f; cbn [sumn]; [apply tends_const|].
    eapply tends_value; [apply tends_plus; [apply IH|]|].
    - apply (tends_mul (fun _ => f n) (fun q => q ^ n) (f n) (match n with O => 1 | _ => 0 end)); [apply tends_const|].
      destruct n as [|n]; [cbn; apply tends_const|]. assert (P : forall m, tends (fun q => q ^ S m) 0).
      { induction m as [|m IHm]; [apply tends_ext with (fun q => q); [apply nearby_all; intros; cbn; ring|apply tends_s]|].
        replace 0 with (0 * 0) by ring. apply (tends_mul (fun q => q) (fun q => q ^ S m)); [apply tends_s|exact IHm]. }
      apply P.
    - destruct n; ring. }
  pose proof (G (length cs) (fun i => nth i cs 0 * INR (S i))) as H.
  apply tends_ext with (fun q => sumn (length cs) (fun i => nth i cs 0 * INR (S i) * q ^ i)).
  - apply nearby_all. intros q _. apply sumn_ext. intros; ring.
  - eapply tends_value; [exact H|]. destruct cs; cbn; ring.
Qed.
Lemma even_bounded cs M : exists B, forall q, 0 <= q <= M -> Rabs (sumn (length cs) (fun i => nth i cs 0 * q ^ S i)) <= B.
Proof.
  assert (G : forall n (f : nat -> R), exists B, forall q, 0 <= q <= M -> Rabs (sumn n (fun i => f i * q ^ S i)) <= B).
  { induction n as [|n IH]; intros f; [exists 0; intros; cbn; rewrite Rabs_R0; lra|]. destruct (IH f) as (B & HB).
    exists (B + Rabs (f n) * M ^ S n). intros q Q. cbn [sumn]. eapply Rle_trans; [apply Rabs_triang|]. apply Rplus_le_compat; [apply HB, Q|].
    rewrite Rabs_mult. apply Rmult_le_compat_l; [apply Rabs_pos|]. rewrite Rabs_pos_eq by (apply pow_le; lra). apply pow_incr. exact Q. }
  apply G.
Qed.
Lemma asphere_loop_fin cs : forall r2 rr res z, asphere_loop (T := XR) cs r2 rr res = Fin z -> exists r, res = Fin r.
Proof.
  induction cs as [|c cs IH]; intros r2 rr res z; cbn [asphere_loop]; [eauto|].
  intros H. apply IH in H. destruct H as [r H]. cbn in H. apply xadd_fin_inv in H. destruct H as (a & b & -> & _). eauto.
Qed.
Lemma quadric_sag_inv rad k a b z : rad <> 0 -> sag (Quadric (Fin rad) (Fin k)) (Fin a) (Fin b) = Fin z ->
  Rabs z <= (a * a + b * b) / Rabs rad.
Proof.
  intros Hr. destruct (Rlt_dec (1 - (1 + k) / (rad * rad) * (a * a + b * b)) 0) as [L|L].
  - cbn [sag]. unfold quadric_sag. xunf. rewrite xeqb_f by exact Hr. cbn [negb].
    rewrite !xdiv_fin by exact Hr. cbn [xmul xsub].
    replace (1 - (a * a + b * b) * ((k + 1) / rad / rad)) with (1 - (1 + k) / (rad * rad) * (a * a + b * b)) by (field; exact Hr).
    rewrite xsqrt_neg by exact L. discriminate.
  - rewrite quadric_sag_F by lra. intros E. apply Fin_inj in E. subst z. set (w := sqrt _). assert (0 <= w) by apply sqrt_pos.
    pose proof (Rabs_pos_lt rad Hr). pose proof (Rle_0_sqr a). pose proof (Rle_0_sqr b). unfold Rsqr in *. unfold Rdiv.
    rewrite Rabs_mult, Rabs_pos_eq by lra. apply Rmult_le_compat_l; [lra|]. rewrite Rabs_inv, Rabs_mult, (Rabs_pos_eq (1 + w)) by lra.
    apply Rinv_le_contravar; [exact H0|]. nra.
Qed.
Theorem asphere_curved rad k cs : rad <> 0 -> curved (Asphere (Fin rad) (Fin k) (map Fin cs)) (/ rad + 2 * nth 0 cs 0).
Proof.
  intros Hr. apply curved_of; [apply asphere_ok|]. set (c := (1 + k) / (rad * rad)).
  apply graded_radial with (fun u => u / (rad * (1 + sqrt (1 - c * u))) + sumn (length cs) (fun i => nth i cs 0 * u ^ S i))
    (fun q => / (2 * rad * sqrt (1 - c * q)) + sumn (length cs) (fun i => nth i cs 0 * (INR (S i) * q ^ i))) (/ (Rabs c + 1)).
  - apply small_pos.
  - rewrite sumn_0 by (intros; cbn; ring). unfold Rdiv. ring.
  - intros a. destruct (even_bounded cs (2 * (a * a))) as (B & HB). exists (2 * (a * a) / Rabs rad + B). intros q Hx Hy On. unfold on_sag in On.
    assert (exists e, sag (Quadric (Fin rad) (Fin k)) (Fin (cx q)) (Fin (cy q)) = Fin e) as (e & He) by (cbn [sag] in *; unfold asphere_sag in On; eapply asphere_loop_fin, On).
    rewrite (asphere_sag_F _ _ _ _ _ _ He) in On. apply Fin_inj in On. rewrite <- On. apply quadric_sag_inv in He; [|exact Hr].
    pose proof (box_r2 a q Hx Hy) as R2. eapply Rle_trans; [apply Rabs_triang|]. apply Rplus_le_compat; [|apply HB, R2].
    eapply Rle_trans; [exact He|]. apply Rmult_le_compat_r; [left; apply Rinv_0_lt_compat, Rabs_pos_lt, Hr|lra].
  - intros a b L. apply asphere_sag_F. apply quadric_sag_F; [exact Hr|]. fold c. pose proof (Rle_0_sqr a). pose proof (Rle_0_sqr b). unfold Rsqr in *.
    left. apply small_lin. lra.
  - intros q Q. apply (dl_plus (fun u => u / (rad * (1 + sqrt (1 - c * u))))); [apply dl_conic; [exact Hr|apply small_lin, Q]|apply dl_even].
  - eapply tends_value; [apply tends_plus; [apply tends_conic, Hr|apply tends_even]|]. field. exact Hr.
Qed.
Theorem quadric_curved rad k : rad <> 0 -> curved (Quadric (Fin rad) (Fin k)) (/ rad).
Proof.
  intros Hr. pose proof (asphere_curved rad k [] Hr) as C. replace (/ rad + 2 * nth 0 [] 0) with (/ rad) in C by (cbn; ring).
  destruct C as (B & C & N). split; [exact B|]. split; [exact C|exact N].
Qed.

(** Sums: the curvatures add. *)
Lemma slope_of m k x S e : 0 <= e <= 1/2 -> Rabs x <= S -> forall u, Rabs (u + k * x) <= e * S -> Rabs (cz m - 1) <= e ->
  Rabs (u / cz m + k * x) <= 2 * (1 + Rabs k) * e * S.
Proof.
  intros He Hx u Hu Hz. assert (Z : 1/2 <= cz m) by (apply Rabs_def2 in Hz || idtac; unfold Rabs in Hz; destruct (Rcase_abs _); lra).
  assert (S0 : 0 <= S) by (pose proof (Rabs_pos x); lra). pose proof (Rabs_pos k).
  replace (u / cz m + k * x) with ((u + k * x + k * x * (cz m - 1)) * / cz m) by (field; lra).
  rewrite Rabs_mult, (Rabs_pos_eq (/ cz m)) by (left; apply Rinv_0_lt_compat; lra).
  assert (I2 : / cz m <= 2) by (rewrite <- (Rinv_inv 2); apply Rinv_le_contravar; lra).
  assert (N : Rabs (u + k * x + k * x * (cz m - 1)) <= (1 + Rabs k) * e * S).
  { eapply Rle_trans; [apply Rabs_triang|]. rewrite !Rabs_mult. assert (Rabs k * Rabs x * Rabs (cz m - 1) <= Rabs k * S * e).
    { apply Rmult_le_compat; [apply Rmult_le_pos; apply Rabs_pos|apply Rabs_pos|apply Rmult_le_compat_l; lra|exact Hz]. }
    lra. }
  assert (0 <= / cz m) by (left; apply Rinv_0_lt_compat; lra).
  apply Rle_trans with ((1 + Rabs k) * e * S * 2); [|lra]. apply Rmult_le_compat; try assumption. apply Rabs_pos.
Qed.
Lemma sum_bounded l ks : Forall2 (fun s k => curved s k) l ks ->
  forall a, exists M, forall q, Rabs (cx q) <= a -> Rabs (cy q) <= a -> on_sag (Sum l) q -> Rabs (cz q) <= M.
Proof.
  intros H a. unfold on_sag. setoid_rewrite sum_sag_X. induction H as [|s k l ks (B & _) _ (M & IH)].
  - exists 0. intros q _ _ On. cbn in On. apply Fin_inj in On. rewrite <- On, Rabs_R0. lra.
  - destruct (B a) as (M1 & H1). exists (M1 + M). intros q Hx Hy On. cbn [xsum fold_right] in On.
    apply xadd_fin_inv in On. destruct On as (u & v & Hu & Hv & E).
    specialize (H1 (V3 (cx q) (cy q) u) Hx Hy Hu). specialize (IH (V3 (cx q) (cy q) v) Hx Hy Hv). cbn [cz] in *.
    rewrite E. eapply Rle_trans; [apply Rabs_triang|]. lra.
Qed.
Lemma sum_flat l ks : Forall2 (fun s k => curved s k) l ks ->
  forall eps, 0 < eps -> exists d, 0 < d /\ forall q, Rabs (cx q) < d -> Rabs (cy q) < d -> on_sag (Sum l) q -> Rabs (cz q) < eps.
Proof.
  intros H. unfold on_sag. setoid_rewrite sum_sag_X. induction H as [|s k l ks (_ & C & _) _ IH]; intros eps He.
  - exists 1. split; [lra|]. intros q _ _ On. cbn in On. apply Fin_inj in On. rewrite <- On, Rabs_R0. exact He.
  - destruct (C (eps / 2) ltac:(lra)) as (d1 & D1 & H1). destruct (IH (eps / 2) ltac:(lra)) as (d2 & D2 & H2).
    exists (Rmin d1 d2). split; [apply Rmin_glb_lt; assumption|]. intros q Hx Hy On. cbn [xsum fold_right] in On.
    pose proof (Rmin_l d1 d2). pose proof (Rmin_r d1 d2). apply xadd_fin_inv in On. destruct On as (u & v & Hu & Hv & E).
    specialize (H1 (V3 (cx q) (cy q) u) ltac:(cbn; lra) ltac:(cbn; lra) Hu). specialize (H2 (V3 (cx q) (cy q) v) ltac:(cbn; lra) ltac:(cbn; lra) Hv). cbn [cz] in *.
    rewrite E. eapply Rle_lt_trans; [apply Rabs_triang|]. lra.
Qed.
Lemma sum_slopes l ks : Forall smooth l -> Forall2 (fun s k => curved (Fsurf s) k) l ks ->
  forall eps, 0 < eps -> exists d, 0 < d /\ forall x y, Rabs x < d -> Rabs y < d -> forall a b,
    xsum (slx (Fin x) (Fin y)) (map Fsurf l) = Fin a -> xsum (sly (Fin x) (Fin y)) (map Fsurf l) = Fin b ->
    Rabs (a + sumR ks * x) <= eps * (Rabs x + Rabs y) /\ Rabs (b + sumR ks * y) <= eps * (Rabs x + Rabs y).
Proof.
  intros Sm H. induction H as [|s k l ks (_ & _ & N) _ IH]; intros eps He.
  - exists 1. split; [lra|]. intros x y _ _ a b Ha Hb. cbn in Ha, Hb. apply Fin_inj in Ha, Hb. subst a b. cbn [sumR fold_right].
    rewrite !Rmult_0_l, !Rplus_0_l, Rabs_R0. pose proof (Rabs_pos x). pose proof (Rabs_pos y). nra.
  - inversion Sm as [|? ? S1 S2]; subst. destruct (IH S2 (eps / 2) ltac:(lra)) as (d1 & D1 & H1). pose proof (Rabs_pos k) as K0.
    set (e := Rmin (1/2) (eps / (4 * (1 + Rabs k)))). assert (0 < eps / (4 * (1 + Rabs k))) by (apply Rdiv_lt_0_compat; lra).
    assert (E0 : 0 < e) by (apply Rmin_glb_lt; lra). assert (E1 : e <= 1/2) by apply Rmin_l.
    assert (E2 : 2 * (1 + Rabs k) * e <= eps / 2).
    { apply Rle_trans with (2 * (1 + Rabs k) * (eps / (4 * (1 + Rabs k)))); [apply Rmult_le_compat_l; [lra|apply Rmin_r]|]. right. field. lra. }
    destruct (N e E0) as (d2 & D2 & H2). exists (Rmin d1 d2). split; [apply Rmin_glb_lt; assumption|].
    intros x y Hx Hy a b Ha Hb. pose proof (Rmin_l d1 d2). pose proof (Rmin_r d1 d2). cbn [map xsum fold_right] in Ha, Hb.
    apply xadd_fin_inv in Ha, Hb. destruct Ha as (a1 & a2 & Ha1 & Ha2 & ->). destruct Hb as (b1 & b2 & Hb1 & Hb2 & ->).
    destruct (H1 x y ltac:(lra) ltac:(lra) a2 b2 Ha2 Hb2) as (Ra & Rb). pose proof (normal_cz s x y S1) as F.
    apply (xdiv_fin_inv _ _ _ F) in Ha1. apply (xdiv_fin_inv _ _ _ F) in Hb1.
    destruct Ha1 as (u & w & Eu & Ew & W & ->). destruct Hb1 as (v & w' & Ev & Ew' & _ & ->).
    rewrite Ew in Ew'. apply Fin_inj in Ew'. subst w'.
    assert (Nm : normal (Fsurf s) (Fin x) (Fin y) = F3 (V3 u v w)) by (destruct (normal (Fsurf s) (Fin x) (Fin y)); cbn in *; subst; reflexivity).
    destruct (H2 x y _ ltac:(lra) ltac:(lra) Nm) as (Mx & My & Mz). cbn [cx cy cz] in Mx, My.
    pose proof (Rabs_pos x). pose proof (Rabs_pos y). set (S := Rabs x + Rabs y) in *.
    pose proof (slope_of (V3 u v w) k x S e ltac:(lra) ltac:(unfold S; lra) u Mx Mz) as Bx.
    pose proof (slope_of (V3 u v w) k y S e ltac:(lra) ltac:(unfold S; lra) v My Mz) as By. cbn [cz] in Bx, By.
    assert (2 * (1 + Rabs k) * e * S <= eps / 2 * S) by (apply Rmult_le_compat_r; [unfold S; lra|exact E2]). change (sumR (k :: ks)) with (k + sumR ks).
    split; [replace (u / w + a2 + (k + sumR ks) * x) with ((u / w + k * x) + (a2 + sumR ks * x)) by ring|replace (v / w + b2 + (k + sumR ks) * y) with ((v / w + k * y) + (b2 + sumR ks * y)) by ring];
    (eapply Rle_trans; [apply Rabs_triang|]; lra).
Qed.
Theorem sum_curved l ks : Forall smooth l -> Forall2 (fun s k => curved (Fsurf s) k) l ks -> curved (Sum (map Fsurf l)) (sumR ks).
Proof.
  intros Sm H. assert (H' : Forall2 (fun s k => curved s k) (map Fsurf l) ks) by (clear Sm; induction H; cbn; constructor; assumption).
  apply curved_slopes; [exact (sum_bounded _ _ H')|exact (sum_flat _ _ H')|]. intros eps He. destruct (sum_slopes l ks Sm H eps He) as (d & D & Hd).
  exists d. split; [exact D|]. intros x y m Hx Hy Hm. rewrite sum_normal_X in Hm. destruct (unit_of_fin _ _ _ Hm) as (a & b & Ea & Eb & B).
  destruct (Hd x y Hx Hy a b Ea Eb) as (La & Lb). exists (- a), (- b). split; [exact B|].
  split; [replace (- a - sumR ks * x) with (- (a + sumR ks * x)) by ring|replace (- b - sumR ks * y) with (- (b + sumR ks * y)) by ring]; rewrite Rabs_Ropp; assumption.
Qed.

(** Polynomial surfaces without constant, tilt and astigmatism. *)
Lemma double_bound (f : nat -> nat -> R) B n m : 1 <= B -> exists M, 0 <= M /\ forall x y, Rabs x <= B -> Rabs y <= B ->
  Rabs (sumn n (fun i => sumn m (fun j => f i j * x ^ i * y ^ j))) <= M.
Proof.
  intros HB. assert (G : forall (g : nat -> R -> R -> R) n, (forall i, exists M, 0 <= M /\ forall x y, Rabs x <= B -> Rabs y <= B -> Rabs (g i x y) <= M) ->
    exists M, 0 <= M /\ forall x y, Rabs x <= B -> Rabs y <= B -> Rabs (sumn n (fun i => g i x y)) <= M).
  { intros g k H. induction k as [|k (M & M0 & IH)]; [exists 0; split; [lra|]; intros; cbn; rewrite Rabs_R0; lra|].
    destruct (H k) as (M1 & M10 & H1). exists (M + M1). split; [lra|]. intros x y Hx Hy. cbn [sumn]. eapply Rle_trans; [apply Rabs_triang|].
    apply Rplus_le_compat; [apply IH|apply H1]; assumption. }
  apply (G (fun i x y => sumn m (fun j => f i j * x ^ i * y ^ j))). intros i. apply (G (fun j x y => f i j * x ^ i * y ^ j)). intros j.
  exists (Rabs (f i j) * B ^ i * B ^ j). pose proof (Rabs_pos (f i j)). assert (P : forall k, 0 <= B ^ k) by (intros; apply pow_le; lra).
  split; [repeat apply Rmult_le_pos; auto|]. intros x y Hx Hy. rewrite !Rabs_mult, <- !RPow_abs. pose proof (Rabs_pos x). pose proof (Rabs_pos y).
  apply Rmult_le_compat; [apply Rmult_le_pos; [assumption|apply pow_le; lra]|apply pow_le; lra| |apply pow_incr; lra].
  apply Rmult_le_compat_l; [assumption|]. apply pow_incr. lra.
Qed.
Lemma second_order (f : nat -> nat -> R) n m : f O O = 0 -> f 1%nat O = 0 -> f O 1%nat = 0 -> exists M, 0 <= M /\ forall x y, Rabs x + Rabs y <= 1 ->
  Rabs (sumn n (fun i => sumn m (fun j => f i j * x ^ i * y ^ j))) <= M * ((Rabs x + Rabs y) * (Rabs x + Rabs y)).
Proof.
  intros F0 F1 F2. assert (G : forall (g : nat -> R -> R -> R) n, (forall i, exists M, 0 <= M /\ forall x y, Rabs x + Rabs y <= 1 -> Rabs (g i x y) <= M * ((Rabs x + Rabs y) * (Rabs x + Rabs y))) ->
    exists M, 0 <= M /\ forall x y, Rabs x + Rabs y <= 1 -> Rabs (sumn n (fun i => g i x y)) <= M * ((Rabs x + Rabs y) * (Rabs x + Rabs y))).
  { intros g k H. induction k as [|k (M & M0 & IH)]; [exists 0; split; [lra|]; intros; cbn; rewrite Rabs_R0; lra|].
    destruct (H k) as (M1 & M10 & H1). exists (M + M1). split; [lra|]. intros x y Hx. cbn [sumn]. eapply Rle_trans; [apply Rabs_triang|].
    rewrite Rmult_plus_distr_r. apply Rplus_le_compat; [apply IH|apply H1]; assumption. }
  apply (G (fun i x y => sumn m (fun j => f i j * x ^ i * y ^ j))). intros i. apply (G (fun j x y => f i j * x ^ i * y ^ j)). intros j.
  exists (Rabs (f i j)). split; [apply Rabs_pos|]. intros x y Hs. rewrite !Rabs_mult, <- !RPow_abs, Rmult_assoc. pose proof (Rabs_pos x). pose proof (Rabs_pos y).
  set (S := Rabs x + Rabs y) in *. assert (S0 : 0 <= S) by (unfold S; lra).
  assert (Q : Rabs x ^ i * Rabs y ^ j <= S ^ (i + j)).
  { rewrite pow_add. apply Rmult_le_compat; try (apply pow_le; lra); apply pow_incr; unfold S; lra. }
  assert (PS : forall k, S ^ k <= 1) by (intros k; rewrite <- (pow1 k); apply pow_incr; lra).
  assert (Z : Rabs (f i j) = 0 \/ exists k, (i + j = 2 + k)%nat).
  { destruct i as [|[|i]], j as [|[|j]]; try (left; rewrite ?F0, ?F1, ?F2; apply Rabs_R0); right; [exists j|exists O|exists (j + 1)%nat|exists i|exists (i + 1)%nat|exists (i + 2 + j)%nat]; lia. }
  destruct Z as [->|(k & E)]; [lra|]. apply Rmult_le_compat_l; [apply Rabs_pos|]. eapply Rle_trans; [exact Q|]. rewrite E, pow_add.
  replace (S ^ 2) with (S * S) by ring. specialize (PS k). assert (0 <= S * S) by nra. nra.
Qed.
Lemma sumn_one n (c : R) k : (k < n)%nat -> sumn n (fun i => if Nat.eqb i k then c else 0) = c.
Proof.
  induction n as [|n IH]; intros H; [lia|]. cbn [sumn]. destruct (Nat.eq_dec k n) as [->|E].
  - rewrite Nat.eqb_refl, sumn_0; [ring|]. intros i Hi. destruct (Nat.eqb_spec i n); [lia|reflexivity].
  - rewrite IH by lia. destruct (Nat.eqb_spec n k); [lia|ring].
Qed.
Lemma first_order (f : nat -> nat -> R) n p q : (p + q = 1)%nat -> (2 <= n)%nat -> f O O = 0 -> f q p = 0 -> exists M, 0 <= M /\ forall x y, Rabs x + Rabs y <= 1 ->
  Rabs (sumn n (fun i => sumn n (fun j => f i j * x ^ i * y ^ j)) - f p q * (x ^ p * y ^ q)) <= M * ((Rabs x + Rabs y) * (Rabs x + Rabs y)).
Proof.
  intros PQ N F0 F1. set (g := fun i j => f i j - (if Nat.eqb i p then if Nat.eqb j q then f p q else 0 else 0)).
  assert (G0 : g O O = 0) by (unfold g; rewrite F0; destruct p as [|[|]], q as [|[|]]; try lia; cbn; ring).
  assert (G1 : g 1%nat O = 0) by (unfold g; destruct p as [|[|]], q as [|[|]]; try lia; cbn; rewrite ?F1; ring).
  assert (G2 : g O 1%nat = 0) by (unfold g; destruct p as [|[|]], q as [|[|]]; try lia; cbn; rewrite ?F1; ring).
  destruct (second_order g n n G0 G1 G2) as (M & M0 & H). exists M. split; [exact M0|]. intros x y Hs. specialize (H x y Hs).
  replace (_ - _) with (sumn n (fun i => sumn n (fun j => g i j * x ^ i * y ^ j))); [exact H|].
  assert (E : sumn n (fun i => sumn n (fun j => (if Nat.eqb i p then if Nat.eqb j q then f p q else 0 else 0) * x ^ i * y ^ j)) = f p q * (x ^ p * y ^ q)).
  { rewrite (sumn_ext n _ (fun i => if Nat.eqb i p then f p q * (x ^ p * y ^ q) else 0)); [apply sumn_one; lia|]. intros i Hi.
    destruct (Nat.eqb_spec i p) as [->|_]; [|rewrite sumn_0; [reflexivity|intros; ring]].
    rewrite (sumn_ext n _ (fun j => if Nat.eqb j q then f p q * (x ^ p * y ^ q) else 0)); [apply sumn_one; lia|]. intros j Hj.
    destruct (Nat.eqb_spec j q) as [->|_]; ring. }
  apply (Rplus_eq_reg_r (f p q * (x ^ p * y ^ q))). rewrite <- E at 1. rewrite <- sumn_plus. ring_simplify. apply sumn_ext. intros i Hi.
  rewrite <- sumn_plus. apply sumn_ext. intros j Hj. unfold g. ring.
Qed.
Theorem poly_curved a gx gy n k : (3 <= n)%nat -> derivative_arrays n a gx gy ->
  entry n a 0 0 = 0 -> entry n a 0 1 = 0 -> entry n a 1 0 = 0 -> entry n a 1 1 = 0 -> entry n a 2 0 = k / 2 -> entry n a 0 2 = k / 2 ->
  curved (Fsurf (Poly a gx gy 0 0 n n)) k.
Proof.
  intros Hn HD A00 A01 A10 A11 A20 A02. pose proof HD as (La & Lx & Ly & HG & _).
  assert (Sg : forall q, on_sag (Fsurf (Poly a gx gy 0 0 n n)) q -> cz q = poly2 n a (cx q) (cy q)).
  { intros q On. unfold on_sag in On. rewrite poly_sag_F in On by exact La. apply Fin_inj in On. rewrite <- On, !Rminus_0_r. reflexivity. }
  apply curved_slopes.
  - intros b. destruct (double_bound (entry n a) (Rmax 1 b) n n (Rmax_l _ _)) as (M & _ & HM). exists M. intros q Hx Hy On. rewrite (Sg q On).
    pose proof (Rmax_r 1 b). apply HM; lra.
  - intros eps He. destruct (second_order (entry n a) n n A00 A10 A01) as (M & M0 & HM).
    set (d := Rmin (1/2) (eps / (4 * (M + 1)))). assert (0 < eps / (4 * (M + 1))) by (apply Rdiv_lt_0_compat; lra).
    assert (D0 : 0 < d) by (apply Rmin_glb_lt; lra). exists d. split; [exact D0|]. intros q Hx Hy On. rewrite (Sg q On).
    assert (d <= 1/2) by apply Rmin_l. pose proof (Rabs_pos (cx q)). pose proof (Rabs_pos (cy q)).
    assert (D1 : d * (4 * (M + 1)) <= eps).
    { apply Rle_trans with (eps / (4 * (M + 1)) * (4 * (M + 1))); [apply Rmult_le_compat_r; [lra|apply Rmin_r]|]. right. field. lra. }
    eapply Rle_lt_trans; [apply HM; lra|]. set (S := Rabs (cx q) + Rabs (cy q)) in *. assert (S0 : 0 <= S <= 1) by (unfold S; lra). assert (S < 2 * d) by (unfold S; lra).
    assert (S * S <= 2 * d) by nra. assert (M * (S * S) <= M * (2 * d)) by (apply Rmult_le_compat_l; lra). nra.
  - intros eps He. destruct (HG O O ltac:(lia) ltac:(lia)) as (X00 & Y00). destruct (HG 1%nat O ltac:(lia) ltac:(lia)) as (X10 & Y10). destruct (HG O 1%nat ltac:(lia) ltac:(lia)) as (X01 & Y01).
    destruct (first_order (entry (n - 1) gx) (n - 1) 1 0) as (M1 & M10 & H1); [lia|lia|rewrite X00, A10; ring|rewrite X01, A11; ring|].
    destruct (first_order (entry (n - 1) gy) (n - 1) 0 1) as (M2 & M20 & H2); [lia|lia|rewrite Y00, A01; ring|rewrite Y10, A11; ring|].
    rewrite X10, A20 in H1. rewrite Y01, A02 in H2. cbn [INR pow] in H1, H2.
    set (M := M1 + M2 + 1). set (d := Rmin (1/2) (eps / (2 * M))). assert (MM : 0 < M) by (unfold M; lra). assert (0 < eps / (2 * M)) by (apply Rdiv_lt_0_compat; lra).
    assert (D0 : 0 < d) by (apply Rmin_glb_lt; lra). exists d. split; [exact D0|]. intros x y m Hx Hy Hm.
    assert (d <= 1/2) by apply Rmin_l. pose proof (Rabs_pos x). pose proof (Rabs_pos y).
    assert (D1 : d * (2 * M) <= eps).
    { apply Rle_trans with (eps / (2 * M) * (2 * M)); [apply Rmult_le_compat_r; [lra|apply Rmin_r]|]. right. field. lra. }
    assert (B : by_slopes m (poly2 (n - 1) gx x y) (poly2 (n - 1) gy x y)).
    { cbn [Fsurf normal] in Hm. unfold poly_normal in Hm. revert Hm. xunf. rewrite !horner2d_F by assumption. cbn [xopp xmul xadd]. rewrite !Rminus_0_r.
      set (A := poly2 _ gx _ _). set (B := poly2 _ gy _ _).
      assert (Hu : 0 < - A * - A + - B * - B + 1) by nra. rewrite unit_nz by exact Hu. cbn [xmul]. intros H'.
      apply F3_comp in H'. destruct H' as (Ex & Ey & Ez). apply Fin_inj in Ex, Ey, Ez. pose proof (inv_sqrt_pos _ Hu).
      unfold by_slopes. rewrite <- Ex, <- Ey, <- Ez. split; [lra|]. split; ring. }
    exists (poly2 (n - 1) gx x y), (poly2 (n - 1) gy x y). split; [exact B|]. specialize (H1 x y ltac:(lra)). specialize (H2 x y ltac:(lra)).
    set (S := Rabs x + Rabs y) in *. assert (S0 : 0 <= S) by (unfold S; lra). assert (S2 : S <= 2 * d) by (unfold S; lra).
    assert (Q : forall c, 0 <= c <= M -> c * (S * S) <= eps * S).
    { intros c Hc. apply Rle_trans with (M * (2 * d * S)); [apply Rmult_le_compat; try lra; [nra|apply Rmult_le_compat_r; lra]|]. nra. }
    split; (eapply Rle_trans; [|apply Q]).
    + eapply Rle_trans; [|exact H1]. right. f_equal. unfold poly2. field.
    + unfold M. lra.
    + eapply Rle_trans; [|exact H2]. right. f_equal. unfold poly2. field.
    + unfold M. lra.
Qed.
