(** C19: the bicubic surface. *)
From Coq Require Import Reals List ZArith Bool Lra Lia Psatz.
From Verif Require Import Num NumR Vec Surface Spec XRFacts NormalFacts SurfSpec SlopeProofs.
Import ListNotations.
Open Scope R_scope.

(** ** Cardinal functions *)
Lemma tent_out t : 1 <= Rabs t -> tent t = 0.
Proof. intros H. unfold tent. apply Rmax_left. lra. Qed.
Lemma tent_in t : Rabs t <= 1 -> tent t = 1 - Rabs t.
Proof. intros H. unfold tent. apply Rmax_right. lra. Qed.
Lemma herm_out t : 1 <= Rabs t -> herm t = 0. Proof. intros H. unfold herm. rewrite tent_out by exact H. ring. Qed.
Lemma slop_out t : 1 <= Rabs t -> slop t = 0. Proof. intros H. unfold slop. rewrite tent_out by exact H. ring. Qed.
Lemma herm'_out t : 1 <= Rabs t -> herm' t = 0. Proof. intros H. unfold herm'. rewrite tent_out by exact H. ring. Qed.
Lemma slop'_out t : 1 <= Rabs t -> slop' t = 0. Proof. intros H. unfold slop'. rewrite tent_out by exact H. ring. Qed.

(** Derivative of a function pasted from two at a point. *)
Lemma dl_paste f g h x d e : 0 < e ->
  (forall t, x - e < t <= x -> f t = g t) -> (forall t, x <= t < x + e -> f t = h t) ->
  derivable_pt_lim g x d -> derivable_pt_lim h x d -> derivable_pt_lim f x d.
Proof.
  intros He Hg Hh Dg Dh eps Heps. destruct (Dg eps Heps) as [d1 H1]. destruct (Dh eps Heps) as [d2 H2].
  assert (Hm : 0 < Rmin e (Rmin d1 d2)) by (apply Rmin_pos; [exact He|apply Rmin_pos; apply cond_pos]).
  exists (mkposreal _ Hm). cbn [pos]. intros k Hk0 Hk.
  assert (A1 : Rabs k < e) by (eapply Rlt_le_trans; [exact Hk|apply Rmin_l]).
  assert (A2 : Rabs k < d1) by (eapply Rlt_le_trans; [exact Hk|eapply Rle_trans; [apply Rmin_r|apply Rmin_l]]).
  assert (A3 : Rabs k < d2) by (eapply Rlt_le_trans; [exact Hk|eapply Rle_trans; [apply Rmin_r|apply Rmin_r]]).
  apply Rabs_def2 in A1. destruct (Rle_dec k 0).
  - rewrite (Hg (x + k)), (Hg x) by lra. apply H1; assumption.
  - rewrite (Hh (x + k)), (Hh x) by lra. apply H2; assumption.
Qed.
Lemma dl_cubic c0 c1 c2 c3 t : derivable_pt_lim (fun t => c0 + c1 * t + c2 * (t * t) + c3 * (t * (t * t))) t
  (c1 + 2 * c2 * t + 3 * c3 * (t * t)).
Proof.
  assert (I : derivable_pt_lim (fun t => t) t 1) by apply derivable_pt_lim_id.
  eapply dl_val.
  - apply (dl_plus (fun t => c0 + c1 * t + c2 * (t * t))).
    + apply (dl_plus (fun t => c0 + c1 * t)).
      * apply (dl_plus (fun _ => c0)); [apply dl_const|]. apply (dl_mult (fun _ => c1)); [apply dl_const|exact I].
      * apply (dl_mult (fun _ => c2)); [apply dl_const|]. apply dl_mult; exact I.
    + apply (dl_mult (fun _ => c3)); [apply dl_const|]. apply (dl_mult (fun t => t)); [exact I|]. apply dl_mult; exact I.
  - cbn beta. ring.
Qed.
(** A function that is 0 outside [-1,1] and a cubic on each half of it. *)
Lemma dl_cardinal f (a0 a1 a2 a3 b0 b1 b2 b3 : R) f' :
  (forall t, 1 <= Rabs t -> f t = 0 /\ f' t = 0) ->
  (forall t, -1 <= t <= 0 -> f t = a0 + a1 * t + a2 * (t * t) + a3 * (t * (t * t)) /\ f' t = a1 + 2 * a2 * t + 3 * a3 * (t * t)) ->
  (forall t, 0 <= t <= 1 -> f t = b0 + b1 * t + b2 * (t * t) + b3 * (t * (t * t)) /\ f' t = b1 + 2 * b2 * t + 3 * b3 * (t * t)) ->
  forall t, derivable_pt_lim f t (f' t).
Proof.
  intros HO HA HB t.
  assert (O : forall u, 1 <= u \/ u <= -1 -> f u = 0 /\ f' u = 0).
  { intros u Hu. apply HO. destruct Hu; [rewrite Rabs_right; lra|rewrite Rabs_left; lra]. }
  assert (Z : forall c u, derivable_pt_lim (fun _ => c) u 0) by (intros; apply dl_const).
  destruct (Rlt_dec t (-1)) as [L|L].
  { rewrite (proj2 (O t ltac:(lra))). apply (dl_paste f (fun _ => 0) (fun _ => 0) t 0 (-1 - t)); auto; try lra; intros; apply O; lra. }
  destruct (Req_dec t (-1)) as [-> | N1].
  { apply (dl_paste f (fun _ => 0) (fun t => a0 + a1 * t + a2 * (t * t) + a3 * (t * (t * t))) (-1) _ (1/2)); try lra.
    - intros; apply O; lra. - intros; apply HA; lra.
    - rewrite (proj2 (O (-1) ltac:(lra))). auto.
    - rewrite (proj2 (HA (-1) ltac:(lra))). apply dl_cubic. }
  destruct (Rlt_dec t 0) as [L0|L0].
  { rewrite (proj2 (HA t ltac:(lra))).
    assert (0 < Rmin (- t) (t + 1)) by (apply Rmin_pos; lra).
    pose proof (Rmin_l (- t) (t + 1)). pose proof (Rmin_r (- t) (t + 1)).
    eapply (dl_paste f _ _ t _ (Rmin (- t) (t + 1))); [assumption| | |apply dl_cubic|apply dl_cubic]; intros; apply HA; lra. }
  destruct (Req_dec t 0) as [-> | N0].
  { apply (dl_paste f (fun t => a0 + a1 * t + a2 * (t * t) + a3 * (t * (t * t)))
       (fun t => b0 + b1 * t + b2 * (t * t) + b3 * (t * (t * t))) 0 _ (1/2)); try lra.
    - intros; apply HA; lra. - intros; apply HB; lra.
    - rewrite (proj2 (HA 0 ltac:(lra))). apply dl_cubic.
    - rewrite (proj2 (HB 0 ltac:(lra))). apply dl_cubic. }
  destruct (Rlt_dec t 1) as [L1|L1].
  { rewrite (proj2 (HB t ltac:(lra))).
    assert (0 < Rmin t (1 - t)) by (apply Rmin_pos; lra).
    pose proof (Rmin_l t (1 - t)). pose proof (Rmin_r t (1 - t)).
    eapply (dl_paste f _ _ t _ (Rmin t (1 - t))); [assumption| | |apply dl_cubic|apply dl_cubic]; intros; apply HB; lra. }
  destruct (Req_dec t 1) as [-> | N2].
  { apply (dl_paste f (fun t => b0 + b1 * t + b2 * (t * t) + b3 * (t * (t * t))) (fun _ => 0) 1 _ (1/2)); try lra.
    - intros; apply HB; lra. - intros; apply O; lra.
    - rewrite (proj2 (HB 1 ltac:(lra))). apply dl_cubic.
    - rewrite (proj2 (O 1 ltac:(lra))). auto. }
  rewrite (proj2 (O t ltac:(lra))). apply (dl_paste f (fun _ => 0) (fun _ => 0) t 0 (t - 1)); auto; try lra; intros; apply O; lra.
Qed.
Lemma abs_neg t : -1 <= t <= 0 -> Rabs t = - t.
Proof. intros. apply Rabs_left1. lra. Qed.
Lemma abs_pos t : 0 <= t <= 1 -> Rabs t = t.
Proof. intros. apply Rabs_right. lra. Qed.
Lemma dl_herm t : derivable_pt_lim herm t (herm' t).
Proof.
  revert t. apply (dl_cardinal herm 1 0 (-3) (-2) 1 0 (-3) 2 herm').
  - intros t H. split; [apply herm_out|apply herm'_out]; exact H.
  - intros t H. unfold herm, herm'. rewrite tent_in; rewrite abs_neg by lra; [|lra]. split; ring.
  - intros t H. unfold herm, herm'. rewrite tent_in; rewrite abs_pos by lra; [|lra]. split; ring.
Qed.
Lemma dl_slop t : derivable_pt_lim slop t (slop' t).
Proof.
  revert t. apply (dl_cardinal slop 0 1 2 1 0 1 (-2) 1 slop').
  - intros t H. split; [apply slop_out|apply slop'_out]; exact H.
  - intros t H. unfold slop, slop'. rewrite tent_in; rewrite abs_neg by lra; [|lra]. split; ring.
  - intros t H. unfold slop, slop'. rewrite tent_in; rewrite abs_pos by lra; [|lra]. split; ring.
Qed.
(** Continuity of the derivatives. *)
Lemma c_abs x : continuity_pt Rabs x. Proof. apply Rcontinuity_abs. Qed.
Lemma c_tent x : continuity_pt tent x.
Proof.
  assert (E : forall t, (1 - Rabs t + Rabs (1 - Rabs t)) * / 2 = tent t).
  { intros t. unfold tent, Rmax. destruct (Rle_dec 0 (1 - Rabs t)).
    - rewrite (Rabs_right (1 - Rabs t)) by lra. field.
    - rewrite (Rabs_left (1 - Rabs t)) by lra. field. }
  assert (C1 : continuity_pt (fun t => 1 - Rabs t) x).
  { apply (continuity_pt_minus (fct_cte 1) Rabs); [apply continuity_pt_const; intros ? ?; reflexivity|apply c_abs]. }
  assert (C2 : continuity_pt (fun t => (1 - Rabs t + Rabs (1 - Rabs t)) * / 2) x).
  { apply (continuity_pt_mult (fun t => 1 - Rabs t + Rabs (1 - Rabs t)) (fct_cte (/ 2)));
    [|apply continuity_pt_const; intros ? ?; reflexivity].
    apply (continuity_pt_plus (fun t => 1 - Rabs t)); [exact C1|].
    apply (continuity_pt_comp (fun t => 1 - Rabs t) Rabs); [exact C1|apply c_abs]. }
  intros eps He. destruct (C2 eps He) as (al & Ha & H). exists al. split; [exact Ha|]. intros y Hy. specialize (H y Hy).
  rewrite !E in H. exact H.
Qed.
Lemma c_id x : continuity_pt (fun t => t) x.
Proof. apply derivable_continuous_pt, derivable_pt_id. Qed.
Lemma c_const c x : continuity_pt (fun _ => c) x.
Proof. apply continuity_pt_const. intros ? ?; reflexivity. Qed.
Lemma c_herm' x : continuity_pt herm' x.
Proof.
  apply (continuity_pt_mult (fun t => -6 * t) tent); [|apply c_tent].
  apply (continuity_pt_mult (fun _ => -6)); [apply c_const|apply c_id].
Qed.
Lemma c_slop' x : continuity_pt slop' x.
Proof.
  apply (continuity_pt_mult tent (fun t => 1 - 3 * Rabs t)); [apply c_tent|].
  apply (continuity_pt_minus (fun _ => 1)); [apply c_const|].
  apply (continuity_pt_mult (fun _ => 3)); [apply c_const|apply c_abs].
Qed.
Lemma c_of_dl f x d : derivable_pt_lim f x d -> continuity_pt f x.
Proof. intros H. apply derivable_continuous_pt. exists d. exact H. Qed.
Lemma c_herm x : continuity_pt herm x. Proof. eapply c_of_dl, dl_herm. Qed.
Lemma c_slop x : continuity_pt slop x. Proof. eapply c_of_dl, dl_slop. Qed.

(** ** Joint continuity *)
Lemma c_near f x eps : continuity_pt f x -> 0 < eps -> exists de, 0 < de /\ forall y, Rabs (y - x) < de -> Rabs (f y - f x) < eps.
Proof.
  intros C He. destruct (C eps He) as (al & Ha & H). exists al. split; [exact Ha|]. intros y Hy.
  destruct (Req_dec y x) as [->|N]; [rewrite Rminus_diag_eq, Rabs_R0; auto|].
  apply H. split; [split; [exact I|auto]|exact Hy].
Qed.
Lemma cont2_x f x y : continuity_pt f x -> cont2 (fun a _ => f a) x y.
Proof. intros C eps He. destruct (c_near f x eps C He) as (de & Hd & H). exists de. auto. Qed.
Lemma cont2_y f x y : continuity_pt f y -> cont2 (fun _ b => f b) x y.
Proof. intros C eps He. destruct (c_near f y eps C He) as (de & Hd & H). exists de. auto. Qed.
Lemma cont2_const c x y : cont2 (fun _ _ => c) x y.
Proof. intros eps He. exists 1. split; [lra|]. intros. rewrite Rminus_diag_eq, Rabs_R0; auto. Qed.
Lemma cont2_plus f g x y : cont2 f x y -> cont2 g x y -> cont2 (fun a b => f a b + g a b) x y.
Proof.
  intros Cf Cg eps He. destruct (Cf (eps / 2) ltac:(lra)) as (d1 & H1 & K1). destruct (Cg (eps / 2) ltac:(lra)) as (d2 & H2 & K2).
  exists (Rmin d1 d2). split; [apply Rmin_pos; assumption|]. intros a b Ha Hb.
  pose proof (Rmin_l d1 d2). pose proof (Rmin_r d1 d2).
  specialize (K1 a b ltac:(lra) ltac:(lra)). specialize (K2 a b ltac:(lra) ltac:(lra)).
  replace (f a b + g a b - (f x y + g x y)) with ((f a b - f x y) + (g a b - g x y)) by ring.
  eapply Rle_lt_trans; [apply Rabs_triang|]. lra.
Qed.
Lemma cont2_mult f g x y : cont2 f x y -> cont2 g x y -> cont2 (fun a b => f a b * g a b) x y.
Proof.
  intros Cf Cg eps He. set (M := 1 + Rabs (f x y) + Rabs (g x y)).
  assert (HM : 1 <= M) by (unfold M; pose proof (Rabs_pos (f x y)); pose proof (Rabs_pos (g x y)); lra).
  assert (He1 : 0 < Rmin 1 (eps / (2 * M))) by (apply Rmin_pos; [lra|apply Rdiv_lt_0_compat; lra]).
  destruct (Cf _ He1) as (d1 & H1 & K1). destruct (Cg _ He1) as (d2 & H2 & K2).
  exists (Rmin d1 d2). split; [apply Rmin_pos; assumption|]. intros a b Ha Hb.
  pose proof (Rmin_l d1 d2). pose proof (Rmin_r d1 d2).
  specialize (K1 a b ltac:(lra) ltac:(lra)). specialize (K2 a b ltac:(lra) ltac:(lra)).
  pose proof (Rmin_l 1 (eps / (2 * M))). pose proof (Rmin_r 1 (eps / (2 * M))).
  set (e := Rmin 1 (eps / (2 * M))) in *. set (u := f a b - f x y) in *. set (v := g a b - g x y) in *.
  replace (f a b * g a b - f x y * g x y) with (u * v + (u * g x y + f x y * v)) by (unfold u, v; ring).
  assert (B1 : Rabs (u * v) <= Rabs u * 1) by (rewrite Rabs_mult; apply Rmult_le_compat_l; [apply Rabs_pos|lra]).
  assert (B2 : Rabs (u * g x y + f x y * v) <= Rabs u * Rabs (g x y) + Rabs (f x y) * Rabs v)
    by (rewrite <- !Rabs_mult; apply Rabs_triang).
  eapply Rle_lt_trans; [apply Rabs_triang|].
  pose proof (Rabs_pos u). pose proof (Rabs_pos v). pose proof (Rabs_pos (f x y)). pose proof (Rabs_pos (g x y)).
  assert (B3 : Rabs u * 1 + (Rabs u * Rabs (g x y) + Rabs (f x y) * Rabs v) <= e * M).
  { unfold M. nra. }
  assert (B4 : e * M <= eps / 2).
  { replace (eps / 2) with (eps / (2 * M) * M) by (field; lra). apply Rmult_le_compat_r; lra. }
  lra.
Qed.
Lemma cont2_sumn n (f : nat -> R -> R -> R) x y : (forall i, cont2 (f i) x y) -> cont2 (fun a b => sumn n (fun i => f i a b)) x y.
Proof. intros H. induction n as [|n IH]; cbn [sumn]; [apply cont2_const|]. apply cont2_plus; auto. Qed.
Lemma c_affine f c k m x : (forall t, continuity_pt f t) -> continuity_pt (fun a => f ((a - c) / k - m)) x.
Proof.
  intros H. apply (continuity_pt_comp (fun a => (a - c) / k - m) f); [|apply H].
  apply (continuity_pt_minus (fun a => (a - c) / k)); [|apply c_const].
  apply (continuity_pt_mult (fun a => a - c)); [|apply c_const].
  apply (continuity_pt_minus (fun a => a)); [apply c_id|apply c_const].
Qed.
Lemma cont2_hsum tb a b c d x y :
  (forall t, continuity_pt a t) -> (forall t, continuity_pt b t) -> (forall t, continuity_pt c t) -> (forall t, continuity_pt d t) ->
  cont2 (fun x y => hsum tb a b c d (gu tb x) (gv tb y)) x y.
Proof.
  intros Ha Hb Hc Hd. unfold hsum, gu, gv.
  apply (cont2_sumn (tb_ny tb) (fun j x y => sumn (tb_nx tb) _)). intros j.
  apply (cont2_sumn (tb_nx tb) (fun i x y => _)). intros i.
  assert (X : forall f, (forall t, continuity_pt f t) -> cont2 (fun x _ => f ((x - tb_x0 tb) / tb_dx tb - INR i)) x y)
    by (intros; apply (cont2_x (fun x => f ((x - tb_x0 tb) / tb_dx tb - INR i))), c_affine; assumption).
  assert (Y : forall f, (forall t, continuity_pt f t) -> cont2 (fun _ y => f ((y - tb_y0 tb) / tb_dy tb - INR j)) x y)
    by (intros; apply (cont2_y (fun y => f ((y - tb_y0 tb) / tb_dy tb - INR j))), c_affine; assumption).
  repeat first [apply cont2_plus | apply cont2_mult | apply cont2_const | apply X; assumption | apply Y; assumption].
Qed.

(** ** Derivative along a line *)
Lemma dl_affine f f' c k m x e : k <> 0 -> (forall t, derivable_pt_lim f t (f' t)) ->
  derivable_pt_lim (fun t => f ((x + t * e - c) / k - m)) 0 (f' ((x - c) / k - m) * (e / k)).
Proof.
  intros Hk H. eapply dl_val.
  - apply (derivable_pt_lim_comp (fun t => (x + t * e - c) / k - m) f); [|apply H].
    apply (dl_ext (fun t => ((x - c) / k - m) + t * (e / k))); [intros; field; exact Hk|]. apply dl_line.
  - cbn beta. rewrite Rmult_0_l, Rplus_0_r. ring.
Qed.
Lemma dl_hsum tb a a' b b' c c' d d' x y ex ey : tb_dx tb <> 0 -> tb_dy tb <> 0 ->
  (forall t, derivable_pt_lim a t (a' t)) -> (forall t, derivable_pt_lim b t (b' t)) ->
  (forall t, derivable_pt_lim c t (c' t)) -> (forall t, derivable_pt_lim d t (d' t)) ->
  derivable_pt_lim (fun t => hsum tb a b c d (gu tb (x + t * ex)) (gv tb (y + t * ey))) 0
    (hsum tb a' b' c d (gu tb x) (gv tb y) / tb_dx tb * ex + hsum tb a b c' d' (gu tb x) (gv tb y) / tb_dy tb * ey).
Proof.
  intros Hx Hy Ha Hb Hc Hd. unfold hsum, gu, gv.
  set (U := (x - tb_x0 tb) / tb_dx tb). set (V := (y - tb_y0 tb) / tb_dy tb).
  set (T := fun (i j : nat) (a b c d : R -> R) (u v : R) =>
    tabat tb (tb_z tb) i j * a (u - INR i) * c (v - INR j)
    + tabat tb (tb_dzdx tb) i j * tb_dx tb * b (u - INR i) * c (v - INR j)
    + tabat tb (tb_dzdy tb) i j * tb_dy tb * a (u - INR i) * d (v - INR j)
    + tabat tb (tb_d2 tb) i j * tb_dx tb * tb_dy tb * b (u - INR i) * d (v - INR j)).
  change (derivable_pt_lim (fun t => sumn (tb_ny tb) (fun j => sumn (tb_nx tb) (fun i =>
     T i j a b c d ((x + t * ex - tb_x0 tb) / tb_dx tb) ((y + t * ey - tb_y0 tb) / tb_dy tb)))) 0
     (sumn (tb_ny tb) (fun j => sumn (tb_nx tb) (fun i => T i j a' b' c d U V)) / tb_dx tb * ex +
      sumn (tb_ny tb) (fun j => sumn (tb_nx tb) (fun i => T i j a b c' d' U V)) / tb_dy tb * ey)).
  eapply dl_val.
  - apply (dl_sumn (tb_ny tb) (fun j t => sumn (tb_nx tb) (fun i => T i j a b c d ((x + t * ex - tb_x0 tb) / tb_dx tb) ((y + t * ey - tb_y0 tb) / tb_dy tb)))
      (fun j => sumn (tb_nx tb) (fun i => T i j a' b' c d U V * (ex / tb_dx tb) + T i j a b c' d' U V * (ey / tb_dy tb)))).
    intros j _.
    apply (dl_sumn (tb_nx tb) (fun i t => T i j a b c d ((x + t * ex - tb_x0 tb) / tb_dx tb) ((y + t * ey - tb_y0 tb) / tb_dy tb))).
    intros i _. unfold T.
    pose proof (dl_affine a a' (tb_x0 tb) (tb_dx tb) (INR i) x ex Hx Ha) as Da.
    pose proof (dl_affine b b' (tb_x0 tb) (tb_dx tb) (INR i) x ex Hx Hb) as Db.
    pose proof (dl_affine c c' (tb_y0 tb) (tb_dy tb) (INR j) y ey Hy Hc) as Dc.
    pose proof (dl_affine d d' (tb_y0 tb) (tb_dy tb) (INR j) y ey Hy Hd) as Dd.
    assert (Tm : forall k f f' g g', 
      derivable_pt_lim f 0 f' -> derivable_pt_lim g 0 g' -> derivable_pt_lim (fun t => k * f t * g t) 0 (k * f' * g 0 + k * f 0 * g')).
    { intros k f f' g g' Df Dg. eapply dl_val; [apply (dl_mult (fun t => k * f t)); [apply (dl_mult (fun _ => k)); [apply dl_const|exact Df]|exact Dg]|]. cbn beta. ring. }
    eapply dl_val; [apply dl_plus; [apply dl_plus; [apply dl_plus|]|]; eapply Tm; eassumption|].
    cbn beta. rewrite !Rmult_0_l, !Rplus_0_r. fold U V. ring.
  - unfold Rdiv. rewrite !Rmult_assoc, !sumn_mult, <- sumn_plus. apply sumn_ext. intros j _.
    rewrite !sumn_mult, <- sumn_plus. apply sumn_ext. intros; ring.
Qed.

(** ** The program evaluates the interpolant *)
Lemma sumn_two n k f : (S k < n)%nat -> (forall i, (i < n)%nat -> i <> k -> i <> S k -> f i = 0) -> sumn n f = f k + f (S k).
Proof.
  intros Hk H. replace n with (S (S k) + (n - S (S k)))%nat by lia.
  assert (G : forall m, (S (S k) + m <= n)%nat -> sumn (S (S k) + m) f = f k + f (S k)).
  { induction m as [|m IH]; intros Hm.
    - rewrite Nat.add_0_r. cbn [sumn]. rewrite sumn_0; [ring|]. intros i Hi. apply H; lia.
    - rewrite Nat.add_succ_r. cbn [sumn]. rewrite IH by lia. rewrite (H (S (S k) + m)%nat) by lia. ring. }
  apply G. lia.
Qed.
(** Only the four corners of the cell contribute. *)
Definition corner (tb : table R) (a b c d : R -> R) (u v : R) (i j : nat) : R :=
    tabat tb (tb_z tb) i j * a (u - INR i) * c (v - INR j)
    + tabat tb (tb_dzdx tb) i j * tb_dx tb * b (u - INR i) * c (v - INR j)
    + tabat tb (tb_dzdy tb) i j * tb_dy tb * a (u - INR i) * d (v - INR j)
    + tabat tb (tb_d2 tb) i j * tb_dx tb * tb_dy tb * b (u - INR i) * d (v - INR j).
Lemma far u i k : INR k <= u < INR k + 1 -> i <> k -> i <> S k -> 1 <= Rabs (u - INR i).
Proof.
  intros H H1 H2. destruct (le_lt_dec i k) as [L|L].
  - assert (INR i + 1 <= INR k) by (rewrite <- S_INR; apply le_INR; lia). rewrite Rabs_right; lra.
  - assert (INR k + 1 + 1 <= INR i) by (rewrite <- !S_INR; apply le_INR; lia). rewrite Rabs_left; lra.
Qed.
Lemma hsum_cell tb a b c d u v k m :
  (forall t, 1 <= Rabs t -> a t = 0 /\ b t = 0 /\ c t = 0 /\ d t = 0) ->
  (S k < tb_nx tb)%nat -> (S m < tb_ny tb)%nat -> INR k <= u < INR k + 1 -> INR m <= v < INR m + 1 ->
  hsum tb a b c d u v = corner tb a b c d u v k m + corner tb a b c d u v (S k) m
     + (corner tb a b c d u v k (S m) + corner tb a b c d u v (S k) (S m)).
Proof.
  intros H Hk Hm Hu Hv. unfold hsum. rewrite (sumn_two _ m); [|exact Hm|].
  - rewrite !(sumn_two _ k); [reflexivity|exact Hk| |exact Hk|];
    intros i _ H1 H2; destruct (H _ (far u i k Hu H1 H2)) as (-> & -> & _); ring.
  - intros j _ H1 H2. destruct (H _ (far v j m Hv H1 H2)) as (_ & _ & -> & ->). apply sumn_0. intros; ring.
Qed.
(** Cardinal functions inside the cell. *)
Lemma herm_0 s : 0 <= s < 1 -> herm s = 1 - 3 * (s * s) + 2 * (s * (s * s)).
Proof. intros H. unfold herm. rewrite tent_in; rewrite abs_pos by lra; [ring|lra]. Qed.
Lemma slop_0 s : 0 <= s < 1 -> slop s = s - 2 * (s * s) + s * (s * s).
Proof. intros H. unfold slop. rewrite tent_in; rewrite abs_pos by lra; [ring|lra]. Qed.
Lemma herm_1 s : 0 <= s < 1 -> herm (s - 1) = 3 * (s * s) - 2 * (s * (s * s)).
Proof. intros H. unfold herm. rewrite tent_in; rewrite abs_neg by lra; [ring|lra]. Qed.
Lemma slop_1 s : 0 <= s < 1 -> slop (s - 1) = s * (s * s) - s * s.
Proof. intros H. unfold slop. rewrite tent_in; rewrite abs_neg by lra; [ring|lra]. Qed.
Lemma herm'_0 s : 0 <= s < 1 -> herm' s = 6 * (s * s) - 6 * s.
Proof. intros H. unfold herm'. rewrite tent_in; rewrite abs_pos by lra; [ring|lra]. Qed.
Lemma slop'_0 s : 0 <= s < 1 -> slop' s = 1 - 4 * s + 3 * (s * s).
Proof. intros H. unfold slop'. rewrite tent_in; rewrite abs_pos by lra; [ring|lra]. Qed.
Lemma herm'_1 s : 0 <= s < 1 -> herm' (s - 1) = 6 * s - 6 * (s * s).
Proof. intros H. unfold herm'. rewrite tent_in; rewrite abs_neg by lra; [ring|lra]. Qed.
Lemma slop'_1 s : 0 <= s < 1 -> slop' (s - 1) = 3 * (s * s) - 2 * s.
Proof. intros H. unfold slop'. rewrite tent_in; rewrite abs_neg by lra; [ring|lra]. Qed.

(** The cell the program picks. *)
Lemma Int_part_nat u n : 0 <= u < INR n -> exists k, Int_part u = Z.of_nat k /\ INR k <= u < INR k + 1 /\ (k < n)%nat.
Proof.
  intros H. destruct (base_Int_part u) as [H1 H2].
  assert (0 <= Int_part u)%Z. { assert (-1 < Int_part u)%Z; [|lia]. apply lt_IZR. lra. }
  exists (Z.to_nat (Int_part u)). rewrite Z2Nat.id by lia. rewrite INR_IZR_INZ, Z2Nat.id by lia. repeat split; try lra.
  apply INR_lt. rewrite INR_IZR_INZ, Z2Nat.id by lia. lra.
Qed.
Lemma table_cell_in tb x y : tb_dx tb <> 0 -> tb_dy tb <> 0 -> in_grid tb x y ->
  exists k m, table_cell (Ftab tb) (Fin x) (Fin y) = Some (k, m) /\ (S k < tb_nx tb)%nat /\ (S m < tb_ny tb)%nat /\
    INR k <= gu tb x < INR k + 1 /\ INR m <= gv tb y < INR m + 1.
Proof.
  intros Hx Hy (H1 & H2 & H3 & H4). unfold table_cell. cbn [Ftab tb_x0 tb_y0 tb_dx tb_dy tb_nx tb_ny nsub ndiv nfloor NumXR xsub].
  rewrite !xdiv_fin by assumption. cbn [xfloor]. fold (gu tb x) (gv tb y).
  assert (N1 : (1 <= tb_nx tb)%nat) by (apply INR_le; cbn [INR]; lra).
  assert (N2 : (1 <= tb_ny tb)%nat) by (apply INR_le; cbn [INR]; lra).
  destruct (Int_part_nat (gu tb x) (tb_nx tb - 1)) as (k & Ek & Hk & Lk); [rewrite minus_INR by exact N1; cbn [INR]; lra|].
  destruct (Int_part_nat (gv tb y) (tb_ny tb - 1)) as (m & Em & Hm & Lm); [rewrite minus_INR by exact N2; cbn [INR]; lra|].
  exists k, m. rewrite Ek, Em.
  replace ((_ || _ || _ || _)%bool) with false.
  - rewrite !Nat2Z.id. repeat split; try lia; lra.
  - symmetry. rewrite !orb_false_iff. repeat split; first [apply Z.leb_gt; lia | apply Z.ltb_ge; lia].
Qed.
Lemma table_cell_out tb x y : tb_dx tb <> 0 -> tb_dy tb <> 0 -> (1 <= tb_nx tb)%nat -> (1 <= tb_ny tb)%nat -> ~ in_grid tb x y ->
  table_cell (Ftab tb) (Fin x) (Fin y) = None.
Proof.
  intros Hx Hy N1 N2 H. unfold table_cell. cbn [Ftab tb_x0 tb_y0 tb_dx tb_dy tb_nx tb_ny nsub ndiv nfloor NumXR xsub].
  rewrite !xdiv_fin by assumption. cbn [xfloor]. fold (gu tb x) (gv tb y).
  destruct ((_ || _ || _ || _)%bool) eqn:E; [reflexivity|]. exfalso. apply H.
  rewrite !orb_false_iff in E. destruct E as (((A & B) & C) & D).
  apply Z.leb_gt in A, C. apply Z.ltb_ge in B, D.
  pose proof (base_Int_part (gu tb x)) as [P1 P2]. pose proof (base_Int_part (gv tb y)) as [Q1 Q2].
  assert (IZR (Int_part (gu tb x)) + 1 <= INR (tb_nx tb) - 1).
  { rewrite INR_IZR_INZ, <- plus_IZR, <- minus_IZR. apply IZR_le. lia. }
  assert (IZR (Int_part (gv tb y)) + 1 <= INR (tb_ny tb) - 1).
  { rewrite INR_IZR_INZ, <- plus_IZR, <- minus_IZR. apply IZR_le. lia. }
  apply IZR_le in B, D. unfold in_grid. lra.
Qed.
Lemma tab_nth (tb : table R) (l : list R) i j : length l = (tb_nx tb * tb_ny tb)%nat -> (i < tb_nx tb)%nat -> (j < tb_ny tb)%nat ->
  nth (tb_nx tb * j + i) (map Fin l) NaN = Fin (tabat tb l i j).
Proof. intros H Hi Hj. apply (nth_Fin (tb_nx tb * j + i) l). rewrite H. nia. Qed.

Lemma bicubic_eval tb x y : good_table tb -> in_grid tb x y ->
  table_eval (Ftab tb) (Fin x) (Fin y) = Fin (interp tb x y) /\
  table_grad (Ftab tb) (Fin x) (Fin y) = (Fin (interp_x tb x y), Fin (interp_y tb x y)).
Proof.
  intros (Hx & Hy & L1 & L2 & L3 & L4) Hin.
  destruct (table_cell_in tb x y Hx Hy Hin) as (k & m & E & Hk & Hm & Hu & Hv).
  unfold table_eval, table_grad. rewrite E. clear E.
  cbn [Ftab tb_x0 tb_y0 tb_dx tb_dy tb_nx tb_ny tb_z tb_dzdx tb_dzdy tb_d2]. cbn [nnan NumXR].
  rewrite !tab_nth by (assumption || lia). unfold oneDSpline, oneDGrad. xunf.
  rewrite !xdiv_fin by assumption. xunf. rewrite !xdiv_fin by assumption.
  rewrite <- !INR_IZR_INZ.
  assert (EU : (x - (tb_x0 tb + INR k * tb_dx tb)) / tb_dx tb = gu tb x - INR k) by (unfold gu; field; exact Hx).
  assert (EV : (y - (tb_y0 tb + INR m * tb_dy tb)) / tb_dy tb = gv tb y - INR m) by (unfold gv; field; exact Hy).
  rewrite !EU, !EV. clear EU EV.
  set (s := gu tb x - INR k). set (t := gv tb y - INR m).
  assert (Hs : 0 <= s < 1) by (unfold s; lra). assert (Ht : 0 <= t < 1) by (unfold t; lra).
  assert (ES : gu tb x - INR (S k) = s - 1) by (unfold s; rewrite S_INR; ring).
  assert (ET : gv tb y - INR (S m) = t - 1) by (unfold t; rewrite S_INR; ring).
  assert (O : forall t, 1 <= Rabs t -> herm t = 0 /\ slop t = 0 /\ herm t = 0 /\ slop t = 0)
    by (intros u H; rewrite herm_out, slop_out by exact H; auto).
  assert (Ox : forall t, 1 <= Rabs t -> herm' t = 0 /\ slop' t = 0 /\ herm t = 0 /\ slop t = 0)
    by (intros u H; rewrite herm_out, slop_out, herm'_out, slop'_out by exact H; auto).
  assert (Oy : forall t, 1 <= Rabs t -> herm t = 0 /\ slop t = 0 /\ herm' t = 0 /\ slop' t = 0)
    by (intros u H; rewrite herm_out, slop_out, herm'_out, slop'_out by exact H; auto).
  unfold interp, interp_x, interp_y.
  rewrite (hsum_cell tb herm slop herm slop _ _ k m O Hk Hm Hu Hv).
  rewrite (hsum_cell tb herm' slop' herm slop _ _ k m Ox Hk Hm Hu Hv).
  rewrite (hsum_cell tb herm slop herm' slop' _ _ k m Oy Hk Hm Hu Hv).
  unfold corner. fold s t. rewrite ES, ET.
  rewrite !(herm_0 s), !(slop_0 s), !(herm_1 s), !(slop_1 s), !(herm'_0 s), !(slop'_0 s), !(herm'_1 s), !(slop'_1 s) by exact Hs.
  rewrite !(herm_0 t), !(slop_0 t), !(herm_1 t), !(slop_1 t), !(herm'_0 t), !(slop'_0 t), !(herm'_1 t), !(slop'_1 t) by exact Ht.
  split; [f_equal; ring|]. f_equal; f_equal; unfold Rdiv; ring.
Qed.

(** ** The theorems *)
Lemma bicubic_normal_F tb x y : good_table tb -> in_grid tb x y ->
  exists n, normal (Fsurf (Bicubic tb)) (Fin x) (Fin y) = F3 n /\ dotR n n = 1 /\
    by_slopes n (interp_x tb x y) (interp_y tb x y).
Proof.
  intros Hg Hi. cbn [Fsurf normal]. unfold bicubic_normal. rewrite (proj2 (bicubic_eval tb x y Hg Hi)).
  set (a := interp_x tb x y). set (b := interp_y tb x y). xunf.
  assert (Hu : 0 < 1 + a * a + b * b) by nra. rewrite unit_nz by exact Hu. cbn [xmul].
  pose proof (inv_sqrt_pos _ Hu). pose proof (inv_sqrt_sq _ Hu) as K. set (q := / sqrt _) in *.
  exists (V3 (- a * q) (- b * q) q). split; [reflexivity|]. unfold dotR, by_slopes; cbn [cx cy cz]. split; [|auto].
  replace (- a * q * (- a * q) + - b * q * (- b * q) + q * q) with ((1 + a * a + b * b) * (q * q)) by ring.
  rewrite K. apply Rinv_r; lra.
Qed.
Lemma within_in tb x y : within_grid tb x y -> in_grid tb x y.
Proof. unfold within_grid, in_grid. lra. Qed.
Lemma bicubic_smooth tb : good_table tb ->
  exists z zx zy : R -> R -> R,
    (forall x y, in_grid tb x y ->
       sag (Fsurf (Bicubic tb)) (Fin x) (Fin y) = Fin (z x y) /\
       exists n, normal (Fsurf (Bicubic tb)) (Fin x) (Fin y) = F3 n /\ dotR n n = 1 /\ 0 < cz n /\
         dotR n (V3 1 0 (zx x y)) = 0 /\ dotR n (V3 0 1 (zy x y)) = 0) /\
    (forall x y, within_grid tb x y ->
       (forall ex ey, derivable_pt_lim (fun t => z (x + t * ex) (y + t * ey)) 0 (zx x y * ex + zy x y * ey)) /\
       cont2 z x y /\ cont2 zx x y /\ cont2 zy x y).
Proof.
  intros Hg. exists (interp tb), (interp_x tb), (interp_y tb). split.
  - intros x y Hi. split; [apply (bicubic_eval tb x y Hg Hi)|].
    destruct (bicubic_normal_F tb x y Hg Hi) as (n & E & U & H0 & Hx & Hy). exists n. split; [exact E|]. split; [exact U|].
    split; [exact H0|]. unfold dotR; cbn [cx cy cz]. rewrite Hx, Hy. split; ring.
  - intros x y _. destruct Hg as (Hx & Hy & _). split; [|split; [|split]].
    + intros ex ey. unfold interp, interp_x, interp_y.
      apply (dl_hsum tb herm herm' slop slop' herm herm' slop slop'); auto using dl_herm, dl_slop.
    + unfold interp. apply cont2_hsum; auto using c_herm, c_slop.
    + unfold interp_x, Rdiv. apply cont2_mult; [|apply cont2_const]. apply cont2_hsum; auto using c_herm, c_slop, c_herm', c_slop'.
    + unfold interp_y, Rdiv. apply cont2_mult; [|apply cont2_const]. apply cont2_hsum; auto using c_herm, c_slop, c_herm', c_slop'.
Qed.
(** At a grid node. *)
Lemma gu_node tb i : tb_dx tb <> 0 -> gu tb (tb_x0 tb + INR i * tb_dx tb) = INR i.
Proof. intros H. unfold gu. field. exact H. Qed.
Lemma gv_node tb j : tb_dy tb <> 0 -> gv tb (tb_y0 tb + INR j * tb_dy tb) = INR j.
Proof. intros H. unfold gv. field. exact H. Qed.
Lemma bicubic_node tb i j : good_table tb -> (S i < tb_nx tb)%nat -> (S j < tb_ny tb)%nat ->
  let x := tb_x0 tb + INR i * tb_dx tb in let y := tb_y0 tb + INR j * tb_dy tb in
  sag (Fsurf (Bicubic tb)) (Fin x) (Fin y) = Fin (tabat tb (tb_z tb) i j) /\
  exists n, normal (Fsurf (Bicubic tb)) (Fin x) (Fin y) = F3 n /\ 0 < cz n /\
    - cx n / cz n = tabat tb (tb_dzdx tb) i j /\ - cy n / cz n = tabat tb (tb_dzdy tb) i j.
Proof.
  intros Hg Hi Hj x y. pose proof Hg as (Hx & Hy & _).
  assert (EU : gu tb x = INR i) by (apply gu_node, Hx). assert (EV : gv tb y = INR j) by (apply gv_node, Hy).
  assert (Hin : in_grid tb x y).
  { unfold in_grid. rewrite EU, EV. pose proof (pos_INR i). pose proof (pos_INR j).
    apply lt_INR in Hi, Hj. rewrite S_INR in Hi, Hj. lra. }
  assert (Hu : INR i <= gu tb x < INR i + 1) by lra. assert (Hv : INR j <= gv tb y < INR j + 1) by lra.
  assert (O : forall t, 1 <= Rabs t -> herm t = 0 /\ slop t = 0 /\ herm t = 0 /\ slop t = 0)
    by (intros u H; rewrite herm_out, slop_out by exact H; auto).
  assert (Ox : forall t, 1 <= Rabs t -> herm' t = 0 /\ slop' t = 0 /\ herm t = 0 /\ slop t = 0)
    by (intros u H; rewrite herm_out, slop_out, herm'_out, slop'_out by exact H; auto).
  assert (Oy : forall t, 1 <= Rabs t -> herm t = 0 /\ slop t = 0 /\ herm' t = 0 /\ slop' t = 0)
    by (intros u H; rewrite herm_out, slop_out, herm'_out, slop'_out by exact H; auto).
  assert (ES : gu tb x - INR (S i) = 0 - 1) by (rewrite EU, S_INR; ring).
  assert (ET : gv tb y - INR (S j) = 0 - 1) by (rewrite EV, S_INR; ring).
  assert (E0 : gu tb x - INR i = 0) by lra. assert (F0 : gv tb y - INR j = 0) by lra.
  split.
  - cbn [Fsurf sag]. rewrite (proj1 (bicubic_eval tb x y Hg Hin)). f_equal. unfold interp.
    rewrite (hsum_cell tb herm slop herm slop _ _ i j O Hi Hj Hu Hv). unfold corner. rewrite ES, ET, E0, F0.
    rewrite !herm_0, !slop_0, !herm_1, !slop_1 by lra. ring.
  - destruct (bicubic_normal_F tb x y Hg Hin) as (n & E & U & H0 & Hnx & Hny). exists n. split; [exact E|]. split; [exact H0|].
    rewrite Hnx, Hny.
    replace (- (- interp_x tb x y * cz n) / cz n) with (interp_x tb x y) by (field; lra).
    replace (- (- interp_y tb x y * cz n) / cz n) with (interp_y tb x y) by (field; lra).
    unfold interp_x, interp_y.
    rewrite (hsum_cell tb herm' slop' herm slop _ _ i j Ox Hi Hj Hu Hv).
    rewrite (hsum_cell tb herm slop herm' slop' _ _ i j Oy Hi Hj Hu Hv).
    unfold corner. rewrite ES, ET, E0, F0.
    rewrite !herm_0, !slop_0, !herm_1, !slop_1, !herm'_0, !slop'_0, !herm'_1, !slop'_1 by lra.
    split; field; assumption.
Qed.
(** Outside the grid. *)
Lemma bicubic_outside tb x y : tb_dx tb <> 0 -> tb_dy tb <> 0 -> (1 <= tb_nx tb)%nat -> (1 <= tb_ny tb)%nat -> ~ in_grid tb x y ->
  sag (Fsurf (Bicubic tb)) (Fin x) (Fin y) = (if tb_use_nan tb then NaN else Fin 0) /\
  normal (Fsurf (Bicubic tb)) (Fin x) (Fin y) = (if tb_use_nan tb then V3 NaN NaN NaN else F3 (V3 0 0 1)).
Proof.
  intros Hx Hy N1 N2 H. cbn [Fsurf sag normal]. unfold table_eval, bicubic_normal, table_grad.
  rewrite (table_cell_out tb x y Hx Hy N1 N2 H). cbn [Ftab tb_use_nan]. destruct (tb_use_nan tb); [auto|].
  split; [reflexivity|]. xunf. rewrite unit_nz by lra. cbn [xmul].
  replace (1 + 0 * 0 + 0 * 0) with 1 by ring. rewrite sqrt_1, Rinv_1. f_equal; f_equal; ring.
Qed.
