(** C15-C18: sags, slopes and normals. *)
From Coq Require Import Reals List ZArith Bool Lra Lia Psatz Permutation.
From Verif Require Import Num NumR Vec Surface Spec XRFacts NormalFacts SurfSpec.
Import ListNotations.
Open Scope R_scope.

(** ** Derivatives *)
Lemma dl_ext f g x d : (forall t, f t = g t) -> derivable_pt_lim f x d -> derivable_pt_lim g x d.
Proof. intros E H eps He. destruct (H eps He) as [de Hd]. exists de. intros h H1 H2. rewrite <- !E. auto. Qed.
Lemma dl_val f x d d' : derivable_pt_lim f x d -> d = d' -> derivable_pt_lim f x d'.
Proof. intros H <-. exact H. Qed.
Lemma dl_line x e : derivable_pt_lim (fun t => x + t * e) 0 e.
Proof.
  apply dl_val with (0 + (1 * e + 0 * 0)); [|ring].
  apply (derivable_pt_lim_plus (fct_cte x) (fun t => t * e)); [apply derivable_pt_lim_const|].
  apply (derivable_pt_lim_mult id (fct_cte e)); [apply derivable_pt_lim_id|apply derivable_pt_lim_const].
Qed.
Lemma dl_mult f g x a b : derivable_pt_lim f x a -> derivable_pt_lim g x b ->
  derivable_pt_lim (fun t => f t * g t) x (a * g x + f x * b).
Proof. intros. apply (derivable_pt_lim_mult f g); assumption. Qed.
Lemma dl_plus f g x a b : derivable_pt_lim f x a -> derivable_pt_lim g x b ->
  derivable_pt_lim (fun t => f t + g t) x (a + b).
Proof. intros. apply (derivable_pt_lim_plus f g); assumption. Qed.
Lemma dl_const c x : derivable_pt_lim (fun _ => c) x 0.
Proof. apply (derivable_pt_lim_const c). Qed.
Lemma dl_pow f x a n : derivable_pt_lim f x a -> derivable_pt_lim (fun t => f t ^ n) x (INR n * f x ^ (n - 1) * a).
Proof.
  intros H. induction n as [|n IH].
  - apply dl_val with 0; [apply (dl_const 1)|cbn; ring].
  - cbn [pow]. apply dl_val with (a * f x ^ n + f x * (INR n * f x ^ (n - 1) * a)); [apply dl_mult; auto|].
    rewrite S_INR. replace (S n - 1)%nat with n by lia. destruct n as [|n]; [cbn; ring|].
    replace (S n - 1)%nat with n by lia. cbn [pow]. ring.
Qed.
Lemma dl_sumn n : forall (f : nat -> R -> R) d x, (forall i, (i < n)%nat -> derivable_pt_lim (f i) x (d i)) ->
  derivable_pt_lim (fun t => sumn n (fun i => f i t)) x (sumn n d).
Proof.
  induction n as [|n IH]; intros f d x H; cbn [sumn]; [apply dl_const|].
  apply dl_plus; [apply IH; auto|apply H; lia].
Qed.
Lemma sumn_ext n f g : (forall i, (i < n)%nat -> f i = g i) -> sumn n f = sumn n g.
Proof. induction n as [|n IH]; intros H; cbn [sumn]; [reflexivity|]. rewrite IH, H; auto. Qed.
Lemma sumn_0 n f : (forall i, (i < n)%nat -> f i = 0) -> sumn n f = 0.
Proof. induction n as [|n IH]; intros H; cbn [sumn]; [reflexivity|]. rewrite IH, H; auto. ring. Qed.
Lemma sumn_shift n f : sumn (S n) f = f 0%nat + sumn n (fun i => f (S i)).
Proof. induction n as [|n IH]; cbn [sumn] in *; [ring|]. rewrite IH. ring. Qed.
Lemma sumn_mult n f c : sumn n f * c = sumn n (fun i => f i * c).
Proof. induction n as [|n IH]; cbn [sumn]; [ring|]. rewrite <- IH. ring. Qed.
Lemma sumn_plus n f g : sumn n (fun i => f i + g i) = sumn n f + sumn n g.
Proof. induction n as [|n IH]; cbn [sumn]; [ring|]. rewrite IH. ring. Qed.

(** The radius squared along a line. *)
Definition rho2 (x y ex ey t : R) : R := (x + t * ex) * (x + t * ex) + (y + t * ey) * (y + t * ey).
Lemma rho2_0 x y ex ey : rho2 x y ex ey 0 = x * x + y * y.
Proof. unfold rho2; ring. Qed.
Lemma dl_rho2 x y ex ey : derivable_pt_lim (rho2 x y ex ey) 0 (2 * (x * ex + y * ey)).
Proof.
  eapply dl_val; [apply dl_plus; apply dl_mult; apply dl_line|]. cbn. ring.
Qed.
Lemma dl_near f x d eps : derivable_pt_lim f x d -> 0 < eps ->
  exists de, 0 < de /\ forall h, Rabs h < de -> Rabs (f (x + h) - f x) < eps.
Proof.
  intros H He. assert (C : continuity_pt f x) by (apply derivable_continuous_pt; exists d; exact H).
  destruct (C eps He) as (al & Ha & Hc). exists al. split; [exact Ha|]. intros h Hh.
  destruct (Req_dec h 0) as [->|Hn]; [rewrite Rplus_0_r, Rminus_diag_eq, Rabs_R0; auto|].
  apply (Hc (x + h)). split; [split; [exact I|lra]|]. unfold dist; cbn; unfold R_dist. 
  replace (x + h - x) with h by ring. exact Hh.
Qed.

(** Both slopes at once. *)
Definition has_grad (s : surface XR) (x y a b : R) : Prop :=
  forall X Y ex ey, X 0 = x -> Y 0 = y -> derivable_pt_lim X 0 ex -> derivable_pt_lim Y 0 ey -> sag_curve s X Y (a * ex + b * ey).
Lemma grad_slope s x y a b : has_grad s x y a b -> forall ex ey, sag_slope s x y ex ey (a * ex + b * ey).
Proof.
  intros H ex ey. apply (H (fun t => x + t * ex) (fun t => y + t * ey)); [ring|ring|apply dl_line|apply dl_line].
Qed.

(** A sag that depends on the radius only. *)
Lemma radial_slope s x y F D eps : 0 < eps ->
  (forall a b, Rabs (a * a + b * b - (x * x + y * y)) < eps -> sag s (Fin a) (Fin b) = Fin (F (a * a + b * b))) ->
  derivable_pt_lim F (x * x + y * y) D ->
  has_grad s x y (2 * D * x) (2 * D * y).
Proof.
  intros He Hs HD X Y ex ey HX HY DX DY.
  assert (DR : derivable_pt_lim (fun t => X t * X t + Y t * Y t) 0 (2 * (x * ex + y * ey))).
  { eapply dl_val; [apply dl_plus; apply dl_mult; eassumption|]. cbn. rewrite HX, HY. ring. }
  destruct (dl_near _ _ _ eps DR He) as (de & Hde & Hn).
  exists (fun t => F (X t * X t + Y t * Y t)), de. split; [exact Hde|]. split.
  - intros t Ht. rewrite Hs; [reflexivity|]. specialize (Hn t Ht). rewrite Rplus_0_l, HX, HY in Hn. exact Hn.
  - eapply dl_val; [apply (derivable_pt_lim_comp (fun t => X t * X t + Y t * Y t) F); [exact DR|rewrite HX, HY; exact HD]|]. ring.
Qed.

Lemma dl_sqrt_lin c q : 0 < 1 - c * q -> derivable_pt_lim (fun u => sqrt (1 - c * u)) q (- c / (2 * sqrt (1 - c * q))).
Proof.
  intros H. eapply dl_val.
  - apply (derivable_pt_lim_comp (fun u => 1 - c * u) sqrt); [|apply derivable_pt_lim_sqrt; exact H].
    eapply dl_val; [apply (derivable_pt_lim_minus (fct_cte 1) (fun u => c * u)); [apply derivable_pt_lim_const|]|].
    + apply (dl_mult (fun _ => c) id); [apply dl_const|apply derivable_pt_lim_id].
    + instantiate (1 := - c). unfold id; ring.
  - unfold Rdiv. rewrite !Rinv_mult. ring.
Qed.
Lemma dl_conic rad c q : rad <> 0 -> 0 < 1 - c * q ->
  derivable_pt_lim (fun u => u / (rad * (1 + sqrt (1 - c * u)))) q (/ (2 * rad * sqrt (1 - c * q))).
Proof.
  intros Hr H. pose proof (sqrt_lt_R0 _ H) as Hs. set (s := sqrt (1 - c * q)) in *.
  assert (Hss : s * s = 1 - c * q) by (apply sqrt_sqrt; lra).
  eapply dl_val.
  - apply (derivable_pt_lim_div id (fun u => rad * (1 + sqrt (1 - c * u)))).
    + apply derivable_pt_lim_id.
    + apply (dl_mult (fun _ => rad) (fun u => 1 + sqrt (1 - c * u))); [apply dl_const|].
      apply (dl_plus (fun _ => 1)); [apply dl_const|apply dl_sqrt_lin, H].
    + fold s. apply Rmult_integral_contrapositive_currified; lra.
  - fold s. unfold id, Rsqr.
    replace ((1 * (rad * (1 + s)) - (0 * (1 + s) + rad * (0 + - c / (2 * s))) * q) / (rad * (1 + s) * (rad * (1 + s))))
      with ((2 * s * (1 + s) + c * q) / (2 * s * rad * (1 + s) * (1 + s))) by (field; repeat split; lra).
    replace (c * q) with (1 - s * s) by lra. field. repeat split; lra.
Qed.

(** ** Sags as functions of the radius squared *)
Lemma sphere_sag_F rad a b : rad <> 0 -> (a * a + b * b) / (rad * rad) <= 1 ->
  sag (Sphere (Fin rad)) (Fin a) (Fin b) = Fin (rad * (1 - sqrt (1 - / (rad * rad) * (a * a + b * b)))).
Proof.
  intros Hr H. cbn [sag]. unfold sphere_sag. xunf. rewrite xeqb_f by exact Hr. cbn [negb].
  rewrite !xdiv_fin by exact Hr. cbn [xmul xsub].
  replace (1 - (a * a + b * b) * (1 / rad / rad)) with (1 - / (rad * rad) * (a * a + b * b)) by (field; exact Hr).
  rewrite xsqrt_fin; [reflexivity|]. replace (/ (rad * rad) * (a * a + b * b)) with ((a * a + b * b) / (rad * rad)) by (field; exact Hr). lra.
Qed.
Lemma quadric_sag_F rad k a b : rad <> 0 -> 0 <= 1 - (1 + k) / (rad * rad) * (a * a + b * b) ->
  sag (Quadric (Fin rad) (Fin k)) (Fin a) (Fin b) =
  Fin ((a * a + b * b) / (rad * (1 + sqrt (1 - (1 + k) / (rad * rad) * (a * a + b * b))))).
Proof.
  intros Hr H. cbn [sag]. unfold quadric_sag. xunf. rewrite xeqb_f by exact Hr. cbn [negb].
  rewrite !xdiv_fin by exact Hr. cbn [xmul xsub].
  replace (1 - (a * a + b * b) * ((k + 1) / rad / rad)) with (1 - (1 + k) / (rad * rad) * (a * a + b * b)) by (field; exact Hr).
  rewrite xsqrt_fin by exact H. cbn [xadd xmul]. 
  pose proof (sqrt_pos (1 - (1 + k) / (rad * rad) * (a * a + b * b))).
  rewrite xdiv_fin; [reflexivity|]. apply Rmult_integral_contrapositive_currified; lra.
Qed.
Lemma quadric_sag_flat k a b : sag (Quadric (Fin 0) k) a b = Fin 0.
Proof. cbn [sag]. unfold quadric_sag. xunf. rewrite xeqb_t by reflexivity. reflexivity. Qed.
Lemma asphere_loop_F cs : forall q rr res,
  asphere_loop (map Fin cs) (Fin q) (Fin rr) (Fin res) =
  Fin (res + sumn (length cs) (fun i => nth i cs 0 * (rr * q ^ S i))).
Proof.
  induction cs as [|c cs IH]; intros q rr res; [cbn; f_equal; ring|].
  cbn [map asphere_loop length]. xunf. rewrite IH, sumn_shift. f_equal. cbn [nth pow].
  rewrite (sumn_ext _ _ (fun i => nth i cs 0 * (rr * (q * (q * q ^ i))))); [ring|]. intros; ring.
Qed.
Lemma asphere_sag_F rad k cs a b z :
  sag (Quadric (Fin rad) (Fin k)) (Fin a) (Fin b) = Fin z ->
  sag (Asphere (Fin rad) (Fin k) (map Fin cs)) (Fin a) (Fin b) =
  Fin (z + sumn (length cs) (fun i => nth i cs 0 * (a * a + b * b) ^ S i)).
Proof.
  intros H. cbn [sag] in *. unfold asphere_sag. rewrite H. xunf. rewrite asphere_loop_F. f_equal. f_equal.
  apply sumn_ext. intros; ring.
Qed.
(** the derivative of the even polynomial *)
Lemma dl_even cs q : derivable_pt_lim (fun u => sumn (length cs) (fun i => nth i cs 0 * u ^ S i)) q
  (sumn (length cs) (fun i => nth i cs 0 * (INR (S i) * q ^ i))).
Proof.
  apply (dl_sumn (length cs) (fun i u => nth i cs 0 * u ^ S i)). intros i _.
  eapply dl_val; [apply (dl_mult (fun _ => nth i cs 0)); [apply dl_const|apply (dl_pow id); apply derivable_pt_lim_id]|].
  cbn beta. replace (S i - 1)%nat with i by lia. unfold id. ring.
Qed.
Lemma dzdr_coefs_F cs : forall i, asphere_dzdr_coefs i (map Fin cs) =
  map Fin (map (fun p => fst p * IZR (snd p)) (combine cs (map (fun k => i + 2 * Z.of_nat k)%Z (seq 0 (length cs))))).
Proof.
  induction cs as [|c cs IH]; intros i; [reflexivity|].
  cbn [map asphere_dzdr_coefs length seq combine fst snd]. rewrite IH. f_equal; [cbn; do 3 f_equal; lia|].
  f_equal. f_equal. f_equal. rewrite <- seq_shift, !map_map. apply map_ext. intros; lia.
Qed.
Lemma dzdr_loop_F cs : forall rr rrr res,
  asphere_dzdr_loop (map Fin cs) (Fin rr) (Fin rrr) (Fin res) =
  Fin (res + sumn (length cs) (fun i => nth i cs 0 * (rrr * rr ^ i))).
Proof.
  induction cs as [|c cs IH]; intros; [cbn; f_equal; ring|].
  cbn [map asphere_dzdr_loop length]. xunf. rewrite IH, sumn_shift. f_equal. cbn [nth pow].
  rewrite (sumn_ext _ (fun i => nth i cs 0 * (rrr * rr * rr ^ i)) (fun i => nth i cs 0 * (rrr * (rr * rr ^ i)))); [ring|]. intros; ring.
Qed.
Lemma dzdr_loop_fin cs : forall rr rrr res z, asphere_dzdr_loop (T := XR) cs rr rrr res = Fin z -> exists r, res = Fin r.
Proof.
  induction cs as [|c cs IH]; intros rr rrr res z; cbn [asphere_dzdr_loop]; [eauto|].
  intros H. apply IH in H. destruct H as [r H]. cbn in H. apply xadd_fin_inv in H. destruct H as (a & b & -> & _). eauto.
Qed.
Lemma nth_dz cs : forall j i, (i < length cs)%nat ->
  nth i (map (fun p => fst p * IZR (snd p)) (combine cs (map (fun k => j + 2 * Z.of_nat k)%Z (seq 0 (length cs))))) 0
  = nth i cs 0 * IZR (j + 2 * Z.of_nat i).
Proof.
  intros j i Hi.
  rewrite (nth_indep _ 0 ((fun p => fst p * IZR (snd p)) (0, (j + 2 * Z.of_nat 0)%Z)))
    by (rewrite map_length, combine_length, map_length, seq_length; lia).
  rewrite (map_nth (fun p : R * Z => fst p * IZR (snd p))).
  rewrite combine_nth by (rewrite map_length, seq_length; reflexivity). cbn [fst snd].
  rewrite (map_nth (fun k => j + 2 * Z.of_nat k)%Z), seq_nth by exact Hi. reflexivity.
Qed.
Lemma asphere_dzdr_F rad k cs r e : quadric_dzdr (Fin rad) (Fin k) (Fin r) = Fin e ->
  asphere_dzdr (Fin rad) (Fin k) (map Fin cs) (Fin r) =
  Fin (e + 2 * r * sumn (length cs) (fun i => nth i cs 0 * (INR (S i) * (r * r) ^ i))).
Proof.
  intros H. unfold asphere_dzdr. rewrite H, dzdr_coefs_F. xunf. rewrite dzdr_loop_F. f_equal. f_equal.
  rewrite map_length, combine_length, map_length, seq_length, Nat.min_id.
  rewrite (Rmult_comm (2 * r)), sumn_mult. apply sumn_ext. intros i Hi. rewrite nth_dz by exact Hi.
  replace (IZR (2 + 2 * Z.of_nat i)) with (2 * INR (S i)); [ring|].
  rewrite INR_IZR_INZ, <- mult_IZR. f_equal. lia.
Qed.
Lemma asphere_dzdr_fin rad k cs r z : asphere_dzdr (Fin rad) (Fin k) (map Fin cs) (Fin r) = Fin z ->
  exists e, quadric_dzdr (Fin rad) (Fin k) (Fin r) = Fin e.
Proof. unfold asphere_dzdr. apply dzdr_loop_fin. Qed.
(** A finite conic slope: inside the domain. *)
Lemma quadric_dzdr_fin rad k r e : rad <> 0 -> 0 < r -> quadric_dzdr (Fin rad) (Fin k) (Fin r) = Fin e ->
  0 < 1 - (1 + k) / (rad * rad) * (r * r) /\ e = r / (rad * sqrt (1 - (1 + k) / (rad * rad) * (r * r))).
Proof.
  intros Hr H0. unfold quadric_dzdr. xunf. rewrite xeqb_f by exact Hr. cbn [negb].
  rewrite !xdiv_fin by exact Hr. cbn [xmul xsub].
  replace (1 - r * r * ((k + 1) / rad / rad)) with (1 - (1 + k) / (rad * rad) * (r * r)) by (field; exact Hr).
  set (u := 1 - _). destruct (Rlt_dec u 0) as [Hu|Hu].
  { rewrite xsqrt_neg by exact Hu. cbn. discriminate. }
  rewrite xsqrt_fin by lra. cbn [xmul]. intros E. destruct (Req_dec u 0) as [Hz|Hz].
  - exfalso. rewrite Hz, sqrt_0, Rmult_0_r in E. cbn in E. destruct (Req_EM_T 0 0); [|lra].
    unfold xsgn in E. destruct (Rlt_dec 0 r); [discriminate|lra].
  - split; [lra|]. assert (0 < sqrt u) by (apply sqrt_lt_R0; lra).
    rewrite xdiv_fin in E by (apply Rmult_integral_contrapositive_currified; lra). apply Fin_inj in E. auto.
Qed.
Lemma quadric_dzdr_flat k r : quadric_dzdr (Fin 0) k r = Fin 0.
Proof. unfold quadric_dzdr. xunf. rewrite xeqb_t by reflexivity. reflexivity. Qed.

(** ** Normals: components through slopes *)
Definition by_slopes (n : vR) (a b : R) : Prop := 0 < cz n /\ cx n = - a * cz n /\ cy n = - b * cz n.
Lemma by_slopes_grad s x y n a b : by_slopes n a b -> has_grad s x y a b ->
  0 < cz n /\ has_grad s x y (- cx n / cz n) (- cy n / cz n).
Proof.
  intros (H0 & Hx & Hy) H. split; [exact H0|]. rewrite Hx, Hy.
  replace (- (- a * cz n) / cz n) with a by (field; lra). replace (- (- b * cz n) / cz n) with b by (field; lra). exact H.
Qed.
Lemma zhat_slopes n : zhat = F3 n -> by_slopes n 0 0.
Proof.
  intros H. apply F3_comp in H. destruct H as (Hx & Hy & Hz). apply Fin_inj in Hx, Hy, Hz.
  unfold by_slopes. rewrite <- Hx, <- Hy, <- Hz. lra.
Qed.
Lemma radial_slopes e x y r n : 0 < r ->
  cx n = - x / r * e * / sqrt (1 + e * e) -> cy n = - y / r * e * / sqrt (1 + e * e) -> cz n = / sqrt (1 + e * e) ->
  by_slopes n (x / r * e) (y / r * e).
Proof.
  intros Hr Hx Hy Hz. assert (0 < 1 + e * e) by nra. pose proof (inv_sqrt_pos _ H).
  unfold by_slopes. rewrite Hx, Hy, Hz. split; [lra|]. split; field; split; try lra; apply Rgt_not_eq, sqrt_lt_R0; lra.
Qed.
(** radial_normal at a point other than the axis *)
Lemma radial_normal_inv dz x y n : radial_normal dz (Fin x) (Fin y) = F3 n ->
  (x = 0 /\ y = 0 /\ by_slopes n 0 0) \/
  (0 < sqrt (x * x + y * y) /\ sqrt (x * x + y * y) * sqrt (x * x + y * y) = x * x + y * y /\
   exists e, dz (Fin (sqrt (x * x + y * y))) = Fin e /\
    by_slopes n (x / sqrt (x * x + y * y) * e) (y / sqrt (x * x + y * y) * e)).
Proof.
  unfold radial_normal. xunf. pose proof (sq_nonneg x). pose proof (sq_nonneg y).
  rewrite xsqrt_fin by lra. destruct (xeqb _ _) eqn:E.
  - intros Hn. left. apply xeqb_fin in E. assert (x * x + y * y = 0) by (apply sqrt_eq_0; lra).
    split; [nra|]. split; [nra|]. apply zhat_slopes, Hn.
  - intros Hn. right. assert (Hne : x * x + y * y <> 0).
    { intros Hz. rewrite Hz, sqrt_0 in E. rewrite xeqb_t in E by reflexivity. discriminate. }
    destruct (r_of x y Hne) as [Hr Hrr]. split; [exact Hr|]. split; [exact Hrr|].
    destruct (radial_len _ _ _ _ _ Hr Hrr Hn) as (e & He & Hx & Hy & Hz). exists e. split; [exact He|].
    eapply radial_slopes; eauto.
Qed.

(** A plane has slope zero; so has every surface with constant sag. *)
Lemma flat_grad s x y z : (forall a b, sag s (Fin a) (Fin b) = Fin z) -> has_grad s x y 0 0.
Proof.
  intros H X Y ex ey _ _ _ _. exists (fun _ => z), 1. split; [lra|]. split; [intros; apply H|].
  eapply dl_val; [apply dl_const|ring].
Qed.

Definition normal_ok (s : surface XR) (x y : R) : Prop :=
  forall n, normal s (Fin x) (Fin y) = F3 n ->
    0 < cz n /\ has_grad s x y (- cx n / cz n) (- cy n / cz n).

Lemma plane_ok x y : normal_ok Plane x y.
Proof. intros n H. eapply by_slopes_grad; [apply zhat_slopes, H|]. apply flat_grad with 0. reflexivity. Qed.

Lemma sphere_ok rad x y : normal_ok (Sphere (Fin rad)) x y.
Proof.
  intros n H. cbn [normal] in H. unfold sphere_normal in H. revert H. xunf.
  destruct (Req_dec rad 0) as [->|Hr].
  { rewrite xeqb_t by reflexivity. cbn [orb]. intros H. eapply by_slopes_grad; [apply zhat_slopes, H|].
    apply flat_grad with 0. intros; cbn [sag]. unfold sphere_sag. xunf. rewrite xeqb_t by reflexivity. reflexivity. }
  rewrite xeqb_f by exact Hr. cbn [orb].
  assert (Hr2 : 0 < rad * rad) by nra.
  assert (Sag : forall q, 0 < 1 - / (rad * rad) * q -> forall x y, x * x + y * y = q -> 
     has_grad (Sphere (Fin rad)) x y (2 * / (2 * rad * sqrt (1 - / (rad * rad) * q)) * x)
        (2 * / (2 * rad * sqrt (1 - / (rad * rad) * q)) * y)).
  { intros q Hq x' y' E. apply (radial_slope _ _ _ (fun u => rad * (1 - sqrt (1 - / (rad * rad) * u))) _
       ((1 - / (rad * rad) * q) * (rad * rad))).
    - apply Rmult_lt_0_compat; lra.
    - intros a b Hab. apply sphere_sag_F; [exact Hr|]. rewrite E in Hab. apply Rabs_def2 in Hab.
      assert (K : (1 - / (rad * rad) * q) * (rad * rad) = rad * rad - q) by (field; exact Hr). rewrite K in Hab.
      apply Rmult_le_reg_r with (rad * rad); [exact Hr2|]. unfold Rdiv. rewrite Rmult_assoc, Rinv_l by lra. lra.
    - rewrite E. pose proof (sqrt_lt_R0 _ Hq). eapply dl_val.
      + apply (dl_mult (fun _ => rad) (fun u => 1 - sqrt (1 - / (rad * rad) * u))); [apply dl_const|].
        apply (derivable_pt_lim_minus (fct_cte 1) (fun u => sqrt (1 - / (rad * rad) * u)));
        [apply derivable_pt_lim_const|apply dl_sqrt_lin, Hq].
      + cbn beta. field. split; lra. }
  destruct (xeqb (Fin (x * x + y * y)) (Fin 0)) eqn:E.
  { intros H. apply xeqb_fin in E. assert (x = 0) by nra. assert (y = 0) by nra. subst.
    eapply by_slopes_grad; [apply zhat_slopes, H|].
    pose proof (Sag 0 ltac:(lra) 0 0 ltac:(lra)) as G. rewrite !Rmult_0_r in G. exact G. }
  assert (Hne : x * x + y * y <> 0) by (intros Hz; rewrite xeqb_t in E by exact Hz; discriminate).
  pose proof (sq_nonneg x). pose proof (sq_nonneg y). rewrite xsqrt_fin by lra.
  destruct (r_of x y Hne) as [Hp Hrr]. set (r := sqrt (x * x + y * y)) in *. intros Hn.
  destruct (radial_len _ _ _ _ _ Hp Hrr Hn) as (e & He & Hx & Hy & Hz).
  pose proof (radial_slopes e x y r n Hp Hx Hy Hz) as B.
  revert He. unfold sphere_dzdr. xunf. rewrite xdiv_fin by exact Hr. cbn [xmul xsub].
  replace (1 - r * (1 / rad) * (r * (1 / rad))) with (1 - / (rad * rad) * (r * r)) by (field; exact Hr).
  rewrite Hrr. set (q := x * x + y * y) in *.
  destruct (Rlt_dec (1 - / (rad * rad) * q) 0) as [L|L]; [rewrite xsqrt_neg by exact L; discriminate|].
  rewrite xsqrt_fin by lra. intros He.
  destruct (Req_dec (1 - / (rad * rad) * q) 0) as [Z|Z].
  { exfalso. rewrite Z, sqrt_0 in He. cbn in He. destruct (Req_EM_T 0 0); [|lra]. unfold xsgn in He.
    destruct (Rlt_dec _ _); [discriminate|]. destruct (Rlt_dec _ _); discriminate. }
  assert (Q : 0 < 1 - / (rad * rad) * q) by lra. pose proof (sqrt_lt_R0 _ Q) as Hs.
  rewrite xdiv_fin in He by lra. apply Fin_inj in He.
  eapply by_slopes_grad; [|apply (Sag q Q x y eq_refl)].
  replace (2 * / (2 * rad * sqrt (1 - / (rad * rad) * q)) * x) with (x / r * e) by (rewrite <- He; field; repeat split; lra).
  replace (2 * / (2 * rad * sqrt (1 - / (rad * rad) * q)) * y) with (y / r * e) by (rewrite <- He; field; repeat split; lra).
  exact B.
Qed.

Lemma paraboloid_ok rad x y : normal_ok (Paraboloid (Fin rad)) x y.
Proof.
  intros n H. cbn [normal] in H. unfold paraboloid_normal in H. revert H. xunf.
  destruct (Req_dec rad 0) as [->|Hr].
  { rewrite xeqb_t by reflexivity. intros H. eapply by_slopes_grad; [apply zhat_slopes, H|].
    apply flat_grad with 0. intros; cbn [sag]. unfold paraboloid_sag. xunf. rewrite xeqb_t by reflexivity. reflexivity. }
  rewrite xeqb_f by exact Hr. rewrite xdiv_fin by exact Hr. cbn [xmul xadd xopp].
  set (u := 1 + (x * x + y * y) * (1 / rad) * (1 / rad)).
  assert (Hu : 0 < u).
  { unfold u. replace ((x * x + y * y) * (1 / rad) * (1 / rad)) with ((x * (1 / rad)) * (x * (1 / rad)) + (y * (1 / rad)) * (y * (1 / rad))) by ring.
    pose proof (sq_nonneg (x * (1 / rad))). pose proof (sq_nonneg (y * (1 / rad))). lra. }
  rewrite unit_nz by exact Hu. cbn [xmul]. intros H. apply F3_comp in H. destruct H as (Hx & Hy & Hz).
  apply Fin_inj in Hx, Hy, Hz. pose proof (inv_sqrt_pos u Hu).
  eapply by_slopes_grad with (a := x / rad) (b := y / rad).
  { unfold by_slopes. rewrite <- Hx, <- Hy, <- Hz. split; [lra|]. split; field; split; try lra; apply Rgt_not_eq, sqrt_lt_R0; lra. }
  replace (x / rad) with (2 * (/ (2 * rad)) * x) by (field; exact Hr).
  replace (y / rad) with (2 * (/ (2 * rad)) * y) by (field; exact Hr).
  apply (radial_slope _ _ _ (fun v => v * / (2 * rad)) _ 1); [lra| |].
  - intros a b _. cbn [sag]. unfold paraboloid_sag. xunf. rewrite xeqb_f by exact Hr. cbn [negb].
    rewrite (xdiv_fin 1 2) by lra. rewrite xdiv_fin by exact Hr. cbn [xmul]. f_equal. field. exact Hr.
  - eapply dl_val; [apply (dl_mult id (fun _ => / (2 * rad))); [apply derivable_pt_lim_id|apply dl_const]|]. unfold id. ring.
Qed.

(** Conic and even polynomial together; the quadric is the asphere without coefficients. *)
Lemma conic_grad rad k cs x y q : (rad <> 0 -> 0 < 1 - (1 + k) / (rad * rad) * q) -> q = x * x + y * y ->
  let D := (if Req_EM_T rad 0 then 0 else / (2 * rad * sqrt (1 - (1 + k) / (rad * rad) * q)))
           + sumn (length cs) (fun i => nth i cs 0 * (INR (S i) * q ^ i)) in
  has_grad (Asphere (Fin rad) (Fin k) (map Fin cs)) x y (2 * D * x) (2 * D * y).
Proof.
  intros Hd Hq D. subst D. destruct (Req_EM_T rad 0) as [->|Hr].
  - apply (radial_slope _ _ _ (fun u => 0 + sumn (length cs) (fun i => nth i cs 0 * u ^ S i)) _ 1); [lra| |].
    + intros a b _. apply asphere_sag_F, quadric_sag_flat.
    + rewrite <- Hq. apply (dl_plus (fun _ => 0)); [apply dl_const|apply dl_even].
  - specialize (Hd Hr). set (c := (1 + k) / (rad * rad)) in *.
    pose proof (dl_conic rad c q Hr Hd) as DC.
    destruct (dl_near (fun u => - c * u) q _ (1 - c * q)
       (dl_mult (fun _ => - c) id q 0 1 (dl_const (- c) q) (derivable_pt_lim_id q)) Hd) as (de & Hde & Hn).
    apply (radial_slope _ _ _ (fun u => u / (rad * (1 + sqrt (1 - c * u))) + sumn (length cs) (fun i => nth i cs 0 * u ^ S i)) _ de);
    [exact Hde| |].
    + intros a b Hab. apply asphere_sag_F. rewrite <- Hq in Hab. apply quadric_sag_F; [exact Hr|]. fold c.
      specialize (Hn _ Hab). apply Rabs_def2 in Hn. replace (q + (a * a + b * b - q)) with (a * a + b * b) in Hn by ring.
      lra.
    + rewrite <- Hq. apply (dl_plus (fun u => u / (rad * (1 + sqrt (1 - c * u))))); [exact DC|apply dl_even].
Qed.
Lemma asphere_ok rad k cs x y : normal_ok (Asphere (Fin rad) (Fin k) (map Fin cs)) x y.
Proof.
  intros n H. cbn [normal] in H. apply radial_normal_inv in H.
  destruct H as [(-> & -> & B)|(Hp & Hrr & e & He & B)].
  - eapply by_slopes_grad; [exact B|].
    pose proof (conic_grad rad k cs 0 0 0 ltac:(intros; lra) ltac:(lra)) as G. cbv zeta in G.
    rewrite !Rmult_0_r in G. exact G.
  - set (r := sqrt (x * x + y * y)) in *.
    destruct (asphere_dzdr_fin _ _ _ _ _ He) as [e0 He0]. rewrite (asphere_dzdr_F _ _ _ _ _ He0) in He. apply Fin_inj in He.
    assert (Hd : rad <> 0 -> 0 < 1 - (1 + k) / (rad * rad) * (r * r) /\ e0 = r / (rad * sqrt (1 - (1 + k) / (rad * rad) * (r * r)))).
    { intros Hr. apply quadric_dzdr_fin; assumption. }
    pose proof (conic_grad rad k cs x y (r * r) (fun Hr => proj1 (Hd Hr)) Hrr) as G. cbv zeta in G.
    set (D := _ + _) in G. eapply by_slopes_grad; [|exact G].
    assert (K : e = 2 * D * r).
    { rewrite <- He. unfold D. destruct (Req_EM_T rad 0) as [->|Hr].
      - rewrite quadric_dzdr_flat in He0. apply Fin_inj in He0. rewrite <- He0. ring.
      - destruct (Hd Hr) as [Hpos ->]. pose proof (sqrt_lt_R0 _ Hpos). field. split; lra. }
    rewrite K in B. replace (2 * D * x) with (x / r * (2 * D * r)) by (field; lra).
    replace (2 * D * y) with (y / r * (2 * D * r)) by (field; lra). exact B.
Qed.
Lemma quadric_ok rad k x y : normal_ok (Quadric (Fin rad) (Fin k)) x y.
Proof.
  intros n H. assert (A : normal (Asphere (Fin rad) (Fin k) (map Fin [])) (Fin x) (Fin y) = F3 n) by exact H.
  apply asphere_ok in A. destruct A as [A0 A]. split; [exact A0|]. intros X Y ex ey HX HY DX DY. exact (A X Y ex ey HX HY DX DY).
Qed.

(** ** Polynomials *)
Lemma nth_Fin i l : (i < length l)%nat -> nth i (map Fin l) nnan = Fin (nth i l 0).
Proof. intros H. rewrite nth_indep with (d' := Fin 0) by (rewrite map_length; exact H). apply map_nth. Qed.
Lemma horner_loop_F a x off n : (off + n <= length a)%nat -> forall res,
  horner_loop n (Fin x) (map Fin a) off (Fin res) = Fin (res * x ^ n + sumn n (fun j => nth (off + j) a 0 * x ^ j)).
Proof.
  induction n as [|n IH]; intros Hn res; [cbn; f_equal; ring|].
  cbn [horner_loop]. rewrite nth_Fin by lia. xunf. rewrite IH by lia. f_equal. cbn [sumn pow]. ring.
Qed.
Lemma horner_F a x off n : (off + n <= length a)%nat ->
  horner (Fin x) (map Fin a) off n = Fin (sumn n (fun j => nth (off + j) a 0 * x ^ j)).
Proof. intros H. unfold horner. xunf. rewrite horner_loop_F by exact H. f_equal. ring. Qed.
Lemma horner2d_loop_F a x y m n : (n * m <= length a)%nat -> forall res,
  horner2d_loop n (Fin x) (Fin y) (map Fin a) m (Fin res) =
  Fin (res * x ^ n + sumn n (fun i => sumn m (fun j => entry m a i j * x ^ i * y ^ j))).
Proof.
  induction n as [|n IH]; intros Hn res; [cbn; f_equal; ring|].
  cbn [horner2d_loop]. rewrite horner_F by (cbn in Hn; lia). xunf. rewrite IH by (cbn in Hn; lia). f_equal.
  cbn [sumn pow]. rewrite (sumn_ext m (fun j => entry m a n j * x ^ n * y ^ j) (fun j => nth (n * m + j) a 0 * y ^ j * x ^ n))
    by (intros; unfold entry; ring).
  rewrite <- sumn_mult. ring.
Qed.
Lemma horner2d_F a x y n : length a = (n * n)%nat ->
  horner2d (Fin x) (Fin y) (map Fin a) n n = Fin (poly2 n a x y).
Proof. intros H. unfold horner2d. xunf. rewrite horner2d_loop_F by lia. f_equal. unfold poly2. ring. Qed.
Lemma poly_sag_F a gx gy x0 y0 n x y : length a = (n * n)%nat ->
  sag (Fsurf (Poly a gx gy x0 y0 n n)) (Fin x) (Fin y) = Fin (poly2 n a (x - x0) (y - y0)).
Proof. intros H. cbn [Fsurf sag]. unfold poly_sag. xunf. apply horner2d_F, H. Qed.
Lemma poly_rect a gx gy x0 y0 xs ys x y : length a = (ys * xs)%nat ->
  sag (Fsurf (Poly a gx gy x0 y0 xs ys)) (Fin x) (Fin y) =
  Fin (sumn ys (fun i => sumn xs (fun j => entry xs a i j * (x - x0) ^ i * (y - y0) ^ j))).
Proof. intros H. cbn [Fsurf sag]. unfold poly_sag, horner2d. xunf. rewrite horner2d_loop_F by lia. f_equal. ring. Qed.

Lemma dl_term c X Y ex ey i j : derivable_pt_lim X 0 ex -> derivable_pt_lim Y 0 ey ->
  derivable_pt_lim (fun t => c * X t ^ i * Y t ^ j) 0
  (c * (INR i * X 0 ^ (i - 1) * Y 0 ^ j * ex + INR j * X 0 ^ i * Y 0 ^ (j - 1) * ey)).
Proof.
  intros DX DY. eapply dl_val.
  - apply (dl_mult (fun t => c * X t ^ i) (fun t => Y t ^ j)).
    + apply (dl_mult (fun _ => c)); [apply dl_const|apply (dl_pow X), DX].
    + apply (dl_pow Y), DY.
  - cbn beta. ring.
Qed.
Lemma dl_shift f x d c : derivable_pt_lim f x d -> derivable_pt_lim (fun t => f t - c) x d.
Proof. intros H. eapply dl_val; [apply (derivable_pt_lim_minus f (fct_cte c)); [exact H|apply derivable_pt_lim_const]|ring]. Qed.
Lemma grad_sum n a gx gy x y ex ey : (0 < n)%nat -> derivative_arrays n a gx gy ->
  sumn n (fun i => sumn n (fun j => entry n a i j * (INR i * x ^ (i - 1) * y ^ j * ex + INR j * x ^ i * y ^ (j - 1) * ey)))
  = poly2 (n - 1) gx x y * ex + poly2 (n - 1) gy x y * ey.
Proof.
  intros Hn (_ & _ & _ & HG & HZ). destruct n as [|m]; [lia|]. replace (S m - 1)%nat with m in * by lia.
  unfold poly2.
  transitivity (sumn (S m) (fun i => sumn (S m) (fun j => entry (S m) a i j * (INR i * x ^ (i - 1) * y ^ j)) * ex)
     + sumn (S m) (fun i => sumn (S m) (fun j => entry (S m) a i j * (INR j * x ^ i * y ^ (j - 1))) * ey)).
  { rewrite <- sumn_plus. apply sumn_ext. intros i Hi. rewrite !sumn_mult, <- sumn_plus. apply sumn_ext. intros; ring. }
  f_equal.
  - rewrite <- sumn_mult. f_equal. rewrite sumn_shift.
    rewrite sumn_0 by (intros; cbn; ring). rewrite Rplus_0_l. apply sumn_ext. intros i Hi. cbn [sumn].
    destruct (HZ (S i) ltac:(lia)) as [-> _]. rewrite Rmult_0_l, Rplus_0_r. apply sumn_ext. intros j Hj.
    destruct (HG i j Hi Hj) as [-> _]. replace (S i - 1)%nat with i by lia. ring.
  - rewrite <- sumn_mult. f_equal. cbn [sumn].
    assert (Z : sumn m (fun j => entry (S m) a m j * (INR j * x ^ m * y ^ (j - 1))) + entry (S m) a m m * (INR m * x ^ m * y ^ (m - 1)) = 0).
    { destruct m as [|m]; [cbn; ring|]. destruct (HZ (S m) ltac:(lia)) as [-> _].
      rewrite sumn_0; [ring|]. intros j Hj. destruct j as [|j]; [cbn; ring|]. destruct (HZ (S j) ltac:(lia)) as [_ ->]. ring. }
    rewrite Z, Rplus_0_r. apply sumn_ext. intros i Hi.
    pose proof (sumn_shift m (fun j => entry (S m) a i j * (INR j * x ^ i * y ^ (j - 1)))) as E. cbn [sumn] in E.
    rewrite E. replace (entry (S m) a i 0 * (INR 0 * x ^ i * y ^ (0 - 1))) with 0 by (cbn [INR]; ring). rewrite Rplus_0_l. apply sumn_ext. intros j Hj.
    destruct (HG i j Hi Hj) as [_ ->]. replace (S j - 1)%nat with j by lia. ring.
Qed.
Lemma poly_ok a gx gy x0 y0 n x y : (0 < n)%nat -> derivative_arrays n a gx gy ->
  normal_ok (Fsurf (Poly a gx gy x0 y0 n n)) x y.
Proof.
  intros Hn HD nn H. pose proof HD as (La & Lx & Ly & _). cbn [Fsurf normal] in H. unfold poly_normal in H. revert H. xunf.
  rewrite !horner2d_F by assumption. cbn [xopp xmul xadd].
  set (A := poly2 _ gx _ _). set (B := poly2 _ gy _ _).
  assert (Hu : 0 < - A * - A + - B * - B + 1) by nra. rewrite unit_nz by exact Hu. cbn [xmul]. intros H.
  apply F3_comp in H. destruct H as (Hx & Hy & Hz). apply Fin_inj in Hx, Hy, Hz. pose proof (inv_sqrt_pos _ Hu).
  eapply by_slopes_grad with (a := A) (b := B).
  - unfold by_slopes. rewrite <- Hx, <- Hy, <- Hz. split; [lra|]. split; ring.
  - intros X Y ex ey HX HY DX DY. exists (fun t => poly2 n a (X t - x0) (Y t - y0)), 1. split; [lra|]. split.
    + intros t _. apply (poly_sag_F a gx gy x0 y0 n (X t) (Y t) La).
    + unfold A, B. rewrite <- (grad_sum n a gx gy _ _ ex ey Hn HD), <- HX, <- HY. unfold poly2.
      apply (dl_sumn n (fun i t => sumn n (fun j => entry n a i j * (X t - x0) ^ i * (Y t - y0) ^ j))). intros i _.
      apply (dl_sumn n (fun j t => entry n a i j * (X t - x0) ^ i * (Y t - y0) ^ j)). intros j _.
      apply (dl_term _ (fun t => X t - x0) (fun t => Y t - y0)); apply dl_shift; assumption.
Qed.

(** ** Sums *)
Lemma xadd_comm a b : xadd a b = xadd b a.
Proof. destruct a, b; cbn; try reflexivity. f_equal; ring. Qed.
Lemma xadd_assoc a b c : xadd (xadd a b) c = xadd a (xadd b c).
Proof. destruct a, b, c; cbn; try reflexivity. f_equal; ring. Qed.
Lemma xadd_0_l a : xadd (Fin 0) a = a.
Proof. destruct a; cbn; try reflexivity. f_equal; ring. Qed.
Lemma fold_xadd {A} (f : A -> XR) l : forall a, fold_left (fun acc s => xadd acc (f s)) l a = xadd a (fold_right (fun s b => xadd (f s) b) (Fin 0) l).
Proof.
  induction l as [|s l IH]; intros a; cbn; [rewrite xadd_comm, xadd_0_l; reflexivity|].
  rewrite IH, xadd_assoc. reflexivity.
Qed.
Definition xsum {A} (f : A -> XR) (l : list A) : XR := fold_right (fun s b => xadd (f s) b) (Fin 0) l.
Lemma sum_sag_X l x y : sag (Sum l) x y = xsum (fun s => sag s x y) l.
Proof. cbn [sag]. cbn [nadd NumXR]. unfold n0. cbn [nofZ NumXR]. rewrite (fold_xadd (fun s => sag s x y)), xadd_0_l. reflexivity. Qed.
Lemma fold_pair {A} (f g : A -> XR) l : forall a b, 
  fold_left (fun '(ax, ay) s => (xadd ax (f s), xadd ay (g s))) l (a, b) =
  (fold_left (fun acc s => xadd acc (f s)) l a, fold_left (fun acc s => xadd acc (g s)) l b).
Proof. induction l as [|s l IH]; intros a b; [reflexivity|]. cbn [fold_left]. apply IH. Qed.
Definition slx (x y : XR) (s : surface XR) : XR := xdiv (cx (normal s x y)) (cz (normal s x y)).
Definition sly (x y : XR) (s : surface XR) : XR := xdiv (cy (normal s x y)) (cz (normal s x y)).
Definition unit_of (a b : XR) : vec3 XR :=
  let nz := xdiv (Fin 1) (xsqrt (xadd (xadd (xmul a a) (xmul b b)) (Fin 1))) in V3 (xmul a nz) (xmul b nz) nz.
Lemma sum_normal_X l x y : normal (Sum l) x y = unit_of (xsum (slx x y) l) (xsum (sly x y) l).
Proof.
  cbn [normal]. unfold n0, n1. cbn [nadd nmul ndiv nsqrt nofZ NumXR].
  rewrite (fold_pair (slx x y) (sly x y)), (fold_xadd (slx x y)), (fold_xadd (sly x y)), !xadd_0_l. reflexivity.
Qed.
Lemma xsum_perm {A} (f : A -> XR) l l' : Permutation l l' -> xsum f l = xsum f l'.
Proof.
  induction 1 as [|a l l' H IH|a b l|l1 l2 l3 H1 IH1 H2 IH2]; cbn; auto.
  - unfold xsum in IH. rewrite IH. reflexivity.
  - rewrite <- !xadd_assoc, (xadd_comm (f b)). reflexivity.
  - congruence.
Qed.
Lemma sum_order (l l' : list (surface XR)) x y : Permutation l l' ->
  sag (Sum l) x y = sag (Sum l') x y /\ normal (Sum l) x y = normal (Sum l') x y.
Proof. intros H. rewrite !sum_sag_X, !sum_normal_X. rewrite !(xsum_perm _ _ _ H). auto. Qed.
Lemma sum_plane (l : list (surface XR)) x y : sag (Sum (Plane :: l)) x y = sag (Sum l) x y /\ normal (Sum (Plane :: l)) x y = normal (Sum l) x y.
Proof.
  rewrite !sum_sag_X, !sum_normal_X. unfold xsum. cbn [fold_right sag]. unfold slx at 1, sly at 1. cbn [normal zhat cx cy cz].
  unfold n0, n1. cbn [nofZ NumXR]. rewrite xdiv_fin by lra. replace (0 / 1) with 0 by field.
  rewrite !xadd_0_l. auto.
Qed.
Lemma xsum_F {A} (f : A -> XR) l g : (forall s, In s l -> f s = Fin (g s)) -> xsum f l = Fin (sumR (map g l)).
Proof.
  induction l as [|s l IH]; intros H; [reflexivity|]. cbn [xsum fold_right map sumR].
  unfold xsum in IH. rewrite IH by (intros; apply H; right; assumption). rewrite H by (left; reflexivity). reflexivity.
Qed.
Lemma sum_sags l x y (z : surface XR -> R) : (forall s, In s l -> sag s x y = Fin (z s)) ->
  sag (Sum l) x y = Fin (sumR (map z l)).
Proof. intros H. rewrite sum_sag_X. apply xsum_F, H. Qed.
Lemma unit_of_F a b : exists n, unit_of (Fin a) (Fin b) = F3 n /\ dotR n n = 1 /\ 0 < cz n /\ cx n / cz n = a /\ cy n / cz n = b.
Proof.
  unfold unit_of. cbn [xmul xadd]. assert (Hu : 0 < a * a + b * b + 1) by nra.
  rewrite unit_nz by exact Hu. cbn [xmul]. pose proof (inv_sqrt_pos _ Hu). pose proof (inv_sqrt_sq _ Hu) as K.
  set (k := / sqrt _) in *. exists (V3 (a * k) (b * k) k). split; [reflexivity|]. unfold dotR; cbn [cx cy cz].
  repeat split; [|lra|field; lra|field; lra].
  replace (a * k * (a * k) + b * k * (b * k) + k * k) with ((a * a + b * b + 1) * (k * k)) by ring. rewrite K. apply Rinv_r; lra.
Qed.
Lemma sum_normals l x y (m : surface XR -> vR) : (forall s, In s l -> normal s x y = F3 (m s) /\ cz (m s) <> 0) ->
  exists n, normal (Sum l) x y = F3 n /\ dotR n n = 1 /\ 0 < cz n /\
    cx n / cz n = sumR (map (fun s => cx (m s) / cz (m s)) l) /\
    cy n / cz n = sumR (map (fun s => cy (m s) / cz (m s)) l).
Proof.
  intros H. rewrite sum_normal_X.
  rewrite (xsum_F _ l (fun s => cx (m s) / cz (m s))), (xsum_F _ l (fun s => cy (m s) / cz (m s))).
  - apply unit_of_F.
  - intros s Hs. destruct (H s Hs) as [E Hz]. unfold sly. rewrite E. cbn. destruct (Req_EM_T _ _); [contradiction|reflexivity].
  - intros s Hs. destruct (H s Hs) as [E Hz]. unfold slx. rewrite E. cbn. destruct (Req_EM_T _ _); [contradiction|reflexivity].
Qed.
(** The z component of a normal is real or NaN. *)
Definition finan (a : XR) : Prop := (exists r, a = Fin r) \/ a = NaN.
Lemma finan_nz q : finan q \/ q = PInf -> (forall r, q = Fin r -> 1 <= r) -> finan (xdiv (Fin 1) (xsqrt q)).
Proof.
  intros [[[r ->] | ->] | ->] H; [|right; reflexivity|left; cbn; eauto].
  specialize (H r eq_refl). rewrite unit_nz by lra. left; eauto.
Qed.
Lemma sq_kind a : (exists r, xmul a a = Fin r /\ 0 <= r) \/ xmul a a = NaN \/ xmul a a = PInf.
Proof. destruct a as [r| | |]; cbn; auto. left. exists (r * r). split; [reflexivity|nra]. Qed.
Lemma nz1 d : finan (xdiv (Fin 1) (xsqrt (xadd (Fin 1) (xmul d d)))).
Proof.
  apply finan_nz; destruct (sq_kind d) as [(r & -> & Hr)|[-> | ->]]; cbn; unfold finan; eauto.
  - intros r' E. injection E; intros; lra. - discriminate. - discriminate.
Qed.
Lemma nz2 a b : finan (xdiv (Fin 1) (xsqrt (xadd (xadd (xmul a a) (xmul b b)) (Fin 1)))).
Proof.
  apply finan_nz; destruct (sq_kind a) as [(r & -> & Hr)|[-> | ->]]; destruct (sq_kind b) as [(r2 & -> & Hr2)|[-> | ->]];
  cbn; unfold finan; eauto; try discriminate. intros r' E. injection E; intros; lra.
Qed.
Lemma nz3 a b : finan (xdiv (Fin 1) (xsqrt (xadd (xadd (Fin 1) (xmul a a)) (xmul b b)))).
Proof.
  apply finan_nz; destruct (sq_kind a) as [(r & -> & Hr)|[-> | ->]]; destruct (sq_kind b) as [(r2 & -> & Hr2)|[-> | ->]];
  cbn; unfold finan; eauto; try discriminate. intros r' E. injection E; intros; lra.
Qed.
Lemma finan1 : finan (Fin 1). Proof. left; eauto. Qed.
Lemma normal_cz (s : surface R) x y : smooth s -> finan (cz (normal (Fsurf s) (Fin x) (Fin y))).
Proof.
  destruct s as [|tx ty|rad|rad|rad k|rad k cs|a gx gy x0 y0 xs ys|tb|l]; cbn [Fsurf smooth]; intros Hs; try contradiction.
  - apply finan1.
  - cbn [normal]. unfold sphere_normal. xunf. destruct (_ || _)%bool; [apply finan1|]. apply nz1.
  - cbn [normal]. unfold paraboloid_normal. xunf. destruct (xeqb _ _) eqn:E; [apply finan1|].
    assert (Hr : rad <> 0) by (intros ->; rewrite xeqb_t in E by reflexivity; discriminate).
    rewrite xdiv_fin by exact Hr. cbn [xmul xadd cz].
    apply finan_nz; [left; left; eauto|]. intros r E'. injection E'; intros <-.
    replace ((x * x + y * y) * (1 / rad) * (1 / rad)) with ((x * (1 / rad)) * (x * (1 / rad)) + (y * (1 / rad)) * (y * (1 / rad))) by ring.
    pose proof (sq_nonneg (x * (1 / rad))). pose proof (sq_nonneg (y * (1 / rad))). lra.
  - cbn [normal]. unfold radial_normal. xunf. destruct (xeqb _ _); [apply finan1|]. apply nz1.
  - cbn [normal]. unfold radial_normal. xunf. destruct (xeqb _ _); [apply finan1|]. apply nz1.
  - cbn [normal]. unfold poly_normal. xunf. apply nz2.
  - rewrite sum_normal_X. apply nz2.
Qed.
Lemma unit_of_fin a b n : unit_of a b = F3 n -> exists a' b', a = Fin a' /\ b = Fin b' /\ by_slopes n (- a') (- b').
Proof.
  unfold unit_of. intros H. apply F3_comp in H. destruct H as (Hx & Hy & Hz).
  destruct (xmul_fin_inv_l _ _ _ Hx) as [a' ->]. destruct (xmul_fin_inv_l _ _ _ Hy) as [b' ->].
  exists a', b'. split; [reflexivity|]. split; [reflexivity|]. cbn [xmul xadd] in *.
  assert (Hu : 0 < a' * a' + b' * b' + 1) by nra. rewrite unit_nz in * by exact Hu. cbn [xmul] in *.
  apply Fin_inj in Hx, Hy, Hz. pose proof (inv_sqrt_pos _ Hu). unfold by_slopes. rewrite <- Hx, <- Hy, <- Hz.
  split; [lra|]. split; ring.
Qed.
Lemma xsum_fin {A} (f : A -> XR) l z : xsum f l = Fin z -> forall s, In s l -> exists r, f s = Fin r.
Proof.
  revert z; induction l as [|a l IH]; intros z H s []; cbn in H; apply xadd_fin_inv in H; destruct H as (u & v & Hu & Hv & _).
  - subst. eauto. - eapply IH; eauto.
Qed.
Lemma xdiv_fin_inv a b z : finan b -> xdiv a b = Fin z -> exists a' b', a = Fin a' /\ b = Fin b' /\ b' <> 0 /\ z = a' / b'.
Proof.
  intros [[r ->] | ->] H.
  - destruct a as [u| | |]; cbn in H; try discriminate.
    + destruct (Req_EM_T r 0).
      * unfold xsgn in H. destruct (Rlt_dec _ _); [discriminate|]. destruct (Rlt_dec _ _); discriminate.
      * injection H; intros <-. exists u, r. auto.
    + destruct (Rlt_dec r 0); discriminate.
    + destruct (Rlt_dec r 0); discriminate.
  - destruct a; discriminate.
Qed.
Lemma sag_curve_sum l X Y (d : surface XR -> R) : (forall s, In s l -> sag_curve s X Y (d s)) ->
  sag_curve (Sum l) X Y (sumR (map d l)).
Proof.
  intros H. assert (G : exists f delta, 0 < delta /\
     (forall t, Rabs t < delta -> xsum (fun s => sag s (Fin (X t)) (Fin (Y t))) l = Fin (f t)) /\
     derivable_pt_lim f 0 (sumR (map d l))).
  { induction l as [|s l IH].
    - exists (fun _ => 0), 1. split; [lra|]. split; [reflexivity|]. apply dl_const.
    - destruct IH as (f & de & Hde & Hf & Df); [intros; apply H; right; assumption|].
      destruct (H s (or_introl eq_refl)) as (g & de2 & Hde2 & Hg & Dg).
      exists (fun t => g t + f t), (Rmin de de2). split; [apply Rmin_pos; assumption|]. split.
      + intros t Ht. cbn [xsum fold_right]. unfold xsum in Hf.
        rewrite Hf by (eapply Rlt_le_trans; [exact Ht|apply Rmin_l]).
        rewrite Hg by (eapply Rlt_le_trans; [exact Ht|apply Rmin_r]). reflexivity.
      + apply dl_plus; assumption. }
  destruct G as (f & de & Hde & Hf & Df). exists f, de. split; [exact Hde|]. split; [|exact Df].
  intros t Ht. rewrite sum_sag_X. apply Hf, Ht.
Qed.

Fixpoint size (s : surface R) : nat :=
  match s with Sum l => S (fold_right (fun s n => size s + n)%nat 0%nat l) | _ => 1%nat end.
Lemma size_in s l : In s l -> (size s < size (Sum l))%nat.
Proof. cbn [size]. induction l as [|a l IH]; intros []; cbn [fold_right]; [subst; lia|]. specialize (IH H). lia. Qed.
Lemma smooth_in s l : smooth (Sum l) -> In s l -> smooth s.
Proof. cbn [smooth]. induction l as [|a l IH]; intros H []; cbn in H; [subst; tauto|]. apply IH; tauto. Qed.
Lemma smooth_ok n : forall s, (size s <= n)%nat -> smooth s -> forall x y, normal_ok (Fsurf s) x y.
Proof.
  induction n as [|n IH]; intros s Hn Hs x y; [destruct s; cbn in Hn; lia|].
  destruct s as [|tx ty|rad|rad|rad k|rad k cs|a gx gy x0 y0 xs ys|tb|l]; cbn [smooth] in Hs; try contradiction.
  - apply plane_ok. - apply sphere_ok. - apply paraboloid_ok. - apply quadric_ok. - apply asphere_ok.
  - destruct Hs as (<- & Hp & Hd). apply poly_ok; assumption.
  - intros m Hm. cbn [Fsurf] in *. rewrite sum_normal_X in Hm.
    destruct (unit_of_fin _ _ _ Hm) as (A & B & EA & EB & BS).
    assert (Each : forall s, In s (map Fsurf l) -> exists ms, normal s (Fin x) (Fin y) = F3 ms /\ cz ms <> 0 /\
        slx (Fin x) (Fin y) s = Fin (cx ms / cz ms) /\ sly (Fin x) (Fin y) s = Fin (cy ms / cz ms)  /\
        has_grad s x y (- cx ms / cz ms) (- cy ms / cz ms)).
    { intros s Hs'. destruct (xsum_fin _ _ _ EA s Hs') as [sx Ex]. destruct (xsum_fin _ _ _ EB s Hs') as [sy Ey].
      apply in_map_iff in Hs'. destruct Hs' as (s0 & <- & Hin).
      pose proof (smooth_in s0 l Hs Hin) as Hs0. pose proof (normal_cz s0 x y Hs0) as Hcz.
      unfold slx in Ex. unfold sly in Ey.
      destruct (xdiv_fin_inv _ _ _ Hcz Ex) as (u & w & Hu & Hw & Hw0 & Hsx).
      destruct (xdiv_fin_inv _ _ _ Hcz Ey) as (v & w' & Hv & Hw' & _ & Hsy).
      assert (w' = w) by congruence. subst w'.
      exists (V3 u v w).
      assert (EN : normal (Fsurf s0) (Fin x) (Fin y) = F3 (V3 u v w))
        by (destruct (normal (Fsurf s0) (Fin x) (Fin y)); cbn in *; subst; reflexivity).
      cbn [cx cy cz]. unfold slx, sly. rewrite EN. cbn [F3 vmap cx cy cz]. rewrite !xdiv_fin by exact Hw0.
      repeat split; auto.
      assert (size s0 <= n)%nat by (pose proof (size_in s0 l Hin); lia).
      destruct (IH s0 H Hs0 x y (V3 u v w) EN) as [_ G]. exact G. }
    eapply by_slopes_grad; [exact BS|]. intros X Y ex ey HX HY DX DY.
    assert (Pick : exists ms : surface XR -> vR, forall s, In s (map Fsurf l) ->
        slx (Fin x) (Fin y) s = Fin (cx (ms s) / cz (ms s)) /\ sly (Fin x) (Fin y) s = Fin (cy (ms s) / cz (ms s)) /\
        sag_curve s X Y (- cx (ms s) / cz (ms s) * ex + - cy (ms s) / cz (ms s) * ey)).
    { exists (fun s => let m := normal s (Fin x) (Fin y) in
               let g a := match a with Fin r => r | _ => 0 end in V3 (g (cx m)) (g (cy m)) (g (cz m))).
      intros s Hs'. destruct (Each s Hs') as (ms & -> & _ & E1 & E2 & E3). specialize (E3 X Y ex ey HX HY DX DY). destruct ms; cbn in *. auto. }
    destruct Pick as (ms & HP).
    pose proof (sag_curve_sum (map Fsurf l) X Y _ (fun s Hs => proj2 (proj2 (HP s Hs)))) as SS.
    rewrite (xsum_F _ _ (fun s => cx (ms s) / cz (ms s)) (fun s Hs => proj1 (HP s Hs))) in EA.
    rewrite (xsum_F _ _ (fun s => cy (ms s) / cz (ms s)) (fun s Hs => proj1 (proj2 (HP s Hs)))) in EB.
    apply Fin_inj in EA, EB.
    replace (- A * ex + - B * ey) with (sumR (map (fun s => - cx (ms s) / cz (ms s) * ex + - cy (ms s) / cz (ms s) * ey) (map Fsurf l))); [exact SS|].
    rewrite <- EA, <- EB. clear. induction (map Fsurf l) as [|s r IH]; cbn; [ring|]. unfold sumR in IH. rewrite IH. unfold Rdiv. ring.
Qed.

(** ** The theorems *)
Lemma slope_unique s x y ex ey d d' : sag_slope s x y ex ey d -> sag_slope s x y ex ey d' -> d = d'.
Proof.
  intros (f & de & Hde & Hf & Df) (g & de2 & Hde2 & Hg & Dg).
  assert (E : forall t, Rabs t < Rmin de de2 -> f t = g t).
  { intros t Ht. apply Fin_inj. rewrite <- Hf, <- Hg; [reflexivity| |]; eapply Rlt_le_trans; try exact Ht; [apply Rmin_r|apply Rmin_l]. }
  apply (uniqueness_limite f 0); [exact Df|]. intros eps He. destruct (Dg eps He) as [al Hal].
  assert (Hm : 0 < Rmin al (Rmin de de2)) by (apply Rmin_pos; [apply cond_pos|apply Rmin_pos; assumption]).
  exists (mkposreal _ Hm). cbn [pos]. intros h Hh1 Hh2.
  rewrite !E; [apply Hal; [exact Hh1|eapply Rlt_le_trans; [exact Hh2|apply Rmin_l]]|rewrite Rabs_R0; apply Rmin_pos; assumption|].
  rewrite Rplus_0_l. eapply Rlt_le_trans; [exact Hh2|apply Rmin_r].
Qed.
(** C15 *)
Lemma normals_right s x y n : smooth s -> normal (Fsurf s) (Fin x) (Fin y) = F3 n ->
  dotR n n = 1 /\ 0 < cz n /\
  forall ex ey, exists d, sag_slope (Fsurf s) x y ex ey d /\ dotR n (V3 ex ey d) = 0.
Proof.
  intros Hs Hn. destruct (normal_unit _ _ _ _ Hn) as [H1 _].
  destruct (smooth_ok _ s (le_n _) Hs x y n Hn) as [H0 G]. repeat split; auto.
  intros ex ey. eexists. split; [apply (grad_slope _ _ _ _ _ G)|]. unfold dotR; cbn. field. lra.
Qed.
Lemma normals_perpendicular s x y n ex ey d : smooth s -> normal (Fsurf s) (Fin x) (Fin y) = F3 n ->
  sag_slope (Fsurf s) x y ex ey d -> dotR n (V3 ex ey d) = 0.
Proof.
  intros Hs Hn Hd. destruct (normals_right s x y n Hs Hn) as (_ & _ & H). destruct (H ex ey) as (d' & Hd' & E).
  rewrite (slope_unique _ _ _ _ _ _ _ Hd Hd'). exact E.
Qed.
(** The same for curves. *)
Lemma curve_unique s X Y d d' : sag_curve s X Y d -> sag_curve s X Y d' -> d = d'.
Proof.
  intros (f & de & Hde & Hf & Df) (g & de2 & Hde2 & Hg & Dg).
  assert (E : forall t, Rabs t < Rmin de de2 -> f t = g t).
  { intros t Ht. apply Fin_inj. rewrite <- Hf, <- Hg; [reflexivity| |]; eapply Rlt_le_trans; try exact Ht; [apply Rmin_r|apply Rmin_l]. }
  apply (uniqueness_limite f 0); [exact Df|]. intros eps He. destruct (Dg eps He) as [al Hal].
  assert (Hm : 0 < Rmin al (Rmin de de2)) by (apply Rmin_pos; [apply cond_pos|apply Rmin_pos; assumption]).
  exists (mkposreal _ Hm). cbn [pos]. intros h Hh1 Hh2.
  rewrite !E; [apply Hal; [exact Hh1|eapply Rlt_le_trans; [exact Hh2|apply Rmin_l]]|rewrite Rabs_R0; apply Rmin_pos; assumption|].
  rewrite Rplus_0_l. eapply Rlt_le_trans; [exact Hh2|apply Rmin_r].
Qed.
Lemma normals_curve s n (X Y Z : R -> R) dx dy dz delta : smooth s -> normal (Fsurf s) (Fin (X 0)) (Fin (Y 0)) = F3 n ->
  0 < delta -> (forall t, Rabs t < delta -> sag (Fsurf s) (Fin (X t)) (Fin (Y t)) = Fin (Z t)) ->
  derivable_pt_lim X 0 dx -> derivable_pt_lim Y 0 dy -> derivable_pt_lim Z 0 dz ->
  dotR n (V3 dx dy dz) = 0.
Proof.
  intros Hs Hn Hd HZ DX DY DZ. destruct (smooth_ok _ s (le_n _) Hs _ _ n Hn) as [H0 G].
  pose proof (G X Y dx dy eq_refl eq_refl DX DY) as C.
  assert (C' : sag_curve (Fsurf s) X Y dz) by (exists Z, delta; auto).
  rewrite (curve_unique _ _ _ _ _ C' C). unfold dotR; cbn. field. lra.
Qed.
(** C18 *)
Lemma asphere_formula rad k coefs imin s x y : rad <> 0 -> (1 <= imin)%nat ->
  (1 + k) * (x * x + y * y) <= rad * rad ->
  mkAsphere (Fin rad) (Fin k) (map Fin coefs) (Z.of_nat imin) = Some s ->
  sag s (Fin x) (Fin y) = Fin (conicR rad k (x * x + y * y) +
     sumn (length coefs) (fun i => nth i coefs 0 * sqrt (x * x + y * y) ^ (2 * (i + imin)))).
Proof.
  intros Hr Hi Hd. unfold mkAsphere. destruct (Z.leb_spec (Z.of_nat imin) 0); [lia|]. intros E. injection E; intros <-; clear E.
  replace (Z.to_nat (Z.of_nat imin - 1)) with (imin - 1)%nat by lia.
  replace (repeat (Fin 0) (imin - 1) ++ map Fin coefs) with (map Fin (repeat 0 (imin - 1) ++ coefs)).
  2: { rewrite map_app. f_equal. induction (imin - 1)%nat; cbn; congruence. }
  assert (Hr2 : 0 < rad * rad) by nra.
  assert (K : 0 <= 1 - (1 + k) / (rad * rad) * (x * x + y * y)).
  { replace ((1 + k) / (rad * rad) * (x * x + y * y)) with ((1 + k) * (x * x + y * y) / (rad * rad)) by (field; exact Hr).
    assert ((1 + k) * (x * x + y * y) / (rad * rad) <= 1); [|lra].
    apply Rmult_le_reg_r with (rad * rad); [exact Hr2|]. unfold Rdiv. rewrite Rmult_assoc, Rinv_l by lra. lra. }
  rewrite (asphere_sag_F _ _ _ _ _ _ (quadric_sag_F rad k x y Hr K)). f_equal. f_equal.
  - unfold conicR. do 5 f_equal. field. exact Hr.
  - rewrite app_length, repeat_length. clear -Hi.
    assert (G : forall m cs q, sumn (m + length cs) (fun i => nth i (repeat 0 m ++ cs) 0 * q ^ S i)
        = sumn (length cs) (fun i => nth i cs 0 * q ^ (i + S m))).
    { induction m as [|m IH]; intros cs q.
      - cbn [plus repeat app]. apply sumn_ext. intros i _. replace (i + 1)%nat with (S i) by lia. reflexivity.
      - cbn [plus repeat app]. rewrite sumn_shift. cbn [nth]. rewrite Rmult_0_l, Rplus_0_l.
        transitivity (sumn (m + length cs) (fun i => nth i (repeat 0 m ++ cs) 0 * q ^ S i) * q).
        + rewrite sumn_mult. apply sumn_ext. intros; cbn [pow]; ring.
        + rewrite IH, sumn_mult. apply sumn_ext. intros i _. replace (i + S (S m))%nat with (S (i + S m)) by lia. cbn [pow]. ring. }
    rewrite G. apply sumn_ext. intros i _. f_equal. rewrite pow_mult. replace (i + S (imin - 1))%nat with (i + imin)%nat by lia.
    f_equal. pose proof (sq_nonneg x). pose proof (sq_nonneg y). cbn [pow]. rewrite Rmult_1_r, sqrt_sqrt by lra. reflexivity.
Qed.
