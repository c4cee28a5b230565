(** C15-C19: existence of normals, default bicubic derivatives, Tilted. *)
From Coq Require Import Reals List ZArith Bool Lra Lia Psatz.
From Verif Require Import Num NumR Vec Surface Bicubic Spec XRFacts NormalFacts SurfSpec SlopeProofs BicubicProofs.
Import ListNotations.
Open Scope R_scope.

(** ** Normals exist at regular points *)
Definition fin_normal (s : surface XR) (x y : R) : Prop := exists n, normal s (Fin x) (Fin y) = F3 n /\ cz n <> 0.
Lemma zhat_fin : exists n, zhat = F3 n /\ cz n <> 0.
Proof. exists (V3 0 0 1). split; [reflexivity|cbn; lra]. Qed.
Lemma radial_fin e a b r : 0 < r ->
  exists n, V3 (xmul (xmul (xdiv (xopp (Fin a)) (Fin r)) (Fin e)) (xdiv (Fin 1) (xsqrt (xadd (Fin 1) (xmul (Fin e) (Fin e))))))
     (xmul (xmul (xdiv (xopp (Fin b)) (Fin r)) (Fin e)) (xdiv (Fin 1) (xsqrt (xadd (Fin 1) (xmul (Fin e) (Fin e))))))
     (xdiv (Fin 1) (xsqrt (xadd (Fin 1) (xmul (Fin e) (Fin e))))) = F3 n /\ cz n <> 0.
Proof.
  intros Hr. cbn [xopp]. rewrite !xdiv_fin by lra. cbn [xmul xadd]. assert (Hu : 0 < 1 + e * e) by nra.
  rewrite unit_nz by exact Hu. cbn [xmul]. pose proof (inv_sqrt_pos _ Hu). eexists (V3 _ _ _). split; [reflexivity|cbn; lra].
Qed.
Lemma radial_normal_fin dz x y : (x * x + y * y <> 0 -> exists e, dz (Fin (sqrt (x * x + y * y))) = Fin e) ->
  exists n, radial_normal dz (Fin x) (Fin y) = F3 n /\ cz n <> 0.
Proof.
  intros H. unfold radial_normal. xunf. pose proof (sq_nonneg x). pose proof (sq_nonneg y).
  rewrite xsqrt_fin by lra. destruct (xeqb _ _) eqn:E; [apply zhat_fin|].
  assert (Hne : x * x + y * y <> 0). { intros Hz. rewrite Hz, sqrt_0 in E. rewrite xeqb_t in E by reflexivity. discriminate. }
  destruct (r_of x y Hne) as [Hr Hrr]. destruct (H Hne) as [e He]. rewrite He. apply radial_fin, Hr.
Qed.
Lemma scale_lt a q r2 : 0 < r2 -> a * q < r2 -> 0 < 1 - a / r2 * q.
Proof.
  intros Hr H. replace (a / r2 * q) with (a * q / r2) by (field; lra).
  assert (a * q / r2 < 1); [|lra]. apply Rmult_lt_reg_r with r2; [exact Hr|].
  unfold Rdiv. rewrite Rmult_assoc, Rinv_l by lra. lra.
Qed.
Lemma quadric_dzdr_exists rad k x y : rad = 0 \/ (1 + k) * (x * x + y * y) < rad * rad -> x * x + y * y <> 0 ->
  exists e, quadric_dzdr (Fin rad) (Fin k) (Fin (sqrt (x * x + y * y))) = Fin e.
Proof.
  intros H Hne. destruct (Req_dec rad 0) as [->|Hr]; [rewrite quadric_dzdr_flat; eauto|].
  destruct H as [H|H]; [contradiction|]. destruct (r_of x y Hne) as [Hp Hrr].
  unfold quadric_dzdr. xunf. rewrite xeqb_f by exact Hr. cbn [negb]. rewrite !xdiv_fin by exact Hr. cbn [xmul xsub].
  rewrite Hrr. pose proof (scale_lt (1 + k) (x * x + y * y) (rad * rad) ltac:(nra) H) as P.
  replace (1 - (x * x + y * y) * ((k + 1) / rad / rad)) with (1 - (1 + k) / (rad * rad) * (x * x + y * y)) by (field; exact Hr).
  rewrite xsqrt_fin by lra. cbn [xmul]. pose proof (sqrt_lt_R0 _ P).
  rewrite xdiv_fin by (apply Rmult_integral_contrapositive_currified; lra). eauto.
Qed.
Lemma poly_normal_fin a gx gy x0 y0 n x y :
  length gx = ((n - 1) * (n - 1))%nat -> length gy = ((n - 1) * (n - 1))%nat ->
  fin_normal (Fsurf (Poly a gx gy x0 y0 n n)) x y.
Proof.
  intros Lx Ly. unfold fin_normal. cbn [Fsurf normal]. unfold poly_normal. xunf.
  rewrite !horner2d_F by assumption. cbn [xopp xmul xadd].
  set (A := poly2 _ gx _ _). set (B := poly2 _ gy _ _).
  assert (Hu : 0 < - A * - A + - B * - B + 1) by nra. rewrite unit_nz by exact Hu. cbn [xmul].
  pose proof (inv_sqrt_pos _ Hu). eexists (V3 _ _ _). split; [reflexivity|cbn; lra].
Qed.
Lemma regular_in s l x y : regular (Sum l) x y -> In s l -> regular s x y.
Proof. cbn [regular]. induction l as [|a l IH]; intros H []; cbn in H; [subst; tauto|]. apply IH; tauto. Qed.
Lemma regular_fin n : forall s, (size s <= n)%nat -> smooth s -> forall x y, regular s x y -> fin_normal (Fsurf s) x y.
Proof.
  induction n as [|n IH]; intros s Hn Hs x y Hr; [destruct s; cbn in Hn; lia|].
  destruct s as [|tx ty|rad|rad|rad k|rad k cs|a gx gy x0 y0 xs ys|tb|l]; cbn [smooth regular] in *; try contradiction.
  - apply zhat_fin.
  - unfold fin_normal. cbn [Fsurf normal]. unfold sphere_normal. xunf.
    destruct (Req_dec rad 0) as [->|Hr0]; [rewrite xeqb_t by reflexivity; apply zhat_fin|].
    rewrite xeqb_f by exact Hr0. cbn [orb]. destruct Hr as [Hr|Hr]; [contradiction|].
    destruct (xeqb _ _) eqn:E; [apply zhat_fin|].
    assert (Hne : x * x + y * y <> 0) by (intros Hz; rewrite xeqb_t in E by exact Hz; discriminate).
    pose proof (sq_nonneg x). pose proof (sq_nonneg y). rewrite xsqrt_fin by lra.
    destruct (r_of x y Hne) as [Hp Hrr]. unfold sphere_dzdr. xunf. rewrite (xdiv_fin _ rad) by exact Hr0. cbn [xmul xsub].
    set (r := sqrt (x * x + y * y)) in *.
    pose proof (scale_lt 1 (r * r) (rad * rad) ltac:(nra) ltac:(lra)) as P.
    replace (1 - r * (1 / rad) * (r * (1 / rad))) with (1 - 1 / (rad * rad) * (r * r)) by (field; exact Hr0).
    rewrite xsqrt_fin by lra. pose proof (sqrt_lt_R0 _ P).
    rewrite (xdiv_fin _ (sqrt (1 - 1 / (rad * rad) * (r * r)))) by lra. apply radial_fin, Hp.
  - unfold fin_normal. cbn [Fsurf normal]. unfold paraboloid_normal. xunf.
    destruct (Req_dec rad 0) as [->|Hr0]; [rewrite xeqb_t by reflexivity; apply zhat_fin|].
    rewrite xeqb_f by exact Hr0. rewrite xdiv_fin by exact Hr0. cbn [xmul xadd xopp].
    set (u := 1 + (x * x + y * y) * (1 / rad) * (1 / rad)).
    assert (Hu : 0 < u).
    { unfold u. replace ((x * x + y * y) * (1 / rad) * (1 / rad)) with ((x * (1 / rad)) * (x * (1 / rad)) + (y * (1 / rad)) * (y * (1 / rad))) by ring.
      pose proof (sq_nonneg (x * (1 / rad))). pose proof (sq_nonneg (y * (1 / rad))). lra. }
    rewrite unit_nz by exact Hu. cbn [xmul]. pose proof (inv_sqrt_pos _ Hu). eexists (V3 _ _ _). split; [reflexivity|cbn; lra].
  - apply radial_normal_fin. apply quadric_dzdr_exists, Hr.
  - apply radial_normal_fin. intros Hne. destruct (quadric_dzdr_exists rad k x y Hr Hne) as [e He].
    rewrite (asphere_dzdr_F _ _ _ _ _ He). eauto.
  - destruct Hs as (<- & _ & (_ & Lx & Ly & _)). apply poly_normal_fin; assumption.
  - assert (Each : forall s, In s (map Fsurf l) -> fin_normal s x y).
    { intros s Hin. apply in_map_iff in Hin. destruct Hin as (s0 & <- & Hin). apply IH.
      - pose proof (size_in s0 l Hin). lia. - eapply smooth_in; eauto. - eapply regular_in; eauto. }
    destruct (sum_normals (map Fsurf l) (Fin x) (Fin y)
       (fun s => let m := normal s (Fin x) (Fin y) in
               let g a := match a with Fin r => r | _ => 0 end in V3 (g (cx m)) (g (cy m)) (g (cz m)))) as (m & Hm & _ & Hz & _).
    { intros s Hin. destruct (Each s Hin) as (ms & E & Hz). rewrite E. destruct ms. auto. }
    exists m. split; [exact Hm|lra].
Qed.
Lemma normals_exist s x y : smooth s -> regular s x y -> exists n, normal (Fsurf s) (Fin x) (Fin y) = F3 n.
Proof. intros Hs Hr. destruct (regular_fin _ s (le_n _) Hs x y Hr) as (n & H & _). eauto. Qed.

(** ** Tilted *)
Lemma tilted_wrong : exists tx ty n d,
  normal (Fsurf (Tilted tx ty)) (Fin 0) (Fin 0) = F3 n /\ sag_slope (Fsurf (Tilted tx ty)) 0 0 1 0 d /\ dotR n (V3 1 0 d) <> 0.
Proof.
  exists (3/5), 0, (V3 (-3/5) 0 (4/5)), (3/5). split; [|split].
  - cbn [Fsurf normal]. unfold tilted_normal. xunf.
    replace (1 - 3 / 5 * (3 / 5) - 0 * 0) with (4 / 5 * (4 / 5)) by field.
    rewrite xsqrt_fin by lra. rewrite sqrt_square by lra. repeat f_equal; lra.
  - exists (fun t => 0 + t * (3 / 5)), 1. split; [lra|]. split; [|apply dl_line].
    intros t _. cbn [Fsurf sag]. unfold tilted_sag. xunf. f_equal. field.
  - unfold dotR; cbn. lra.
Qed.
Lemma tilted_nan : exists tx ty, forall x y,
  (exists d, sag_slope (Fsurf (Tilted tx ty)) x y 1 0 d) /\ forall n, normal (Fsurf (Tilted tx ty)) (Fin x) (Fin y) <> F3 n.
Proof.
  exists 2, 0. intros x y. split.
  - exists 2, (fun t => 2 * x + t * 2), 1. split; [lra|]. split; [|apply dl_line].
    intros t _. cbn [Fsurf sag]. unfold tilted_sag. xunf. f_equal. ring.
  - intros n H. cbn [Fsurf normal] in H. unfold tilted_normal in H. revert H. xunf. rewrite xsqrt_neg by lra. intros H.
    apply F3_comp in H. destruct H as (_ & _ & Hz). discriminate.
Qed.

(** ** C17 *)
Lemma poly_normals a gx gy x0 y0 n x y : (0 < n)%nat -> derivative_arrays n a gx gy ->
  exists m, normal (Fsurf (Poly a gx gy x0 y0 n n)) (Fin x) (Fin y) = F3 m /\ dotR m m = 1 /\ 0 < cz m /\
    forall ex ey d, derivable_pt_lim (fun t => poly2 n a (x + t * ex - x0) (y + t * ey - y0)) 0 d -> dotR m (V3 ex ey d) = 0.
Proof.
  intros Hn HD. pose proof HD as (La & Lx & Ly & _). 
  destruct (poly_normal_fin a gx gy x0 y0 n x y Lx Ly) as (m & E & _).
  assert (Hs : smooth (Poly a gx gy x0 y0 n n)) by (cbn; auto).
  destruct (normals_right _ x y m Hs E) as (U & H0 & _). exists m. repeat split; auto.
  intros ex ey d Hd. apply (normals_perpendicular _ x y m ex ey d Hs E).
  exists (fun t => poly2 n a (x + t * ex - x0) (y + t * ey - y0)), 1. split; [lra|]. split; [|exact Hd].
  intros t _. apply poly_sag_F, La.
Qed.
(** ** C18 *)
Lemma map_repeat0 n (l : list R) : repeat (Fin 0) n ++ map Fin l = map Fin (repeat 0 n ++ l).
Proof. rewrite map_app. f_equal. induction n; cbn; congruence. Qed.
Lemma asphere_normals rad k coefs imin s x y : rad <> 0 -> (1 <= imin)%nat ->
  (1 + k) * (x * x + y * y) < rad * rad ->
  mkAsphere (Fin rad) (Fin k) (map Fin coefs) (Z.of_nat imin) = Some s ->
  exists n, normal s (Fin x) (Fin y) = F3 n /\ dotR n n = 1 /\ 0 < cz n /\
    forall ex ey, exists d,
      derivable_pt_lim (fun t => aspheric rad k coefs imin (x + t * ex) (y + t * ey)) 0 d /\ dotR n (V3 ex ey d) = 0.
Proof.
  intros Hr Hi Hd Hs. pose proof Hs as Hs0. unfold mkAsphere in Hs. destruct (Z.leb_spec (Z.of_nat imin) 0); [lia|].
  injection Hs; intros Es; clear Hs. rewrite map_repeat0 in Es.
  set (s0 := Asphere rad k (repeat 0 (Z.to_nat (Z.of_nat imin - 1)) ++ coefs)).
  change (Fsurf s0 = s) in Es. subst s.
  destruct (normals_exist s0 x y I (or_intror Hd)) as (n & E). exists n. split; [exact E|].
  destruct (normals_right s0 x y n I E) as (U & H0 & G). split; [exact U|]. split; [exact H0|].
  intros ex ey. destruct (G ex ey) as (d & (f & de & Hde & Hf & Df) & Dot). exists d. split; [|exact Dot].
  assert (K : exists e, 0 < e /\ forall t, Rabs t < e -> (1 + k) * rho2 x y ex ey t <= rad * rad).
  { pose proof (dl_rho2 x y ex ey) as DR.
    destruct (dl_near _ _ _ (rad * rad - (1 + k) * (x * x + y * y))
      (dl_mult (fun _ => 1 + k) _ 0 _ _ (dl_const (1 + k) 0) DR) ltac:(lra)) as (e & He & Hn).
    exists e. split; [exact He|]. intros t Ht. specialize (Hn t Ht). cbn beta in Hn.
    rewrite Rplus_0_l, rho2_0 in Hn. apply Rabs_def2 in Hn. lra. }
  destruct K as (e & He & HK).
  assert (EQ : forall t, Rabs t < Rmin de e -> f t = aspheric rad k coefs imin (x + t * ex) (y + t * ey)).
  { intros t Ht. apply Fin_inj. rewrite <- Hf by (eapply Rlt_le_trans; [exact Ht|apply Rmin_l]).
    apply (asphere_formula rad k coefs imin); auto. apply HK. eapply Rlt_le_trans; [exact Ht|apply Rmin_r]. }
  assert (Hm : 0 < Rmin de e) by (apply Rmin_pos; assumption).
  apply (dl_paste _ f f 0 d (Rmin de e)); auto; intros t Ht; symmetry; apply EQ; apply Rabs_def1; lra.
Qed.

(** ** C19: default derivatives *)
Lemma nth_rows {A} (f : nat -> nat -> A) nx ny d : forall j i, (i < nx)%nat -> (j < ny)%nat ->
  nth (nx * j + i) (tabulate nx ny f) d = f j i.
Proof.
  unfold tabulate. intros j i Hi Hj.
  assert (G : forall k n, (j < n)%nat ->
    nth (nx * j + i) (concat (map (fun j => map (fun i => f j i) (seq 0 nx)) (seq k n))) d = f (k + j)%nat i).
  { clear Hj. revert i Hi. induction j as [|j IH]; intros i Hi k n Hn; (destruct n as [|n]; [lia|]); cbn [seq map concat].
    - rewrite app_nth1 by (rewrite map_length, seq_length; lia). rewrite Nat.mul_0_r, Nat.add_0_l, Nat.add_0_r.
      rewrite nth_indep with (d' := f k 0%nat) by (rewrite map_length, seq_length; lia).
      rewrite (map_nth (f k)), seq_nth by exact Hi. reflexivity.
    - rewrite app_nth2 by (rewrite map_length, seq_length; nia). rewrite map_length, seq_length.
      replace (nx * S j + i - nx)%nat with (nx * j + i)%nat by nia. rewrite IH by lia. f_equal. lia. }
  apply (G 0%nat ny Hj).
Qed.
Lemma len_rows {A} (f : nat -> nat -> A) nx ny : length (tabulate nx ny f) = (nx * ny)%nat.
Proof.
  unfold tabulate. assert (G : forall k, length (concat (map (fun j => map (fun i => f j i) (seq 0 nx)) (seq k ny))) = (nx * ny)%nat).
  { induction ny as [|n IH]; intros k; cbn [seq map concat]; [cbn; lia|].
    rewrite app_length, map_length, seq_length, IH. lia. }
  apply G.
Qed.
Lemma tabulate_ext {A} (f g : nat -> nat -> A) nx ny : (forall j i, (j < ny)%nat -> (i < nx)%nat -> f j i = g j i) ->
  tabulate nx ny f = tabulate nx ny g.
Proof.
  intros H. unfold tabulate. f_equal. apply map_ext_in. intros j Hj. apply in_seq in Hj. apply map_ext_in. intros i Hin.
  apply in_seq in Hin. apply H; lia.
Qed.
Lemma tabulate_Fin (g : nat -> nat -> R) nx ny : tabulate nx ny (fun j i => Fin (g j i)) = map Fin (tabulate nx ny g).
Proof. unfold tabulate. rewrite concat_map, map_map. f_equal. apply map_ext. intros j. rewrite map_map. reflexivity. Qed.
Lemma samples_tab f x0 y0 h k nx ny :
  samples f (spaced x0 h nx) (spaced y0 k ny) = tabulate nx ny (fun j i => f (x0 + INR i * h) (y0 + INR j * k)).
Proof.
  unfold samples, spaced, tabulate. rewrite flat_map_concat_map, map_map. f_equal. apply map_ext. intros j. rewrite map_map. reflexivity.
Qed.
(** A difference quotient of a linear function is its slope. *)
Lemma diff1_linear n h (f : nat -> XR) b c i : (2 <= n)%nat -> (i < n)%nat -> h <> 0 ->
  (forall m, (m < n)%nat -> f m = Fin (c + INR m * h * b)) -> diff1 n (Fin h) f i = Fin b.
Proof.
  intros Hn Hi Hh H. unfold diff1. xunf.
  destruct (Nat.eqb_spec i (n - 1)) as [->|N1].
  - rewrite !H by lia. cbn [xsub]. rewrite xdiv_fin by exact Hh. f_equal.
    replace (n - 1)%nat with (S (n - 2)) by lia. rewrite S_INR. field. exact Hh.
  - destruct (Nat.eqb_spec i 0) as [->|N0].
    + rewrite !H by lia. cbn [xsub]. rewrite xdiv_fin by exact Hh. f_equal. cbn [INR]. field. exact Hh.
    + rewrite !H by lia. cbn [xsub]. rewrite xdiv_fin by lra. f_equal.
      replace (INR i) with (INR (i - 1) + 1) by (rewrite <- S_INR; f_equal; lia).
      replace (INR (S i)) with (INR (i - 1) + 2) by (rewrite S_INR; replace (INR i) with (INR (i - 1) + 1) by (rewrite <- S_INR; f_equal; lia); ring).
      field. exact Hh.
Qed.
Definition bilin (a b c e x y : R) : R := a + b * x + c * y + e * x * y.
Lemma bicubic_default a b c e x0 y0 h k nx ny nan x y :
  (2 <= nx)%nat -> (2 <= ny)%nat -> h <> 0 -> k <> 0 ->
  0 <= (x - x0) / h < INR nx - 1 -> 0 <= (y - y0) / k < INR ny - 1 ->
  sag (mkBicubic (map Fin (spaced x0 h nx)) (map Fin (spaced y0 k ny))
        (map Fin (samples (bilin a b c e) (spaced x0 h nx) (spaced y0 k ny))) None None None nan) (Fin x) (Fin y)
  = Fin (bilin a b c e x y).
Proof.
  intros Nx Ny Hh Hk Hu Hv.
  set (tb := Tab x0 y0 h k nx ny (tabulate nx ny (fun j i => bilin a b c e (x0 + INR i * h) (y0 + INR j * k)))
     (tabulate nx ny (fun j i => b + e * (y0 + INR j * k))) (tabulate nx ny (fun j i => c + e * (x0 + INR i * h)))
     (tabulate nx ny (fun _ _ => e)) nan).
  assert (Lx : length (map Fin (spaced x0 h nx)) = nx) by (unfold spaced; rewrite !map_length, seq_length; reflexivity).
  assert (Ly : length (map Fin (spaced y0 k ny)) = ny) by (unfold spaced; rewrite !map_length, seq_length; reflexivity).
  assert (At : forall u w n i, (i < n)%nat -> nth i (map Fin (spaced u w n)) NaN = Fin (u + INR i * w)).
  { intros u w n i Hi. transitivity (Fin (nth i (spaced u w n) 0)).
    { apply (nth_Fin i (spaced u w n)). unfold spaced; rewrite map_length, seq_length; exact Hi. }
    f_equal. unfold spaced. rewrite nth_indep with (d' := (fun i => u + INR i * w) 0%nat) by (rewrite map_length, seq_length; exact Hi).
    rewrite (map_nth (fun i => u + INR i * w)), seq_nth by exact Hi. reflexivity. }
  assert (Sp : forall u w n, (2 <= n)%nat -> w <> 0 ->
     xdiv (xsub (Fin (u + INR (n - 1) * w)) (Fin (u + INR 0 * w))) (Fin (IZR (Z.of_nat (n - 1)))) = Fin w).
  { intros u w n Hn Hw. rewrite <- INR_IZR_INZ. assert (0 < INR (n - 1)) by (apply lt_0_INR; lia).
    cbn [xsub]. rewrite xdiv_fin by lra. f_equal. cbn [INR]. field. lra. }
  assert (E : mkBicubic (map Fin (spaced x0 h nx)) (map Fin (spaced y0 k ny))
        (map Fin (samples (bilin a b c e) (spaced x0 h nx) (spaced y0 k ny))) None None None nan = Bicubic (Ftab tb)).
  { unfold mkBicubic. rewrite Lx, Ly. cbn [nsub ndiv nofZ nnan NumXR]. rewrite !At by lia. rewrite !Sp by assumption.
    assert (EZ : map Fin (samples (bilin a b c e) (spaced x0 h nx) (spaced y0 k ny)) =
       tabulate nx ny (fun j i => Fin (bilin a b c e (x0 + INR i * h) (y0 + INR j * k)))) by (rewrite samples_tab, tabulate_Fin; reflexivity).
    rewrite EZ. unfold default_dzdx, default_dzdy, ent. cbn [nnan NumXR].
    assert (EX : tabulate nx ny (fun j i => diff1 nx (Fin h) (fun i => nth (nx * j + i) (tabulate nx ny (fun j i => Fin (bilin a b c e (x0 + INR i * h) (y0 + INR j * k)))) NaN) i)
        = tabulate nx ny (fun j i => Fin (b + e * (y0 + INR j * k)))).
    { apply tabulate_ext. intros j i Hj Hi. apply (diff1_linear nx h _ _ (bilin a b c e x0 (y0 + INR j * k))); auto.
      intros m Hm. rewrite nth_rows by assumption. f_equal. unfold bilin. ring. }
    assert (EY : tabulate nx ny (fun j i => diff1 ny (Fin k) (fun j => nth (nx * j + i) (tabulate nx ny (fun j i => Fin (bilin a b c e (x0 + INR i * h) (y0 + INR j * k)))) NaN) j)
        = tabulate nx ny (fun j i => Fin (c + e * (x0 + INR i * h)))).
    { apply tabulate_ext. intros j i Hj Hi. apply (diff1_linear ny k _ _ (bilin a b c e (x0 + INR i * h) y0)); auto.
      intros m Hm. rewrite nth_rows by assumption. f_equal. unfold bilin. ring. }
    rewrite EX, EY.
    assert (EXY : tabulate nx ny (fun j i => diff1 nx (Fin h) (fun i => nth (nx * j + i) (tabulate nx ny (fun j i => Fin (c + e * (x0 + INR i * h)))) NaN) i)
        = tabulate nx ny (fun j i => Fin e)).
    { apply tabulate_ext. intros j i Hj Hi. apply (diff1_linear nx h _ _ (c + e * x0)); auto.
      intros m Hm. rewrite nth_rows by assumption. f_equal. ring. }
    rewrite EXY. unfold Ftab, tb. cbn. rewrite <- !tabulate_Fin. f_equal. f_equal; f_equal; ring. }
  rewrite E. assert (Hg : good_table tb) by (unfold good_table, tb; cbn; rewrite !len_rows; repeat split; auto).
  assert (Hin : in_grid tb x y) by (unfold in_grid, gu, gv, tb; cbn; lra).
  change (sag (Bicubic (Ftab tb)) (Fin x) (Fin y)) with (table_eval (Ftab tb) (Fin x) (Fin y)).
  rewrite (proj1 (bicubic_eval tb x y Hg Hin)). f_equal.
  destruct (table_cell_in tb x y Hh Hk Hin) as (i & j & _ & Hi & Hj & Ku & Kv).
  unfold interp. rewrite (hsum_cell tb herm slop herm slop _ _ i j) by
    (assumption || (intros u H; rewrite herm_out, slop_out by exact H; auto)).
  unfold corner, tabat. cbn [tb tb_nx tb_ny tb_z tb_dzdx tb_dzdy tb_d2 tb_dx tb_dy] in *.
  rewrite !nth_rows by lia.
  set (s := gu tb x - INR i). set (t := gv tb y - INR j).
  assert (Hs : 0 <= s < 1) by (unfold s; lra). assert (Ht : 0 <= t < 1) by (unfold t; lra).
  replace (gu tb x - INR (S i)) with (s - 1) by (unfold s; rewrite S_INR; ring).
  replace (gv tb y - INR (S j)) with (t - 1) by (unfold t; rewrite S_INR; ring).
  rewrite !(herm_0 s), !(slop_0 s), !(herm_1 s), !(slop_1 s) by exact Hs.
  rewrite !(herm_0 t), !(slop_0 t), !(herm_1 t), !(slop_1 t) by exact Ht.
  replace x with (x0 + (s + INR i) * h) by (unfold s, gu, tb; cbn; field; exact Hh).
  replace y with (y0 + (t + INR j) * k) by (unfold t, gv, tb; cbn; field; exact Hk).
  rewrite !S_INR. unfold bilin. ring.
Qed.
(** A node of the last column is outside. *)
Lemma bicubic_last_node : exists tb i j, good_table tb /\ (i < tb_nx tb)%nat /\ (j < tb_ny tb)%nat /\
  sag (Fsurf (Bicubic tb)) (Fin (tb_x0 tb + INR i * tb_dx tb)) (Fin (tb_y0 tb + INR j * tb_dy tb)) <> Fin (tabat tb (tb_z tb) i j).
Proof.
  exists (Tab 0 0 1 1 2 2 [1;2;3;4] [0;0;0;0] [0;0;0;0] [0;0;0;0] true), 1%nat, 0%nat.
  split; [unfold good_table; cbn; repeat split; lra|]. split; [cbn; lia|]. split; [cbn; lia|].
  set (tb := Tab _ _ _ _ _ _ _ _ _ _ _).
  assert (N : ~ in_grid tb (tb_x0 tb + INR 1 * tb_dx tb) (tb_y0 tb + INR 0 * tb_dy tb)).
  { unfold in_grid. rewrite gu_node, gv_node by (cbn; lra). cbn. lra. }
  rewrite (proj1 (bicubic_outside tb _ _ (R1_neq_R0 : tb_dx tb <> 0) (R1_neq_R0 : tb_dy tb <> 0) (le_S _ _ (le_n 1)) (le_S _ _ (le_n 1)) N)).
  discriminate.
Qed.
