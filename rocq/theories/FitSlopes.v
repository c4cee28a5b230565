(** zernikeXYAberrations and zernikeTA. *)
From Coq Require Import Reals String List ZArith Bool Lra Lia Psatz.
From Verif Require Import Num NumR Vec CoordSys Surface Medium Ray Bundle Trig Optic Field RayGen Spec OpticsSpec GenSpec GenMore AnalysisSpec
  Analysis XRFacts CoordFacts RayFacts AnalysisProofs AnalysisFocus StructProofs DiscSpec DiscProofs ZernSpec ZernProofs JacSpec Fit FitSpec LinFit FitProofs.
Import ListNotations.
Open Scope R_scope.

Lemma aberrations_value niter tel tx ty lam projection nrad naz reference D d b xys rv P :
  polar_setting niter tel tx ty lam projection nrad naz reference D d b xys rv P ->
  aberrations niter tel tx ty (Fin lam) projection nrad naz reference = Ok (map Fxy xys, rv, F3 P) /\ List.length (rays rv) = List.length xys.
Proof.
  intros (HF & (rs0 & HG & HT & Htr) & _ & HR). split.
  - unfold aberrations. rewrite HF. cbn [bind generator]. change (V3 (Fin (cx d)) (Fin (cy d)) (Fin (cz d))) with (F3 d). change (n1 (T:=XR)) with (Fin 1). rewrite HG. cbn [bind].
    assert (ES : oa_stop (tl_attr tel) = Some (Plane, Fcs (b_sframe b))) by apply HT. rewrite ES. cbn [need_attr bind]. rewrite (stop_points_F niter tel b xys rs0 HT), Htr.
    inversion HR as [q HL Hq|ch0 ch rest cs Hc Ht]; cbn [String.eqb Ascii.eqb Bool.eqb bind].
    + rewrite select_lit. unfold lit_rays in HL. rewrite HL, map_map. cbn [pos Fray]. rewrite <- (map_map pos F3), mean3_F by (destruct q; [congruence|discriminate]). reflexivity.
    + change (n0 (T:=XR)) with (Fin 0). rewrite Hc. cbn [bind]. rewrite Ht. reflexivity.
  - rewrite <- Htr, traced_length. unfold Frv; cbn [rays]. rewrite map_length. destruct HT as (HA & _). eapply Forall2_len, HA.
Qed.
(** The rays in use. *)
Lemma kept_values (g : vR -> R) (G : vec3 XR -> XR) P (rv : rayvec XR) q : (forall r : ray R, nsub (G (pos (Fray r))) (Fin (g P)) = Fin (g (pos r) - g P)) -> lit_rays rv q ->
  select (map (fun r => nsub (G (pos r)) (Fin (g P))) (rays rv)) (lit rv) = map Fin (map (fun r => g (pos r) - g P) q).
Proof.
  intros H HL. rewrite select_lit. unfold lit_rays in HL. rewrite HL, !map_map. apply map_ext. exact H.
Qed.
Theorem zernikeXY_fits : forall niter lstsq basis tel tx ty lam projection nrad naz reference jmax eps (include : bool) D Z d b xys rv P q,
  polar_setting niter tel tx ty lam projection nrad naz reference D d b xys rv P ->
  (if include then rays rv = map Fray q else lit_rays rv q) ->
  evaluates basis jmax (D / 2) (D / 2 * eps) ([] :: Z) -> List.length Z = jmax ->
  let pts := if include then map (fun xy => (fst xy / (D / 2), snd xy / (D / 2))) xys else lit_points (D / 2) rv xys in
  let xs := map (fun r => cx (pos r) - cx P) q in let ys := map (fun r => cy (pos r) - cy P) q in
  let result := zernikeXYAberrations niter lstsq basis tel tx ty (Fin lam) projection nrad naz reference jmax (Fin eps) include in
  List.length pts = List.length q /\
  (answers lstsq (S jmax) (fit_rows Z pts) xs -> answers lstsq (S jmax) (fit_rows Z pts) ys ->
   (dependent Z pts -> result = Err RuntimeError) /\
   (~ dependent Z pts -> exists c e, result = Ok (map Fin (0 :: c), map Fin (0 :: e)) /\
      best_fit Z (combine pts xs) c /\ best_fit Z (combine pts ys) e)).
Proof.
  intros niter lstsq basis tel tx ty lam projection nrad naz reference jmax eps include D Z d b xys rv P q HS Hq Hev HZ pts xs ys result.
  destruct (aberrations_value _ _ _ _ _ _ _ _ _ _ _ _ _ _ _ HS) as (EA & LR). destruct HS as (_ & _ & Hpup & _).
  set (lx := map snd (filter (fun x => negb (vignetted (fst x))) (combine (rays rv) xys))).
  assert (EPt : pts = map (fun xy => (fst xy / (D / 2), snd xy / (D / 2))) (if include then xys else lx)).
  { unfold pts. destruct include; [reflexivity|]. apply lit_points_map. }
  assert (LL : List.length pts = List.length q).
  { rewrite EPt, map_length. destruct include; [rewrite <- LR, Hq; apply map_length|]. unfold lx. rewrite lit_count by exact LR. unfold lit_rays in Hq. rewrite Hq. apply map_length. }
  split; [exact LL|]. intros HX HY.
  assert (Eq : result = do (xc, xrank) <- lstsq (map (map Fin) (fit_rows Z pts)) (map Fin xs);
     do (yc, yrank) <- lstsq (map (map Fin) (fit_rows Z pts)) (map Fin ys);
     if (Nat.min xrank yrank <? jmax)%nat then Err RuntimeError else do xc <- zero_first xc; do yc <- zero_first yc; Ok (xc, yc)).
  { unfold result, zernikeXYAberrations. rewrite EA. cbn [bind]. rewrite Hpup. cbn [need_attr bind].
    assert (EO : ndiv (Fin D) n2 = Fin (D / 2)) by (xunf; rewrite xdiv_fin by lra; reflexivity). rewrite EO.
    change (nmul (Fin (D / 2)) (Fin eps)) with (Fin (D / 2 * eps)).
    assert (EX : (if include then map (fun r => nsub (cx (pos r)) (cx (F3 P))) (rays rv) else select (map (fun r => nsub (cx (pos r)) (cx (F3 P))) (rays rv)) (lit rv)) = map Fin xs).
    { destruct include; [rewrite Hq; unfold xs; rewrite !map_map; reflexivity|]. apply (kept_values cx cx P rv q); [reflexivity|exact Hq]. }
    assert (EY : (if include then map (fun r => nsub (cy (pos r)) (cy (F3 P))) (rays rv) else select (map (fun r => nsub (cy (pos r)) (cy (F3 P))) (rays rv)) (lit rv)) = map Fin ys).
    { destruct include; [rewrite Hq; unfold ys; rewrite !map_map; reflexivity|]. apply (kept_values cy cy P rv q); [reflexivity|exact Hq]. }
    rewrite EX, EY.
    replace (if include then map Fxy xys else select (map Fxy xys) (lit rv)) with (map Fxy (if include then xys else lx))
      by (destruct include; [reflexivity|unfold lit; rewrite select_by; reflexivity]).
    rewrite (matrix_rows basis jmax _ _ Z _ Hev), EPt. reflexivity. }
  destruct (fit_value lstsq Z pts xs jmax HZ) as (x & r & EL & X1 & X2); [rewrite LL; unfold xs; symmetry; apply map_length|exact HX|].
  destruct (fit_value lstsq Z pts ys jmax HZ) as (y & r' & EL' & Y1 & Y2); [rewrite LL; unfold ys; symmetry; apply map_length|exact HY|].
  rewrite Eq, EL. cbn [bind]. rewrite EL'. cbn [bind]. split.
  - intros Hd. specialize (X1 Hd). assert (Q : (Nat.min r r' <? jmax)%nat = true) by (apply Nat.ltb_lt; lia). rewrite Q. reflexivity.
  - intros Hd. destruct (X2 Hd) as (Hr & c & -> & Hb). destruct (Y2 Hd) as (Hr' & e & -> & Hb').
    exists c, e. assert (Q : (Nat.min r r' <? jmax)%nat = false) by (apply Nat.ltb_ge; lia). rewrite Q. split; [reflexivity|]. split; assumption.
Qed.

(** ** The derivatives *)
Lemma pow_lim n x : derivable_pt_lim (fun s => s ^ n) x (INR n * x ^ pred n).
Proof. apply derivable_pt_lim_pow. Qed.
Lemma dx2_derivative p x y : derivable_pt_lim (fun s => at2 p s y) x (at2 (dx2 p) x y).
Proof.
  induction p as [|t p IH]; [apply derivable_pt_lim_const|].
  replace (at2 (dx2 (t :: p)) x y) with (mono (fst (fst t) * INR (snd (fst t)), pred (snd (fst t)), snd t) x y + at2 (dx2 p) x y) by reflexivity.
  apply (derivable_pt_lim_plus (fun s => mono t s y) (fun s => at2 p s y)); [|exact IH].
  unfold mono; cbn [fst snd]. replace (fst (fst t) * INR (snd (fst t)) * x ^ pred (snd (fst t)) * y ^ snd t)
    with ((fst (fst t) * y ^ snd t) * (INR (snd (fst t)) * x ^ pred (snd (fst t)))) by ring.
  pose proof (derivable_pt_lim_scal (fun s => s ^ snd (fst t)) (fst (fst t) * y ^ snd t) x _ (pow_lim (snd (fst t)) x)) as H.
  intros e He. destruct (H e He) as (dl & Hd). exists dl. intros h Hh Hl. specialize (Hd h Hh Hl). unfold mult_real_fct in Hd.
  replace (fst (fst t) * (x + h) ^ snd (fst t) * y ^ snd t - fst (fst t) * x ^ snd (fst t) * y ^ snd t)
    with (fst (fst t) * y ^ snd t * (x + h) ^ snd (fst t) - fst (fst t) * y ^ snd t * x ^ snd (fst t)) by ring. exact Hd.
Qed.
Lemma dy2_derivative p x y : derivable_pt_lim (fun s => at2 p x s) y (at2 (dy2 p) x y).
Proof.
  induction p as [|t p IH]; [apply derivable_pt_lim_const|].
  replace (at2 (dy2 (t :: p)) x y) with (mono (fst (fst t) * INR (snd t), snd (fst t), pred (snd t)) x y + at2 (dy2 p) x y) by reflexivity.
  apply (derivable_pt_lim_plus (fun s => mono t x s) (fun s => at2 p x s)); [|exact IH].
  unfold mono; cbn [fst snd]. replace (fst (fst t) * INR (snd t) * x ^ snd (fst t) * y ^ pred (snd t))
    with ((fst (fst t) * x ^ snd (fst t)) * (INR (snd t) * y ^ pred (snd t))) by ring.
  exact (derivable_pt_lim_scal (fun s => s ^ snd t) (fst (fst t) * x ^ snd (fst t)) y _ (pow_lim (snd t) y)).
Qed.

(** ** zernikeTA *)
Definition bare_slopes (ro : R) (Z : list poly2) (pts : list (R * R)) : list (list R) :=
  map (fun u => map (fun p => at2 (dx2 p) (fst u) (snd u) / ro) Z) pts ++ map (fun u => map (fun p => at2 (dy2 p) (fst u) (snd u) / ro) Z) pts.
Lemma slope_rows_padded ro Z pts : slope_rows ro Z pts = padded 2 (bare_slopes ro Z pts).
Proof. unfold slope_rows, padded, bare_slopes. rewrite map_app, !map_map. reflexivity. Qed.
Lemma dot_scaled (g : poly2 -> poly2) ro Z c u v : dotl (map (fun p => at2 (g p) u v / ro) Z) c = combination c (map g Z) u v / ro.
Proof.
  rewrite combination_dot, map_map. revert c. induction Z as [|p Z IH]; intros [|a c]; try (unfold dotl; cbn; unfold Rdiv; ring).
  cbn [map]. rewrite !dotl_cons, IH. unfold Rdiv. ring.
Qed.
Lemma misfit_app A B a b c : List.length A = List.length a -> misfit (A ++ B) (a ++ b) c = misfit A a c + misfit B b c.
Proof.
  revert a. induction A as [|row A IH]; intros [|v a] L; try discriminate; [change (misfit [] [] c) with 0; cbn [app]; ring|].
  cbn [app]. rewrite !misfit_cons, IH by (injection L; auto). ring.
Qed.
Definition rescale (g : R) (c : list R) : list R := map (fun a => - a * g) c.
Lemma combination_rescale g c Z u v : combination (rescale g c) Z u v = - g * combination c Z u v.
Proof.
  unfold combination, rescale. revert Z. induction c as [|a c IH]; intros [|p Z]; try (cbn; ring).
  unfold sumR in *. cbn [map combine fold_right fst snd]. rewrite IH. ring.
Qed.
Lemma misfit_slopes ro f lam Z pts xs ys c : List.length pts = List.length xs -> List.length pts = List.length ys ->
  misfit (bare_slopes ro Z pts) (xs ++ ys) (rescale (f * lam) c) = slope_residual ro f lam Z (combine pts (combine xs ys)) c.
Proof.
  intros L1 L2. unfold bare_slopes. rewrite misfit_app by (rewrite map_length; exact L1). unfold slope_residual.
  revert xs ys L1 L2. induction pts as [|u pts IH]; intros [|x xs] [|y ys] L1 L2; try discriminate; [unfold misfit; cbn; ring|].
  cbn [map combine fst snd]. rewrite !misfit_cons. rewrite (dot_scaled dx2), (dot_scaled dy2), !combination_rescale.
  specialize (IH xs ys ltac:(injection L1; auto) ltac:(injection L2; auto)). unfold sumR in *. cbn [fold_right]. rewrite <- IH. clear IH.
  unfold slope_x, slope_y. unfold Rdiv. ring.
Qed.
Lemma rescale_back f lam c : f <> 0 -> lam <> 0 -> map (fun a => - a / f / lam) (rescale (f * lam) c) = c.
Proof. intros Hf Hl. unfold rescale. rewrite map_map. erewrite map_ext; [apply map_id|]. intros a. cbn beta. field. auto. Qed.
Lemma rescale_forth f lam x : f <> 0 -> lam <> 0 -> rescale (f * lam) (map (fun a => - a / f / lam) x) = x.
Proof. intros Hf Hl. unfold rescale. rewrite map_map. erewrite map_ext; [apply map_id|]. intros a. cbn beta. field. auto. Qed.
Lemma bare_null ro Z pts c : ro <> 0 -> Forall (fun row => dotl row c = 0) (bare_slopes ro Z pts) <->
  Forall (fun u => combination c (map dx2 Z) (fst u) (snd u) = 0 /\ combination c (map dy2 Z) (fst u) (snd u) = 0) pts.
Proof.
  intros Hr. unfold bare_slopes. rewrite Forall_app, !Forall_map, !Forall_forall.
  assert (K : forall a, a / ro = 0 <-> a = 0).
  { intros a. split; [|intros ->; unfold Rdiv; ring]. intros E. apply (Rmult_eq_reg_r (/ ro)); [|apply Rinv_neq_0_compat, Hr]. rewrite Rmult_0_l. exact E. }
  split.
  - intros [H1 H2] u Hu. specialize (H1 u Hu). specialize (H2 u Hu). cbn beta in H1, H2. rewrite (dot_scaled dx2) in H1. rewrite (dot_scaled dy2) in H2. split; apply K; assumption.
  - intros H. split; intros u Hu; destruct (H u Hu) as [H1 H2]; [rewrite (dot_scaled dx2), H1|rewrite (dot_scaled dy2), H2]; apply K; reflexivity.
Qed.
Lemma derivative_columns (pick : XR * XR -> XR) (g : poly2 -> poly2) zgrad ro ri Z jmax (lx : list (R * R)) : (1 <= jmax)%nat -> List.length Z = (jmax - 1)%nat ->
  (forall j p x y, nth_error Z j = Some p -> pick (zgrad (2 + j)%nat (Fin x, Fin y) (Fin ro) (Fin ri)) = Fin (at2 (g p) (x / ro) (y / ro) / ro)) ->
  columns (List.length (map Fxy lx)) (map (fun j => map (fun p => if (j <? 2)%nat then n0 else pick (zgrad j p (Fin ro) (Fin ri))) (map Fxy lx)) (seq 0 (jmax + 1)))
  = map (map Fin) (map (fun u => 0 :: 0 :: map (fun p => at2 (g p) (fst u) (snd u) / ro) Z) (map (fun xy => (fst xy / ro, snd xy / ro)) lx)).
Proof.
  intros Hj HZ H. rewrite (columns_eval (fun j p => if (j <? 2)%nat then n0 else pick (zgrad j p (Fin ro) (Fin ri)))). rewrite !map_map. apply map_ext. intros [x y].
  cbn [fst snd]. replace (jmax + 1)%nat with (S (S (List.length Z))) by lia. cbn [seq map]. cbn [Nat.ltb Nat.leb]. f_equal. f_equal. clear HZ Hj.
  rewrite map_map. unfold Fxy; cbn [fst snd].
  assert (K : forall k (Y : list poly2), (forall j p, nth_error Y j = Some p -> pick (zgrad (2 + (k + j))%nat (Fin x, Fin y) (Fin ro) (Fin ri)) = Fin (at2 (g p) (x / ro) (y / ro) / ro)) ->
    map (fun j => if (j <? 2)%nat then n0 else pick (zgrad j (Fin x, Fin y) (Fin ro) (Fin ri))) (seq (2 + k) (List.length Y)) = map (fun p => Fin (at2 (g p) (x / ro) (y / ro) / ro)) Y).
  { intros k Y. revert k. induction Y as [|p Y IH]; intros k HY; [reflexivity|]. cbn [List.length seq map]. f_equal.
    - replace (2 + k <? 2)%nat with false by (symmetry; apply Nat.ltb_ge; lia). specialize (HY 0%nat p eq_refl). rewrite Nat.add_0_r in HY. exact HY.
    - apply (IH (S k)). intros j q E. specialize (HY (S j) q E). replace (2 + (S k + j))%nat with (2 + (k + S j))%nat by lia. exact HY. }
  apply (K 0%nat Z). intros j p E. apply H, E.
Qed.
Theorem zernikeTA_fits : forall niter lstsq zgrad tel tx ty lam projection nrad naz reference jmax eps focal_length f D Z d b xys rv P q,
  polar_setting niter tel tx ty lam projection nrad naz reference D d b xys rv P -> lit_rays rv q ->
  gradients zgrad (D / 2) (eps * D / 2) Z -> (1 <= jmax)%nat -> List.length Z = (jmax - 1)%nat -> D <> 0 ->
  focal_length = Some (Fin f) \/ focal_length = None /\ focalLength niter tel tx ty (Fin lam) 6 36 projection = Ok (Fin f) ->
  f <> 0 -> lam <> 0 ->
  let pts := lit_points (D / 2) rv xys in
  let xs := map (fun r => cx (pos r) - cx P) q in let ys := map (fun r => cy (pos r) - cy P) q in
  let result := zernikeTA niter lstsq zgrad tel tx ty (Fin lam) projection nrad naz reference jmax (Fin eps) focal_length in
  List.length pts = List.length q /\
  (answers lstsq (S jmax) (slope_rows (D / 2) Z pts) (xs ++ ys) ->
   (slopes_dependent Z pts -> result = Err RuntimeError) /\
   (~ slopes_dependent Z pts -> exists c, result = Ok (map Fin (0 :: 0 :: c)) /\
      best_slopes (D / 2) f lam Z (combine pts (combine xs ys)) c)).
Proof.
  intros niter lstsq zgrad tel tx ty lam projection nrad naz reference jmax eps focal_length f D Z d b xys rv P q HS Hq Hg Hj HZ HD Hfoc Hf Hl pts xs ys result.
  destruct (aberrations_value _ _ _ _ _ _ _ _ _ _ _ _ _ _ _ HS) as (EA & LR). destruct HS as (_ & _ & Hpup & _).
  set (lx := map snd (filter (fun x => negb (vignetted (fst x))) (combine (rays rv) xys))).
  assert (EPt : pts = map (fun xy => (fst xy / (D / 2), snd xy / (D / 2))) lx) by apply lit_points_map.
  assert (LL : List.length pts = List.length q).
  { rewrite EPt, map_length. unfold lx. rewrite lit_count by exact LR. unfold lit_rays in Hq. rewrite Hq. apply map_length. }
  split; [exact LL|]. intros (x & r & EL & HSol & HRk).
  assert (Eq : result = do (r, rank) <- lstsq (map (map Fin) (slope_rows (D / 2) Z pts)) (map Fin (xs ++ ys));
     if (rank <? jmax - 1)%nat then Err RuntimeError else do r <- zero_first r; Ok (map (fun a => ndiv (ndiv (nopp a) (Fin f)) (Fin lam)) r)).
  { unfold result, zernikeTA. rewrite EA. cbn [bind].
    assert (EF : match focal_length with Some f => Ok f | None => do (a, b, c, d) <- drdth niter tel tx ty (Fin lam) 6 36 projection; Ok (nsqrt (nsub (nmul a d) (nmul b c))) end = Ok (Fin f)).
    { destruct Hfoc as [->|[-> E]]; [reflexivity|exact E]. }
    rewrite EF. cbn [bind]. rewrite Hpup. cbn [need_attr bind].
    assert (EO : ndiv (Fin D) n2 = Fin (D / 2)) by (xunf; rewrite xdiv_fin by lra; reflexivity). rewrite EO.
    assert (EI : ndiv (nmul (Fin eps) (Fin D)) n2 = Fin (eps * D / 2)) by (xunf; rewrite xdiv_fin by lra; reflexivity). rewrite EI.
    unfold lit at 1 2 3. rewrite select_by. fold lx. unfold dZernikeBasis.
    rewrite (derivative_columns fst dx2 zgrad (D / 2) (eps * D / 2) Z jmax lx Hj HZ) by (intros j p u v E; rewrite (Hg j p u v E); reflexivity).
    rewrite (derivative_columns snd dy2 zgrad (D / 2) (eps * D / 2) Z jmax lx Hj HZ) by (intros j p u v E; rewrite (Hg j p u v E); reflexivity).
    fold (lit rv). change (cx (F3 P)) with (Fin (cx P)). change (cy (F3 P)) with (Fin (cy P)).
    rewrite (kept_values cx cx P rv q ltac:(reflexivity) Hq), (kept_values cy cy P rv q ltac:(reflexivity) Hq).
    fold xs ys. rewrite <- EPt, <- !map_app. reflexivity. }
  rewrite slope_rows_padded in HSol, HRk. replace (S jmax) with (2 + List.length Z)%nat in HSol, HRk by lia.
  destruct (full_rank _ _ _ _ HRk) as (R1 & R2). rewrite Eq, EL. cbn [bind].
  assert (HD2 : D / 2 <> 0) by lra. split.
  - intros (c & Lc & Nc & Hc).
    assert (Q : (r < jmax - 1)%nat).
    { rewrite <- HZ. apply R2. intros HF. apply Nc, HF; [exact Lc|]. apply bare_null; assumption. }
    apply Nat.ltb_lt in Q. rewrite Q. reflexivity.
  - intros Hn.
    assert (HF : full (List.length Z) (bare_slopes (D / 2) Z pts)).
    { intros c Lc Hc. destruct (Forall_dec (fun a => a = 0) (fun a => Req_EM_T a 0) c) as [Q|Q]; [exact Q|]. exfalso. apply Hn.
      exists c. split; [exact Lc|]. split; [exact Q|]. apply (bare_null (D / 2)); assumption. }
    assert (Q : (r <? jmax - 1)%nat = false) by (apply Nat.ltb_ge; rewrite <- HZ; apply R1, HF). rewrite Q.
    destruct (full_solution 2 (List.length Z) (bare_slopes (D / 2) Z pts) (xs ++ ys) x) as (s & -> & Ls & Hs).
    { unfold bare_slopes, xs, ys. rewrite !app_length, !map_length. rewrite LL. reflexivity. }
    { exact HF. } { exact HSol. }
    cbn [repeat app map zero_first bind]. exists (map (fun a => - a / f / lam) s). split.
    + f_equal. cbn [map].
      assert (E0 : forall a, ndiv (ndiv (nopp (Fin a)) (Fin f)) (Fin lam) = Fin (- a / f / lam)).
      { intros a. change (nopp (Fin a)) with (Fin (- a)). cbn [ndiv NumXR]. rewrite !xdiv_fin by assumption. reflexivity. }
      change (n0 (T:=XR)) with (Fin 0). rewrite !E0. rewrite !map_map.
      replace (- 0 / f / lam) with 0 by (field; auto). do 2 f_equal. apply map_ext. intros a. apply E0.
    + split; [rewrite map_length; exact Ls|]. intros c' Lc' N.
      assert (L1 : List.length pts = List.length xs) by (unfold xs; rewrite map_length; exact LL).
      assert (L2 : List.length pts = List.length ys) by (unfold ys; rewrite map_length; exact LL).
      rewrite <- !misfit_slopes by assumption. rewrite rescale_forth by assumption. apply Hs.
      * unfold rescale. rewrite map_length. exact Lc'.
      * intros E. apply N. rewrite <- E, rescale_back by assumption. reflexivity.
Qed.
Lemma best_slopes_exact ro f lam Z data c c' : best_slopes ro f lam Z data c -> List.length c' = List.length Z ->
  Forall (fun e => fst (snd e) = - f * lam * slope_x ro Z c' (fst e) /\ snd (snd e) = - f * lam * slope_y ro Z c' (fst e)) data -> c = c'.
Proof.
  intros (L & H) L' E. destruct (list_eq_dec Req_EM_T c c') as [Q|Q]; [exact Q|]. exfalso.
  assert (Z0 : slope_residual ro f lam Z data c' = 0).
  { unfold slope_residual. clear -E. induction E as [|d data (E0 & E1) E IH]; [reflexivity|]. unfold sumR in *. cbn [map fold_right]. rewrite IH, E0, E1. ring. }
  specialize (H c' L' (not_eq_sym Q)). rewrite Z0 in H.
  assert (0 <= slope_residual ro f lam Z data c); [|lra]. unfold slope_residual. clear. induction data as [|d data IH]; [cbn; lra|]. unfold sumR in *. cbn [map fold_right].
  pose proof (Rle_0_sqr (fst (snd d) + f * lam * slope_x ro Z c (fst d))) as Q1. pose proof (Rle_0_sqr (snd (snd d) + f * lam * slope_y ro Z c (fst d))) as Q2. unfold Rsqr in Q1, Q2. lra.
Qed.
