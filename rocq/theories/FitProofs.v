(** zernike, zernikeTA and zernikeXYAberrations: least-squares fits over the rays that are not
    vignetted. *)
From Coq Require Import Reals String List ZArith Bool Lra Lia Psatz.
From Verif Require Import Num NumR Vec CoordSys Surface Medium Ray Bundle Trig Optic Field RayGen Spec OpticsSpec GenSpec GenMore AnalysisSpec
  Analysis XRFacts CoordFacts RayFacts AnalysisProofs AnalysisFocus StructProofs DiscSpec DiscProofs ZernSpec ZernProofs JacSpec Fit FitSpec LinFit.
Import ListNotations.
Open Scope R_scope.

(** ** Arrays *)
Lemma traced_length {T} {NT : Num T} niter (o : optic T) rv : List.length (rays (trace niter o false rv)) = List.length (rays rv).
Proof. destruct rv as [l cs]. exact (length_ops niter [Ops.OTrace o false] l cs). Qed.
Lemma select_by {A B} (g : B -> A) (rs : list (ray XR)) xys :
  select (map g xys) (map (fun r => negb (vignetted r)) rs) = map g (map snd (filter (fun x => negb (vignetted (fst x))) (combine rs xys))).
Proof.
  unfold select. revert xys. induction rs as [|r rs IH]; intros [|p xys]; try reflexivity.
  cbn [map combine filter fst snd]. destruct (negb (vignetted r)); cbn [map fst snd]; [f_equal|]; apply IH.
Qed.
Lemma columns_eval {A B} (f : B -> A -> XR) (pts : list A) (Z : list B) :
  columns (List.length pts) (map (fun p => map (f p) pts) Z) = map (fun u => map (fun p => f p u) Z) pts.
Proof.
  unfold columns. induction pts as [|u pts IH]; [reflexivity|].
  cbn [List.length seq map]. f_equal; [rewrite map_map; reflexivity|].
  rewrite <- IH, <- seq_shift, map_map. apply map_ext. intros i. rewrite !map_map. reflexivity.
Qed.
Lemma stop_points_F niter tel b xys rs0 : through_stop tel b xys rs0 ->
  stop_points_of niter (Plane, Fcs (b_sframe b)) (Frv (RV rs0 (b_frame b))) = map Fxy xys.
Proof.
  intros (HA & HS & (GF & GS & Hn & Hd & _) & HM & _). unfold stop_points_of, Frv; cbn [fst snd rays rvcs]. rewrite stop_map, map_map.
  induction HA as [|r xy rs0 xys Ha HA IH]; [reflexivity|]. cbn [map]. f_equal; [|exact IH].
  destruct (stop_at niter b _ _ r GF GS Hn Hd HS HM Ha) as (q & E & P). rewrite E. cbn [pos Fray]. rewrite P. reflexivity.
Qed.
(** ** Polynomials *)
Lemma combination_dot c Z u v : combination c Z u v = dotl (map (fun p => at2 p u v) Z) c.
Proof.
  unfold combination. revert Z. induction c as [|a c IH]; intros [|p Z]; try reflexivity.
  cbn [combine map fst snd]. rewrite dotl_cons, <- IH. unfold sumR; cbn [fold_right]. ring.
Qed.
Definition value_rows (Z : list poly2) (pts : list (R * R)) : list (list R) := map (fun u => map (fun p => at2 p (fst u) (snd u)) Z) pts.
Lemma fit_rows_padded Z pts : fit_rows Z pts = padded 1 (value_rows Z pts).
Proof. unfold fit_rows, padded, value_rows. rewrite map_map. reflexivity. Qed.
Lemma misfit_residual Z pts vals c : misfit (value_rows Z pts) vals c = residual Z (combine pts vals) c.
Proof.
  unfold misfit, residual, value_rows. f_equal. revert vals. induction pts as [|u pts IH]; intros [|v vals]; try reflexivity.
  cbn [map combine fst snd]. rewrite combination_dot. f_equal. apply IH.
Qed.
Lemma full_independent Z pts : ~ dependent Z pts -> full (List.length Z) (value_rows Z pts).
Proof.
  intros H c L V. destruct (Forall_dec (fun a => a = 0) (fun a => Req_EM_T a 0) c) as [Q|Q]; [exact Q|]. exfalso. apply H.
  exists c. split; [exact L|]. split; [exact Q|]. unfold value_rows in V. rewrite Forall_map in V. eapply Forall_impl; [|exact V].
  intros u E. rewrite combination_dot. exact E.
Qed.
Lemma dependent_full Z pts : dependent Z pts -> ~ full (List.length Z) (value_rows Z pts).
Proof.
  intros (c & L & Q & V) H. apply Q, H; [exact L|]. unfold value_rows. rewrite Forall_map. eapply Forall_impl; [|exact V].
  intros u E. cbn beta. rewrite <- combination_dot. exact E.
Qed.
(** What a fit with one unused column returns. *)
Lemma fit_value lstsq Z pts vals jmax : List.length Z = jmax -> List.length pts = List.length vals ->
  answers lstsq (S jmax) (fit_rows Z pts) vals ->
  exists x r, lstsq (map (map Fin) (fit_rows Z pts)) (map Fin vals) = Ok (map Fin x, r) /\
    (dependent Z pts -> (r < jmax)%nat) /\
    (~ dependent Z pts -> (jmax <= r)%nat /\ exists c, x = 0 :: c /\ best_fit Z (combine pts vals) c).
Proof.
  intros <- L (x & r & E & HS & HR). exists x, r. split; [exact E|]. rewrite fit_rows_padded in HS, HR.
  destruct (full_rank 1 (List.length Z) (value_rows Z pts) r HR) as (R1 & R2).
  split; [intros Hd; apply R2, dependent_full, Hd|]. intros Hd. pose proof (full_independent Z pts Hd) as HF. split; [apply R1, HF|].
  destruct (full_solution 1 (List.length Z) (value_rows Z pts) vals x) as (c & Ex & Lc & Hc); [unfold value_rows; rewrite map_length; exact L|exact HF|exact HS|].
  exists c. split; [exact Ex|]. split; [exact Lc|]. intros c' Lc' N. rewrite <- !misfit_residual. apply Hc; assumption.
Qed.
Lemma best_fit_exact Z data c c' : best_fit Z data c -> List.length c' = List.length Z ->
  Forall (fun d => combination c' Z (fst (fst d)) (snd (fst d)) = snd d) data -> c = c'.
Proof.
  intros (L & H) L' E. destruct (list_eq_dec Req_EM_T c c') as [Q|Q]; [exact Q|]. exfalso.
  assert (Z0 : residual Z data c' = 0).
  { unfold residual. clear -E. induction E as [|d data E0 E IH]; [reflexivity|]. unfold sumR in *. cbn [map fold_right]. rewrite IH, E0. ring. }
  specialize (H c' L' (not_eq_sym Q)). rewrite Z0 in H.
  assert (0 <= residual Z data c); [|lra]. unfold residual. clear. induction data as [|d data IH]; [cbn; lra|]. unfold sumR in *. cbn [map fold_right].
  pose proof (Rle_0_sqr (combination c Z (fst (fst d)) (snd (fst d)) - snd d)) as Q. unfold Rsqr in Q. lra.
Qed.

(** ** zernike *)
Lemma lit_points_map ro rv xys : lit_points ro rv xys = map (fun xy => (fst xy / ro, snd xy / ro)) (map snd (filter (fun x => negb (vignetted (fst x))) (combine (rays rv) xys))).
Proof. unfold lit_points. rewrite map_map. reflexivity. Qed.
Lemma matrix_rows basis jmax ro ri Z (xys : list (R * R)) : evaluates basis jmax ro ri ([] :: Z) ->
  columns (List.length (map Fxy xys)) (basis jmax (map Fxy xys) (Fin ro) (Fin ri))
  = map (map Fin) (fit_rows Z (map (fun xy => (fst xy / ro, snd xy / ro)) xys)).
Proof.
  intros H. rewrite map_length. change (map Fxy xys) with (map (fun u : R * R => (Fin (fst u), Fin (snd u))) xys). rewrite H.
  rewrite (columns_eval (fun p (u : R * R) => Fin (at2 p (fst u / ro) (snd u / ro)))).
  unfold fit_rows. rewrite !map_map. apply map_ext. intros u. cbn [map fst snd]. f_equal. rewrite map_map. reflexivity.
Qed.
Lemma lit_count (rs : list (ray XR)) (xys : list (R * R)) : List.length rs = List.length xys ->
  List.length (map snd (filter (fun x => negb (vignetted (fst x))) (combine rs xys))) = List.length (filter (fun r => negb (vignetted r)) rs).
Proof.
  rewrite map_length. revert xys. induction rs as [|r rs IH]; intros [|p xys] L; try discriminate; [reflexivity|].
  cbn [combine filter fst]. destruct (negb (vignetted r)); cbn [List.length]; rewrite IH by (injection L; auto); reflexivity.
Qed.
Lemma mask_is P radius lam t0 (rs : list (ray XR)) arr : Forall2 (wave_entry P radius lam t0) rs arr ->
  map (fun e => negb (snd e)) arr = map (fun r => negb (vignetted r)) rs /\
  select (map fst arr) (map (fun e => negb (snd e)) arr) = map fst (filter (fun e => negb (snd e)) arr).
Proof.
  intros H. split.
  - induction H as [|r e rs arr (E & _) H IH]; [reflexivity|]. cbn [map]. rewrite E, IH. reflexivity.
  - clear. unfold select. induction arr as [|e arr IH]; [reflexivity|]. cbn [map combine filter fst snd]. destruct (negb (snd e)); cbn [map fst]; [f_equal|]; apply IH.
Qed.
Theorem zernike_fits : forall niter lstsq basis tel tx ty lam projection nx sphereRadius radius reference jmax eps D Z d b xys rs0 rv A q P,
  fieldToDirCos tx ty projection = Ok (Fin (cx d), Fin (cy d), Fin (cz d)) ->
  asGrid (Gen (Some (tl_attr tel)) None None None None (Some (Fin lam)) (DirCos (F3 d)))
    (Some (Z.of_nat nx)) None None None None None (Fin 1) None = Ok (Frv (RV rs0 (b_frame b))) ->
  through_stop tel b xys rs0 ->
  trace niter (tl_optic tel) false (Frv (RV rs0 (b_frame b))) = rv ->
  rvcs rv = Fcs A -> good_frame A -> lit_rays rv q -> referred nx rv q reference P ->
  (forall r, concerned nx rv q reference r -> inside P radius r) ->
  radius_used sphereRadius (tl_radius tel) radius -> lam <> 0 ->
  oa_pupil (tl_attr tel) = Some (Fin D) -> (3 <= nx)%nat ->
  evaluates basis jmax (D / 2) (D / 2 * eps) ([] :: Z) -> List.length Z = jmax ->
  exists ts t0, Forall2 (crosses P radius) q ts /\ timed nx rv P radius ts reference t0 /\
    let pts := lit_points (D / 2) rv xys in let vals := map (fun t => (t0 - t) / lam) ts in
    let result := zernike niter lstsq basis tel tx ty (Fin lam) projection nx sphereRadius reference jmax (Fin eps) in
    List.length pts = List.length vals /\
    (answers lstsq (S jmax) (fit_rows Z pts) vals ->
     (dependent Z pts -> result = Err RuntimeError) /\
     (~ dependent Z pts -> exists c, result = Ok (map Fin (0 :: c)) /\ best_fit Z (combine pts vals) c)).
Proof.
  intros niter lstsq basis tel tx ty lam projection nx sphereRadius radius reference jmax eps D Z d b xys rs0 rv A q P
    HF HG HT Htr HC GA HL HR HI Hrad Hl Hpup Hnx Hev HZ. apply radius_used_iff in Hrad.
  assert (HTr : traced niter tel tx ty (Fin lam) projection nx rv).
  { exists (Fin (cx d)), (Fin (cy d)), (Fin (cz d)), (Frv (RV rs0 (b_frame b))). split; [exact HF|]. split; [exact HG|]. symmetry. exact Htr. }
  destruct (wavefront_entries niter tel tx ty lam projection nx rv A q reference P sphereRadius radius D HTr HC GA HL HR HI Hrad Hl Hpup Hnx)
    as (arr & ts & t0 & EW & FE & FC & HTm & EV & _).
  exists ts, t0. split; [exact FC|]. split; [exact HTm|]. cbv zeta.
  destruct (mask_is _ _ _ _ _ _ FE) as (EM & ES).
  assert (LR : List.length (rays rv) = List.length xys).
  { destruct HT as (HA & _). rewrite <- Htr, traced_length. unfold Frv; cbn [rays]. rewrite map_length. eapply Forall2_len, HA. }
  set (lx := map snd (filter (fun x => negb (vignetted (fst x))) (combine (rays rv) xys))) in *.
  assert (LL : List.length (lit_points (D / 2) rv xys) = List.length (map (fun t => (t0 - t) / lam) ts)).
  { rewrite lit_points_map, !map_length. rewrite <- (map_length snd). rewrite lit_count by exact LR. unfold lit_rays in HL. rewrite HL, map_length. eapply Forall2_len, FC. }
  split; [exact LL|]. intros HAns.
  assert (Eq : zernike niter lstsq basis tel tx ty (Fin lam) projection nx sphereRadius reference jmax (Fin eps)
    = do (coefs, rank) <- lstsq (map (map Fin) (fit_rows Z (lit_points (D / 2) rv xys))) (map Fin (map (fun t => (t0 - t) / lam) ts));
      if (rank <? jmax)%nat then Err RuntimeError else zero_first coefs).
  { unfold zernike. rewrite HF. cbn [bind generator]. change (V3 (Fin (cx d)) (Fin (cy d)) (Fin (cz d))) with (F3 d). change (n1 (T:=XR)) with (Fin 1). rewrite HG. cbn [bind].
    assert (ES' : oa_stop (tl_attr tel) = Some (Plane, Fcs (b_sframe b))) by apply HT. rewrite ES'. cbn [need_attr bind]. rewrite EW. cbn [bind l_array].
    rewrite Hpup. cbn [need_attr bind]. rewrite ES, EM, (stop_points_F niter tel b xys rs0 HT), select_by. fold lx.
    assert (EO : ndiv (Fin D) n2 = Fin (D / 2)) by (xunf; rewrite xdiv_fin by lra; reflexivity). rewrite EO.
    change (nmul (Fin (D / 2)) (Fin eps)) with (Fin (D / 2 * eps)).
    rewrite (matrix_rows basis jmax _ _ Z lx Hev), EV. rewrite lit_points_map. fold lx. rewrite (map_map (fun t => (t0 - t) / lam) Fin). reflexivity. }
  destruct (fit_value lstsq Z _ _ jmax HZ LL HAns) as (x & r & EL & H1 & H2). rewrite Eq, EL. cbn [bind]. split.
  - intros Hd. specialize (H1 Hd). apply Nat.ltb_lt in H1. rewrite H1. reflexivity.
  - intros Hd. destruct (H2 Hd) as (Hr & c & -> & Hb). exists c. apply Nat.ltb_ge in Hr. rewrite Hr. split; [reflexivity|exact Hb].
Qed.
