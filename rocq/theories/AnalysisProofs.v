(** C68, C69: spots and wavefronts. *)
From Coq Require Import Reals String List ZArith Bool Lra Psatz Lia.
From Verif Require Import Num NumR Vec CoordSys Surface Ray Bundle Trig Optic Field RayGen Spec OpticsSpec
  XRFacts CoordFacts FrameProofs RayFacts RootFacts IntersectProofs WaveSpec WaveProofs Analysis AnalysisSpec.
Import ListNotations.
Open Scope R_scope.

(** ** Lists *)
Lemma select_filter {A B} (f : A -> B) (b : A -> bool) l : select (map f l) (map b l) = map f (filter b l).
Proof.
  unfold select. induction l as [|a l IH]; [reflexivity|]. cbn [map combine filter snd].
  destruct (b a); cbn [map fst]; rewrite IH; reflexivity.
Qed.
Lemma select_lit {A} (f : ray XR -> A) rv : select (map f (rays rv)) (lit rv) = map f (filter (fun r => negb (vignetted r)) (rays rv)).
Proof. apply select_filter. Qed.
Lemma nsum_F l : nsum (map Fin l) = Fin (sumR l).
Proof.
  unfold nsum. change (@n0 XR _) with (Fin 0).
  assert (G : forall a, fold_left nadd (map Fin l) (Fin a) = Fin (a + sumR l)).
  { induction l as [|x l IH]; intros a; cbn [map fold_left].
    - cbn. f_equal. ring.
    - cbn [nadd NumXR xadd]. rewrite IH. unfold sumR; cbn [fold_right]. f_equal. ring. }
  rewrite G. f_equal. ring.
Qed.
Lemma INR_pos_ne n : (n <> 0)%nat -> INR n <> 0.
Proof. apply not_0_INR. Qed.
Lemma mean_F l : l <> [] -> mean (map Fin l) = Fin (averageR l).
Proof.
  intros H. unfold mean, averageR. rewrite nsum_F, map_length. cbn [nofZ ndiv NumXR].
  rewrite xdiv_fin; [rewrite <- INR_IZR_INZ; reflexivity|].
  rewrite <- INR_IZR_INZ. apply not_0_INR. destruct l; [congruence|discriminate].
Qed.
Lemma mean3_F l : l <> [] -> mean3 (map F3 l) = F3 (centroid l).
Proof.
  intros H. unfold mean3, centroid. rewrite !map_map.
  assert (G : forall (f : vR -> R) (g : vec3 XR -> XR), (forall v, g (F3 v) = Fin (f v)) ->
            mean (map (fun x => g (F3 x)) l) = Fin (averageR (map f l))).
  { intros f g E. rewrite <- mean_F by (destruct l; [congruence|discriminate]).
    rewrite map_map. f_equal. apply map_ext. exact E. }
  rewrite (G cx cx), (G cy cy), (G cz cz) by reflexivity. reflexivity.
Qed.
Lemma sumR_cons x l : sumR (x :: l) = x + sumR l.
Proof. reflexivity. Qed.
Lemma sum_minus_const {A} (f : A -> R) c l : sumR (map (fun x => f x - c) l) = sumR (map f l) - INR (length l) * c.
Proof.
  induction l as [|a l IH]; [cbn; ring|]. cbn [map length]. rewrite !sumR_cons, IH, S_INR. ring.
Qed.
Lemma sum_minus_average {A} (f : A -> R) l : l <> [] -> sumR (map (fun x => f x - averageR (map f l)) l) = 0.
Proof.
  intros H. rewrite sum_minus_const. unfold averageR. rewrite map_length.
  field. apply not_0_INR. destruct l; [congruence|discriminate].
Qed.
Lemma sum_diff_average {A} (f : A -> R) k l : l <> [] ->
  sumR (map (fun x => (averageR (map f l) - f x) / k) l) = 0.
Proof.
  intros H. transitivity (- / k * sumR (map (fun x => f x - averageR (map f l)) l)).
  - generalize (averageR (map f l)). intros c. clear H. induction l as [|a l IH]; [cbn; ring|].
    cbn [map]. rewrite !sumR_cons, IH. unfold Rdiv. ring.
  - rewrite sum_minus_average by exact H. ring.
Qed.

Lemma Forall2_len {A B} (P : A -> B -> Prop) l m : Forall2 P l m -> length l = length m.
Proof. induction 1; cbn; congruence. Qed.

(** ** The central ray *)
Lemma even_half n : Nat.even n = true -> (n = 2 * (n / 2))%nat.
Proof.
  intros H. apply Nat.even_spec in H. destruct H as [k ->].
  rewrite (Nat.mul_comm 2 k) at 2. rewrite Nat.div_mul by lia. reflexivity.
Qed.
Lemma odd_half n : Nat.even n = false -> (n = 2 * (n / 2) + 1)%nat.
Proof.
  intros H. assert (O : Nat.odd n = true) by (unfold Nat.odd; rewrite H; reflexivity).
  apply Nat.odd_spec in O. destruct O as [k ->]. f_equal. f_equal.
  rewrite (Nat.mul_comm 2 k), Nat.div_add_l by lia. change (1 / 2)%nat with 0%nat. lia.
Qed.
Lemma chief_central nx : chief_index nx = central nx.
Proof.
  unfold chief_index, central. destruct (Nat.even nx) eqn:E; [reflexivity|].
  apply odd_half in E. remember (nx / 2)%nat as k. subst nx. clear.
  replace ((2 * k + 1) * (2 * k + 1) - 1)%nat with ((k * (2 * k + 1) + k) * 2)%nat by nia.
  apply Nat.div_mul. lia.
Qed.

(** ** Frames shifted along their own axes *)
Lemma shiftLocal_F A p : shiftLocal (Fcs A) (F3 p) = Fcs (shifted A p).
Proof.
  unfold shiftLocal, shiftGlobal, shifted, Fcs; cbn [origin rot]. rewrite mv_F, vadd_F. reflexivity.
Qed.
Lemma shifted_good A p : good_frame A -> good_frame (shifted A p).
Proof. intros H. exact H. Qed.
Lemma shifted_dr A p : good_frame A -> drR A (shifted A p) = p.
Proof.
  intros H. unfold drR, shifted; cbn [origin rot].
  replace (minusR (plusR (origin A) (applyR (rot A) p)) (origin A)) with (applyR (rot A) p)
    by (apply vec3_eq; cbn; ring). apply orth_apply_lr, H.
Qed.
Lemma shifted_drot A p : good_frame A -> drotR A (shifted A p) = eyeR.
Proof. intros H. unfold drotR, shifted; cbn [rot]. apply orth_l, H. Qed.
Lemma trans_eye : transR eyeR = eyeR.
Proof. reflexivity. Qed.
Lemma same_dr A : good_frame A -> drR A A = zeroR.
Proof.
  intros H. unfold drR. replace (minusR (origin A) (origin A)) with zeroR by (apply vec3_eq; cbn; ring).
  apply vec3_eq; cbn; ring.
Qed.
Lemma same_drot A : good_frame A -> drotR A A = eyeR.
Proof. intros H. apply orth_l, H. Qed.
Lemma forward_shift A p r : good_frame A ->
  ray_forward (F3 (drR A (shifted A p))) (FM (drotR A (shifted A p))) (Fray r)
  = Fray (Ray (minusR (pos r) p) (vel r) (time r) (wavelength r) (flux r) (vignetted r) (failed r)).
Proof.
  intros H. rewrite shifted_dr, shifted_drot by exact H. unfold ray_forward, Fray; cbn [pos vel time wavelength flux vignetted failed].
  rewrite fwd_point_F, fwd_vel_F, trans_eye, !applyR_eye. reflexivity.
Qed.

(** ** The traced grid *)
Lemma traced_grid_ok niter tel tx ty w projection nx rv : traced niter tel tx ty w projection nx rv ->
  traced_grid niter tel tx ty w projection nx = Ok rv.
Proof.
  intros (a & b & c & rv0 & E1 & E2 & ->). unfold traced_grid, generator. rewrite E1; cbn [bind].
  change (@n1 XR _) with (Fin 1). rewrite E2. reflexivity.
Qed.
Lemma lit_map {A} (f : ray XR -> A) rv q : lit_rays rv q -> select (map f (rays rv)) (lit rv) = map (fun r => f (Fray r)) q.
Proof. intros H. rewrite select_lit, H, map_map. reflexivity. Qed.
Lemma reference_ok nx rv q reference P : lit_rays rv q -> referred nx rv q reference P ->
  reference_point reference nx rv = Ok (F3 P).
Proof.
  intros HL H. destruct H as [Hq|ch Hc].
  - unfold reference_point. cbn [String.eqb Ascii.eqb Bool.eqb]. rewrite (lit_map pos rv q HL).
    change (map (fun r => pos (Fray r)) q) with (map (fun r => F3 (pos r)) q). rewrite <- (map_map pos F3).
    rewrite mean3_F; [reflexivity|]. destruct q; [congruence|discriminate].
  - unfold reference_point. cbn [String.eqb Ascii.eqb Bool.eqb]. rewrite chief_central, Hc. reflexivity.
Qed.

(** ** C68 *)
Lemma lit_forward A p l : good_frame A ->
  lit (RV (map (ray_forward (F3 (drR A (shifted A p))) (FM (drotR A (shifted A p)))) l) (Fcs (shifted A p)))
  = lit (RV l (Fcs A)).
Proof. intros _. unfold lit; cbn [rays]. rewrite map_map. apply map_ext. reflexivity. Qed.
Lemma spot_shift A p l q (f : vec3 XR -> XR) (g : vR -> R) : good_frame A -> (forall v, f (F3 v) = Fin (g v)) ->
  lit_rays (RV l (Fcs A)) q ->
  let rv := rv_toCoordSys (Fcs (shifted A p)) (RV l (Fcs A)) in
  select (map (fun r => f (pos r)) (rays rv)) (lit rv) = map Fin (map (fun r => g (minusR (pos r) p)) q).
Proof.
  intros HA Hf HL rv. unfold rv, rv_toCoordSys, batch; cbn [dest rays rvcs]. rewrite mkCT_F; cbn [ct_dr ct_drot].
  rewrite lit_forward by exact HA. cbn [rays]. rewrite map_map.
  change (select (map (fun r => f (pos (ray_forward (F3 (drR A (shifted A p))) (FM (drotR A (shifted A p))) r)))
                   (rays (RV l (Fcs A)))) (lit (RV l (Fcs A))) = map Fin (map (fun r => g (minusR (pos r) p)) q)).
  rewrite (lit_map _ _ _ HL), map_map. apply map_ext. intros r. rewrite forward_shift by exact HA.
  cbn [pos Fray]. apply Hf.
Qed.
Theorem spot_about niter tel tx ty w projection nx rv A q reference P :
  traced niter tel tx ty w projection nx rv -> rvcs rv = Fcs A -> good_frame A -> lit_rays rv q ->
  referred nx rv q reference P ->
  spot niter tel tx ty w projection nx reference
  = Ok (map (fun r => Fin (cx (pos r) - cx P)) q, map (fun r => Fin (cy (pos r) - cy P)) q).
Proof.
  intros HT HC HA HL HP. unfold spot. rewrite (traced_grid_ok _ _ _ _ _ _ _ _ HT); cbn [bind].
  rewrite (reference_ok _ _ _ _ _ HL HP); cbn [bind]. destruct rv as [l cs]; cbn [rvcs] in *. subst cs.
  rewrite shiftLocal_F.
  rewrite (spot_shift A P l q cx cx), (spot_shift A P l q cy cy) by (try reflexivity; assumption).
  rewrite !map_map. reflexivity.
Qed.
Theorem spot_mean niter tel tx ty w projection nx rv A q :
  traced niter tel tx ty w projection nx rv -> rvcs rv = Fcs A -> good_frame A -> lit_rays rv q -> q <> [] ->
  exists xs ys, spot niter tel tx ty w projection nx "mean" = Ok (map Fin xs, map Fin ys) /\
    length xs = length q /\ length ys = length q /\ sumR xs = 0 /\ sumR ys = 0.
Proof.
  intros HT HC HA HL Hq. exists (map (fun r => cx (pos r) - averageR (map cx (map pos q))) q),
    (map (fun r => cy (pos r) - averageR (map cy (map pos q))) q).
  rewrite (spot_about _ _ _ _ _ _ _ _ _ _ _ _ HT HC HA HL (by_mean nx rv q Hq)).
  split; [rewrite (map_map _ Fin), (map_map _ Fin); reflexivity|]. rewrite !map_length. split; [reflexivity|]. split; [reflexivity|].
  split; rewrite !map_map; [apply (sum_minus_average (fun r => cx (pos r)) q Hq)|apply (sum_minus_average (fun r => cy (pos r)) q Hq)].
Qed.
Theorem spot_other niter tel tx ty w projection nx rv A q reference :
  traced niter tel tx ty w projection nx rv -> rvcs rv = Fcs A -> good_frame A -> lit_rays rv q ->
  reference <> "mean"%string -> reference <> "chief"%string ->
  spot niter tel tx ty w projection nx reference
  = Ok (map (fun r => Fin (cx (pos r))) q, map (fun r => Fin (cy (pos r))) q).
Proof.
  intros HT HC HA HL N1 N2. unfold spot. rewrite (traced_grid_ok _ _ _ _ _ _ _ _ HT); cbn [bind].
  unfold reference_point. rewrite (proj2 (String.eqb_neq _ _) N1), (proj2 (String.eqb_neq _ _) N2); cbn [bind].
  destruct rv as [l cs]; cbn [rvcs] in *. subst cs. change (@vzero XR _) with (F3 zeroR). rewrite shiftLocal_F.
  rewrite (spot_shift A zeroR l q cx cx), (spot_shift A zeroR l q cy cy) by (try reflexivity; assumption).
  rewrite !map_map. f_equal. f_equal; apply map_ext; intros r; cbn; f_equal; ring.
Qed.

(** ** The reference sphere *)
Lemma len_sq v : lenR v * lenR v = dotR v v.
Proof. unfold lenR. apply sqrt_sqrt. unfold dotR. nra. Qed.
Lemma len_nonneg v : 0 <= lenR v.
Proof. apply sqrt_pos. Qed.
Lemma sq_abs x : Rabs x * Rabs x = x * x.
Proof. rewrite <- Rabs_mult. apply Rabs_pos_eq. nra. Qed.
Lemma len_abs_iff v k : lenR v = Rabs k <-> dotR v v = k * k.
Proof.
  rewrite <- len_sq, <- (sq_abs k). pose proof (len_nonneg v). pose proof (Rabs_pos k).
  split; intros E; [rewrite E; reflexivity|nra].
Qed.
Lemma len_lt_iff v k : lenR v < Rabs k <-> dotR v v < k * k.
Proof.
  rewrite <- len_sq, <- (sq_abs k). pose proof (len_nonneg v). pose proof (Rabs_pos k). split; nra.
Qed.
Lemma sphere_from_inside rad p v niter : v <> zeroR -> coefC (ShSphere rad) p v < 0 ->
  exists dt, hit (Sphere (Fin rad)) niter (F3 p) (F3 v) = (true, Fin dt) /\
    whole (ShSphere rad) (on_line p v dt) /\
    (cz v * rad < 0 -> 0 < dt) /\ (0 <= cz v * rad -> dt < 0).
Proof.
  intros Hv HC. pose proof (hit_sphere rad p v niter) as HH. cbn [Fshape] in HH. rewrite HH.
  assert (HA : 0 < coefA (ShSphere rad) p v).
  { pose proof (dot_self_pos v Hv) as D. unfold dotR in D. cbn [coefA]. lra. }
  set (a := coefA (ShSphere rad) p v) in *. set (b := coefB (ShSphere rad) p v) in *. set (c := coefC (ShSphere rad) p v) in *.
  destruct (roots_two a b c) as (t1 & t2 & E & Q1 & Q2 & ES & EP); [lra|unfold discR; nra|lra|].
  unfold by_roots. fold a b c. rewrite E. cbn [pick_root].
  assert (Hrad : rad <> 0 \/ rad = 0) by (destruct (Req_dec rad 0); auto).
  assert (W : forall t, quad a b c t = 0 -> whole (ShSphere rad) (on_line p v t)).
  { intros t Q. unfold quad, a, b, c in Q. cbn in Q |- *. lra. }
  assert (T : t1 * t2 < 0) by nra.
  cbn [xltb]. destruct (Rlt_dec (cz v * rad) 0) as [L|L]; [rewrite nmax_fin|rewrite nmin_fin].
  - exists (Rmax t1 t2). split; [reflexivity|].
    unfold Rmax; destruct (Rle_dec t1 t2) as [M|M]; (split; [apply W; assumption|]); split; intros; nra.
  - exists (Rmin t1 t2). split; [reflexivity|].
    unfold Rmin; destruct (Rle_dec t1 t2) as [M|M]; (split; [apply W; assumption|]); split; intros; nra.
Qed.

(** What [to_sphere] does to a ray. *)
Definition sphere_step niter (A : frame) (P : vR) (radius : R) (r : ray XR) : ray XR :=
  let C := shifted A (plusR P (V3 0 0 radius)) in
  ray_intersect (Sphere (Fin (- radius))) (F3 (drR C C)) (FM (drotR C C)) None niter
    (ray_forward (F3 (drR A C)) (FM (drotR A C)) r).
Lemma to_sphere_map niter A P radius l :
  rays (to_sphere niter (F3 P) (Fin radius) (RV l (Fcs A))) = map (sphere_step niter A P radius) l.
Proof.
  unfold to_sphere, rv_intersect, rv_toCoordSys, batch; cbn [rays rvcs dest].
  replace (vadd (F3 P) (V3 n0 n0 (Fin radius))) with (F3 (plusR P (V3 0 0 radius)))
    by (unfold F3, vadd; cbn; reflexivity).
  rewrite shiftLocal_F, !mkCT_F; cbn [ct_dr ct_drot]. rewrite map_map. reflexivity.
Qed.
Lemma step_vignetted niter A P radius r : vignetted r = true -> vignetted (sphere_step niter A P radius r) = true.
Proof.
  intros H. unfold sphere_step, ray_intersect. 
  set (r0 := ray_forward _ _ r). assert (H0 : vignetted r0 = true) by exact H.
  destruct (failed r0); [exact H0|]. destruct (hit _ _ _ _) as [[] dt]; cbn [vignetted mark_failed]; [exact H0|reflexivity].
Qed.
Lemma step_inside niter A P radius r : good_frame A -> inside P radius r ->
  exists t p, sphere_step niter A P radius (Fray r)
    = Fray (Ray p (vel r) t (wavelength r) (flux r) (vignetted r) false) /\ crosses P radius r t.
Proof.
  intros HA (Hf & Hv & Hi). unfold sphere_step. set (C := shifted A (plusR P (V3 0 0 radius))).
  unfold C. rewrite forward_shift by exact HA. fold C. assert (HC : good_frame C) by (apply shifted_good; exact HA).
  unfold ray_intersect, Fray; cbn [failed pos vel time wavelength flux vignetted]. rewrite Hf.
  rewrite same_dr, same_drot by exact HC. rewrite fwd_point_F, fwd_vel_F, trans_eye, !applyR_eye.
  replace (minusR (minusR (pos r) (plusR P (V3 0 0 radius))) zeroR) with (minusR (pos r) (plusR P (V3 0 0 radius)))
    by (apply vec3_eq; cbn; ring).
  set (p := minusR (pos r) (plusR P (V3 0 0 radius))).
  destruct (sphere_from_inside (- radius) p (vel r) niter Hv) as (dt & Hh & Hw & Hl & He).
  { unfold distR in Hi. apply len_lt_iff in Hi. unfold dotR, p in *. cbn in *. nra. }
  rewrite Hh, advance_F. cbn [nadd NumXR xadd].
  exists (time r + dt), (on_line p (vel r) dt). split; [reflexivity|]. split.
  - replace (time r + dt - time r) with dt by ring. unfold distR. apply len_abs_iff.
    cbn [whole] in Hw. unfold p, on_line, plusR, minusR, timesR, dotR in *. cbn [cx cy cz] in *. nra.
  - split; intros S; [assert (0 < dt) by (apply Hl; lra)|assert (dt < 0) by (apply He; lra)]; lra.
Qed.
Lemma crosses_unique P radius r t t' : inside P radius r -> crosses P radius r t -> crosses P radius r t' -> t = t'.
Proof.
  intros (_ & Hv & Hi) (E & L & S) (E' & L' & S').
  unfold distR in *. apply len_lt_iff in Hi. apply len_abs_iff in E, E'.
  set (u := minusR (pos r) P) in *. set (v := vel r) in *.
  assert (X : forall s, dotR (minusR (on_line (pos r) v s) P) (minusR (on_line (pos r) v s) P)
            = dotR v v * s * s + 2 * dotR u v * s + dotR u u).
  { intros s. unfold u, on_line, plusR, minusR, timesR, dotR; cbn [cx cy cz]. ring. }
  rewrite X in E, E'. pose proof (dot_self_pos v Hv) as D.
  set (s := t - time r) in *. set (s' := t' - time r) in *. set (a := dotR v v) in *. set (b := dotR u v) in *.
  assert (K : s = s'); [|unfold s, s' in K; lra].
  assert (Z : (s - s') * (a * (s + s') + 2 * b) = 0) by nra.
  apply Rmult_integral in Z. destruct Z as [Z|Z]; [lra|exfalso].
  assert (Q1 : a * (s * s') = dotR u u - radius * radius) by nra.
  assert (Q2 : s * s' < 0) by nra.
  destruct (Rlt_dec 0 (cz v * radius)) as [Y|Y].
  - assert (0 < s) by (unfold s; specialize (L Y); lra). assert (0 < s') by (unfold s'; specialize (L' Y); lra). nra.
  - assert (s < 0) by (unfold s; specialize (S ltac:(lra)); lra). assert (s' < 0) by (unfold s'; specialize (S' ltac:(lra)); lra). nra.
Qed.

(** ** C69 *)
Lemma lit_cons r l : filter (fun r => negb (vignetted r)) (r :: l)
  = if vignetted r then filter (fun r => negb (vignetted (T:=XR) r)) l else r :: filter (fun r => negb (vignetted r)) l.
Proof. cbn [filter]. destruct (vignetted r); reflexivity. Qed.
(** After the step, the rays that are not vignetted are the same rays at the times [ts]. *)
Lemma sphere_lit niter A P radius l : good_frame A ->
  forall q, filter (fun r => negb (vignetted r)) l = map Fray q -> Forall (inside P radius) q ->
  exists ts, Forall2 (crosses P radius) q ts /\
    map time (filter (fun r => negb (vignetted r)) (map (sphere_step niter A P radius) l)) = map Fin ts /\
    forall t0 lam, lam <> 0 ->
      Forall2 (wave_entry P radius lam t0) l
        (map (fun r => (ndiv (nsub (Fin t0) (time r)) (Fin lam), vignetted r)) (map (sphere_step niter A P radius) l)) /\
      map fst (filter (fun e => negb (snd e))
        (map (fun r => (ndiv (nsub (Fin t0) (time r)) (Fin lam), vignetted r)) (map (sphere_step niter A P radius) l)))
      = map (fun t => Fin ((t0 - t) / lam)) ts.
Proof.
  intros HA. induction l as [|r l IH]; intros q HL HI.
  - destruct q; [|discriminate]. exists []. split; [constructor|]. split; [reflexivity|]. intros. split; [constructor|reflexivity].
  - rewrite lit_cons in HL. destruct (vignetted r) eqn:V.
    + destruct (IH q HL HI) as (ts & H1 & H2 & H3). exists ts. split; [exact H1|].
      pose proof (step_vignetted niter A P radius r V) as SV.
      cbn [map]. rewrite lit_cons, SV. split; [exact H2|].
      intros t0 lam Hl. destruct (H3 t0 lam Hl) as (H4 & H5). split.
      * constructor; [|exact H4]. split; [cbn [snd]; symmetry; exact V|]. intros E. congruence.
      * cbn [filter snd negb]. exact H5.
    + destruct q as [|r' q]; [discriminate|]. cbn [map] in HL.
      assert (E1 : r = Fray r') by congruence. assert (E2 : filter (fun r => negb (vignetted r)) l = map Fray q) by congruence.
      subst r. inversion HI as [|? ? I0 I1]; subst. destruct (IH q E2 I1) as (ts & H1 & H2 & H3).
      destruct (step_inside niter A P radius r' HA I0) as (t & p & ES & EC).
      exists (t :: ts). split; [constructor; assumption|]. cbn [map]. rewrite lit_cons, ES.
      change (vignetted r' = false) in V. cbn [vignetted Fray time]. rewrite V. cbn [map]. split; [rewrite H2; reflexivity|].
      intros t0 lam Hl. destruct (H3 t0 lam Hl) as (H4 & H5).
      assert (ED : ndiv (nsub (Fin t0) (Fin t)) (Fin lam) = Fin ((t0 - t) / lam)).
      { cbn [nsub ndiv NumXR xsub]. apply xdiv_fin, Hl. }
      split.
      * constructor; [|exact H4]. split; [cbn [snd]; symmetry; exact V|].
        intros _. exists r', t. split; [reflexivity|]. split; [exact EC|]. cbn [fst time Fray]. exact ED.
      * cbn [filter snd negb map fst time Fray]. rewrite ED. f_equal. exact H5.
Qed.

Lemma traced_parts niter tel tx ty w projection nx rv : traced niter tel tx ty w projection nx rv ->
  exists d rv0, fieldToDirCos tx ty projection = Ok d /\
    asGrid (generator tel w d) (Some (Z.of_nat nx)) None None None None None n1 None = Ok rv0 /\
    rv = trace niter (tl_optic tel) false rv0.
Proof.
  intros (a & b & c & rv0 & E1 & E2 & E3). exists (a, b, c), rv0. split; [exact E1|]. split; [exact E2|exact E3].
Qed.
(** The step between the pupil points of the wavefront. *)
Lemma pupil_step_F tel nx D : oa_pupil (tl_attr tel) = Some (Fin D) -> (3 <= nx)%nat ->
  pupil_step tel nx = Ok (Fin (D / INR (nx - if Nat.even nx then 2 else 1))).
Proof.
  intros HD Hn. unfold pupil_step. rewrite HD. remember (nx - (if Nat.even nx then 2 else 1))%nat as d.
  destruct d as [|d]; [destruct (Nat.even nx); lia|]. rewrite INR_IZR_INZ. f_equal. cbn [nofZ ndiv NumXR].
  apply xdiv_fin. rewrite <- INR_IZR_INZ. apply not_0_INR. discriminate.
Qed.
Lemma pupil_step_small {T} {NT : Num T} (tel : telescope T) nx D : oa_pupil (tl_attr tel) = Some D -> (1 <= nx <= 2)%nat ->
  pupil_step tel nx = Err ZeroDivisionError.
Proof.
  intros HD Hn. unfold pupil_step. rewrite HD. assert (E : nx = 1%nat \/ nx = 2%nat) by lia. destruct E as [-> | ->]; reflexivity.
Qed.
Lemma Fray_inj a b : Fray a = Fray b -> a = b.
Proof.
  destruct a as [[] [] ? ? ? ? ?], b as [[] [] ? ? ? ? ?]. unfold Fray, F3; cbn. intros E. inversion E. reflexivity.
Qed.
Theorem wavefront_entries niter tel tx ty lam projection nx rv A q reference P sphereRadius radius D :
  traced niter tel tx ty (Fin lam) projection nx rv -> rvcs rv = Fcs A -> good_frame A -> lit_rays rv q ->
  referred nx rv q reference P -> (forall r, concerned nx rv q reference r -> inside P radius r) ->
  need_attr sphereRadius (tl_radius tel) = Ok (Fin radius) -> lam <> 0 ->
  oa_pupil (tl_attr tel) = Some (Fin D) -> (3 <= nx)%nat ->
  exists arr ts t0,
    wavefront niter tel tx ty (Fin lam) projection nx sphereRadius reference
    = Ok (Lat (T:=XR) _ [nx; nx] arr
        [[Fin (D / INR (nx - if Nat.even nx then 2 else 1)); Fin 0]; [Fin 0; Fin (D / INR (nx - if Nat.even nx then 2 else 1))]]) /\
    Forall2 (wave_entry P radius lam t0) (rays rv) arr /\
    Forall2 (crosses P radius) q ts /\ timed nx rv P radius ts reference t0 /\
    map fst (filter (fun e => negb (snd e)) arr) = map (fun t => Fin ((t0 - t) / lam)) ts /\
    (forall ch, reference = "chief"%string -> nth_error (rays rv) (central nx) = Some (Fray ch) ->
       nth_error arr (central nx) = Some (Fin 0, vignetted ch)).
Proof.
  intros HT HC HA HL HR HAll HS Hl HD Hn.
  assert (HI : Forall (inside P radius) q) by (apply Forall_forall; intros r Hr; apply HAll; left; exact Hr).
  assert (HCh : reference = "chief"%string -> forall ch, nth_error (rays rv) (central nx) = Some (Fray ch) -> inside P radius ch)
    by (intros Er ch Hc; apply HAll; right; split; assumption).
  clear HAll. destruct (traced_parts _ _ _ _ _ _ _ _ HT) as (d & rv0 & E1 & E2 & E3).
  unfold wavefront. rewrite E1; cbn [bind]. rewrite E2; cbn [bind]. rewrite HS; cbn [bind]. rewrite <- E3.
  rewrite (reference_ok _ _ _ _ _ HL HR); cbn [bind]. destruct rv as [l cs]; cbn [rvcs] in HC. subst cs.
  destruct (sphere_lit niter A P radius l HA q HL HI) as (ts & H1 & H2 & H3).
  set (rv' := to_sphere niter (F3 P) (Fin radius) (RV l (Fcs A))).
  assert (ER : rays rv' = map (sphere_step niter A P radius) l) by apply to_sphere_map.
  assert (T0 : exists t0, reference_time reference nx rv' = Ok (Fin t0) /\ timed nx (RV l (Fcs A)) P radius ts reference t0).
  { destruct HR as [Hq|ch Hc].
    - exists (averageR ts). split; [|constructor]. unfold reference_time. cbn [String.eqb Ascii.eqb Bool.eqb].
      rewrite select_lit, ER, H2, mean_F; [reflexivity|]. intros ->. inversion H1. subst. congruence.
    - destruct (step_inside niter A (pos ch) radius ch HA (HCh eq_refl ch Hc)) as (t & p & ES & EC).
      exists t. split; [|econstructor; eassumption]. unfold reference_time. cbn [String.eqb Ascii.eqb Bool.eqb].
      rewrite chief_central, ER, nth_error_map. cbn [rays] in Hc. rewrite Hc. cbn [option_map]. rewrite ES. reflexivity. }
  destruct T0 as (t0 & T1 & T2). rewrite T1; cbn [bind]. rewrite (pupil_step_F _ _ _ HD Hn); cbn [bind].
  destruct (H3 t0 lam Hl) as (H4 & H5). rewrite ER.
  exists (map (fun r => (ndiv (nsub (Fin t0) (time r)) (Fin lam), vignetted r)) (map (sphere_step niter A P radius) l)), ts, t0.
  split; [reflexivity|]. split; [exact H4|]. split; [exact H1|]. split; [exact T2|]. split; [exact H5|].
  intros ch Er Hc. cbn [rays] in Hc. rewrite map_map, nth_error_map, Hc. cbn [option_map].
  inversion T2 as [E|ch' t Hc' EC E]; [congruence|]. subst t.
  cbn [rays] in Hc'. rewrite Hc in Hc'. 
  destruct (step_inside niter A P radius ch HA (HCh Er ch Hc)) as (t & p & ES & EC2).
  assert (ch' = ch).
  { apply Fray_inj. congruence. }
  subst ch'. rewrite (crosses_unique _ _ _ _ _ (HCh Er ch Hc) EC EC2). rewrite ES. cbn [time Fray vignetted].
  cbn [nsub ndiv NumXR xsub]. rewrite xdiv_fin by exact Hl. replace ((t - t) / lam) with 0 by (unfold Rdiv; ring). reflexivity.
Qed.

Theorem wavefront_mean niter tel tx ty lam projection nx rv A q P sphereRadius radius D :
  traced niter tel tx ty (Fin lam) projection nx rv -> rvcs rv = Fcs A -> good_frame A -> lit_rays rv q ->
  referred nx rv q "mean" P -> Forall (inside P radius) q ->
  need_attr sphereRadius (tl_radius tel) = Ok (Fin radius) -> lam <> 0 ->
  oa_pupil (tl_attr tel) = Some (Fin D) -> (3 <= nx)%nat ->
  exists wf vs, wavefront niter tel tx ty (Fin lam) projection nx sphereRadius "mean" = Ok wf /\
    map fst (filter (fun e => negb (snd e)) (l_array _ wf)) = map Fin vs /\ length vs = length q /\ sumR vs = 0.
Proof.
  intros HT HC HA HL HR HI HS Hl HD Hn.
  destruct (wavefront_entries niter tel tx ty lam projection nx rv A q "mean" P sphereRadius radius D HT HC HA HL HR) 
    as (arr & ts & t0 & H1 & H2 & H3 & H4 & H5 & _); try assumption.
  { intros r [Hr|[E _]]; [|discriminate]. rewrite Forall_forall in HI. apply HI, Hr. }
  assert (L : length q = length ts) by (eapply Forall2_len; exact H3).
  exists (Lat (T:=XR) _ [nx; nx] arr
        [[Fin (D / INR (nx - if Nat.even nx then 2 else 1)); Fin 0]; [Fin 0; Fin (D / INR (nx - if Nat.even nx then 2 else 1))]]),
    (map (fun t => (t0 - t) / lam) ts).
  split; [exact H1|]. cbn [l_array]. split; [rewrite H5, map_map; reflexivity|]. split; [rewrite map_length; symmetry; exact L|].
  inversion H4 as [E|]. pose proof (sum_diff_average (fun t => t) lam ts) as G. rewrite map_id in G. apply G.
  inversion HR. destruct ts; [destruct q; [congruence|discriminate]|discriminate].
Qed.

(** A focused ray crosses the sphere at a time that depends on its side only. *)
Lemma focused_time P radius T0 s r t : inside P radius r -> focused P T0 s r -> crosses P radius r t ->
  (0 < cz (vel r) * radius -> t = T0 + Rabs radius / s) /\ (cz (vel r) * radius <= 0 -> t = T0 - Rabs radius / s).
Proof.
  intros (Hf & Hv & Hi) (HP & Hs) (E & L & S).
  assert (Hs0 : 0 < s). { rewrite <- Hs. unfold lenR. apply sqrt_lt_R0, dot_self_pos, Hv. }
  assert (X : forall u, minusR (on_line (pos r) (vel r) u) P = timesR (u - (T0 - time r)) (vel r)).
  { intros u. rewrite <- HP. apply vec3_eq; cbn; ring. }
  unfold distR in *. rewrite X in E.
  replace (pos r) with (on_line (pos r) (vel r) 0) in Hi by (apply vec3_eq; cbn; ring). rewrite X in Hi.
  apply len_abs_iff in E. apply len_lt_iff in Hi.
  assert (Y : forall k, dotR (timesR k (vel r)) (timesR k (vel r)) = (k * s) * (k * s)).
  { intros k. rewrite <- Hs. transitivity (k * k * (lenR (vel r) * lenR (vel r))); [rewrite len_sq; unfold dotR, timesR; cbn [cx cy cz]; ring|ring]. }
  rewrite Y in E, Hi. rewrite <- (sq_abs radius) in E, Hi. set (R0 := Rabs radius) in *.
  assert (HR0 : 0 <= R0) by apply Rabs_pos.
  set (k := t - time r - (T0 - time r)) in *. set (k0 := 0 - (T0 - time r)) in *.
  assert (HR1 : 0 < R0) by nra.
  assert (Lo : - R0 < k0 * s) by nra. assert (Up : k0 * s < R0) by nra.
  assert (Z : (k * s - R0) * (k * s + R0) = 0) by nra. apply Rmult_integral in Z.
  split; intros Y0.
  - assert (A : time r < t) by (apply L; exact Y0). assert (k0 < k) by (unfold k, k0; lra).
    assert (Q : k * s = R0) by (destruct Z; nra).
    assert (Q2 : k = R0 / s) by (rewrite <- Q; field; lra). unfold k in Q2. lra.
  - assert (A : t < time r) by (apply S; exact Y0). assert (k < k0) by (unfold k, k0; lra).
    assert (Q : k * s = - R0) by (destruct Z; nra).
    assert (Q2 : k = - (R0 / s)) by (apply (Rmult_eq_reg_r s); [rewrite Q; field; lra|lra]). unfold k in Q2. lra.
Qed.
Theorem wavefront_focus niter tel tx ty lam projection nx rv A q reference P sphereRadius radius D T0 s :
  traced niter tel tx ty (Fin lam) projection nx rv -> rvcs rv = Fcs A -> good_frame A -> lit_rays rv q ->
  referred nx rv q reference P ->
  (forall r, concerned nx rv q reference r -> inside P radius r /\ focused P T0 s r) ->
  ((forall r, concerned nx rv q reference r -> 0 < cz (vel r) * radius) \/
   (forall r, concerned nx rv q reference r -> cz (vel r) * radius <= 0)) ->
  need_attr sphereRadius (tl_radius tel) = Ok (Fin radius) -> lam <> 0 ->
  oa_pupil (tl_attr tel) = Some (Fin D) -> (3 <= nx)%nat ->
  exists wf, wavefront niter tel tx ty (Fin lam) projection nx sphereRadius reference = Ok wf /\
    map snd (l_array _ wf) = map vignetted (rays rv) /\
    forall e, In e (l_array _ wf) -> snd e = false -> fst e = Fin 0.
Proof.
  intros HT HC HA HL HR HAll Side HS Hl HD Hn.
  destruct (wavefront_entries niter tel tx ty lam projection nx rv A q reference P sphereRadius radius D HT HC HA HL HR)
    as (arr & ts & t0 & H1 & H2 & H3 & H4 & H5 & _); try assumption.
  { intros r Hr. apply HAll, Hr. }
  eexists. split; [exact H1|]. cbn [l_array]. split.
  { clear - H2. induction H2 as [|r e l arr W H IH]; [reflexivity|]. cbn [map]. rewrite IH, (proj1 W). reflexivity. }
  assert (K : exists tt, forall r t, concerned nx rv q reference r -> crosses P radius r t -> t = tt).
  { destruct Side as [Sd|Sd]; eexists; intros r t Hr Hc; destruct (HAll r Hr) as [I F];
    destruct (focused_time P radius T0 s r t I F Hc) as [U V]; [apply U|apply V]; apply Sd, Hr. }
  destruct K as (tt & K).
  assert (Ts : forall t, In t ts -> t = tt).
  { assert (G : forall q' , (forall r, In r q' -> In r q) -> forall ts', Forall2 (crosses P radius) q' ts' -> forall t, In t ts' -> t = tt).
    { intros q' Hq' ts' F. induction F as [|r t q' ts' C F IH]; [intros t []|].
      intros t' [<-|Ht]; [apply (K r); [left; apply Hq'; left; reflexivity|exact C]|].
      apply IH; [|exact Ht]. intros r' Hr'. apply Hq'. right. exact Hr'. }
    apply (G q); [auto|exact H3]. }
  assert (T1 : ts <> [] \/ reference = "chief"%string -> t0 = tt).
  { intros Or. inversion H4 as [E|ch t Hc Cr E]; subst.
    - destruct Or as [Or|Or]; [|discriminate]. unfold averageR.
      assert (G : sumR ts = INR (length ts) * tt).
      { clear - Ts. induction ts as [|t ts IH]; [cbn; ring|]. cbn [length]. rewrite S_INR, sumR_cons, IH, (Ts t); [ring|left; reflexivity|].
        intros t' Ht'. apply Ts. right. exact Ht'. }
      rewrite G. field. apply not_0_INR. destruct ts; [congruence|discriminate].
    - apply (K ch); [right; split; [reflexivity|exact Hc]|exact Cr]. }
  intros e He Se.
  assert (M : In (fst e) (map (fun t => Fin ((t0 - t) / lam)) ts)).
  { rewrite <- H5. apply in_map. apply filter_In. split; [exact He|rewrite Se; reflexivity]. }
  apply in_map_iff in M. destruct M as (t & <- & Ht).
  rewrite (Ts t Ht), T1 by (left; intros ->; destruct Ht). f_equal. unfold Rdiv. ring.
Qed.
Lemma radius_used_iff given own radius : radius_used given own radius <-> need_attr given own = Ok (Fin radius).
Proof.
  unfold radius_used, need_attr. split; [intros [->|[-> ->]]; reflexivity|]. destruct given as [a|]; [intros [= ->]; auto|].
  destruct own as [a|]; [intros [= ->]; auto|discriminate].
Qed.
