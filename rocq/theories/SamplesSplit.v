(** Concrete glass plates for examples and refutations about splitting traces. *)
From Coq Require Import Reals String List Bool ZArith Lra Psatz Lia.
From Verif Require Import Num NumR Vec CoordSys Surface Medium Obscuration Ray Bundle Optic Spec OpticsSpec TreeSpec XRFacts CoordFacts FrameProofs RayFacts RefractProofs SplitSpec SplitProofs.
Import ListNotations.
Open Scope R_scope.

(** A plate bounded by the planes z = 0 and z = 1 whose faces reflect a and transmit t; index 1 everywhere. *)
Definition face (a t : R) (name : string) (z : R) : iface XR :=
  IF KRefractive Plane name (Fcs (CS (V3 0 0 z) eyeR)) None (ConstM (Fin 1)) (ConstM (Fin 1))
    (Some (SimpleCoating (Fin a) (Fin t))) (Some (SimpleCoating (Fin a) (Fin t))) false.
Definition plate_attr : cattr XR := CA false "plate" (Fcs (CS (V3 0 0 0) eyeR)) (ConstM (Fin 1)) (ConstM (Fin 1)) false None.
Definition plate (a t : R) : optic XR := Compound plate_attr [Iface (face a t "near" 0); Iface (face a t "far" 1)].
Definition one_ray (bad : bool) : prv XR :=
  PRV (RV [Ray (F3 (V3 0 0 (-1))) (F3 (V3 0 0 1)) (Fin 0) (Fin 1) (Fin 1) false bad] (Fcs (CS (V3 0 0 0) eyeR))) None.

Lemma plate_passive rho a t : 0 <= a <= rho -> 0 <= t -> a + t <= 1 -> passive_optic rho (plate a t).
Proof.
  intros Ha Ht Hs. assert (K : forall n z, passive_coats rho (face a t n z)).
  { intros n z. split; cbn; intros c E; injection E as <-; exists a, t; auto. }
  cbn. auto.
Qed.
Lemma one_ray_sound : Forall (sound 1) (rays (p_rv (one_ray false))).
Proof. apply Forall_cons; [|apply Forall_nil]. right. split; [reflexivity|]. exists 1. split; [reflexivity|lra]. Qed.

(** A loop that feeds itself between two items never ends. *)
Section Spin.
  Variables (mf : XR) (g0 g1 : bool -> prv XR -> res (split_out XR)) (P : prv XR -> Prop).
  Hypothesis H0 : forall x, P x -> exists fo re y, g0 true x = Ok (Lists fo re) /\ kept mf fo = [y] /\ P y.
  Hypothesis H1 : forall x, P x -> exists fo re y, g1 false x = Ok (Lists fo re) /\ kept mf re = [y] /\ P y.
  Lemma spin : forall fuel x q outF outR, P x ->
    split_loop [g0; g1] mf fuel ((x, true, 0%nat) :: q) outF outR = Err OutOfFuel /\
    split_loop [g0; g1] mf fuel ((x, false, 1%nat) :: q) outF outR = Err OutOfFuel.
  Proof.
    induction fuel as [|fuel IH]; intros x q outF outR Hx; [split; reflexivity|]. split.
    - destruct (H0 x Hx) as (fo & re & y & E & K & Hy). cbn [split_loop nth_error]. rewrite E. cbn [bind]. fold (kept mf fo) (kept mf re). rewrite K. cbn. apply IH, Hy.
    - destruct (H1 x Hx) as (fo & re & y & E & K & Hy). cbn [split_loop nth_error]. rewrite E. cbn [bind]. fold (kept mf fo) (kept mf re). rewrite K. cbn. apply IH, Hy.
  Qed.
  Hypothesis Hs : forall x, P x -> exists fo re y, g0 false x = Ok (Lists fo re) /\ kept mf fo = [y] /\ P y.
  Lemma spin_start fuel x : P x -> split_loop [g0; g1] mf fuel [(x, false, 0%nat)] [] [] = Err OutOfFuel.
  Proof.
    intros Hx. destruct fuel as [|fuel]; [reflexivity|]. destruct (Hs x Hx) as (fo & re & y & E & K & Hy). cbn [split_loop nth_error]. rewrite E. cbn [bind].
    fold (kept mf fo) (kept mf re). rewrite K. cbn. apply spin, Hy.
  Qed.
End Spin.

(** A single ray that stays alive. *)
Definition single (ok : ray XR -> Prop) (x : prv XR) : Prop :=
  exists r c, rays (p_rv x) = [r] /\ ok r /\ rvcs (p_rv x) = Fcs (CS c eyeR).
Lemma kept_single mf r k p : alive mf r = true -> kept mf [Some (PRV (RV [r] k) p)] = [PRV (RV [r] k) p].
Proof. intros H. unfold kept, keep_some, prune. cbn. rewrite H. reflexivity. Qed.
Definition split1 (niter : nat) (a t : R) (c : vR) (z : R) (r : ray XR) : ray XR * ray XR :=
  ray_rsplit Plane (F3 (drR (CS c eyeR) (CS (V3 0 0 z) eyeR))) (FM (drotR (CS c eyeR) (CS (V3 0 0 z) eyeR))) (ConstM (Fin 1)) (SimpleCoating (Fin a) (Fin t)) niter r.
Lemma face_split niter a t n z rv x r c : rays (p_rv x) = [r] -> rvcs (p_rv x) = Fcs (CS c eyeR) ->
  exists p, let out := split1 niter a t c z r in
  let k := Fcs (CS (V3 0 0 z) eyeR) in
  iface_split niter (face a t n z) rv x =
    Ok (if rv then Lists [Some (PRV (RV [snd out] k) p)] [Some (PRV (RV [fst out] k) p)] else Lists [Some (PRV (RV [fst out] k) p)] [Some (PRV (RV [snd out] k) p)]).
Proof.
  intros Er Ec. exists (Some (add_path (p_path x) n)). cbv zeta. unfold iface_split. destruct x as [[rs k] pth]. cbn in Er, Ec. subst rs k.
  unfold rSplit. cbn [face i_skip i_kind i_fwd i_rev i_surf i_in i_out i_cs i_obsc i_name p_rv p_path]. unfold rv_rsplit. cbn [dest rays rvcs]. rewrite mkCT_F. cbn [ct_dr ct_drot map].
  destruct rv; reflexivity.
Qed.
Lemma plate_spins niter m a t (ok : ray XR -> Prop) x : (forall r, ok r -> alive (Fin m) r = true) ->
  (forall c z r, ok r -> ok (snd (split1 niter a t c z r))) -> (forall c z r, ok r -> ok (fst (split1 niter a t c z r))) ->
  single ok x -> forall fuel, traceSplit niter (Fin m) fuel (plate a t) false x = Err OutOfFuel.
Proof.
  intros Hal H2 H1 Hx fuel. unfold plate. cbn [traceSplit plate_attr c_skip map].
  rewrite (spin_start (Fin m) _ _ (single ok)); [reflexivity| | | |exact Hx].
  all: intros y (r & c & Er & Hr & Ec).
  - destruct (face_split niter a t "near" 0 true y r c Er Ec) as (p & E). eexists _, _, _. split; [exact E|]. split; [apply kept_single, Hal, H2, Hr|].
    eexists _, _. split; [reflexivity|]. split; [apply H2, Hr|reflexivity].
  - destruct (face_split niter a t "far" 1 false y r c Er Ec) as (p & E). eexists _, _, _. split; [exact E|]. split; [apply kept_single, Hal, H2, Hr|].
    eexists _, _. split; [reflexivity|]. split; [apply H2, Hr|reflexivity].
  - destruct (face_split niter a t "near" 0 false y r c Er Ec) as (p & E). eexists _, _, _. split; [exact E|]. split; [apply kept_single, Hal, H1, Hr|].
    eexists _, _. split; [reflexivity|]. split; [apply H1, Hr|reflexivity].
Qed.
(** A ray flagged failed but not vignetted is copied to both sides. *)
Lemma failed_spins niter fuel : traceSplit niter (Fin (1/1000)) fuel (plate 0 1) false (one_ray true) = Err OutOfFuel.
Proof.
  apply (plate_spins niter _ _ _ (fun r => failed r = true /\ vignetted r = false /\ flux r = Fin 1)).
  - intros r (_ & Hv & Hf). unfold alive. rewrite Hv, Hf. cbn. destruct (Rle_dec _ _); [reflexivity|lra].
  - intros c z r H. unfold split1, ray_rsplit. destruct H as (E & H). rewrite E. auto.
  - intros c z r H. unfold split1, ray_rsplit. destruct H as (E & H). rewrite E. auto.
  - eexists _, _. split; [reflexivity|]. split; [cbn; auto|reflexivity].
Qed.
(** With no lower limit on the flux the reflections between the faces go on for ever. *)
Definition axial (r : ray XR) : Prop := exists p s t w f, r = Ray (F3 p) (F3 (V3 0 0 s)) (Fin t) (Fin w) (Fin f) false false /\ s * s = 1 /\ 0 <= f.
Lemma axial_split niter c z r : axial r -> axial (fst (split1 niter (1/2) (1/2) c z r)) /\ axial (snd (split1 niter (1/2) (1/2) c z r)).
Proof.
  intros (p & s & t & w & f & -> & Hs & Hf). unfold split1, ray_rsplit. cbn [pos vel failed]. rewrite fwd_point_F, fwd_vel_F.
  assert (Ev : applyR (transR (drotR (CS c eyeR) (CS (V3 0 0 z) eyeR))) (V3 0 0 s) = V3 0 0 s) by (apply vec3_eq; cbn; ring). rewrite Ev.
  set (q := applyR _ (minusR p _)). assert (Hs0 : s <> 0) by (intros ->; lra). unfold hit, tti, plane_tti. cbn [cx cy cz F3 vmap].
  xunf. rewrite xeqb_f by exact Hs0. rewrite xdiv_fin by exact Hs0.
  change (V3 (Fin (cx q)) (Fin (cy q)) (Fin (cz q))) with (F3 q). change (V3 (Fin 0) (Fin 0) (Fin s)) with (F3 (V3 0 0 s)). rewrite advance_F.
  assert (Hv : V3 0 0 s <> zeroR) by (intros E; injection E as E; lra).
  assert (Hl : lenR (V3 0 0 s) = 1) by (unfold lenR, dotR; cbn; replace (0 * 0 + 0 * 0 + s * s) with 1 by lra; apply sqrt_1).
  assert (Hi : index_of (V3 0 0 s) = 1) by (unfold index_of; rewrite Hl; field).
  rewrite invspeed_F, Hi, scale_F by exact Hv. change (normal Plane _ _) with (F3 (V3 0 0 1)). rewrite orient_F.
  set (u := timesR 1 (V3 0 0 s)). cbn [getCoefs reflectivity transmissivity getN wavelength]. rewrite refract_vel_F by lra.
  assert (E2 : sin2R u (V3 0 0 1) 1 1 = 0) by (unfold sin2R, u, dotR; cbn; nra). destruct (Rlt_dec 1 _); [lra|]. cbn [fst snd].
  assert (Hsd : sideR u (V3 0 0 1) * sideR u (V3 0 0 1) = 1) by apply side_sq.
  assert (Hd : dotR u (V3 0 0 1) = s) by (unfold u, dotR; cbn; ring).
  assert (Hss : sideR u (V3 0 0 1) * s = -1) by (destruct (side_cases u (V3 0 0 1)) as [(K & ->)|(K & ->)]; rewrite Hd in K; nra).
  assert (EV1 : refrR u (V3 0 0 1) 1 1 = V3 0 0 s).
  { unfold refrR. rewrite E2, Hd, Rminus_0_r, sqrt_1. rewrite Hss. replace (1 / 1 * (-1) + 1) with 0 by field. apply vec3_eq; cbn; field. }
  set (sd := sideR u (V3 0 0 1)) in *. split.
  - exists (on_line q (V3 0 0 s) (- cz q / s)), s, (t + - cz q / s), w, (f * (1/2)). rewrite EV1. split; [reflexivity|]. split; [exact Hs|lra].
  - exists (on_line q (V3 0 0 s) (- cz q / s)), (- s), (t + - cz q / s), w, (f * (1/2)). split; [|split; [lra|lra]].
    cbn [flux time wavelength vignetted failed]. f_equal. xunf. rewrite !xdiv_fin by lra. rewrite Hd. apply vec3_eq; cbn; f_equal; try field.
    transitivity (s - 2 * (sd * sd) * s); [field|rewrite Hsd; ring].
Qed.
Lemma unlimited_spins niter fuel : traceSplit niter (Fin 0) fuel (plate (1/2) (1/2)) false (one_ray false) = Err OutOfFuel.
Proof.
  apply (plate_spins niter _ _ _ axial).
  - intros r (p & s & t & w & f & -> & _ & Hf). unfold alive. cbn. destruct (Rle_dec _ _); [reflexivity|lra].
  - intros c z r H. apply axial_split, H.
  - intros c z r H. apply axial_split, H.
  - eexists _, _. split; [reflexivity|]. split; [|reflexivity]. exists (V3 0 0 (-1)), 1, 0, 1, 1. split; [reflexivity|]. lra.
Qed.
Definition plate_skip : optic XR :=
  Compound plate_attr [Iface (IF KRefractive Plane "near" (Fcs (CS (V3 0 0 0) eyeR)) None (ConstM (Fin 1)) (ConstM (Fin 1))
    (Some (SimpleCoating (Fin (1/2)) (Fin (1/2)))) (Some (SimpleCoating (Fin (1/2)) (Fin (1/2)))) true); Iface (face (1/2) (1/2) "far" 1)].
Lemma skipped_item niter fuel : traceSplit niter (Fin (1/1000)) (S fuel) plate_skip false (one_ray false) = Err TypeError.
Proof. reflexivity. Qed.
