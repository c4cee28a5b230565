(** A stop and a screen: sample data for the fits and for double Zernike coefficients. *)
From Coq Require Import Reals String List ZArith Bool Lra Psatz Lia.
From Verif Require Import Num NumR Vec CoordSys Surface Medium Ray Bundle Trig Optic Field RayGen Spec OpticsSpec XRFacts CoordFacts RayFacts RootFacts IntersectProofs
  TreeSpec FieldSpec FieldProofs GenSpec GenProofs GenMore GenLast PatternSpec PatternProofs WaveSpec AnalysisSpec Analysis AnalysisProofs AnalysisFocus AnalysisBad AxialSpec AxialProofs AxialTrace
  DiscSpec DiscProofs ZernSpec ZernProofs SamplesZern JacSpec JacProofs PupilProofs SamplesJac Fit FitSpec LinFit LinExist FitProofs FitSlopes DoubleZern.
Import ListNotations.
Open Scope R_scope.

(** ** Rays on the screen *)
Definition flown (L u v : R) (xy : R * R) (r : ray R) : Prop :=
  let g := / sqrt (1 + u * u + v * v) in
  pos r = V3 (fst xy + L * u) (snd xy + L * v) 0 /\ vel r = slant u v /\ time r = L / g + 1 + (fst xy * u + snd xy * v) * g /\
  failed r = false /\ vignetted r = false.
Lemma gap_flies niter lam L u v x y r : aimed (gap_beam lam u v) x y r ->
  exists r1, gets_through niter (Iface (screen L 1)) false global_frame (Fray r) (screen_frame L 1) r1 /\ flown L u v (x, y) r1.
Proof.
  intros (V & T & W & Vg & Fl & D & t & z & Ez & G). cbn [gap_beam b_n b_dir b_dist b_frame b_sframe b_surf b_w] in *.
  rewrite slant_unit in *. cbn in Ez. assert (z = 0) by congruence. subst z.
  assert (V' : vel r = slant u v) by (rewrite <- V; apply vec3_eq; cbn; ring). clear V.
  assert (E : on_line (pos r) (vel r) t = V3 x y 0).
  { rewrite <- (local_of_global global_frame (on_line _ _ _)), G, local_of_global by exact global_good. reflexivity. }
  assert (P : pos r = minusR (V3 x y 0) (timesR t (slant u v))) by (rewrite <- E, V'; apply vec3_eq; cbn; ring).
  pose proof (slant_pos u v) as HG. assert (SQ : 0 < 1 + u * u + v * v) by nra.
  assert (G2 : (1 + u * u + v * v) * (/ sqrt (1 + u * u + v * v) * / sqrt (1 + u * u + v * v)) = 1).
  { pose proof (sqrt_sqrt (1 + u * u + v * v) ltac:(lra)) as Q. set (s := sqrt _) in *. assert (s <> 0) by (intros Z; rewrite Z in Q; lra). rewrite <- Q. field. assumption. }
  unfold flown. cbv zeta. set (g := / sqrt (1 + u * u + v * v)) in *.
  assert (Es : slant u v = V3 (u * g) (v * g) (- g)) by reflexivity.
  assert (Ht : t = 1 + (x * u + y * v) * g).
  { rewrite P, Es in D. unfold dotR in D; cbn in D. assert (t * ((1 + u * u + v * v) * (g * g)) = 1 + (x * u + y * v) * g) by lra. rewrite G2 in H. lra. }
  set (t0 := screen_frame L 1). assert (Gt : good_frame t0) by (apply screen_good; ring).
  assert (CP : chg_pt global_frame t0 (pos r) = V3 (x - t * (u * g)) (y - t * (v * g)) (L + t * g)).
  { rewrite chg_pt_local by (exact global_good || exact Gt). rewrite P, Es. unfold local_point, global_point. apply vec3_eq; cbn; ring. }
  assert (CV : chg_vec global_frame t0 (vel r) = V3 (u * g) (v * g) (- g)).
  { rewrite chg_vec_local. rewrite V', Es. unfold local_dir, global_dir. apply vec3_eq; cbn; ring. }
  assert (Hz : - g <> 0) by lra.
  pose proof (iface_do niter (screen L 1) false global_frame t0 r ((L + t * g) / g) (V3 (u * g) (v * g) (- g)) ltac:(discriminate) eq_refl Fl) as I.
  cbv zeta in I. rewrite CP, CV in I.
  exists (after (V3 (x - t * (u * g)) (y - t * (v * g)) (L + t * g)) (V3 (u * g) (v * g) (- g)) ((L + t * g) / g) (V3 (u * g) (v * g) (- g)) (screen L 1) r). split.
  - split; [|reflexivity]. cbn [trace]. apply I.
    + change (i_surf (screen L 1)) with (Fshape ShPlane). rewrite hit_plane. cbn [cz]. destruct (Req_EM_T _ 0) as [Z|Z]; [contradiction|]. do 2 f_equal. field. lra.
    + reflexivity.
  - unfold after. cbn [pos vel time failed fst snd vignetted hidden screen i_obsc]. rewrite T, Vg. split; [|split; [exact (eq_sym Es)|split; [|split; reflexivity]]].
    + apply vec3_eq; cbn; field; lra.
    + rewrite Ht. field. lra.
Qed.
Lemma gap_traced niter lam L u v rs xys : xys <> [] -> Forall2 (fun r xy => aimed (gap_beam lam u v) (fst xy) (snd xy) r) rs xys ->
  exists rs1, trace niter (tl_optic (gap L 1)) false (Frv (RV rs global_frame)) = Frv (RV rs1 (screen_frame L 1)) /\ Forall2 (flown L u v) xys rs1.
Proof.
  intros Ne H. assert (K : exists rs1, Forall2 (fun r r1 => gets_through niter (Iface (screen L 1)) false global_frame (Fray r) (screen_frame L 1) r1) rs rs1 /\ Forall2 (flown L u v) xys rs1).
  { clear Ne. induction H as [|r [x y] rs xys A H IH]; [exists []; split; constructor|].
    destruct (gap_flies niter lam L u v x y r A) as (r1 & G1 & L1). destruct IH as (rs1 & G & Ld). exists (r1 :: rs1). split; constructor; assumption. }
  destruct K as (rs1 & G & Ld). exists rs1. split; [|exact Ld]. apply trace_list; [|exact G]. intros ->. inversion H. congruence.
Qed.
Lemma flown_lit L u v xys rs A : Forall2 (flown L u v) xys rs -> lit_rays (Frv (RV rs A)) rs.
Proof.
  intros H. unfold lit_rays, Frv; cbn [rays]. induction H as [|xy r xys rs (_ & _ & _ & _ & Vg) H IH]; [reflexivity|].
  cbn [map filter]. change (vignetted (Fray r)) with (vignetted r). rewrite Vg. cbn [negb]. f_equal. exact IH.
Qed.
Lemma flown_points ro L u v xys rs A : Forall2 (flown L u v) xys rs -> lit_points ro (Frv (RV rs A)) xys = map (fun xy => (fst xy / ro, snd xy / ro)) xys.
Proof.
  intros H. unfold lit_points, Frv; cbn [rays]. induction H as [|xy r xys rs (_ & _ & _ & _ & Vg) H IH]; [reflexivity|].
  cbn [map combine filter fst]. change (vignetted (Fray r)) with (vignetted r). rewrite Vg. cbn [negb map fst snd]. f_equal. exact IH.
Qed.
Lemma gap_through lam L e u v xys rs : Forall2 (fun r xy => aimed (gap_beam lam u v) (fst xy) (snd xy) r) rs xys ->
  through_stop (gap L e) (gap_beam lam u v) xys rs.
Proof.
  intros H. split; [exact H|]. split; [reflexivity|]. split; [|split; [|reflexivity]].
  - refine (conj global_good (conj global_good (conj _ (conj _ _)))); cbn; [lra|right; pose proof (slant_pos u v); lra|constructor].
  - unfold meets_stop; cbn. pose proof (slant_pos u v). lra.
Qed.
(** The chief ray, launched with or without the optic. *)
Lemma gap_chief lam u v g : describes true g (gap_beam lam u v) -> forall niter L, exists ch0 ch,
  fromStop g (Fin 1) [(Fin 0, Fin 0)] = Ok ch0 /\ trace niter (tl_optic (gap L 1)) false ch0 = Frv (RV [ch] (screen_frame L 1)) /\ flown L u v (0, 0) ch.
Proof.
  intros HD niter L. destruct (fromStop_plane_wave g (gap_beam lam u v) 1 [(0, 0)] HD) as (cv & E & W).
  { apply (proper_disc_list _ 1); [apply gap_proper|]. intros p [<-|[]]. cbn. lra. }
  destruct (one_ray _ _ _ _ W) as (c & -> & Fc & Ac).
  destruct (gap_traced niter lam L u v [c] [(0, 0)] ltac:(discriminate) ltac:(constructor; [exact Ac|constructor])) as (rs1 & T & F).
  inversion F as [|? ch ? rs' F1 F2]; subst. inversion F2; subst. exists (Frv (RV [c] global_frame)), ch. split; [exact E|]. split; [exact T|exact F1].
Qed.

(** ** Ray aberrations *)
Lemma gap_setting niter lam nrad naz : (2 <= nrad)%nat -> (0 <= naz)%Z -> exists xys rs,
  polar_setting niter (gap 3 1) (Fin 0) (Fin 0) lam "gnomonic" nrad naz "chief" 2 (slant 0 0) (gap_beam lam 0 0) xys (Frv (RV rs (screen_frame 3 1))) (V3 0 0 0) /\
  Forall2 (flown 3 0 0) xys rs /\ In (1, 0) xys.
Proof.
  intros Hn Hz. destruct (polar_points nrad naz Hn Hz) as (xys & Hex & _ & Hp).
  assert (Rim : In (1, 0) xys) by (specialize (Hex 0%nat ltac:(lia)); change (INR 0) with 0 in Hex; replace (2 * PI * (0 / 6)) with 0 in Hex by field; rewrite cos_0, sin_0 in Hex; exact Hex). clear Hex. destruct (Hp lam 3 1 0 0) as (rs0 & E & A).
  assert (Ne : xys <> []) by (intros ->; destruct Rim).
  destruct (gap_traced niter lam 3 0 0 rs0 xys Ne A) as (rs & T & F). exists xys, rs. split; [|split; assumption].
  split; [exact (fwd_gnomonic 0 0)|]. split; [|split; [reflexivity|]].
  - exists rs0. split; [exact E|]. split; [apply gap_through, A|exact T].
  - destruct (gap_chief lam 0 0 _ (gap_describes lam 3 1 0 0) niter 3) as (ch0 & ch & E1 & E2 & (P & _)).
    replace (V3 0 0 0) with (pos ch) by (rewrite P; apply vec3_eq; cbn; ring). exact (from_chief niter (gap 3 1) lam (slant 0 0) _ ch0 ch [] (Fcs (screen_frame 3 1)) E1 E2).
Qed.
Definition XR_eq_dec (a b : XR) : {a = b} + {a <> b}.
Proof. decide equality. apply Req_EM_T. Defined.
Lemma answers_two n A b b' : Forall (fun row => List.length row = n) A -> List.length A = List.length b -> List.length A = List.length b' ->
  exists lstsq, answers lstsq n A b /\ answers lstsq n A b'.
Proof.
  intros HA Lb Lb'. destruct (solution_exists n A b HA Lb) as (x & Hx). destruct (solution_exists n A b' HA Lb') as (x' & Hx'). destruct (rank_exists n A) as (r & Hr).
  exists (fun _ v => if list_eq_dec XR_eq_dec v (map Fin b) then Ok (map Fin x, r) else Ok (map Fin x', r)). split.
  - exists x, r. destruct (list_eq_dec _ _ _); [auto|congruence].
  - destruct (list_eq_dec XR_eq_dec (map Fin b') (map Fin b)) as [Q|Q] eqn:EQ.
    + exists x, r. rewrite EQ. split; [reflexivity|]. split; [|exact Hr]. assert (b' = b) as ->; [|exact Hx].
      clear -Q. revert b Q. induction b' as [|a b' IH]; intros [|c b] Q; try discriminate; [reflexivity|]. injection Q as -> Q. f_equal. apply IH, Q.
    + exists x', r. rewrite EQ. auto.
Qed.
Definition tiltx : list poly2 := [[(2, 1%nat, 0%nat)]].
Lemma fit_rows_width Z pts : Forall (fun row => List.length row = S (List.length Z)) (fit_rows Z pts).
Proof. apply Forall_map, Forall_forall. intros u _. cbn [List.length]. rewrite map_length. reflexivity. Qed.
Lemma flown_xs xys rs : Forall2 (flown 3 0 0) xys rs -> map (fun r => cx (pos r) - 0) rs = map fst xys /\ map (fun r => cy (pos r) - 0) rs = map snd xys.
Proof.
  induction 1 as [|xy r xys rs (P & _) H IH]; [split; reflexivity|]. destruct IH as [I1 I2]. cbn [map]. rewrite I1, I2, P. cbn [cx cy]. split; f_equal; ring.
Qed.
Lemma gap_xy niter lam : exists lstsq c,
  zernikeXYAberrations niter lstsq (zbasis ([] :: tiltx)) (gap 3 1) (Fin 0) (Fin 0) (Fin lam) "gnomonic" 2 6 "chief" 1 (Fin 0) false
  = Ok (map Fin [0; 1 / 2], map Fin (0 :: c)).
Proof.
  destruct (gap_setting niter lam 2 6 ltac:(lia) ltac:(lia)) as (xys & rs & HS & F & Rim).
  pose proof (flown_lit _ _ _ _ _ (screen_frame 3 1) F) as HL. destruct (flown_xs xys rs F) as [X Y].
  pose proof (Forall2_len _ _ _ F) as Len.
  assert (Hpts : lit_points (2 / 2) (Frv (RV rs (screen_frame 3 1))) xys = xys).
  { rewrite (flown_points _ _ _ _ _ _ _ F). rewrite <- (map_id xys) at 2. apply map_ext. intros [x y]. cbn [fst snd]. f_equal; field. }
  destruct (answers_two 2 (fit_rows tiltx xys) (map fst xys) (map snd xys)) as (lstsq & A1 & A2).
  { exact (fit_rows_width tiltx xys). } { unfold fit_rows. rewrite !map_length. reflexivity. } { unfold fit_rows. rewrite !map_length. reflexivity. }
  pose proof (zernikeXY_fits niter lstsq (zbasis ([] :: tiltx)) (gap 3 1) (Fin 0) (Fin 0) lam "gnomonic" 2 6 "chief" 1 0 false 2 tiltx _ _ xys _ _ rs HS HL (zbasis_evaluates _ _ _ _) eq_refl) as K.
  cbv zeta in K. rewrite Hpts in K. cbn [cx cy] in K. rewrite X, Y in K. destruct K as (_ & K). destruct (K A1 A2) as (_ & K1). destruct K1 as (c & e & E & B1 & _).
  { intros (c & Lc & Nz & Z). apply Nz. destruct c as [|a [|]]; try discriminate. rewrite Forall_forall in Z. specialize (Z (1, 0) Rim). unfold combination, at2, mono, sumR in Z. cbn in Z.
    constructor; [lra|constructor]. }
  exists lstsq, e. rewrite E. do 3 f_equal. cbn [map]. f_equal. f_equal. apply (best_fit_exact tiltx _ c [1 / 2] B1 eq_refl).
  clear. apply Forall_forall. intros [[x y] w] Hin. cbn [fst snd].
  assert (w = x). { clear -Hin. induction xys as [|[a b] xys IH]; [destruct Hin|]. cbn [map combine fst] in Hin. destruct Hin as [H|H]; [congruence|apply IH, H]. }
  subst w. unfold tiltx, combination, at2, mono, sumR. cbn. field.
Qed.
Definition zgrads (Z : list poly2) (j : nat) (p : XR * XR) (outer inner : XR) : XR * XR :=
  match p, outer with
  | (Fin x, Fin y), Fin r => (Fin (at2 (dx2 (nth (j - 2) Z [])) (x / r) (y / r) / r), Fin (at2 (dy2 (nth (j - 2) Z [])) (x / r) (y / r) / r))
  | _, _ => (NaN, NaN)
  end.
Lemma zgrads_gradients Z ro ri : gradients (zgrads Z) ro ri Z.
Proof. intros j p x y E. unfold zgrads. replace (2 + j - 2)%nat with j by lia. rewrite (nth_error_nth Z j [] E). reflexivity. Qed.
Definition bowl : list poly2 := [[(1, 2%nat, 0%nat); (1, 0%nat, 2%nat)]].
Lemma slope_rows_width ro Z pts : Forall (fun row => List.length row = S (S (List.length Z))) (slope_rows ro Z pts).
Proof. apply Forall_app. split; apply Forall_map, Forall_forall; intros u _; cbn [List.length]; rewrite map_length; reflexivity. Qed.
Lemma gap_ta niter lam : lam <> 0 -> exists lstsq,
  zernikeTA niter lstsq (zgrads bowl) (gap 3 1) (Fin 0) (Fin 0) (Fin lam) "gnomonic" 2 6 "chief" 2 (Fin 0) None
  = Ok (map Fin [0; 0; - 1 / (6 * lam)]).
Proof.
  intros Hl. destruct (gap_setting niter lam 2 6 ltac:(lia) ltac:(lia)) as (xys & rs & HS & F & Rim).
  pose proof (flown_lit _ _ _ _ _ (screen_frame 3 1) F) as HL. destruct (flown_xs xys rs F) as [X Y].
  assert (Hpts : lit_points (2 / 2) (Frv (RV rs (screen_frame 3 1))) xys = xys).
  { rewrite (flown_points _ _ _ _ _ _ _ F). rewrite <- (map_id xys) at 2. apply map_ext. intros [x y]. cbn [fst snd]. f_equal; field. }
  destruct (answers_exist 3 (slope_rows (2 / 2) bowl xys) (map fst xys ++ map snd xys)) as (lstsq & A).
  { exact (slope_rows_width (2 / 2) bowl xys). } { unfold slope_rows. rewrite !app_length, !map_length. reflexivity. }
  pose proof (zernikeTA_fits niter lstsq (zgrads bowl) (gap 3 1) (Fin 0) (Fin 0) lam "gnomonic" 2 6 "chief" 2 0 None 3 2 bowl _ _ xys _ _ rs HS HL (zgrads_gradients _ _ _) ltac:(lia) eq_refl ltac:(lra)) as K.
  specialize (K (or_intror (conj eq_refl (proj1 (gap_focal niter lam 0 0 6 36 ltac:(lia) ltac:(lia)))))). specialize (K ltac:(lra) Hl).
  cbv zeta in K. rewrite Hpts in K. cbn [cx cy] in K. rewrite X, Y in K. destruct K as (_ & K). destruct (K A) as (_ & K1). destruct K1 as (c & E & B1).
  { intros (c & Lc & Nz & Z). apply Nz. destruct c as [|a [|]]; try discriminate. rewrite Forall_forall in Z. destruct (Z (1, 0) Rim) as [Z1 _]. unfold combination, at2, mono, sumR in Z1. cbn in Z1.
    constructor; [lra|constructor]. }
  exists lstsq. rewrite E. do 2 f_equal. f_equal. f_equal. apply (best_slopes_exact (2 / 2) 3 lam bowl _ c [- 1 / (6 * lam)] B1 eq_refl).
  apply Forall_forall. intros [[x y] w] Hin. cbn [fst snd].
  assert (w = (x, y)). { clear -Hin. induction xys as [|[a b] xys IH]; [destruct Hin|]. cbn [map combine fst snd] in Hin. destruct Hin as [H|H]; [congruence|apply IH, H]. }
  subst w. unfold bowl, slope_x, slope_y, combination, at2, mono, sumR. cbn. split; field; exact Hl.
Qed.

(** ** Wavefronts *)
Definition sphere_time (L u v x y : R) : R := let g := / sqrt (1 + u * u + v * v) in
  L / g + 1 - sqrt (100 - (x * x + y * y) + (x * u + y * v) * g * ((x * u + y * v) * g)).
Lemma flown_crosses L u v x y r : x * x + y * y < 100 -> flown L u v (x, y) r ->
  inside (V3 (L * u) (L * v) 0) 10 r /\ crosses (V3 (L * u) (L * v) 0) 10 r (sphere_time L u v x y).
Proof.
  intros Hr (P & V & T & Fl & _). cbn [fst snd] in *. unfold sphere_time. cbv zeta.
  pose proof (slant_pos u v) as HG. assert (G2 : (1 + u * u + v * v) * (/ sqrt (1 + u * u + v * v) * / sqrt (1 + u * u + v * v)) = 1).
  { pose proof (sqrt_sqrt (1 + u * u + v * v) ltac:(nra)) as Q. set (s := sqrt _) in *. assert (s <> 0) by (intros Z; rewrite Z in Q; nra). rewrite <- Q. field. assumption. }
  assert (Es : slant u v = V3 (u * / sqrt (1 + u * u + v * v)) (v * / sqrt (1 + u * u + v * v)) (- / sqrt (1 + u * u + v * v))) by reflexivity.
  set (g := / sqrt (1 + u * u + v * v)) in *. clearbody g. set (k := (x * u + y * v) * g) in *.
  set (q := 100 - (x * x + y * y) + k * k). assert (Hq : 0 < q) by (unfold q; pose proof (Rle_0_sqr k) as Q; unfold Rsqr in Q; lra).
  pose proof (sqrt_lt_R0 q Hq) as S. pose proof (sqrt_sqrt q ltac:(lra)) as Q. set (s := sqrt q) in *. clearbody s. split.
  - split; [exact Fl|]. split; [rewrite V, Es; intros Z; injection Z; lra|]. unfold distR. apply len_lt_iff. rewrite P. unfold dotR; cbn. nra.
  - split.
    + unfold distR. apply len_abs_iff. rewrite P, V, Es, T. replace (L / g + 1 - s - (L / g + 1 + k)) with (- s - k) by ring.
      unfold dotR, minusR, on_line, plusR, timesR; cbn [cx cy cz].
      transitivity ((x * x + y * y) + 2 * (- s - k) * ((x * u + y * v) * g) + (- s - k) * (- s - k) * ((1 + u * u + v * v) * (g * g))); [ring|].
      rewrite G2. fold k. unfold q in Q. lra.
    + rewrite V, Es, T. cbn [cz]. split; [nra|]. intros _.
      assert (- k < s); [|lra]. destruct (Rle_dec (- k) 0) as [|N]; [lra|]. apply Rsqr_incrst_0; [unfold Rsqr; unfold q in Q; lra|lra|lra].
Qed.
Lemma Forall2_at {A B} (P : A -> B -> Prop) l m i a b : Forall2 P l m -> nth_error l i = Some a -> nth_error m i = Some b -> P a b.
Proof. intros H. revert i. induction H as [|x y l m Q H IH]; intros [|i] E1 E2; cbn in *; try discriminate; [congruence|apply (IH i); assumption]. Qed.
Lemma flown_times xys rs : (forall xy, In xy xys -> fst xy * fst xy + snd xy * snd xy < 100) -> Forall2 (flown 3 0 0) xys rs -> forall ts,
  Forall2 (crosses (V3 0 0 0) 10) rs ts -> ts = map (fun xy => sphere_time 3 0 0 (fst xy) (snd xy)) xys.
Proof.
  intros Hr F. induction F as [|[x y] r xys rs F1 F IH]; intros ts C; inversion C as [|? t ? ts' C1 C2]; subst; [reflexivity|]. cbn [map fst snd]. f_equal.
  - destruct (flown_crosses 3 0 0 x y r (Hr (x, y) (or_introl eq_refl)) F1) as [I1 I2].
    replace (V3 (3 * 0) (3 * 0) 0) with (V3 0 0 0) in I1, I2 by (apply vec3_eq; cbn; ring). apply (crosses_unique _ _ _ _ _ I1 C1 I2).
  - apply IH; [intros; apply Hr; right; assumption|exact C2].
Qed.
Lemma sphere_lead x y : x * x + y * y < 100 -> (sphere_time 3 0 0 0 0 - sphere_time 3 0 0 x y) / 1 = sqrt (100 - (x * x + y * y)) - 10.
Proof.
  intros H. unfold sphere_time. cbv zeta. replace (100 - (0 * 0 + 0 * 0) + _) with (10 * 10) by ring. rewrite sqrt_square by lra.
  replace (100 - (x * x + y * y) + _) with (100 - (x * x + y * y)) by ring. field. apply Rgt_not_eq, sqrt_lt_R0. lra.
Qed.
Lemma gap_zernike niter : exists lstsq c,
  zernike niter lstsq (zbasis ([] :: bowl)) (gap 3 1) (Fin 0) (Fin 0) (Fin 1) "gnomonic" 3 (Some (Fin 10)) "chief" 1 (Fin 0) = Ok (map Fin [0; c]) /\
  best_fit bowl (map (fun xy => (xy, sqrt (100 - (fst xy * fst xy + snd xy * snd xy)) - 10)) (grid_points 3 3 1 1)) [c].
Proof.
  assert (S1 : spacing_of 3 2 = 1) by (cbn; field).
  set (xys := grid_points 3 3 1 1).
  assert (Hxy : forall xy, In xy xys -> fst xy * fst xy + snd xy * snd xy < 100).
  { intros xy Hin. unfold xys, grid_points in Hin. cbn in Hin. repeat (destruct Hin as [<-|Hin]; [cbn; lra|]). destruct Hin. }
  destruct (asGrid_grid (Gen (Some (tl_attr (gap 3 1))) None None None None (Some (Fin 1)) (DirCos (F3 (slant 0 0)))) (gap_beam 1 0 0) (Some (Z.of_nat 3)) None None None None (Some (Sc (Fin 2))) None 1 3 3 (spacing_of 3 2) (spacing_of 3 2)) as (rv0 & E0 & rs0 & -> & Ln & _ & Aim).
  { repeat split.
    - apply by_optic; reflexivity.
    - exists (ConstM (Fin 1)). split; [apply by_optic; reflexivity|reflexivity].
    - left. apply by_optic; reflexivity.
    - apply by_optic; reflexivity. }
  { right. right. split; [reflexivity|]. split; [right; reflexivity|]. eexists _, _. split; [reflexivity|]. split; reflexivity. }
  { apply (by_number_and_length _ _ _ _ _ _ 3 3 2 2); try reflexivity; try lia; right; split; reflexivity. }
  { refine (conj global_good (conj global_good (conj _ (conj _ _)))); cbn [b_n b_dir gap_beam b_surf]; [lra|right; cbn; pose proof (slant_pos 0 0); lra|].
    apply Forall_forall. intros p _. exists 0. reflexivity. }
  rewrite S1 in *. fold xys in Ln, Aim. cbn [b_frame gap_beam] in E0.
  assert (A : Forall2 (fun r xy => aimed (gap_beam 1 0 0) (fst xy) (snd xy) r) rs0 xys).
  { apply Forall2_nth; [exact Ln|]. intros i r [x y] E1 E2. apply (Aim i); assumption. }
  assert (Ne : xys <> []) by discriminate.
  destruct (gap_traced niter 1 3 0 0 rs0 xys Ne A) as (rs & T & F).
  pose proof (flown_lit _ _ _ _ _ (screen_frame 3 1) F) as HL. pose proof (Forall2_len _ _ _ F) as Len.
  assert (Hc : exists ch, nth_error rs 4 = Some ch /\ pos ch = V3 0 0 0 /\ flown 3 0 0 (0, 0) ch).
  { destruct (nth_error rs 4) as [ch|] eqn:Ec; [|apply nth_error_None in Ec; cbn in Len; lia]. exists ch. split; [reflexivity|].
    assert (Ex : nth_error xys 4 = Some (0, 0)).
    { transitivity (Some ((INR 1 - INR (3 / 2)) * 1, (INR 1 - INR (3 / 2)) * 1)); [reflexivity|]. f_equal. f_equal; cbn; ring. }
    pose proof (Forall2_at _ _ _ _ _ _ F Ex Ec) as Fc. split; [|exact Fc]. destruct Fc as (P & _). rewrite P. apply vec3_eq; cbn; ring. }
  destruct Hc as (ch & Ec & Pc & Fc).
  assert (Z0 : V3 (3 * 0) (3 * 0) 0 = V3 0 0 0) by (apply vec3_eq; cbn; ring).
  assert (HI : forall r, In r rs -> inside (V3 0 0 0) 10 r).
  { intros r Hin. apply In_nth_error in Hin. destruct Hin as (i & Ei). destruct (nth_error xys i) as [[x y]|] eqn:Ex.
    2:{ apply nth_error_None in Ex. assert (i < List.length rs)%nat by (apply nth_error_Some; congruence). lia. }
    pose proof (Forall2_at _ _ _ _ _ _ F Ex Ei) as Fr. pose proof (Hxy _ (nth_error_In _ _ Ex)) as Q. cbn [fst snd] in *.
    rewrite <- Z0. apply (flown_crosses 3 0 0 x y r); assumption. }
  assert (HR : referred 3 (Frv (RV rs (screen_frame 3 1))) rs "chief" (V3 0 0 0)).
  { rewrite <- Pc. apply by_chief. cbn [Frv rays]. rewrite nth_error_map. change (central 3) with 4%nat. rewrite Ec. reflexivity. }
  assert (HC : forall r, concerned 3 (Frv (RV rs (screen_frame 3 1))) rs "chief" r -> inside (V3 0 0 0) 10 r).
  { intros r [Hin|[_ Hin]]; [apply HI, Hin|]. apply HI. cbn [Frv rays] in Hin. rewrite nth_error_map in Hin. change (central 3) with 4%nat in Hin. rewrite Ec in Hin. cbn [option_map] in Hin.
    assert (Fray ch = Fray r) as H by congruence. apply Fray_inj in H. subst r. apply (nth_error_In _ _ Ec). }
  set (vals := map (fun xy => sqrt (100 - (fst xy * fst xy + snd xy * snd xy)) - 10) xys).
  destruct (answers_exist 2 (fit_rows bowl xys) vals) as (lstsq & HA).
  { exact (fit_rows_width bowl xys). } { unfold fit_rows, vals. rewrite !map_length. reflexivity. }
  destruct (zernike_fits niter lstsq (zbasis ([] :: bowl)) (gap 3 1) (Fin 0) (Fin 0) 1 "gnomonic" 3 (Some (Fin 10)) 10 "chief" 1 0 2 bowl (slant 0 0) (gap_beam 1 0 0) xys rs0 _ (screen_frame 3 1) rs (V3 0 0 0)
     (fwd_gnomonic 0 0) E0 (gap_through _ _ _ _ _ _ _ A) T eq_refl (screen_good 3 1 ltac:(ring)) HL HR HC (or_introl eq_refl) ltac:(lra) eq_refl ltac:(lia) (zbasis_evaluates _ _ _ _) eq_refl) as (ts & t0 & HT & Ht & K).
  cbv zeta in K.
  assert (Hpts : lit_points (2 / 2) (Frv (RV rs (screen_frame 3 1))) xys = xys).
  { rewrite (flown_points _ _ _ _ _ _ _ F). rewrite <- (map_id xys) at 2. apply map_ext. intros [x y]. cbn [fst snd]. f_equal; field. }
  assert (E1 : t0 = sphere_time 3 0 0 0 0).
  { inversion Ht as [|ch' t Ech Cch]; subst. cbn [Frv rays] in Ech. rewrite nth_error_map in Ech. change (central 3) with 4%nat in Ech. rewrite Ec in Ech. cbn [option_map] in Ech.
    assert (Fray ch = Fray ch') as H by congruence. apply Fray_inj in H. subst ch'.
    apply (crosses_unique (V3 0 0 0) 10 ch); [apply HI, (nth_error_In _ _ Ec)|exact Cch|]. rewrite <- Z0. apply (flown_crosses 3 0 0 0 0 ch); [lra|exact Fc]. }
  rewrite (flown_times xys rs Hxy F ts HT), E1, Hpts in K. rewrite map_map in K.
  replace (map (fun x => (sphere_time 3 0 0 0 0 - sphere_time 3 0 0 (fst x) (snd x)) / 1) xys) with vals in K.
  2:{ unfold vals. apply map_ext_in. intros xy Hin. symmetry. apply sphere_lead, Hxy, Hin. }
  destruct K as (_ & K). destruct (K HA) as (_ & K1). destruct K1 as (c & E & B).
  { intros (c & Lc & Nz & Z). apply Nz. destruct c as [|a [|]]; try discriminate. rewrite Forall_forall in Z.
    assert (Hin : In ((INR 2 - INR (3 / 2)) * 1, (INR 1 - INR (3 / 2)) * 1) xys) by (apply (nth_error_In _ 5); reflexivity).
    specialize (Z _ Hin). unfold combination, at2, mono, sumR in Z. cbn in Z. constructor; [lra|constructor]. }
  destruct c as [|c [|]]; try (destruct B as (B & _); discriminate).
  exists lstsq, c. split; [exact E|]. replace (map (fun xy => (xy, sqrt (100 - (fst xy * fst xy + snd xy * snd xy)) - 10)) xys) with (combine xys vals); [exact B|].
  unfold vals. clear. induction xys as [|xy xys IH]; [reflexivity|]. cbn [map combine]. f_equal. exact IH.
Qed.
(** ** One ray at one field angle *)
Definition unit_piston : list poly2 := [[(1, 0%nat, 0%nat)]].
Lemma piston_orthonormal : orthonormal_family 0 unit_piston.
Proof.
  intros j k p q Ej Ek. apply (low_orthonormal j k); [destruct j as [|[|]]; try discriminate Ej; exact Ej|destruct k as [|[|]]; try discriminate Ek; exact Ek].
Qed.
Lemma node1 x y : field_node midpoint 1 1 x y -> x = x0 /\ y = 0.
Proof.
  intros (L & w & j & Hin & Hj & -> & ->). destruct Hin as [H|[]]. injection H as <- _. replace j with 0%nat by lia. cbn [INR].
  replace (2 * PI * (0 / 1)) with 0 by field. rewrite cos_0, sin_0. unfold x0. replace ((1 + 0) / 2) with (1 / 2) by field. split; ring.
Qed.
Lemma slant34 : slant (3 / 4) 0 = V3 (3 / 5) 0 (- 4 / 5).
Proof. unfold slant. replace (1 + 3 / 4 * (3 / 4) + 0 * 0) with (5 / 4 * (5 / 4)) by field. rewrite sqrt_square by lra. apply vec3_eq; cbn; field. Qed.
Definition oblique_lead : R := sqrt (100 - 1 / 2 + 9 / 50) - 10.
Lemma gap_gq niter : exists rs0 rs,
  gq_setting niter midpoint (gap 3 1) (Fin (3 / 4)) (Fin 0) 1 "gnomonic" 1 (Some 1%nat) (Some (Fin 10)) 10 "chief" 0 2 (slant (3 / 4) 0) (gap_beam 1 (3 / 4) 0) 1 2 rs0 rs
    (screen_frame 3 1) (V3 (3 * (3 / 4)) (3 * 0) 0) (sphere_time 3 (3 / 4) 0 0 0) /\
  wavefront_is (gap_beam 1 (3 / 4) 0) (2 / 2) (V3 (3 * (3 / 4)) (3 * 0) 0) 10 (sphere_time 3 (3 / 4) 0 0 0) 1 rs0 rs (combination [oblique_lead] unit_piston).
Proof.
  set (u := 3 / 4). set (xys := [(x0, 0)]).
  destruct (asSpokes_gq midpoint _ (gap_beam 1 u 0) None 1 (0 * 2 / 2) 1 1 1 [(0, 2)] (Some (CInt 1)) (gap_describes 1 3 1 u 0)) as (rv & E & W).
  { right. split; [reflexivity|]. exists gap_attr, 2. split; [reflexivity|]. split; [reflexivity|lra]. }
  { reflexivity. }
  { constructor; [cbn; lra|constructor]. }
  { lra. } { lra. } { lia. } { left; reflexivity. }
  { refine (conj global_good (conj global_good (conj _ (conj _ _)))); cbn [b_n b_dir gap_beam b_surf]; [lra|right; cbn; pose proof (slant_pos u 0); lra|].
    apply Forall_forall. intros p _. exists 0. reflexivity. }
  match type of W with plane_wave _ _ ?p _ => assert (EP : p = xys) end.
  { cbn. unfold xys. f_equal. unfold gq_radius, x0. replace (2 * PI * (0 / 1)) with 0 by field. rewrite cos_0, sin_0. rewrite !Rmult_1_r.
    replace (0 * 2 / 2 / 1 * (0 * 2 / 2 / 1) + (1 + 0) * (1 - 0 * 2 / 2 / 1 * (0 * 2 / 2 / 1)) / 2) with (1 / 2) by field. f_equal. ring. }
  rewrite EP in W. destruct W as (rs0 & -> & Ln & _ & Aim).
  assert (A : Forall2 (fun r xy => aimed (gap_beam 1 u 0) (fst xy) (snd xy) r) rs0 xys).
  { apply Forall2_nth; [exact Ln|]. intros i r [x y] E1 E2. apply (Aim i); assumption. }
  destruct (gap_traced niter 1 3 u 0 rs0 xys ltac:(discriminate) A) as (rs & T & F).
  pose proof x0_sq as X0.
  assert (HI : Forall (inside (V3 (3 * u) (3 * 0) 0) 10) rs).
  { inversion F as [|? r ? l F1 F2]; subst. inversion F2; subst. constructor; [|constructor]. apply (flown_crosses 3 u 0 x0 0 r); [lra|exact F1]. }
  exists rs0, rs. split.
  - split; [exact (fwd_gnomonic u 0)|]. split; [apply gap_describes|]. destruct (gap_through 1 3 1 u 0 xys rs0 A) as (_ & B1 & B2 & B3 & _).
    split; [exact B1|]. split; [exact B2|]. split; [exact B3|]. split; [reflexivity|]. split; [lra|]. split; [lra|]. split; [lra|].
    split; [exists [(0, 2)]; split; [reflexivity|split; [constructor; [cbn; lra|constructor]|exact midpoint_rule]]|].
    split; [lia|]. split; [left; reflexivity|]. split; [split; [exact E|split; [exact T|apply screen_good; ring]]|]. split; [left; reflexivity|]. split; [|exact HI].
    destruct (gap_chief 1 u 0 (Gen None (Some (Fin 1)) (Some (ConstM (Fin 1))) (Some (Plane, Fcs global_frame)) None (Some (Fin 1)) (DirCos (F3 (slant u 0))))) with (niter := niter) (L := 3) as (ch0 & ch & E1 & E2 & Fc).
    { repeat split.
      - apply by_argument; reflexivity.
      - exists (ConstM (Fin 1)). split; [apply by_argument; reflexivity|reflexivity].
      - left. apply by_argument; reflexivity.
      - apply by_default; reflexivity. }
    destruct (flown_crosses 3 u 0 0 0 ch ltac:(lra) Fc) as [I1 I2].
    assert (Pc : V3 (3 * u) (3 * 0) 0 = pos ch) by (destruct Fc as (P & _); rewrite P; apply vec3_eq; cbn; ring).
    rewrite Pc in I1, I2 |- *.
    exact (gq_chief niter (gap 3 1) 1 (slant u 0) rs (screen_frame 3 1) 10 (Fin 1) (Plane, Fcs global_frame) ch0 ch [] _ eq_refl eq_refl E1 E2 I1 I2).
  - intros i r0 r x y t E0 E1 Ha Hc. inversion F as [|? r' ? l F1 F2]; subst. inversion F2; subst.
    destruct i as [|i]; [|destruct i; discriminate E1]. injection E1 as ->.
    destruct (flown_crosses 3 u 0 x0 0 r ltac:(lra) F1) as [I1 I2]. rewrite (crosses_unique _ _ _ _ _ I1 Hc I2).
    unfold sphere_time, combination, oblique_lead, unit_piston, u. cbn. unfold mono. cbn [fst snd pow].
    replace (1 + 3 / 4 * (3 / 4) + 0 * 0) with (5 / 4 * (5 / 4)) by field. rewrite (sqrt_square (5 / 4)) by lra.
    replace (100 - (0 * 0 + 0 * 0) + _) with (10 * 10) by field. rewrite (sqrt_square 10) by lra.
    replace (100 - (x0 * x0 + 0 * 0) + _) with (100 - 1 / 2 + 9 / 50); [field|].
    transitivity (100 - x0 * x0 + x0 * x0 * (9 / 25)); [rewrite X0; field|field].
Qed.
Lemma gap_double niter :
  doubleZernike niter midpoint (zbasis ([] :: unit_piston)) (gap 3 1) (Fin (3 / 4 / x0)) (Fin 1) 1 (Some 1%nat) 1 "gnomonic" (Some (Fin 10)) "chief" 1 (Fin 0)
  = Ok [map Fin [0; 0]; map Fin [0; oblique_lead]].
Proof.
  pose proof x0_range as X.
  rewrite (double_wavefronts niter midpoint (zbasis ([] :: unit_piston)) (gap 3 1) (3 / 4 / x0) 1 1 (Some 1%nat) 1 2 1 "gnomonic" (Some (Fin 10)) 10 "chief" 1 0 2
    unit_piston unit_piston [[oblique_lead]] 0); try reflexivity; try lia.
  - apply Rmult_lt_0_compat; [lra|apply Rinv_0_lt_compat; lra].
  - exists [(0, 2)]. split; [reflexivity|split; [constructor; [cbn; lra|constructor]|exact midpoint_rule]].
  - split; [lia|left; reflexivity].
  - intros x y H. apply node1 in H. destruct H as [-> ->]. destruct (gap_gq niter) as (rs0 & rs & HS & HW).
    replace (3 / 4 / x0 * x0) with (3 / 4) by (field; lra). replace (3 / 4 / x0 * 0) with 0 by ring.
    exists (slant (3 / 4) 0), (gap_beam 1 (3 / 4) 0), rs0, rs, (screen_frame 3 1), (V3 (3 * (3 / 4)) (3 * 0) 0), (sphere_time 3 (3 / 4) 0 0 0). split; [exact HS|].
    intros i r0 r a b t E0 E1 Ha Hc. rewrite (HW i r0 r a b t E0 E1 Ha Hc). unfold combination; cbn. unfold mono; cbn [fst snd pow]. ring.
  - constructor; [reflexivity|constructor].
  - apply zbasis_evaluates.
  - apply piston_orthonormal.
  - apply zbasis_evaluates.
  - apply piston_orthonormal.
  - repeat constructor.
  - repeat constructor.
Qed.
