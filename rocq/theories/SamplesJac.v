(** A stop and a screen behind it, and a stop in front of a flat mirror: sample data for the
    Jacobian and for the exit pupil. *)
From Coq Require Import Reals String List ZArith Bool Lra Psatz Lia.
From Verif Require Import Num NumR Vec CoordSys Surface Medium Ray Bundle Trig Optic Field RayGen Spec OpticsSpec XRFacts CoordFacts RayFacts RootFacts IntersectProofs
  TreeSpec FieldSpec FieldProofs GenSpec GenProofs GenMore GenLast PatternSpec PatternProofs WaveSpec AnalysisSpec Analysis AnalysisProofs AnalysisFocus AnalysisBad AxialSpec AxialProofs AxialTrace ZernProofs
  JacSpec JacProofs PupilProofs.
Import ListNotations.
Open Scope R_scope.

Definition gap_attr : oattr XR := OA (Some (Fin 1)) (ConstM (Fin 1)) (Some (Plane, Fcs global_frame)) (Some (Fin 2)) None (Fcs global_frame).
(** The frame of the screen, L below the stop; e is 1 or -1, its z axis up or down. *)
Definition screen_frame (L e : R) : frame := CS (V3 0 0 (- L)) (M3 1 0 0 0 e 0 0 0 e).
Definition screen (L e : R) : iface XR := IF KDetector Plane "D" (Fcs (screen_frame L e)) None (ConstM (Fin 1)) (ConstM (Fin 1)) None None false.
Definition gap (L e : R) : telescope XR := Tel (Iface (screen L e)) gap_attr None.
Definition slant (u v : R) : vR := let g := / sqrt (1 + u * u + v * v) in V3 (u * g) (v * g) (- g).
Definition gap_beam (lam u v : R) : beam := Beam 1 (slant u v) global_frame 1 lam Plane global_frame.
Lemma global_good : good_frame global_frame.
Proof. apply orth_eye. Qed.
Lemma screen_good L e : e * e = 1 -> good_frame (screen_frame L e).
Proof. intros H. unfold good_frame, screen_frame, orthonormal, dotR; cbn. repeat split; lra. Qed.
Lemma slant_pos u v : 0 < / sqrt (1 + u * u + v * v).
Proof. apply Rinv_0_lt_compat, sqrt_lt_R0. nra. Qed.
Lemma slant_unit u v : unitR (slant u v) = slant u v.
Proof.
  assert (L : lenR (slant u v) = 1).
  { unfold lenR, dotR, slant; cbn. set (s := sqrt (1 + u * u + v * v)). assert (S : 0 < s) by (apply sqrt_lt_R0; nra).
    assert (Q : s * s = 1 + u * u + v * v) by (apply sqrt_sqrt; nra).
    replace (_ + _ + _) with ((1 + u * u + v * v) * / (s * s)) by (field; lra). rewrite <- Q, Rinv_r by nra. apply sqrt_1. }
  unfold unitR. rewrite L, Rinv_1. apply vec3_eq; cbn; ring.
Qed.
Lemma gap_describes lam L e u v : describes true (Gen (Some (tl_attr (gap L e))) None None None None (Some (Fin lam)) (DirCos (F3 (slant u v)))) (gap_beam lam u v).
Proof.
  repeat split.
  - apply by_optic; reflexivity.
  - exists (ConstM (Fin 1)). split; [apply by_optic; reflexivity|reflexivity].
  - left. apply by_optic; reflexivity.
  - apply by_optic; reflexivity.
Qed.
Lemma gap_proper lam u v : proper_disc (gap_beam lam u v) 1.
Proof.
  split.
  - refine (conj global_good (conj global_good (conj _ (conj _ _)))); cbn; [lra|right; pose proof (slant_pos u v); lra|constructor].
  - intros x y _. exists 0. reflexivity.
Qed.
(** All directions share the points of the stop. *)
Lemma polar_points nrad naz : (2 <= nrad)%nat -> (0 <= naz)%Z -> exists xys,
  (forall j, (j < 6)%nat -> In (cos (2 * PI * (INR j / 6)), sin (2 * PI * (INR j / 6))) xys) /\
  (forall xy, In xy xys -> fst xy * fst xy + snd xy * snd xy <= 1) /\ forall lam L e u v, exists rs,
  asPolar (Gen (Some (tl_attr (gap L e))) None None None None (Some (Fin lam)) (DirCos (F3 (slant u v)))) None None nrad naz 6 (Fin 1) None = Ok (Frv (RV rs global_frame)) /\
  Forall2 (fun r xy => aimed (gap_beam lam u v) (fst xy) (snd xy) r) rs xys.
Proof.
  intros Hn Hz.
  destruct (hexapolar_rings 1 0 nrad naz 6 ltac:(lra) ltac:(lra) ltac:(lia) ltac:(intros; lia) Hz ltac:(lia)) as (ns & HL & H1 & _ & HN).
  exists (map cartesian (rings 1 0 ns)). split.
  { intros j Hj. destruct ns as [|n ns]; [cbn in HL; lia|]. destruct (HN 0%nat n eq_refl) as (_ & K). destruct K as ((m' & Hm & Em') & _); [intros [_ Q]; lia|].
    pose (m := Z.to_nat m'). assert (Em : n = (m * 6)%nat) by lia. assert (Hm1 : (1 <= m)%nat) by lia. clearbody m. clear Em' Hm.
    assert (I : In (1 + INR 0 / INR (List.length (n :: ns) - 1) * (0 - 1), 2 * PI * (INR (j * m) / INR n)) (rings 1 0 (n :: ns))).
    { unfold rings. apply in_flat_map. exists (0%nat, n). split; [left; reflexivity|]. cbn [fst snd]. unfold circle_points, evenly.
      apply (in_map (fun j => (_, 2 * PI * (INR j / INR n)))). apply in_seq. nia. }
    apply (in_map cartesian) in I. replace (cos _, sin _) with (cartesian (1 + INR 0 / INR (List.length (n :: ns) - 1) * (0 - 1), 2 * PI * (INR (j * m) / INR n))); [exact I|].
    assert (M0 : INR m <> 0) by (apply not_0_INR; lia).
    unfold cartesian; cbn [fst snd]. change (INR 0) with 0. replace (INR (j * m) / INR n) with (INR j / 6); [f_equal; unfold Rdiv; ring|].
    rewrite Em, !mult_INR. replace (INR 6) with 6 by (cbn; ring). field. exact M0. }
  split.
  { intros xy Hin. apply in_map_iff in Hin. destruct Hin as (q & <- & Hin). rewrite cartesian_sq. apply rings_inside in Hin; [|lra]. nra. }
  intros lam L e u v. destruct (settle_ok true _ _ (gap_describes lam L e u v)) as (md & Hm & Hs). cbn [negb] in Hs.
  assert (HR : radii_from (Gen (Some (tl_attr (gap L e))) None None None None (Some (Fin lam)) (DirCos (F3 (slant u v)))) None None 1 0).
  { split; [right; split; [reflexivity|]; exists gap_attr, 2; repeat split; lra|right; left; repeat split]. right. exists gap_attr. split; reflexivity. }
  set (g := Gen _ _ _ _ _ _ _) in *.
  assert (W : exists rv, asPolar g None None nrad naz 6 (Fin 1) None = Ok rv /\
    plane_wave (gap_beam lam u v) (repeat 1 (List.length (map cartesian (rings 1 0 ns)))) (map cartesian (rings 1 0 ns)) rv).
  { unfold asPolar. rewrite Hs. cbn [bind]. rewrite (polar_radii_ok g None None 1 0 HR). cbn [bind].
    rewrite H1. cbn [bind]. eexists. split; [reflexivity|].
    rewrite map_map. replace (map (fun x => polar_xy (Fpair x)) (rings 1 0 ns)) with (map Fxy (map cartesian (rings 1 0 ns))) by (rewrite map_map; reflexivity).
    apply launch_flux_wave; [|exact Hm].
    apply (proper_disc_list _ 1); [apply gap_proper|]. intros p Hin. apply in_map_iff in Hin. destruct Hin as (q & <- & Hin). rewrite cartesian_sq.
    apply rings_inside in Hin; [|lra]. nra. }
  destruct W as (rv & E & (rs & -> & Ln & _ & A)). exists rs. split; [exact E|].
  apply Forall2_nth; [exact Ln|]. intros i r [x y] E1 E2. apply (A i); assumption.
Qed.
(** A ray aimed at (x, y) meets the screen at (x + L u, e (y + L v)). *)
Definition landed (L e u v : R) (xy : R * R) (r : ray R) : Prop :=
  cx (pos r) = fst xy + L * u /\ cy (pos r) = e * (snd xy + L * v) /\ vignetted r = false.
Lemma gap_ray niter lam L e u v x y r : e * e = 1 -> aimed (gap_beam lam u v) x y r ->
  exists r1, gets_through niter (Iface (screen L e)) false global_frame (Fray r) (screen_frame L e) r1 /\ landed L e u v (x, y) r1.
Proof.
  intros He (V & T & W & Vg & Fl & D & t & z & Ez & G). cbn [gap_beam b_n b_dir b_dist b_frame b_sframe b_surf b_w] in *.
  rewrite slant_unit in *. cbn in Ez. assert (z = 0) by congruence. subst z.
  assert (V' : vel r = slant u v) by (rewrite <- V; apply vec3_eq; cbn; ring). clear V.
  assert (E : on_line (pos r) (vel r) t = V3 x y 0).
  { rewrite <- (local_of_global global_frame (on_line _ _ _)), G, local_of_global by exact global_good. reflexivity. }
  assert (P : pos r = minusR (V3 x y 0) (timesR t (slant u v))) by (rewrite <- E, V'; apply vec3_eq; cbn; ring).
  pose proof (slant_pos u v) as HG. set (g := / sqrt (1 + u * u + v * v)) in *.
  assert (Es : slant u v = V3 (u * g) (v * g) (- g)) by reflexivity.
  set (t0 := screen_frame L e). assert (Gt : good_frame t0) by (apply screen_good, He).
  assert (CP : chg_pt global_frame t0 (pos r) = V3 (x - t * (u * g)) (e * (y - t * (v * g))) (e * (L + t * g))).
  { rewrite chg_pt_local by (exact global_good || exact Gt). rewrite P, Es. unfold local_point, global_point. apply vec3_eq; cbn; ring. }
  assert (CV : chg_vec global_frame t0 (vel r) = V3 (u * g) (e * (v * g)) (- (e * g))).
  { rewrite chg_vec_local. rewrite V', Es. unfold local_dir, global_dir. apply vec3_eq; cbn; ring. }
  assert (Hz : - (e * g) <> 0) by (intros Z; assert (e * g = 0) by lra; assert (e * (e * g) = 0) by (rewrite H; ring); nra).
  pose proof (iface_do niter (screen L e) false global_frame t0 r ((L + t * g) / g) (V3 (u * g) (e * (v * g)) (- (e * g))) ltac:(discriminate) eq_refl Fl) as I.
  cbv zeta in I. rewrite CP, CV in I.
  exists (after (V3 (x - t * (u * g)) (e * (y - t * (v * g))) (e * (L + t * g))) (V3 (u * g) (e * (v * g)) (- (e * g))) ((L + t * g) / g) (V3 (u * g) (e * (v * g)) (- (e * g))) (screen L e) r). split.
  - split; [|reflexivity]. cbn [trace]. apply I.
    + change (i_surf (screen L e)) with (Fshape ShPlane). rewrite hit_plane. cbn [cz]. destruct (Req_EM_T _ 0) as [Z|Z]; [contradiction|]. do 2 f_equal. field. split; [lra|]. intros Z'. apply Hz. rewrite Z'. ring.
    + reflexivity.
  - unfold landed, after. cbn [pos vel fst snd vignetted hidden screen i_obsc]. split; [|split].
    + cbn. field. lra.
    + cbn. field. lra.
    + rewrite Vg. reflexivity.
Qed.
Lemma gap_trace niter lam L e u v rs xys : e * e = 1 -> xys <> [] -> Forall2 (fun r xy => aimed (gap_beam lam u v) (fst xy) (snd xy) r) rs xys ->
  exists rs1, trace niter (tl_optic (gap L e)) false (Frv (RV rs global_frame)) = Frv (RV rs1 (screen_frame L e)) /\
    Forall2 (landed L e u v) xys rs1.
Proof.
  intros He Ne H. assert (K : exists rs1, Forall2 (fun r r1 => gets_through niter (Iface (screen L e)) false global_frame (Fray r) (screen_frame L e) r1) rs rs1 /\ Forall2 (landed L e u v) xys rs1).
  { clear Ne. induction H as [|r [x y] rs xys A H IH]; [exists []; split; constructor|].
    destruct (gap_ray niter lam L e u v x y r He A) as (r1 & G1 & L1). destruct IH as (rs1 & G & Ld). exists (r1 :: rs1). split; constructor; assumption. }
  destruct K as (rs1 & G & Ld). exists rs1. split; [|exact Ld]. apply trace_list; [|exact G]. intros ->. inversion H. congruence.
Qed.
Lemma gap_moved niter lam L e u v nrad naz : e * e = 1 -> (2 <= nrad)%nat -> (0 <= naz)%Z -> exists q, q <> [] /\
  moved_rays niter (gap L e) u v lam nrad naz "gnomonic" q /\ Forall (moves_by L 0 0 (e * L)) q.
Proof.
  intros He Hn Hz. destruct (polar_points nrad naz Hn Hz) as (xys & Rim & _ & Hp). assert (Ne : xys <> []) by (intros ->; destruct (Rim 0%nat); lia).
  destruct (Hp lam L e u v) as (r0 & E0 & A0). destruct (Hp lam L e (u + dtheta) v) as (rx & Ex & Ax). destruct (Hp lam L e u (v + dtheta)) as (ry & Ey & Ay).
  destruct (gap_trace niter lam L e _ _ _ _ He Ne A0) as (s0 & T0 & L0). destruct (gap_trace niter lam L e _ _ _ _ He Ne Ax) as (sx & Tx & Lx).
  destruct (gap_trace niter lam L e _ _ _ _ He Ne Ay) as (sy & Ty & Ly).
  exists (combine (combine s0 sx) sy). split; [|split].
  - destruct L0 as [|? ? ? ? _ _]; [congruence|]. destruct Lx; [congruence|]. destruct Ly; [congruence|]. discriminate.
  - exists (Frv (RV r0 global_frame)), (Frv (RV rx global_frame)), (Frv (RV ry global_frame)).
    split; [|split; [|split]].
    + do 3 eexists. split; [apply (fwd_gnomonic u v)|exact E0].
    + do 3 eexists. split; [apply (fwd_gnomonic (u + dtheta) v)|exact Ex].
    + do 3 eexists. split; [apply (fwd_gnomonic u (v + dtheta))|exact Ey].
    + rewrite T0, Tx, Ty. unfold lit_triples, Frv; cbn [rays]. clear - L0. revert sx sy. induction L0 as [|xy r xys s0 (_ & _ & Vr) _ IH]; intros [|a sx] [|b sy]; try reflexivity.
      cbn [map combine filter fst snd]. change (vignetted (Fray r)) with (vignetted r). rewrite Vr. cbn [negb map fst snd]. rewrite IH. reflexivity.
  - clear - L0 Lx Ly. revert sx Lx sy Ly. induction L0 as [|xy r xys s0 (X0 & Y0 & _) _ IH]; intros sx Lx sy Ly; [constructor|].
    inversion Lx as [|? a ? sx' (X1 & Y1 & _) Lx']; subst. inversion Ly as [|? b ? sy' (X2 & Y2 & _) Ly']; subst. cbn [combine]. constructor; [|apply IH; assumption].
    unfold moves_by, by_x, by_y; cbn [fst snd]. rewrite X0, X1, X2, Y0, Y1, Y2. repeat split; ring.
Qed.
Lemma gap_drdth niter lam L e u v nrad naz : e * e = 1 -> (2 <= nrad)%nat -> (0 <= naz)%Z ->
  drdth niter (gap L e) (Fin u) (Fin v) (Fin lam) nrad naz "gnomonic" = Ok (Fin L, Fin 0, Fin 0, Fin (e * L)).
Proof.
  intros He Hn Hz. destruct (gap_moved niter lam L e u v nrad naz He Hn Hz) as (q & Ne & Hq & HJ). apply (drdth_linear niter (gap L e) u v lam nrad naz _ q); assumption.
Qed.
(** The focal length of the same optic, its screen seen from either side. *)
Lemma gap_focal niter lam u v nrad naz : (2 <= nrad)%nat -> (0 <= naz)%Z ->
  focalLength niter (gap 3 1) (Fin u) (Fin v) (Fin lam) nrad naz "gnomonic" = Ok (Fin 3) /\
  focalLength niter (gap 3 (-1)) (Fin u) (Fin v) (Fin lam) nrad naz "gnomonic" = Ok NaN.
Proof.
  intros Hn Hz. split.
  - destruct (focal_length niter (gap 3 1) (Fin u) (Fin v) (Fin lam) nrad naz "gnomonic" _ _ _ _ (gap_drdth niter lam 3 1 u v nrad naz ltac:(lra) Hn Hz)) as (H & _).
    destruct H as (f & E & Hf & Hs); [lra|]. rewrite E. do 2 f_equal. nra.
  - destruct (focal_length niter (gap 3 (-1)) (Fin u) (Fin v) (Fin lam) nrad naz "gnomonic" _ _ _ _ (gap_drdth niter lam 3 (-1) u v nrad naz ltac:(lra) Hn Hz)) as (_ & H).
    apply H. lra.
Qed.
Lemma focal_refuted : exists L u v lam nrad naz, forall niter,
  focalLength niter (gap L 1) (Fin u) (Fin v) (Fin lam) nrad naz "gnomonic" = Ok (Fin L) /\
  focalLength niter (gap L (-1)) (Fin u) (Fin v) (Fin lam) nrad naz "gnomonic" = Ok NaN.
Proof. exists 3, 0, 0, 1, 2%nat, 6%Z. intros niter. apply gap_focal; lia. Qed.

(** ** A stop four above a flat mirror: the exit pupil is its mirror image *)
Definition down4 : frame := CS (V3 0 0 (-4)) eyeR.
Definition flat_mirror : iface XR := IF KMirror Plane "M" (Fcs down4) None (ConstM (Fin 1)) (ConstM (Fin 1)) None None false.
Definition periscope : telescope XR := Tel (Iface flat_mirror) (OA (Some (Fin 5)) (ConstM (Fin 1)) (Some (Plane, Fcs global_frame)) (Some (Fin 2)) None (Fcs global_frame)) None.
Definition side_ray : ray R := chief_ray 1 5 1 0 (V3 0 (3/5) (-4/5)).
Lemma down4_axial : axial_frame down4.
Proof. split; [unfold good_frame, orthonormal, dotR; cbn; lra|cbn; lra]. Qed.
Lemma global_axial : axial_frame global_frame.
Proof. split; [unfold good_frame, orthonormal, dotR; cbn; lra|cbn; lra]. Qed.
Lemma periscope_axial : axial_optic (tl_optic periscope).
Proof.
  intros i H. cbn in H. destruct H as [<-|[]]. split; [constructor|]. split; [discriminate|]. split; [exists down4; split; [reflexivity|apply down4_axial]|discriminate].
Qed.
Lemma side_through niter : exists r1, gets_through niter (tl_optic periscope) false global_frame (Fray side_ray) down4 r1 /\
  pos r1 = V3 0 3 0 /\ vel r1 = V3 0 (3/5) (4/5).
Proof.
  assert (P : chg_pt global_frame down4 (pos side_ray) = V3 0 (-3) 8) by (apply vec3_eq; cbn; field).
  assert (V : chg_vec global_frame down4 (vel side_ray) = V3 0 (3/5) (-4/5)) by (apply vec3_eq; cbn; field).
  pose proof (iface_do niter flat_mirror false global_frame down4 side_ray 10 (V3 0 (3/5) (4/5)) ltac:(discriminate) eq_refl eq_refl) as I.
  cbv zeta in I. rewrite P, V in I. exists (after (V3 0 (-3) 8) (V3 0 (3/5) (-4/5)) 10 (V3 0 (3/5) (4/5)) flat_mirror side_ray). split.
  - split; [|reflexivity]. cbn [trace periscope tl_optic]. apply I.
    + change (i_surf flat_mirror) with (Fshape ShPlane). rewrite hit_plane. cbn [cz]. destruct (Req_EM_T _ 0); [lra|]. do 2 f_equal. field.
    + exists (V3 0 0 1). split; [reflexivity|]. unfold RefractProofs.reflR, dotR. apply vec3_eq; cbn; field.
  - split; [apply vec3_eq; cbn; field|reflexivity].
Qed.
Lemma side_direction : fieldToDirCos (Fin 0) (Fin (3/4)) "gnomonic" = Ok (Fin 0, Fin (3/5), Fin (-4/5)).
Proof.
  rewrite fwd_gnomonic. replace (1 + 0 * 0 + 3/4 * (3/4)) with (5/4 * (5/4)) by field. rewrite sqrt_square by lra. apply ok3; field.
Qed.
Lemma side_arriving : arriving (V3 0 (3/5) (-4/5)) 1 5 1 1 (V3 0 0 0) side_ray.
Proof. repeat split; try reflexivity; apply vec3_eq; cbn; field. Qed.
Lemma periscope_pupil niter : exitPupilPos niter periscope (Fin 1) (Fin (3/4)) "gnomonic" = Ok (F3 (V3 0 0 (-8))).
Proof.
  destruct (side_through niter) as (r1 & G & P & V).
  destruct (exit_pupil_axial niter periscope 1 (3/4) Gnomonic 5 1 Plane global_frame 0 (V3 0 (3/5) (-4/5)) side_ray down4 r1 periscope_axial global_axial
    eq_refl eq_refl ltac:(lra) eq_refl eq_refl ltac:(lra) I side_direction side_arriving G) as (H & _).
  rewrite P, V in H. destruct H as (t & z & El & E); [right; cbn; lra|]. cbn [proj_name] in E. rewrite E. do 2 f_equal.
  pose proof (f_equal cy El) as Ey. pose proof (f_equal cz El) as Ez. cbn in Ey, Ez. f_equal. lra.
Qed.
