(** A flat baffle in a beam along the axis: sample data for the Zernike theorems. *)
From Coq Require Import Reals String List ZArith Bool Lra Psatz Lia.
From Verif Require Import Num NumR Vec CoordSys Surface Medium Obscuration Ray Bundle Trig Optic Field RayGen Spec OpticsSpec
  XRFacts CoordFacts RayFacts IntersectProofs FieldSpec FieldProofs GenSpec GenProofs GenMore GenLast PatternSpec GenQuad Analysis AnalysisSpec AnalysisProofs AnalysisFocus
  AxialTrace AnalysisBad DiscSpec DiscProofs ZernSpec ZernProofs.
Import ListNotations.
Open Scope R_scope.

Definition flat_attr : oattr XR := OA (Some (Fin 1)) (ConstM (Fin 1)) (Some (Plane, Fcs (half 1))) (Some (Fin 2)) None (Fcs (half 1)).
Definition baffle (ob : option (obsc XR)) : optic XR :=
  Iface (IF KBaffle Plane "B" (Fcs (half 1)) ob (ConstM (Fin 1)) (ConstM (Fin 1)) None None false).
Definition flat (ob : option (obsc XR)) : telescope XR := Tel (baffle ob) flat_attr (Some (Fin (-10))).
Definition flat_beam : beam := hbeam (half 1) (half 1).
(** A ray aimed at (x, y), at the baffle. *)
Definition stopped (x y f : R) (v : bool) : ray R := Ray (V3 x y 0) (V3 0 0 (-1)) 1 1 f v false.
Lemma half1 : good_frame (half 1).
Proof. apply half_good. lra. Qed.
Lemma aimed_flat x y r : aimed flat_beam x y r -> r = Ray (V3 x y 1) (V3 0 0 (-1)) 0 1 (flux r) false false.
Proof.
  intros H. pose proof H as (_ & _ & W & _). destruct (aimed_down (half 1) x y r half1 H) as (P & V & T & F & G).
  destruct r; cbn in *. subst. reflexivity.
Qed.
Lemma aimed_flat_unique x y x' y' r : aimed flat_beam x y r -> aimed flat_beam x' y' r -> x' = x /\ y' = y.
Proof. intros H H'. apply aimed_flat in H. apply aimed_flat in H'. rewrite H in H'. injection H' as <- <-. auto. Qed.
Definition marked (ob : option (obsc XR)) (x y : R) : bool := match ob with None => false | Some o => contains o (Fin x) (Fin y) end.
Lemma trace_flat niter ob rs pts : Forall2 (fun r u => aimed flat_beam (fst u) (snd u) r) rs pts ->
  trace niter (baffle ob) false (Frv (RV rs (half 1)))
  = Frv (RV (map (fun ru => stopped (fst (snd ru)) (snd (snd ru)) (flux (fst ru)) (marked ob (fst (snd ru)) (snd (snd ru)))) (combine rs pts)) (half 1)).
Proof.
  intros H. cbn [trace baffle]. unfold iface_trace, interact. cbn [i_kind i_surf i_cs i_obsc].
  assert (E : rv_intersect niter Plane (Some (Fcs (half 1))) None (Frv (RV rs (half 1)))
    = Frv (RV (map (fun ru => stopped (fst (snd ru)) (snd (snd ru)) (flux (fst ru)) false) (combine rs pts)) (half 1))).
  { unfold rv_intersect, batch, Frv; cbn [rays rvcs dest]. rewrite mkCT_F; cbn [ct_dr ct_drot]. f_equal.
    induction H as [|r u rs pts A H IH]; [reflexivity|]. cbn [map combine fst snd]. f_equal; [|exact IH].
    apply aimed_flat in A. rewrite A. cbn [flux].
    set (r1 := Ray _ _ _ _ _ _ _). assert (I : chg_pt (half 1) (half 1) (pos r1) = pos r1 /\ chg_vec (half 1) (half 1) (vel r1) = vel r1).
    { unfold chg_pt, chg_vec. rewrite same_dr, same_drot, trans_eye, !applyR_eye by exact half1. split; [apply vec3_eq; cbn; ring|reflexivity]. }
    destruct I as [I1 I2].
    pose proof (intersect_do (half 1) (half 1) Plane niter r1 1 eq_refl) as D. cbv zeta in D. rewrite I1, I2 in D.
    rewrite D.
    - unfold stopped, r1; cbn [pos vel time wavelength flux vignetted]. f_equal. f_equal; try ring. apply vec3_eq; cbn; ring.
    - change Plane with (Fshape ShPlane). rewrite hit_plane. cbn [vel pos r1 cz]. destruct (Req_EM_T (-1) 0) as [Z|Z]; [lra|]. do 2 f_equal. field. }
  rewrite E. destruct ob as [o|]; [|reflexivity]. cbn [apply_obsc]. unfold rv_obscure, Frv; cbn [rays rvcs]. f_equal. rewrite !map_map.
  apply map_ext. intros [r u]. reflexivity.
Qed.
(** m rays on a ring. *)
Definition ring (m : nat) : list (R * R) := map (fun j => (x0 * cos (2 * PI * (INR j / INR m)), x0 * sin (2 * PI * (INR j / INR m)))) (seq 0 m).
Lemma ring_on m u : In u (ring m) -> fst u * fst u + snd u * snd u = 1 / 2.
Proof.
  intros H. apply in_map_iff in H. destruct H as (j & <- & _). cbn [fst snd]. set (th := 2 * PI * (INR j / INR m)).
  pose proof (sin2_cos2 th) as S. unfold Rsqr in S. pose proof x0_sq. replace (x0 * cos th * (x0 * cos th) + x0 * sin th * (x0 * sin th)) with (x0 * x0 * (sin th * sin th + cos th * cos th)) by ring.
  rewrite S. lra.
Qed.
Lemma flat_describes ob : describes true (Gen (Some (tl_attr (flat ob))) None None None None (Some (Fin 1)) (DirCos (F3 (V3 0 0 (-1))))) flat_beam.
Proof. apply hdescribes; reflexivity. Qed.
Lemma flat_spokes ob m : (1 <= m)%nat -> exists rs0,
  asSpokes midpoint (Gen (Some (tl_attr (flat ob))) None None None None (Some (Fin 1)) (DirCos (F3 (V3 0 0 (-1)))))
    None (Fin (0 * 2 / 2)) (option_map CInt (Some m)) (CInt 1) "GQ" (Fin 1) = Ok (Frv (RV rs0 (half 1))) /\
  map flux rs0 = map (fun _ => PI / INR m) (seq 0 m) /\
  Forall2 (fun r u => aimed flat_beam (fst u) (snd u) r) rs0 (ring m).
Proof.
  intros Hm. assert (HM : INR m <> 0) by (apply not_0_INR; lia).
  destruct (asSpokes_gq midpoint _ flat_beam None 1 (0 * 2 / 2) 1 m 1 [(0, 2)] (Some (CInt m)) (flat_describes ob)) as (rv & E & W).
  { right. split; [reflexivity|]. exists flat_attr, 2. split; [reflexivity|]. split; [reflexivity|lra]. }
  { reflexivity. }
  { constructor; [cbn; lra|constructor]. }
  { lra. } { lra. } { exact Hm. } { left; reflexivity. } { apply hproper; exact half1. }
  destruct W as (rs0 & -> & L & F & A). exists rs0. split; [exact E|]. 
  set (angles := map (fun j => 2 * PI * (INR j / INR m)) (seq 0 m)) in *.
  assert (ER : spoke_points (map (fun lw : R * R => gq_radius (0 * 2 / 2 / 1) 1 (fst lw)) [(0, 2)]) angles = ring m).
  { unfold spoke_points, ring, angles. cbn [map fst snd]. generalize (seq 0 m). intros l. induction l as [|j l IH]; [reflexivity|].
    cbn [map flat_map app]. rewrite IH. f_equal. assert (G : gq_radius (0 * 2 / 2 / 1) 1 0 = x0); [|rewrite G; reflexivity].
    unfold gq_radius, x0. rewrite Rmult_1_r. f_equal. field. }
  rewrite ER in *. split.
  - rewrite F. unfold angles. generalize (seq 0 m). intros l. induction l as [|j l IH]; [reflexivity|].
    cbn [map flat_map app fst snd] in IH |- *. rewrite IH. f_equal. unfold gq_flux. field. exact HM.
  - apply Forall2_nth; [exact L|]. intros i r [x y] E1 E2. apply (A i); assumption.
Qed.
Lemma midpoint_rule : exact_rule 2 [(0, 2)].
Proof.
  intros p P (c & Hc & Hp) HP. destruct c as [|a [|b [|]]]; cbn in Hc; try lia.
  - pose proof (integral_unique p (-1) 1 (P 1 - P (-1)) 0 ltac:(exists P; auto)) as U.
    rewrite U; [cbn; rewrite Hp; cbn; ring|]. exists (fun _ => 0). split; [|ring]. intros x. rewrite Hp. apply derivable_pt_lim_const.
  - pose proof (integral_unique p (-1) 1 (P 1 - P (-1)) (2 * a) ltac:(exists P; auto)) as U.
    rewrite U; [cbn; rewrite Hp; cbn; ring|]. apply (integral_ext (fun x => a * x ^ 0)). { intros. rewrite Hp. cbn. ring. }
    replace (2 * a) with (a * ((1 ^ 1 - (-1) ^ 1) / INR 1)) by (cbn; field). apply integral_scal, integral_pow.
  - pose proof (integral_unique p (-1) 1 (P 1 - P (-1)) (2 * a) ltac:(exists P; auto)) as U.
    rewrite U; [cbn; rewrite Hp; cbn; ring|]. apply (integral_ext (fun x => a * x ^ 0 + b * x ^ 1)). { intros. rewrite Hp. cbn. ring. }
    replace (2 * a) with (a * ((1 ^ 1 - (-1) ^ 1) / INR 1) + b * ((1 ^ 2 - (-1) ^ 2) / INR 2)) by (cbn; field).
    apply integral_plus; apply integral_scal, integral_pow.
Qed.

(** ** Crossing times *)
Definition cross_at (P : vR) (x y : R) : R := 1 + sqrt (100 - ((x - cx P) * (x - cx P) + (y - cy P) * (y - cy P))).
Definition near (P : vR) (x y : R) : Prop := cz P = 0 /\ (x - cx P) * (x - cx P) + (y - cy P) * (y - cy P) < 100.
Lemma stopped_inside P x y f v : near P x y -> inside P (-10) (stopped x y f v).
Proof.
  intros [Hz N]. split; [reflexivity|]. split; [intros E; injection E; lra|]. unfold distR. apply len_lt_iff. unfold dotR; cbn. rewrite Hz. nra.
Qed.
Lemma stopped_crosses P x y f v : near P x y -> crosses P (-10) (stopped x y f v) (cross_at P x y).
Proof.
  intros [Hz N]. unfold crosses, cross_at. set (q := 100 - _). assert (Hq : 0 < q) by (unfold q; lra).
  pose proof (sqrt_lt_R0 q Hq) as S. pose proof (sqrt_sqrt q ltac:(lra)) as Q. split; [|cbn; split; lra].
  unfold distR. apply len_abs_iff. unfold dotR; cbn. rewrite Hz. unfold q in *. nra.
Qed.
Lemma flat_setting niter ob m reference P t0 rs0 :
  asSpokes midpoint (Gen (Some (tl_attr (flat ob))) None None None None (Some (Fin 1)) (DirCos (F3 (V3 0 0 (-1)))))
    None (Fin (0 * 2 / 2)) (option_map CInt (Some m)) (CInt 1) "GQ" (Fin 1) = Ok (Frv (RV rs0 (half 1))) ->
  Forall2 (fun r u => aimed flat_beam (fst u) (snd u) r) rs0 (ring m) -> (1 <= m)%nat ->
  (forall u, In u (ring m) -> near P (fst u) (snd u)) ->
  let rs := map (fun ru => stopped (fst (snd ru)) (snd (snd ru)) (flux (fst ru)) (marked ob (fst (snd ru)) (snd (snd ru)))) (combine rs0 (ring m)) in
  gq_reference niter (flat ob) 1 (V3 0 0 (-1)) rs (half 1) (-10) reference P t0 ->
  gq_setting niter midpoint (flat ob) (Fin 0) (Fin 0) 1 "postel" 1 (Some m) None (-10) reference 0 2 (V3 0 0 (-1)) flat_beam m 2 rs0 rs (half 1) P t0.
Proof.
  intros E A Hm HN rs HR.
  refine (conj (axis_down Postel) (conj (flat_describes ob) (conj eq_refl (conj (hproper _ _ _ half1 half1) (conj _ (conj eq_refl _)))))).
  { unfold meets_stop; cbn. lra. }
  refine (conj _ (conj _ (conj _ (conj _ (conj Hm (conj (or_introl eq_refl) (conj _ (conj _ (conj HR _))))))))); try lra.
  - exists [(0, 2)]. split; [reflexivity|]. split; [constructor; [cbn; lra|constructor]|exact midpoint_rule].
  - split; [exact E|]. split; [|exact half1]. apply (trace_flat niter ob rs0 (ring m) A).
  - right. split; reflexivity.
  - unfold rs. apply Forall_map. apply Forall_forall. intros [r u] Hin. apply in_combine_r in Hin. cbn [fst snd]. apply stopped_inside, HN, Hin.
Qed.
Lemma ring_near m u : In u (ring m) -> near (V3 0 0 0) (fst u) (snd u).
Proof. intros H. pose proof (ring_on m u H). split; [reflexivity|]. cbn. nra. Qed.
(** ** The chief ray *)
Lemma flat_chief niter ob rs : gq_reference niter (flat ob) 1 (V3 0 0 (-1)) rs (half 1) (-10) "chief" (V3 0 0 0) 11.
Proof.
  destruct (fromStop_plane_wave (Gen None (Some (Fin 1)) (Some (ConstM (Fin 1))) (Some (Plane, Fcs (half 1))) None (Some (Fin 1)) (DirCos (F3 (V3 0 0 (-1)))))
    flat_beam 1 [(0, 0)]) as (cv & E & W).
  { apply cdescribes. reflexivity. }
  { apply hproper; exact half1. }
  destruct (one_ray _ _ _ _ W) as (c & -> & Fc & Ac). cbn [fst snd b_frame flat_beam hbeam] in *.
  apply (gq_chief niter (flat ob) 1 (V3 0 0 (-1)) rs (half 1) (-10) (Fin 1) (Plane, Fcs (half 1)) (Frv (RV [c] (half 1)))
    (stopped 0 0 (flux c) (marked ob 0 0)) [] 11); try reflexivity.
  - exact E.
  - change (tl_optic (flat ob)) with (baffle ob). rewrite (trace_flat niter ob [c] [(0, 0)]); [reflexivity|]. constructor; [exact Ac|constructor].
  - apply stopped_inside. split; [reflexivity|]. cbn. lra.
  - replace 11 with (cross_at (V3 0 0 0) 0 0).
    + apply stopped_crosses. split; [reflexivity|]. cbn. lra.
    + unfold cross_at; cbn. replace (100 - _) with (10 * 10) by ring. rewrite sqrt_square; lra.
Qed.
(** Piston and the two tilts. *)
Definition low_order : list poly2 := [[(1, 0%nat, 0%nat)]; [(2, 1%nat, 0%nat)]; [(2, 0%nat, 1%nat)]].
Lemma low_degree : Forall (degree2 1) low_order.
Proof. repeat constructor. Qed.
Lemma mono_integral c a b e I : I = c * ((1 - e ^ (a + b + 2)) / INR (a + b + 2) * (2 * PI * tmean (tpow a b))) ->
  annulus_integral e (fun x y => c * (x ^ a * y ^ b)) I.
Proof. intros ->. apply annulus_scal, annulus_mono. Qed.
Lemma low_orthonormal : orthonormal_family 0 low_order.
Proof.
  assert (K : forall p q c a b I, (forall x y, c * (x ^ a * y ^ b) = at2 p x y * at2 q x y) ->
    I = c * ((1 - 0 ^ (a + b + 2)) / INR (a + b + 2) * (2 * PI * tmean (tpow a b))) ->
    annulus_integral 0 (fun x y => at2 p x y * at2 q x y) I).
  { intros p q c a b I H E. apply (annulus_ext 0 (fun x y => c * (x ^ a * y ^ b))); [exact H|]. apply mono_integral, E. }
  intros [|[|[|j]]] [|[|[|k]]] p q Ep Eq; cbn in Ep, Eq; try (destruct j; discriminate); try (destruct k; discriminate);
    injection Ep as <-; injection Eq as <-; cbn [Nat.eqb].
  1: apply (K _ _ 1 0%nat 0%nat). 3: apply (K _ _ 2 1%nat 0%nat). 5: apply (K _ _ 2 0%nat 1%nat).
  7: apply (K _ _ 2 1%nat 0%nat). 9: apply (K _ _ 4 2%nat 0%nat). 11: apply (K _ _ 4 1%nat 1%nat).
  13: apply (K _ _ 2 0%nat 1%nat). 15: apply (K _ _ 4 1%nat 1%nat). 17: apply (K _ _ 4 0%nat 2%nat).
  all: try (intros; unfold at2, mono, sumR; cbn [map fold_right fst snd pow]; ring).
  all: cbn; field.
Qed.
Definition zbasis (Z : list poly2) (jmax : nat) (pts : list (XR * XR)) (outer inner : XR) : list (list XR) :=
  map (fun p => map (fun u => match fst u, snd u, outer with Fin x, Fin y, Fin r => Fin (at2 p (x / r) (y / r)) | _, _, _ => NaN end) pts) Z.
Lemma zbasis_evaluates Z jmax ro ri : evaluates (zbasis Z) jmax ro ri Z.
Proof. intros pts. unfold zbasis. apply map_ext. intros p. rewrite map_map. reflexivity. Qed.
Lemma flat_piston niter : zernikeGQ niter midpoint (zbasis ([] :: low_order)) (flat None) (Fin 0) (Fin 0) (Fin 1) "postel" 1 (Some 3%nat) None "chief" 3 (Fin 0)
  = Ok (map Fin [0; 10 - sqrt (199 / 2); 0; 0]).
Proof.
  destruct (flat_spokes None 3 ltac:(lia)) as (rs0 & E & _ & A).
  pose proof (flat_setting niter None 3 "chief" (V3 0 0 0) 11 rs0 E A ltac:(lia) (ring_near 3)) as HS. cbv zeta in HS. specialize (HS (flat_chief niter None _)).
  refine (zernikeGQ_recovers niter midpoint _ (flat None) (Fin 0) (Fin 0) 1 "postel" 1 (Some 3%nat) None (-10) "chief" 3 0 2 (V3 0 0 (-1)) flat_beam 3 2 low_order
    _ _ (half 1) (V3 0 0 0) 11 [10 - sqrt (199 / 2); 0; 0] 1 HS (zbasis_evaluates _ _ _ _) low_orthonormal eq_refl _ low_degree _ _); try lia.
  intros i r0 r x y t E0 E1 Ha Hc. rewrite nth_error_map in E1.
  destruct (nth_error (combine rs0 (ring 3)) i) as [[r' [u v]]|] eqn:Ec; [|discriminate]. injection E1 as <-.
  assert (Hu : In (u, v) (ring 3)) by (apply nth_error_In, in_combine_r in Ec; exact Ec).
  pose proof (ring_on 3 _ Hu) as Ru. cbn [fst snd] in *.
  assert (Et : t = cross_at (V3 0 0 0) u v).
  { eapply crosses_unique; [|exact Hc|]; [apply stopped_inside|apply stopped_crosses]; apply (ring_near 3 _ Hu). }
  rewrite Et. unfold cross_at, combination; cbn. replace (100 - _) with (199 / 2) by lra.
  unfold mono; cbn [fst snd pow]. field.
Qed.

(** ** Vignetting and the mean *)
Definition blot : option (obsc XR) := Some (ObscCircle (Fin (1 / 2)) (Fin (-1)) (Fin 0)).
Lemma x0_range : 7 / 10 < x0 < 8 / 10.
Proof. pose proof x0_sq. assert (0 <= x0) by apply sqrt_pos. split; nra. Qed.
Lemma ring2 : ring 2 = [(x0, 0); (- x0, 0)].
Proof.
  unfold ring. cbn [map seq]. replace (2 * PI * (INR 0 / INR 2)) with 0 by (cbn; field). replace (2 * PI * (INR 1 / INR 2)) with PI by (cbn; field).
  rewrite cos_0, sin_0, cos_PI, sin_PI. repeat f_equal; ring.
Qed.
Lemma blot_at a : marked blot a 0 = if Rlt_dec (Rabs (a + 1)) (1 / 2) then true else false.
Proof.
  cbn [marked blot contains]. xunf. unfold xhypot. cbn [xsub xltb].
  replace (sqrt ((a - -1) * (a - -1) + (0 - 0) * (0 - 0))) with (Rabs (a + 1)).
  - reflexivity.
  - rewrite <- sqrt_Rsqr_abs. f_equal. unfold Rsqr. ring.
Qed.
Lemma blot_right : marked blot x0 0 = false.
Proof. pose proof x0_range. rewrite blot_at. destruct (Rlt_dec _ _) as [L|]; [|reflexivity]. rewrite Rabs_right in L; lra. Qed.
Lemma blot_left : marked blot (- x0) 0 = true.
Proof.
  pose proof x0_range. rewrite blot_at. destruct (Rlt_dec _ _) as [|L]; [reflexivity|]. exfalso. apply L. unfold Rabs. destruct (Rcase_abs _); lra.
Qed.
Definition one_row : list poly2 := [[(1, 0%nat, 0%nat)]].
Lemma two_aimed rs0 : Forall2 (fun r u => aimed flat_beam (fst u) (snd u) r) rs0 (ring 2) ->
  exists a b, rs0 = [a; b] /\ aimed flat_beam x0 0 a /\ aimed flat_beam (- x0) 0 b.
Proof.
  rewrite ring2. intros H. inversion H as [|a ? l ? Ha H1]; subst. inversion H1 as [|b ? l' ? Hb H2]; subst. inversion H2; subst. exists a, b. auto.
Qed.
Lemma sum_two a b t1 t2 t0 : flux a = PI / INR 2 -> flux b = PI / INR 2 -> aimed flat_beam x0 0 a -> aimed flat_beam (- x0) 0 b ->
  forall pts ts, Forall2 (fun r u => aimed flat_beam (2 / 2 * fst u) (2 / 2 * snd u) r) [a; b] pts -> ts = [t1; t2] ->
  gq_sum (map flux [a; b]) pts ts t0 1 [(1, 0%nat, 0%nat)] / (PI * (1 - 0 * 0)) = (t0 - (t1 + t2) / 2).
Proof.
  intros Fa Fb _ _ pts ts H ->. inversion H as [|? p1 ? l1 _ H1]; subst. inversion H1 as [|? p2 ? l2 _ H2]; subst. inversion H2; subst.
  cbn [map]. rewrite Fa, Fb. unfold gq_sum, at2, mono, sumR. cbn [combine map fold_right fst snd pow INR]. pose proof PI_neq0. field. assumption.
Qed.
Lemma mean_case niter ob v1 v2 rs0 P t0 : asSpokes midpoint (Gen (Some (tl_attr (flat ob))) None None None None (Some (Fin 1)) (DirCos (F3 (V3 0 0 (-1)))))
    None (Fin (0 * 2 / 2)) (option_map CInt (Some 2%nat)) (CInt 1) "GQ" (Fin 1) = Ok (Frv (RV rs0 (half 1))) ->
  map flux rs0 = map (fun _ => PI / INR 2) (seq 0 2) -> Forall2 (fun r u => aimed flat_beam (fst u) (snd u) r) rs0 (ring 2) ->
  marked ob x0 0 = v1 -> marked ob (- x0) 0 = v2 -> near P x0 0 -> near P (- x0) 0 ->
  gq_reference niter (flat ob) 1 (V3 0 0 (-1)) [stopped x0 0 (PI / INR 2) v1; stopped (- x0) 0 (PI / INR 2) v2] (half 1) (-10) "mean" P t0 ->
  zernikeGQ niter midpoint (zbasis one_row) (flat ob) (Fin 0) (Fin 0) (Fin 1) "postel" 1 (Some 2%nat) None "mean" 1 (Fin 0)
  = Ok [Fin (t0 - (cross_at P x0 0 + cross_at P (- x0) 0) / 2)].
Proof.
  intros E F A M1 M2 N1 N2 HR. destruct (two_aimed rs0 A) as (a & b & -> & Aa & Ab). cbn [map seq] in F.
  assert (Fa : flux a = PI / INR 2) by congruence. assert (Fb : flux b = PI / INR 2) by congruence. clear F.
  pose proof (flat_setting niter ob 2 "mean" P t0 [a; b] E A ltac:(lia)) as HS. cbv zeta in HS. rewrite ring2 in HS. cbn [map combine fst snd] in HS.
  rewrite M1, M2, Fa, Fb in HS.
  specialize (HS ltac:(intros u [<-|[<-|[]]]; assumption) HR).
  destruct (zernikeGQ_value niter midpoint (zbasis one_row) (flat ob) (Fin 0) (Fin 0) 1 "postel" 1 (Some 2%nat) None (-10) "mean" 1 0 2 (V3 0 0 (-1)) flat_beam 2 2 one_row
    _ _ (half 1) P t0 HS (zbasis_evaluates _ _ _ _)) as (fl & pts & ts & HA & HC & L1 & L2 & <- & _ & V).
  rewrite V. unfold one_row at 1. cbn [map]. do 3 f_equal.
  apply (sum_two a b); try assumption.
  inversion HC as [|? u1 ? l1 C1 HC1]; subst. inversion HC1 as [|? u2 ? l2 C2 HC2]; subst. inversion HC2; subst.
  f_equal; [|f_equal]; (eapply crosses_unique; [|eassumption|]; [apply stopped_inside; assumption|apply stopped_crosses; assumption]).
Qed.
Lemma mean_open niter : zernikeGQ niter midpoint (zbasis one_row) (flat None) (Fin 0) (Fin 0) (Fin 1) "postel" 1 (Some 2%nat) None "mean" 1 (Fin 0) = Ok [Fin 0].
Proof.
  destruct (flat_spokes None 2 ltac:(lia)) as (rs0 & E & F & A). pose proof x0_sq as SQ.
  assert (N1 : near (V3 0 0 0) x0 0) by (split; [reflexivity|cbn; nra]). assert (N2 : near (V3 0 0 0) (- x0) 0) by (split; [reflexivity|cbn; nra]).
  set (q := [stopped x0 0 (PI / INR 2) false; stopped (- x0) 0 (PI / INR 2) false]).
  assert (C : centroid (map pos q) = V3 0 0 0).
  { unfold centroid, averageR, sumR; cbn. apply vec3_eq; cbn; field. }
  set (ts := [cross_at (V3 0 0 0) x0 0; cross_at (V3 0 0 0) (- x0) 0]).
  rewrite (mean_case niter None false false rs0 (V3 0 0 0) (averageR ts) E F A eq_refl eq_refl N1 N2).
  - unfold ts, averageR, sumR. cbn. do 3 f_equal. field.
  - rewrite <- C. apply gq_mean; [reflexivity|discriminate|]. rewrite C. unfold q, ts.
    constructor; [apply stopped_crosses; exact N1|]. constructor; [apply stopped_crosses; exact N2|constructor].
Qed.
Lemma mean_blot niter : zernikeGQ niter midpoint (zbasis one_row) (flat blot) (Fin 0) (Fin 0) (Fin 1) "postel" 1 (Some 2%nat) None "mean" 1 (Fin 0)
  = Ok [Fin ((10 - sqrt 98) / 2)].
Proof.
  destruct (flat_spokes blot 2 ltac:(lia)) as (rs0 & E & F & A). pose proof x0_sq as SQ.
  assert (N1 : near (V3 x0 0 0) x0 0) by (split; [reflexivity|cbn; nra]). assert (N2 : near (V3 x0 0 0) (- x0) 0) by (split; [reflexivity|cbn; nra]).
  set (q := [stopped x0 0 (PI / INR 2) false]).
  assert (C : centroid (map pos q) = V3 x0 0 0).
  { unfold centroid, averageR, sumR; cbn. apply vec3_eq; cbn; field. }
  set (ts := [cross_at (V3 x0 0 0) x0 0]).
  rewrite (mean_case niter blot false true rs0 (V3 x0 0 0) (averageR ts) E F A blot_right blot_left N1 N2).
  - unfold ts, averageR, WaveSpec.sumR, sumR, cross_at. cbn [map fold_right List.length INR cx cy]. do 3 f_equal.
    replace (100 - ((x0 - x0) * (x0 - x0) + (0 - 0) * (0 - 0))) with (10 * 10) by ring. rewrite sqrt_square by lra.
    replace (100 - ((- x0 - x0) * (- x0 - x0) + (0 - 0) * (0 - 0))) with 98 by nra. field.
  - rewrite <- C. apply gq_mean; [reflexivity|discriminate|]. rewrite C. unfold q, ts.
    constructor; [apply stopped_crosses; exact N1|constructor].
Qed.
Lemma sqrt98 : sqrt 98 <> 10.
Proof. intros E. pose proof (sqrt_sqrt 98 ltac:(lra)) as S. rewrite E in S. lra. Qed.
Lemma vignetting_moves_mean : exists niter lg basis o attr radius tx ty w projection rings spokes jmax eps a b,
  zernikeGQ niter lg basis (Tel (unobscured o) attr radius) tx ty w projection rings spokes None "mean" jmax eps = Ok [a] /\
  zernikeGQ niter lg basis (Tel o attr radius) tx ty w projection rings spokes None "mean" jmax eps = Ok [b] /\ a <> b.
Proof.
  exists 0%nat, midpoint, (zbasis one_row), (baffle blot), flat_attr, (Some (Fin (-10))), (Fin 0), (Fin 0), (Fin 1), "postel"%string, 1%nat, (Some 2%nat), 1%nat, (Fin 0), (Fin 0), (Fin ((10 - sqrt 98) / 2)).
  split; [exact (mean_open 0)|]. split; [exact (mean_blot 0)|]. intros E. injection E as E. pose proof sqrt98. lra.
Qed.
