(** Concrete telescopes for the examples of C68 to C71. *)
From Coq Require Import Reals String List ZArith Bool Lra Psatz Lia.
From Verif Require Import Num NumR Vec CoordSys Surface Medium Ray Bundle Trig Optic Field RayGen Spec OpticsSpec XRFacts
  CoordFacts FieldSpec FieldProofs GenSpec GenLast WaveSpec Analysis AnalysisSpec PatternSpec AnalysisProofs AnalysisFocus AnalysisFFT.
Import ListNotations.
Open Scope R_scope.

(** A mirror of radius of curvature 20, pupil 4, with a detector at its focus 10 above. *)
Definition eye0 : frame := CS (V3 0 0 0) eyeR.
Definition mirror20 : iface XR := IF KMirror (Paraboloid (Fin 20)) "M" (Fcs eye0) None (ConstM (Fin 1)) (ConstM (Fin 1)) None None false.
Definition detector10 : iface XR :=
  IF KDetector Plane "D" (Fcs (shifted eye0 (V3 0 0 (20 / 2)))) None (ConstM (Fin 1)) (ConstM (Fin 1)) None None false.
Definition stop0 : iface XR := IF KDetector Plane "S" (Fcs eye0) None (ConstM (Fin 1)) (ConstM (Fin 1)) None None false.
Definition attr20 : cattr XR := CA false "N" (Fcs eye0) (ConstM (Fin 1)) (ConstM (Fin 1)) false (Some stop0).
Definition optic20 : optic XR := Compound attr20 [Iface mirror20; Iface detector10].
Definition newton20 : telescope XR := telescope_of optic20 (Some (Fin 30)) (Some (Fin 4)) (Some (Fin 0)) (Some (Fin 10)).
Definition beam20 : beam := Beam 30 (V3 0 0 (-1)) eye0 1 1 Plane eye0.

Lemma newton20_pair : focal_pair (tl_optic newton20) eye0 20.
Proof. exists attr20, mirror20, detector10. repeat split. Qed.
Lemma newton20_describes :
  describes true (Gen (Some (tl_attr newton20)) None None None None (Some (Fin 1)) (DirCos (F3 (V3 0 0 (-1))))) beam20.
Proof.
  repeat split.
  - apply by_optic; reflexivity.
  - exists (ConstM (Fin 1)). split; [apply by_optic; reflexivity|reflexivity].
  - left. apply by_optic; reflexivity.
  - apply by_optic; reflexivity.
Qed.
Lemma plane_proper xys : proper beam20 xys.
Proof.
  refine (conj good_eye (conj good_eye (conj _ (conj _ _)))); cbn; [lra|right; lra|].
  apply Forall_forall. intros p _. exists 0. reflexivity.
Qed.
Lemma plane_near x y : x * x + y * y < 400 -> near_axis beam20 eye0 20 x y.
Proof.
  intros H z E p. subst p. cbn. ring_simplify. cbn in E. nra.
Qed.
Lemma grid4_near : Forall (fun p => near_axis beam20 eye0 20 (fst p) (snd p)) (grid_points 4 4 (spacing_of 4 4) (spacing_of 4 4)).
Proof.
  unfold grid_points, spacing_of; cbn [seq flat_map map app Nat.div Nat.even Nat.sub].
  apply Forall_forall. intros p Hp. apply plane_near.
  assert (X : INR 2 = 2) by (cbn; lra). assert (Y : INR 3 = 3) by (cbn; lra).
  repeat (destruct Hp as [<-|Hp]; [cbn [fst snd fst snd Nat.divmod]; change (INR 0) with 0; change (INR 1) with 1;
     rewrite ?X, ?Y; lra|]). destruct Hp.
Qed.
Lemma newton20_on_axis : newtonian newton20 1 4.
Proof.
  exists beam20, eye0, 20, 4. split; [exact newton20_pair|]. split; [lra|]. split.
  { destruct newton20_describes as (H1 & H2 & H3 & H4). split; [exact H1|]. split; [exact H2|]. split; [|exact H4].
    destruct H3 as [H3|(H3 & _)]; [left; exact H3|discriminate]. }
  split; [reflexivity|]. split; [reflexivity|]. split; [reflexivity|]. split; [reflexivity|].
  split; [apply plane_proper|exact grid4_near].
Qed.
(** The traced bundle meets the general hypotheses. *)
Lemma newton20_traced niter : exists q rv A, traced niter newton20 (Fin 0) (Fin 0) (Fin 1) "postel" 4 rv /\ rvcs rv = Fcs A /\
  good_frame A /\ lit_rays rv q /\ length q = 16%nat /\ q <> [] /\ (exists ch, referred 4 rv q "chief" (pos ch)) /\
  Forall (fun r => pos r = zeroR /\ vel r <> zeroR /\ failed r = false /\ vignetted r = false /\ wavelength r = 1) q /\
  rays rv = map Fray q.
Proof.
  destruct newton20_on_axis as (b & B & rad & D & HF & Hr & HD & HB & Hw & Hd & Hp & HP & HN).
  destruct (parab_traced niter newton20 1 Postel 4 b B rad D HF Hr HD HB Hw Hd Hp ltac:(lia) HP HN) as (q & HT & Ln & Hq).
  eexists q, _, _. split; [exact HT|]. split; [reflexivity|]. split; [apply shifted_good; rewrite <- HB; apply HP|].
  split; [apply lit_all; intros r Hr'; apply Hq, Hr'|]. split; [exact Ln|]. split; [intros ->; discriminate|]. split.
  - destruct (nth_error q (central 4)) as [ch|] eqn:E.
    + exists ch. constructor. cbn [rays]. rewrite nth_error_map, E. reflexivity.
    + apply nth_error_None in E. rewrite Ln in E. cbn in E. lia.
  - split; [|reflexivity]. apply Forall_forall. intros r H. destruct (Hq r H) as (P1 & _ & _ & P4 & P5 & P6 & _ & P8).
    split; [exact P1|]. split; [intros E; rewrite E in P4; cbn in P4; lra|]. split; [exact P6|]. split; [exact P5|exact P8].
Qed.
Lemma dkdu_ok niter lstsq tel tx ty w nrad naz projection rv :
  asPolar (Gen (Some (tl_attr tel)) None None None None (Some w) (FieldAngle tx ty projection)) None None nrad naz 6 (Fin 1) None = Ok rv ->
  exists j, dkdu niter lstsq tel tx ty w nrad naz projection = Ok j.
Proof. intros E. unfold dkdu. change n1 with (Fin 1). rewrite E. eexists. reflexivity. Qed.
Lemma newton20_dkdu niter lstsq p : exists j, dkdu niter lstsq newton20 (Fin 0) (Fin 0) (Fin 1) 6 36 (proj_name p) = Ok j.
Proof.
  set (g := Gen (Some (tl_attr newton20)) None None None None (Some (Fin 1)) (FieldAngle (Fin 0) (Fin 0) (proj_name p))).
  assert (D : describes true g beam20).
  { destruct newton20_describes as (H1 & H2 & H3 & H4 & _ & H6). split; [exact H1|]. split; [exact H2|]. split; [exact H3|].
    split; [exact H4|]. split; [apply axis_down|exact H6]. }
  destruct (asPolar_rings g beam20 None None 2 0 6 36 6 1 D) as (ns & rv & E & _); try lra; try lia.
  - split; right.
    + split; [reflexivity|]. exists (tl_attr newton20), 4. split; [reflexivity|]. split; [reflexivity|lra].
    + right. split; [reflexivity|]. exists (tl_attr newton20), 4, 0. split; [reflexivity|]. split; [reflexivity|]. split; [reflexivity|lra].
  - split; [apply plane_proper|]. intros x y _. exists 0. reflexivity.
  - apply (dkdu_ok niter lstsq newton20 _ _ _ _ _ _ rv E).
Qed.
Lemma newton20_inside niter : exists q rv A,
  traced niter newton20 (Fin 0) (Fin 0) (Fin 1) "postel" 4 rv /\ rvcs rv = Fcs A /\ good_frame A /\ lit_rays rv q /\
  exists P, referred 4 rv q "chief" P /\ forall r, concerned 4 rv q "chief" r -> inside P 10 r.
Proof.
  destruct (newton20_traced niter) as (q & rv & A & H1 & H2 & H3 & H4 & Ln & _ & (ch & Hc) & HA & Hrv).
  exists q, rv, A. repeat (split; [assumption|]). exists (pos ch). split; [exact Hc|]. inversion Hc as [|ch' Hn E1 E2].
  rewrite Forall_forall in HA.
  assert (In' : forall r, concerned 4 rv q "chief" r -> In r q).
  { intros r [H|[_ H]]; [exact H|]. rewrite Hrv, nth_error_map in H. destruct (nth_error q (central 4)) as [r'|] eqn:E; [|discriminate].
    cbn [option_map] in H. assert (r' = r) as <- by (apply Fray_inj; congruence). eapply nth_error_In, E. }
  assert (Z : pos ch = zeroR).
  { rewrite <- E2. apply HA, In'. right. split; [reflexivity|exact Hn]. }
  intros r Hr. destruct (HA r (In' r Hr)) as (P1 & P2 & P3 & _). split; [exact P3|]. split; [exact P2|].
  rewrite ?E2, P1, Z. unfold distR. apply len_lt_iff. unfold dotR; cbn. lra.
Qed.
Lemma newton20_shines niter : exists q rv P r0 l0 t0,
  traced niter newton20 (Fin 0) (Fin 0) (Fin 1) "postel" 4 rv /\ lit_rays rv q /\ Forall (shines 1) q /\
  referred 4 rv q "chief" P /\ rays rv = r0 :: l0 /\ time r0 = Fin t0.
Proof.
  destruct (newton20_traced niter) as (q & rv & A & H1 & H2 & H3 & H4 & Ln & Q0 & (ch & Hc) & HA & Hrv).
  destruct q as [|q0 q]; [congruence|].
  exists (q0 :: q), rv, (pos ch), (Fray q0), (map Fray q), (time q0). split; [exact H1|]. split; [exact H4|].
  split; [|split; [exact Hc|split; [exact Hrv|reflexivity]]].
  eapply Forall_impl; [|exact HA]. intros r (P1 & P2 & P3 & P4 & P5). split; [exact P3|]. split; [exact P4|]. split; [|exact P5].
  unfold has_wave. rewrite P5. split; [exact P2|lra].
Qed.
Lemma skew_square : square 2 [[1; 2]; [0; 3]].
Proof. split; [reflexivity|]. repeat constructor. Qed.
Lemma newton20_wf niter : exists wf, wavefront niter newton20 (Fin 0) (Fin 0) (Fin 1) "postel" 4 None "chief" = Ok wf /\
  finite_wf (l_array _ wf) /\ length (unmasked 4 (l_array _ wf)) = 16%nat.
Proof.
  destruct (newtonian_wavefront niter newton20 1 Postel 4 "chief" None 10 newton20_on_axis) as (wf & E & _ & A);
    [lia|right; reflexivity|reflexivity|lra|lra|].
  exists wf. split; [exact E|]. rewrite A. split; [|apply (unmasked_repeat 4)].
  intros e He _. apply repeat_spec in He. subst e. exists 0. reflexivity.
Qed.
