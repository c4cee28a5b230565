(** C81: the exit pupil of optics that are symmetric about the global z axis. *)
From Coq Require Import Reals String List ZArith Bool Lra Psatz Lia.
From Verif Require Import Num NumR Vec CoordSys Surface Medium Ray Bundle Trig Optic Field RayGen Spec OpticsSpec XRFacts CoordFacts RayFacts
  StructProofs TreeSpec TreeProofs FrameProofs FieldSpec FieldProofs PatternProofs GenSpec GenProofs GenMore GenLast Analysis AnalysisSpec AnalysisProofs AxialSpec AxialProofs AxialTrace ZernProofs AnalysisFocus.
Import ListNotations.
Open Scope R_scope.

(** ** The four directions *)
Lemma four_directions p a : a <> 0 -> in_domain p a 0 -> exists s c,
  fieldToDirCos (Fin 0) (Fin a) (proj_name p) = Ok (Fin 0, Fin s, Fin c) /\
  fieldToDirCos (Fin 0) (Fin (- a)) (proj_name p) = Ok (Fin 0, Fin (- s), Fin c) /\
  fieldToDirCos (Fin a) (Fin 0) (proj_name p) = Ok (Fin s, Fin 0, Fin c) /\
  fieldToDirCos (Fin (- a)) (Fin 0) (proj_name p) = Ok (Fin (- s), Fin 0, Fin c).
Proof.
  intros Ha Hd.
  assert (R1 : radius 0 a = radius a 0) by (unfold radius; f_equal; ring).
  assert (R2 : radius 0 (- a) = radius a 0) by (unfold radius; f_equal; ring).
  assert (R3 : radius (- a) 0 = radius a 0) by (unfold radius; f_equal; ring).
  assert (Rn : radius a 0 <> 0) by (intros E; apply radius_0 in E; tauto).
  destruct p; cbn [in_domain proj_name] in *.
  - exists (a / radius a 0 * sin (radius a 0)), (- cos (radius a 0)).
    rewrite !fwd_postel, ?R1, ?R2, ?R3 by (rewrite ?R1, ?R2, ?R3; exact Rn). repeat split; apply ok3; try reflexivity; field; exact Rn.
  - set (n := sqrt (1 + tan a * tan a)). assert (Hn : 0 < n) by (apply sqrt_lt_R0; nra).
    exists (tan a / n), (- / n). rewrite !fwd_zemax, tan_neg, tan_0.
    replace (1 + 0 * 0 + tan a * tan a) with (1 + tan a * tan a) by ring.
    replace (1 + 0 * 0 + - tan a * - tan a) with (1 + tan a * tan a) by ring.
    replace (1 + tan a * tan a + 0 * 0) with (1 + tan a * tan a) by ring.
    replace (1 + - tan a * - tan a + 0 * 0) with (1 + tan a * tan a) by ring. fold n.
    repeat split; apply ok3; try reflexivity; field; lra.
  - set (n := / sqrt (1 + a * a)). exists (a * n), (- n). rewrite !fwd_gnomonic.
    replace (1 + 0 * 0 + a * a) with (1 + a * a) by ring.
    replace (1 + 0 * 0 + - a * - a) with (1 + a * a) by ring.
    replace (1 + a * a + 0 * 0) with (1 + a * a) by ring.
    replace (1 + - a * - a + 0 * 0) with (1 + a * a) by ring. fold n.
    repeat split; apply ok3; try reflexivity; ring.
  - set (th := 2 * atan (radius a 0 / 2)). exists (a / radius a 0 * sin th), (- cos th).
    rewrite !fwd_stereographic, ?R1, ?R2, ?R3 by (rewrite ?R1, ?R2, ?R3; exact Rn). fold th. repeat split; apply ok3; try reflexivity; field; exact Rn.
  - set (g := (2 - a * a) / 2). exists (a / radius a 0 * sqrt (1 - g * g)), (- g).
    rewrite !fwd_lambert, ?R1, ?R2, ?R3 by (rewrite ?R1, ?R2, ?R3; assumption).
    replace ((2 - (0 * 0 + a * a)) / 2) with g by (unfold g; field).
    replace ((2 - (0 * 0 + - a * - a)) / 2) with g by (unfold g; field).
    replace ((2 - (a * a + 0 * 0)) / 2) with g by (unfold g; field).
    replace ((2 - (- a * - a + 0 * 0)) / 2) with g by (unfold g; field).
    repeat split; apply ok3; try reflexivity; field; exact Rn.
  - exists a, (- sqrt (1 - radius a 0 * radius a 0)).
    rewrite !fwd_orthographic, ?R1, ?R2, ?R3 by (rewrite ?R1, ?R2, ?R3; assumption). repeat split; reflexivity.
Qed.

(** ** Chief rays turned about the axis *)
Definition chief_ray (n l w z0 : R) (d : vR) : ray R :=
  Ray (minusR (V3 0 0 z0) (timesR l d)) (timesR (/ n) d) (- l * n) w 1 false false.
Lemma arriving_chief n l w z0 d r : n <> 0 -> arriving d n l w 1 (V3 0 0 z0) r -> r = chief_ray n l w z0 d.
Proof.
  intros Hn (V & W & Fl & Vg & Fa & _ & T & P). destruct r as [p v t w' fl g h]; cbn in *. subst. unfold chief_ray. f_equal.
  - rewrite <- P. destruct p. apply vec3_eq; cbn; ring.
  - destruct v. apply vec3_eq; cbn; field; exact Hn.
Qed.
Definition conj_turn (F : frame) (q : mR) : mR := mulR (rot F) (mulR q (transR (rot F))).
Lemma conj_axial F q : axial_frame F -> axial_turn q -> axial_turn (conj_turn F q).
Proof.
  intros (G & _ & _ & F1 & F2 & F3 & F4) (Oq & q1 & q2 & q3 & q4 & q5). split.
  - apply orth_mul; [exact G|]. apply orth_mul; [exact Oq|]. apply orth_trans, G.
  - unfold conj_turn. cbn. rewrite F1, F2, F3, F4, q1, q2, q3, q4, q5.
    assert (N : m22 (rot F) * m22 (rot F) = 1).
    { destruct G as (_ & _ & G & _). unfold dotR in G. cbn in G. rewrite F1, F2 in G. lra. }
    repeat split; lra.
Qed.
Lemma conj_dir F q v : good_frame F -> applyR (conj_turn F q) (global_dir F v) = global_dir F (applyR q v).
Proof. intros G. unfold conj_turn, global_dir. rewrite !applyR_mul, orth_apply_lr by exact G. reflexivity. Qed.
Lemma conj_point F q p : axial_frame F -> axial_turn q -> applyR (conj_turn F q) (global_point F p) = global_point F (applyR q p).
Proof.
  intros HF Hq. pose proof (conj_axial F q HF Hq) as (_ & C1 & C2 & C3 & C4 & C5). destruct HF as (G & O1 & O2 & _).
  unfold global_point.
  transitivity (plusR (applyR (conj_turn F q) (origin F)) (applyR (conj_turn F q) (global_dir F p))); [unfold global_dir; apply vec3_eq; cbn; ring|].
  rewrite conj_dir by exact G. unfold global_dir. f_equal. generalize dependent (conj_turn F q). intros Q C1 C2 C3 C4 C5.
  apply vec3_eq; cbn; rewrite ?O1, ?O2, ?C1, ?C2, ?C3, ?C4, ?C5; ring.
Qed.
Lemma chief_turned F q n l w z0 d : axial_frame F -> axial_turn q ->
  turned (conj_turn F q) F (chief_ray n l w z0 d) = chief_ray n l w z0 (applyR q d).
Proof.
  intros HF Hq. unfold turned, chief_ray; cbn [pos vel time wavelength flux vignetted failed].
  rewrite conj_point by assumption. rewrite conj_dir by apply HF. f_equal.
  - rewrite local_of_global by apply HF. destruct Hq as (_ & q1 & q2 & q3 & q4 & q5). apply vec3_eq; cbn; rewrite ?q1, ?q2, ?q3, ?q4, ?q5; ring.
  - unfold local_dir, global_dir. rewrite orth_apply_lr by apply HF. apply vec3_eq; cbn; ring.
Qed.
Definition q_back : mR := M3 1 0 0 0 (-1) 0 0 0 1.
Definition q_right : mR := M3 0 1 0 1 0 0 0 0 1.
Definition q_left : mR := M3 0 (-1) 0 (-1) 0 0 0 0 1.
Lemma q_turns : axial_turn q_back /\ axial_turn q_right /\ axial_turn q_left.
Proof. repeat split; unfold dotR; cbn; lra. Qed.
Lemma axis_fixed Q z : axial_turn Q -> applyR Q (V3 0 0 z) = V3 0 0 z.
Proof. intros (_ & q1 & q2 & q3 & q4 & q5). apply vec3_eq; cbn; rewrite ?q1, ?q2, ?q3, ?q4, ?q5; ring. Qed.
Lemma apply_line Q P V t : applyR Q (on_line P V t) = on_line (applyR Q P) (applyR Q V) t.
Proof. apply vec3_eq; cbn; ring. Qed.
Lemma turn_off_axis Q V : axial_turn Q -> cx (applyR Q V) * cx (applyR Q V) + cy (applyR Q V) * cy (applyR Q V) = cx V * cx V + cy V * cy V.
Proof.
  intros (O & q1 & q2 & q3 & q4 & q5). pose proof (orth_dot Q V V O) as D. unfold dotR in D.
  assert (Z : cz (applyR Q V) = cz V) by (cbn; rewrite q3, q4, q5; ring). rewrite Z in D. lra.
Qed.

(** ** The closest approach to the z axis of a line that meets it *)
Lemma approach_axis P V t z : cx V * cx V + cy V * cy V <> 0 -> on_line P V t = V3 0 0 z ->
  closestApproach (F3 P) (F3 V) (F3 (V3 0 0 0)) (F3 (V3 0 0 1)) = Ok (F3 (V3 0 0 z)).
Proof.
  intros HV E. assert (D : dotR V V * dotR (V3 0 0 1) (V3 0 0 1) - dotR V (V3 0 0 1) * dotR V (V3 0 0 1) <> 0) by (unfold dotR; cbn; lra).
  rewrite closest_F by exact D. do 2 f_equal. rewrite <- E. f_equal. 
  assert (EP : P = minusR (V3 0 0 z) (timesR t V)) by (rewrite <- E; apply vec3_eq; cbn; ring). rewrite EP.
  unfold dotR; cbn. field. unfold dotR in D; cbn in D. intros Z. apply HV. lra.
Qed.
Lemma approach_parallel P V : cx V = 0 -> cy V = 0 -> closestApproach (F3 P) (F3 V) (F3 (V3 0 0 0)) (F3 (V3 0 0 1)) = Err ValueError.
Proof. intros X Y. apply closest_parallel. unfold dotR; cbn. rewrite X, Y. ring. Qed.

Lemma in_plane m k x y : m * m + k * k = 1 -> m * x + k * y = 0 -> x = - k * (m * y - k * x) /\ y = m * (m * y - k * x).
Proof.
  intros H E. split.
  - transitivity (x * (m * m + k * k) - m * (m * x + k * y)); [rewrite H, E|]; ring.
  - transitivity (y * (m * m + k * k) - k * (m * x + k * y)); [rewrite H, E|]; ring.
Qed.

Lemma line_axis m k al be (P V : vR) : cx P = - k * al /\ cy P = m * al -> cx V = - k * be /\ cy V = m * be -> be <> 0 ->
  on_line P V (- al / be) = V3 0 0 (cz P + - al / be * cz V).
Proof.
  intros (A1 & A2) (B1 & B2) H. unfold on_line. apply vec3_eq; cbn [plusR timesR cx cy cz]; [rewrite A1, B1|rewrite A2, B2|reflexivity]; field; exact H.
Qed.

(** ** Four rays at once *)
Lemma trace_list niter (o : optic XR) reverse A B rs rs1 : rs <> [] ->
  Forall2 (fun r r1 => gets_through niter o reverse A (Fray r) B r1) rs rs1 ->
  trace niter o reverse (Frv (RV rs A)) = Frv (RV rs1 B).
Proof.
  intros Ne H. destruct (maplike_trace niter o reverse (Fcs A)) as (f & c & Hf). unfold Frv; cbn [rays rvcs]. rewrite Hf.
  assert (K : c = Fcs B /\ map f (map Fray rs) = map Fray rs1).
  { assert (G : map f (map Fray rs) = map Fray rs1 /\ (rs <> [] -> c = Fcs B)).
    { clear Ne. induction H as [|r r1 rs rs1 (E & _) H IH]; [split; [reflexivity|congruence]|].
      specialize (Hf [Fray r]). rewrite E in Hf. pose proof (f_equal rays Hf) as R1. pose proof (f_equal rvcs Hf) as R2. cbn [rays rvcs map] in R1, R2.
      split; [|intros _; symmetry; exact R2]. cbn [map]. destruct IH as (-> & _). f_equal. apply cons_eq in R1. symmetry. apply R1. }
    split; [apply G, Ne|apply G]. }
  destruct K as (-> & ->). reflexivity.
Qed.

Theorem exit_pupil_axial : forall niter tel lam a p l n s F z0 d r B r1,
  axial_optic (tl_optic tel) -> axial_frame F ->
  oa_backDist (tl_attr tel) = Some (Fin l) -> getN (oa_in (tl_attr tel)) (Fin lam) = Fin n -> n <> 0 ->
  oa_stop (tl_attr tel) = Some (s, Fcs F) -> sag s (Fin 0) (Fin 0) = Fin z0 ->
  a <> 0 -> in_domain p a 0 -> fieldToDirCos (Fin 0) (Fin a) (proj_name p) = Ok (Fin (cx d), Fin (cy d), Fin (cz d)) ->
  arriving d n l lam 1 (V3 0 0 z0) r -> gets_through niter (tl_optic tel) false F (Fray r) B r1 ->
  let P := global_point B (pos r1) in let V := global_dir B (vel r1) in
  (cx V <> 0 \/ cy V <> 0 -> exists t z, on_line P V t = V3 0 0 z /\
     exitPupilPos niter tel (Fin lam) (Fin a) (proj_name p) = Ok (F3 (V3 0 0 z))) /\
  (cx V = 0 -> cy V = 0 -> exitPupilPos niter tel (Fin lam) (Fin a) (proj_name p) = Err ValueError).
Proof.
  intros niter tel lam a p l n s F z0 d r B r1 Ho HF Hbd Hn Hn0 Hst Hz Ha Hd Hdir Harr Hg P V.
  assert (GF : good_frame F) by apply HF.
  destruct (four_directions p a Ha Hd) as (sn & cs & D1 & D2 & D3 & D4).
  assert (Ed : d = V3 0 sn cs) by (rewrite Hdir in D1; injection D1; intros; destruct d; cbn in *; congruence). subst d.
  apply (arriving_chief _ _ _ _ _ _ Hn0) in Harr. subst r.
  destruct (trace_good niter _ _ F _ B r1 Ho GF Hg) as (_ & _ & _ & GB).
  (* the four rays *)
  set (ds := [V3 0 sn cs; V3 0 (- sn) cs; V3 sn 0 cs; V3 (- sn) 0 cs]).
  destruct (fromFieldAngles_rays (Some (tl_attr tel)) None l None (oa_in (tl_attr tel)) None s F (Some (Fin lam)) lam n (proj_name p)
    [(0, a); (0, - a); (a, 0); (- a, 0)] ds 0 0 z0 1) as (rs & Ers & Hrs); try assumption; try reflexivity.
  { apply by_optic; [reflexivity|]. rewrite Hbd. reflexivity. }
  { apply by_optic; reflexivity. }
  { apply by_optic; [reflexivity|]. rewrite Hst. reflexivity. }
  { unfold ds. repeat constructor; cbn [fst snd cx cy cz]; assumption. }
  assert (Er : rs = map (chief_ray n l lam z0) ds).
  { clear - Hn0 Hrs. clearbody ds. induction Hrs as [|d r ds rs H Hrs IH]; [reflexivity|]. cbn [map]. rewrite <- IH. f_equal. apply arriving_chief; assumption. }
  destruct q_turns as (T1 & T2 & T3).
  set (Qs := map (conj_turn F) [q_back; q_right; q_left]).
  assert (HQ : Forall axial_turn Qs) by (unfold Qs; repeat constructor; apply conj_axial; assumption).
  assert (Hall : Forall2 (fun r r1 => gets_through niter (tl_optic tel) false F (Fray r) B r1) rs (r1 :: map (fun Q => turned Q B r1) Qs)).
  { rewrite Er. unfold ds, Qs. cbn [map]. constructor; [exact Hg|].
    assert (K : forall q d', axial_turn q -> applyR q (V3 0 sn cs) = d' ->
      gets_through niter (tl_optic tel) false F (Fray (chief_ray n l lam z0 d')) B (turned (conj_turn F q) B r1)).
    { intros q d' Hq <-. rewrite <- (chief_turned F) by assumption. apply trace_turned_iff; try assumption. apply conj_axial; assumption. }
    repeat (constructor; [apply K; [assumption|apply vec3_eq; cbn; ring]|]). constructor. }
  assert (Etr : trace niter (tl_optic tel) false (Frv (RV rs F)) = Frv (RV (r1 :: map (fun Q => turned Q B r1) Qs) B)).
  { apply trace_list; [|exact Hall]. rewrite Er. unfold ds. discriminate. }
  assert (Eex : exitPupilPos niter tel (Fin lam) (Fin a) (proj_name p) =
    bind (all_ok (fun r => closestApproach (pos r) (vel r) (V3 n0 n0 n0) (V3 n0 n0 n1)) (map Fray (map (chg_ray B global_frame) (r1 :: map (fun Q => turned Q B r1) Qs)))) (fun ps => Ok (mean3 ps))).
  { unfold exitPupilPos. change (map Fxy [(0, a); (0, - a); (a, 0); (- a, 0)]) with [(Fin 0, Fin a); (Fin 0, Fin (- a)); (Fin a, Fin 0); (Fin (- a), Fin 0)] in Ers.
    change (fromFieldAngles (Some (tl_attr tel)) None None None (Some (Fin lam)) [(n0, Fin a); (n0, (- Fin a)%num); (Fin a, n0); ((- Fin a)%num, n0)] (proj_name p) n0 n0 n1)
      with (fromFieldAngles (Some (tl_attr tel)) None None None (Some (Fin lam)) [(Fin 0, Fin a); (Fin 0, Fin (- a)); (Fin a, Fin 0); (Fin (- a), Fin 0)] (proj_name p) (Fin 0) (Fin 0) (Fin 1)).
    rewrite Ers. cbn [bind]. rewrite Etr, cs_default_F, rv_toCoordSys_F. reflexivity. }
  assert (GG : good_frame global_frame) by (unfold good_frame; apply orth_eye).
  assert (Gp : forall p, chg_pt B global_frame p = global_point B p).
  { intros q. rewrite chg_pt_local by assumption. unfold local_point, global_frame; cbn. apply vec3_eq; cbn; ring. }
  assert (Gv : forall v, chg_vec B global_frame v = global_dir B v).
  { intros v. rewrite chg_vec_local. unfold local_dir, global_frame; cbn. apply vec3_eq; cbn; ring. }
  rewrite Eex. cbn [map]. cbn [all_ok pos vel Fray].
  change (F3 (pos (chg_ray B global_frame r1))) with (F3 (chg_pt B global_frame (pos r1))). change (F3 (vel (chg_ray B global_frame r1))) with (F3 (chg_vec B global_frame (vel r1))).
  rewrite (Gp (pos r1)), (Gv (vel r1)). fold P V.
  change (V3 n0 n0 n0) with (F3 (V3 0 0 0)). change (V3 n0 n0 n1) with (F3 (V3 0 0 1)).
  split.
  - intros HV. assert (HV' : cx V * cx V + cy V * cy V <> 0) by nra.
    (* the plane of the chief ray *)
    set (m := m00 (rot F)). set (k := m10 (rot F)).
    assert (MK : m * m + k * k = 1).
    { destruct HF as (G & _ & _ & _ & _ & F3 & _). destruct G as (G & _). unfold dotR in G; cbn in G. rewrite F3 in G. unfold m, k. lra. }
    assert (M : meridional m k F (chief_ray n l lam z0 (V3 0 sn cs))).
    { assert (L : forall v, m * cx (global_dir F v) + k * cy (global_dir F v) = cx v).
      { intros v. destruct HF as (G & _ & _ & F1 & F2 & F3 & F4). destruct G as (G1 & G2 & G3 & G4 & G5 & G6). unfold dotR in *; cbn in *. unfold m, k.
        rewrite F1, F2, F3, F4 in *.
        transitivity (cx v * (m00 (rot F) * m00 (rot F) + m10 (rot F) * m10 (rot F) + 0 * 0) + cy v * (m00 (rot F) * m01 (rot F) + m10 (rot F) * m11 (rot F) + 0 * 0)); [ring|].
        rewrite G1, G4. ring. }
      split.
      - unfold global_point. destruct HF as (_ & O1 & O2 & _). cbn [plusR cx cy chief_ray pos]. rewrite O1, O2, !Rplus_0_l. fold (global_dir F (minusR (V3 0 0 z0) (timesR l (V3 0 sn cs)))).
        rewrite L. cbn. ring.
      - rewrite L. cbn. ring. }
    pose proof (trace_meridional niter _ _ F B _ r1 m k Ho GF ltac:(lra) Hg M) as (M1 & M2). fold P in M1. fold V in M2.
    set (al := m * cy P - k * cx P). set (be := m * cy V - k * cx V).
    assert (PX : cx P = - k * al /\ cy P = m * al) by (apply in_plane; assumption).
    assert (VX : cx V = - k * be /\ cy V = m * be) by (apply in_plane; assumption).
    assert (Hb : be <> 0) by (intros Z; apply HV'; rewrite (proj1 VX), (proj2 VX), Z; ring).
    set (t := - al / be). set (z := cz P + t * cz V).
    assert (El : on_line P V t = V3 0 0 z).
    { apply (line_axis m k); assumption. }
    exists t, z. split; [exact El|].
    rewrite (approach_axis P V t z HV' El). cbn [bind].
    assert (Est : forall Q, axial_turn Q -> closestApproach (F3 (chg_pt B global_frame (pos (turned Q B r1)))) (F3 (chg_vec B global_frame (vel (turned Q B r1)))) (F3 (V3 0 0 0)) (F3 (V3 0 0 1))
      = Ok (F3 (V3 0 0 z))).
    { intros Q HQ0. rewrite Gp, Gv. unfold turned; cbn [pos vel]. rewrite global_of_local, global_of_local_dir by exact GB. fold P V.
      apply (approach_axis _ _ t); [rewrite turn_off_axis by exact HQ0; exact HV'|]. rewrite <- apply_line, El. apply axis_fixed, HQ0. }
    assert (Ea : all_ok (fun r => closestApproach (pos r) (vel r) (F3 (V3 0 0 0)) (F3 (V3 0 0 1))) (map Fray (map (chg_ray B global_frame) (map (fun Q => turned Q B r1) Qs)))
      = Ok (map (fun _ => F3 (V3 0 0 z)) Qs)).
    { clear - HQ Est. clearbody Qs. induction HQ as [|Q Qs HQ0 HQ IH]; [reflexivity|]. cbn [map all_ok].
      change (pos (Fray (chg_ray B global_frame (turned Q B r1)))) with (F3 (chg_pt B global_frame (pos (turned Q B r1)))).
      change (vel (Fray (chg_ray B global_frame (turned Q B r1)))) with (F3 (chg_vec B global_frame (vel (turned Q B r1)))).
      rewrite (Est Q HQ0). cbn [bind]. rewrite IH. reflexivity. }
    rewrite Ea. cbn [bind]. unfold Qs. cbn [map].
    change [F3 (V3 0 0 z); F3 (V3 0 0 z); F3 (V3 0 0 z); F3 (V3 0 0 z)] with (map F3 [V3 0 0 z; V3 0 0 z; V3 0 0 z; V3 0 0 z]).
    rewrite mean3_F by discriminate. do 2 f_equal. unfold centroid, averageR, WaveSpec.sumR. apply vec3_eq; cbn; field.
  - intros X Y. rewrite (approach_parallel P V X Y). reflexivity.
Qed.
