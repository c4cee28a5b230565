(** C72: moving the whole telescope leaves its images unchanged. *)
From Coq Require Import Reals String List ZArith Bool Lra Lia.
From Verif Require Import Num NumR Vec CoordSys Surface Medium Ray Bundle Trig Optic Field RayGen Wave Spec OpticsSpec
  XRFacts CoordFacts FrameProofs RayFacts MoveSpec MoveProofs CovProofs WaveSpec Analysis AnalysisSpec AnalysisProofs.
Import ListNotations.
Open Scope R_scope.

Notation moveF ms A := (fold_left (fun c m => move_frame m c) ms A).
Lemma moveF_dr ms A B : Forall rigid ms -> drR (moveF ms A) (moveF ms B) = drR A B.
Proof.
  intros H. revert A B. induction H as [|m ms Hm Hms IH]; intros A B; [reflexivity|]. cbn [fold_left]. rewrite IH.
  destruct m as [d|r p k]; cbn [move_frame rigid] in *; [apply drR_shift|apply drR_rot; exact Hm].
Qed.
Lemma moveF_drot ms A B : Forall rigid ms -> drotR (moveF ms A) (moveF ms B) = drotR A B.
Proof.
  intros H. revert A B. induction H as [|m ms Hm Hms IH]; intros A B; [reflexivity|]. cbn [fold_left]. rewrite IH.
  destruct m as [d|r p k]; cbn [move_frame rigid] in *; [reflexivity|apply drotR_rot; exact Hm].
Qed.
Lemma moveF_shifted ms A p : shifted (moveF ms A) p = moveF ms (shifted A p).
Proof.
  revert A. induction ms as [|m ms IH]; intros A; [reflexivity|]. cbn [fold_left]. rewrite IH. f_equal.
  destruct m as [d|r q k]; cbn [move_frame].
  - unfold shifted, shiftG; cbn [origin rot]. f_equal. apply vec3_eq; cbn; ring.
  - set (g := global_point k q). unfold shifted, rotG; cbn [origin rot]. f_equal. rewrite applyR_mul.
    unfold applyR, plusR, minusR, timesR; cbn. apply vec3_eq; cbn; ring.
Qed.

(** ** The attributes of the moved optic *)
Lemma moved_attr ms o S A surf : o_cs o = Fcs A -> stop_of o = Some (surf, Fcs S) ->
  let o' := move_optic ms o in
  o_cs o' = Fcs (moveF ms A) /\ stop_of o' = Some (surf, Fcs (moveF ms S)) /\
  match o' with Iface i => i_in i | Compound a _ => c_in a end = match o with Iface i => i_in i | Compound a _ => c_in a end.
Proof.
  revert o S A. induction ms as [|m ms IH]; intros o S A HA HS; cbv zeta.
  - cbn. auto.
  - unfold move_optic. cbn [fold_left]. rewrite move_one. fold (move_optic ms (reset (reframe (move_cs m) o))).
    destruct o as [i|a items]; [discriminate|]. cbn [o_cs stop_of] in HA, HS. destruct (c_stop a) as [st|] eqn:Es; [|discriminate].
    cbn [option_map] in HS. injection HS as H1 H2.
    destruct (IH (reset (reframe (move_cs m) (Compound a items))) (move_frame m S) (move_frame m A)) as (E1 & E2 & E3).
    + cbn. rewrite HA. apply move_cs_F.
    + cbn. rewrite Es. cbn [option_map]. f_equal. destruct st as [k s n cs ob mi mo f r sk]. cbn [i_surf i_cs] in H1, H2. subst.
      destruct k; cbn; rewrite move_cs_F; reflexivity.
    + rewrite E1, E2, E3. split; [reflexivity|]. split; reflexivity.
Qed.

(** ** Generators *)
Definition same_rays (A A' : frame) (r r' : res (rayvec XR)) : Prop :=
  match r, r' with
  | Ok rv, Ok rv' => rvcs rv = Fcs A /\ rvcs rv' = Fcs A' /\ rays rv' = rays rv
  | Err e, Err e' => e = e'
  | _, _ => False
  end.
Definition gen_of (at_ : oattr XR) (w : XR) (d : dirarg XR) : gen XR := Gen (Some at_) None None None None (Some w) d.
Section Moved.
  Context (ms : list motion) (HM : Forall rigid ms) (A S : frame) (surf : surface XR) (bd pupil pobsc : option XR) (md : medium XR).
  Let at0 := OA bd md (Some (surf, Fcs S)) pupil pobsc (Fcs A).
  Let at1 := OA bd md (Some (surf, Fcs (moveF ms S))) pupil pobsc (Fcs (moveF ms A)).

  Lemma settle_moved b w d :
    match settle b (gen_of at0 w d), settle b (gen_of at1 w d) with
    | Ok s, Ok s' => s_backDist s' = s_backDist s /\ s_medium s' = s_medium s /\ s_dir s' = s_dir s /\ s_w s' = s_w s /\
        s_stop s = (surf, Fcs S) /\ s_cs s = Fcs A /\ s_stop s' = (surf, Fcs (moveF ms S)) /\ s_cs s' = Fcs (moveF ms A)
    | Err e, Err e' => e = e'
    | _, _ => False
    end.
  Proof.
    unfold settle, gen_of; cbn [g_backDist g_medium g_stop g_cs g_optic g_dir g_wavelength]. unfold from_optic, at0, at1; cbn [oa_backDist oa_in oa_stop oa_cs].
    destruct bd; [|reflexivity]. cbn [bind].
    destruct d as [v|tx ty p]; cbn [bind]; [repeat split|].
    destruct (fieldToDirCos tx ty p) as [[[dx dy] dz]|e]; cbn [bind]; [repeat split|reflexivity].
  Qed.
  Lemma stop_point_moved p : stop_point (surf, Fcs (moveF ms S)) (Fcs (moveF ms A)) p = stop_point (surf, Fcs S) (Fcs A) p.
  Proof. unfold stop_point; cbn [fst snd]. rewrite !mkCT_F; cbn [ct_dr ct_drot]. rewrite moveF_dr, moveF_drot by exact HM. reflexivity. Qed.
  Lemma launch_moved s s' fl xy : s_backDist s' = s_backDist s -> s_medium s' = s_medium s -> s_dir s' = s_dir s -> s_w s' = s_w s ->
    s_stop s = (surf, Fcs S) -> s_cs s = Fcs A -> s_stop s' = (surf, Fcs (moveF ms S)) -> s_cs s' = Fcs (moveF ms A) ->
    rvcs (launch s fl xy) = Fcs A /\ rvcs (launch s' fl xy) = Fcs (moveF ms A) /\ rays (launch s' fl xy) = rays (launch s fl xy).
  Proof.
    intros E1 E2 E3 E4 E5 E6 E7 E8. unfold launch. rewrite E1, E2, E3, E4, E5, E6, E7, E8.
    rewrite (map_ext _ _ stop_point_moved). unfold finish. destruct (finish_frame _ _ _) as [dr d]. cbn [rays rvcs]. auto.
  Qed.
  Ltac settled b w d := pose proof (settle_moved b w d) as HS;
    destruct (settle b (gen_of at0 w d)) as [s|e], (settle b (gen_of at1 w d)) as [s'|e']; cbn [bind] in *; try contradiction; [|exact HS];
    destruct HS as (E1 & E2 & E3 & E4 & E5 & E6 & E7 & E8).
  Lemma asGrid_moved w d nx ny dx dy lx ly f random :
    same_rays A (moveF ms A) (asGrid (gen_of at0 w d) nx ny dx dy lx ly f random) (asGrid (gen_of at1 w d) nx ny dx dy lx ly f random).
  Proof.
    unfold asGrid. settled true w d.
    change (g_optic (gen_of at1 w d)) with (Some at1). change (g_optic (gen_of at0 w d)) with (Some at0).
    change (grid_lx (Some at1) nx dx lx) with (grid_lx (Some at0) nx dx lx).
    destruct (grid_lx (Some at0) nx dx lx) as [l|e]; cbn [bind]; [|reflexivity].
    destruct (grid_sizes _ _ _ _ _ _) as [[[[a b] c] dd]|e]; cbn [bind]; [|reflexivity].
    destruct (match random with Some _ => _ | None => _ end) as [uv|e]; cbn [bind same_rays]; [|reflexivity].
    apply launch_moved; assumption.
  Qed.
  Lemma asPolar_moved w d outer inner nrad naz kfold f random :
    same_rays A (moveF ms A) (asPolar (gen_of at0 w d) outer inner nrad naz kfold f random)
      (asPolar (gen_of at1 w d) outer inner nrad naz kfold f random).
  Proof.
    unfold asPolar. settled false w d.
    change (polar_radii (g_optic (gen_of at1 w d)) outer inner) with (polar_radii (g_optic (gen_of at0 w d)) outer inner).
    destruct (polar_radii _ _ _) as [[o i]|e]; cbn [bind]; [|reflexivity].
    destruct (match random with Some _ => _ | None => _ end) as [uv|e]; cbn [bind same_rays]; [|reflexivity].
    apply launch_moved; assumption.
  Qed.
  Lemma asSpokes_moved lg w d outer inner spokes rings spacing f :
    same_rays A (moveF ms A) (asSpokes lg (gen_of at0 w d) outer inner spokes rings spacing f)
      (asSpokes lg (gen_of at1 w d) outer inner spokes rings spacing f).
  Proof.
    unfold asSpokes. settled false w d.
    set (P := fun o : oattr XR => option_map (fun p : XR => ndiv p n2) (oa_pupil o)).
    change (from_optic outer (g_optic (gen_of at1 w d)) P) with (from_optic outer (g_optic (gen_of at0 w d)) P).
    destruct (from_optic _ _ _) as [o|e]; cbn [bind]; [|reflexivity].
    destruct (spoke_layout _ _ _ _ _ _) as [[[rr th] fl]|e]; cbn [bind same_rays]; [|reflexivity].
    apply launch_moved; assumption.
  Qed.
End Moved.

(** ** Traces and images *)
Section Images.
  Context (niter : nat) (ms : list motion) (HM : Forall rigid ms) (o : optic XR) (HU : unskipped o)
    (HF : Forall real_frame (frames o)) (A S : frame) (surf : surface XR) (HA : o_cs o = Fcs A) (HS : stop_of o = Some (surf, Fcs S))
    (bd pupil pobsc radius : option XR).
  Let tel0 := telescope_of o bd pupil pobsc radius.
  Let tel1 := telescope_of (move_optic ms o) bd pupil pobsc radius.

  Definition md0 := match o with Iface i => i_in i | Compound a _ => c_in a end.
  Lemma attr0 : tl_attr tel0 = OA bd md0 (Some (surf, Fcs S)) pupil pobsc (Fcs A).
  Proof. unfold tel0, telescope_of, md0; cbn [tl_attr]. rewrite HA, HS. reflexivity. Qed.
  Lemma attr1 : tl_attr tel1 = OA bd md0 (Some (surf, Fcs (moveF ms S))) pupil pobsc (Fcs (moveF ms A)).
  Proof.
    unfold tel1, telescope_of, md0; cbn [tl_attr]. destruct (moved_attr ms o S A surf HA HS) as (E1 & E2 & E3).
    rewrite E1, E2, E3. reflexivity.
  Qed.
  (** Same rays in frames that are carried along. *)
  Definition along (rv rv' : rayvec XR) : Prop :=
    rays rv' = rays rv /\ exists B, rvcs rv = Fcs B /\ rvcs rv' = Fcs (moveF ms B).
  Lemma trace_along rv rv' : along rv rv' -> along (trace niter o false rv) (trace niter (move_optic ms o) false rv').
  Proof.
    intros (E & B & E1 & E2). destruct rv as [l c], rv' as [l' c']; cbn [rays rvcs] in *. subst.
    destruct (covariance niter ms o false l B (moveF ms B) HU HF HM (move_frames_point ms B)) as (R1 & C & C' & R2 & R3 & R4).
    split; [exact R1|]. exists C. split; [exact R2|]. rewrite R3. f_equal. apply carried_frame, R4.
  Qed.
  Lemma same_along r r' : same_rays A (moveF ms A) r r' ->
    match r, r' with Ok rv, Ok rv' => along rv rv' | Err e, Err e' => e = e' | _, _ => False end.
  Proof.
    destruct r as [rv|e], r' as [rv'|e']; cbn; try contradiction; [|auto]. intros (E1 & E2 & E3).
    split; [exact E3|]. exists A. auto.
  Qed.
  Lemma generator0 w d : generator tel0 w d = gen_of (OA bd md0 (Some (surf, Fcs S)) pupil pobsc (Fcs A)) w (DirCos (let '(a, b, c) := d in V3 a b c)).
  Proof. destruct d as [[a b] c]. unfold generator. rewrite attr0. reflexivity. Qed.
  Lemma generator1 w d : generator tel1 w d = gen_of (OA bd md0 (Some (surf, Fcs (moveF ms S))) pupil pobsc (Fcs (moveF ms A))) w (DirCos (let '(a, b, c) := d in V3 a b c)).
  Proof. destruct d as [[a b] c]. unfold generator. rewrite attr1. reflexivity. Qed.
  Lemma grid_along w d nx ny dx dy lx ly f random :
    match asGrid (generator tel0 w d) nx ny dx dy lx ly f random, asGrid (generator tel1 w d) nx ny dx dy lx ly f random with
    | Ok rv, Ok rv' => along rv rv' | Err e, Err e' => e = e' | _, _ => False end.
  Proof. apply same_along. rewrite generator0, generator1. apply asGrid_moved, HM. Qed.
  Lemma polar_along w d outer inner nrad naz kfold f random :
    match asPolar (Gen (Some (tl_attr tel0)) None None None None (Some w) d) outer inner nrad naz kfold f random,
          asPolar (Gen (Some (tl_attr tel1)) None None None None (Some w) d) outer inner nrad naz kfold f random with
    | Ok rv, Ok rv' => along rv rv' | Err e, Err e' => e = e' | _, _ => False end.
  Proof. apply same_along. rewrite attr0, attr1. apply (asPolar_moved ms HM A S surf bd pupil pobsc md0 w d). Qed.
  Lemma lit_along rv rv' : along rv rv' -> lit rv' = lit rv.
  Proof. intros (E & _). unfold lit. rewrite E. reflexivity. Qed.
  Lemma point_along rv rv' reference nx : along rv rv' -> reference_point reference nx rv' = reference_point reference nx rv.
  Proof. intros H. unfold reference_point. rewrite (lit_along _ _ H), (proj1 H). reflexivity. Qed.
  Lemma shift_along rv rv' P : along rv rv' ->
    rays (rv_toCoordSys (shiftLocal (rvcs rv') (F3 P)) rv') = rays (rv_toCoordSys (shiftLocal (rvcs rv) (F3 P)) rv).
  Proof.
    intros (E & B & E1 & E2). destruct rv as [l c], rv' as [l' c']; cbn [rays rvcs] in *. subst.
    rewrite !shiftLocal_F, moveF_shifted. unfold rv_toCoordSys, batch; cbn [rays rvcs dest]. rewrite !mkCT_F; cbn [ct_dr ct_drot].
    rewrite moveF_dr, moveF_drot by exact HM. reflexivity.
  Qed.
  Lemma traced_along tx ty w projection nx :
    match traced_grid niter tel0 tx ty w projection nx, traced_grid niter tel1 tx ty w projection nx with
    | Ok rv, Ok rv' => along rv rv' | Err e, Err e' => e = e' | _, _ => False end.
  Proof.
    unfold traced_grid. destruct (fieldToDirCos tx ty projection) as [d|e]; cbn [bind]; [|reflexivity].
    pose proof (grid_along w d (Some (Z.of_nat nx)) None None None None None n1 None) as G.
    destruct (asGrid (generator tel0 w d) _ _ _ _ _ _ _ _) as [rv|e], (asGrid (generator tel1 w d) _ _ _ _ _ _ _ _) as [rv'|e'];
      cbn [bind]; try contradiction; [|exact G]. apply trace_along, G.
  Qed.
  Lemma clear_point tx ty w projection nx reference rv p : clear_reference niter tel0 tx ty w projection nx reference ->
    traced_grid niter tel0 tx ty w projection nx = Ok rv -> reference_point reference nx rv = Ok p -> exists P, p = F3 P.
  Proof.
    intros [[H1 H2]|H] ET EP.
    - unfold reference_point in EP. apply String.eqb_neq in H1, H2. rewrite H1, H2 in EP. discriminate.
    - assert (HT : traced niter tel0 tx ty w projection nx rv).
      { unfold traced_grid in ET. destruct (fieldToDirCos tx ty projection) as [[[a b] c]|e] eqn:E1; [|discriminate]. cbn [bind] in ET.
        destruct (asGrid _ _ _ _ _ _ _ _ _) as [rv0|e] eqn:E2; [|discriminate]. cbn [bind] in ET. injection ET as <-.
        exists a, b, c, rv0. split; [exact E1|]. split; [exact E2|reflexivity]. }
      destruct (H rv HT) as (q & P & HL & HR). exists P.
      assert (E : reference_point reference nx rv = Ok (F3 P)) by (apply (reference_ok nx rv q reference P HL HR)). congruence.
  Qed.

  Theorem moved_spot tx ty w projection nx reference : clear_reference niter tel0 tx ty w projection nx reference ->
    spot niter tel1 tx ty w projection nx reference = spot niter tel0 tx ty w projection nx reference.
  Proof.
    intros HC. unfold spot. pose proof (traced_along tx ty w projection nx) as G.
    destruct (traced_grid niter tel0 tx ty w projection nx) as [rv|e] eqn:E0, (traced_grid niter tel1 tx ty w projection nx) as [rv'|e'];
      cbn [bind]; try contradiction; [|congruence].
    rewrite (point_along _ _ reference nx G). destruct (reference_point reference nx rv) as [p|e] eqn:EP; cbn [bind].
    - destruct (clear_point tx ty w projection nx reference rv p HC E0 EP) as (P & ->).
      unfold lit. rewrite (shift_along _ _ P G). reflexivity.
    - destruct e; try reflexivity. cbn [bind]. change (@vzero XR _) with (F3 zeroR). unfold lit. rewrite (shift_along _ _ zeroR G). reflexivity.
  Qed.
  Lemma sphere_along rv rv' P r : along rv rv' -> rays (to_sphere niter (F3 P) (Fin r) rv') = rays (to_sphere niter (F3 P) (Fin r) rv).
  Proof.
    intros (E & B & E1 & E2). destruct rv as [l c], rv' as [l' c']; cbn [rays rvcs] in *. subst.
    rewrite !to_sphere_map. apply map_ext. intros x. unfold sphere_step. rewrite moveF_shifted, !moveF_dr, !moveF_drot by exact HM. reflexivity.
  Qed.
  Theorem moved_wavefront tx ty w projection nx sphereRadius reference :
    clear_reference niter tel0 tx ty w projection nx reference -> clear_radius sphereRadius tel0 ->
    wavefront niter tel1 tx ty w projection nx sphereRadius reference = wavefront niter tel0 tx ty w projection nx sphereRadius reference.
  Proof.
    intros HC HR. unfold wavefront. destruct (fieldToDirCos tx ty projection) as [d|e] eqn:ED; cbn [bind]; [|reflexivity].
    pose proof (grid_along w d (Some (Z.of_nat nx)) None None None None None n1 None) as G.
    destruct (asGrid (generator tel0 w d) _ _ _ _ _ _ _ _) as [rv|e] eqn:E0, (asGrid (generator tel1 w d) _ _ _ _ _ _ _ _) as [rv'|e'];
      cbn [bind]; try contradiction; [|congruence].
    change (tl_radius tel1) with (tl_radius tel0). destruct (need_attr sphereRadius (tl_radius tel0)) as [r|e] eqn:ER; cbn [bind]; [|reflexivity].
    assert (Hr : exists x, r = Fin x).
    { apply HR. unfold need_attr in ER. destruct sphereRadius as [a|]; [left; congruence|right]. split; [reflexivity|].
      destruct (tl_radius tel0); congruence. }
    destruct Hr as (x & ->). change (tl_optic tel1) with (move_optic ms o). change (tl_optic tel0) with o.
    pose proof (trace_along _ _ G) as T. set (tv := trace niter o false rv) in *. set (tv' := trace niter (move_optic ms o) false rv') in *.
    rewrite (point_along _ _ reference nx T). destruct (reference_point reference nx tv) as [p|e] eqn:EP; cbn [bind]; [|reflexivity].
    assert (ET : traced_grid niter tel0 tx ty w projection nx = Ok tv) by (unfold traced_grid; rewrite ED; cbn [bind]; rewrite E0; reflexivity).
    destruct (clear_point tx ty w projection nx reference tv p HC ET EP) as (P & ->).
    pose proof (sphere_along _ _ P x T) as Q. set (sv := to_sphere niter (F3 P) (Fin x) tv) in *. set (sv' := to_sphere niter (F3 P) (Fin x) tv') in *.
    unfold reference_time, lit. rewrite Q. reflexivity.
  Qed.
  Theorem moved_dkdu lstsq tx ty w nrad naz projection :
    dkdu niter lstsq tel1 tx ty w nrad naz projection = dkdu niter lstsq tel0 tx ty w nrad naz projection.
  Proof.
    unfold dkdu. pose proof (polar_along w (FieldAngle tx ty projection) None None nrad naz 6 n1 None) as G.
    destruct (asPolar (Gen (Some (tl_attr tel0)) None None None None (Some w) _) _ _ _ _ _ _ _) as [rv|e],
      (asPolar (Gen (Some (tl_attr tel1)) None None None None (Some w) _) _ _ _ _ _ _ _) as [rv'|e']; cbn [bind]; try contradiction; [|congruence].
    pose proof (trace_along _ _ G) as T. change (tl_optic tel1) with (move_optic ms o). change (tl_optic tel0) with o.
    rewrite (lit_along _ _ T), (proj1 T), (proj1 G). reflexivity.
  Qed.
  Theorem moved_lattice lstsq tx ty w projection nx dx dy :
    huygens_lattice niter lstsq tel1 tx ty w projection nx dx dy = huygens_lattice niter lstsq tel0 tx ty w projection nx dx dy.
  Proof. unfold huygens_lattice, fft_lattice. rewrite moved_dkdu. reflexivity. Qed.
  (** No condition: the intensities need no frame. *)
  Theorem moved_huygens lstsq tx ty w projection nx dx dy nxOut reference :
    huygensPSF niter lstsq tel1 tx ty w projection nx dx dy nxOut reference
    = huygensPSF niter lstsq tel0 tx ty w projection nx dx dy nxOut reference.
  Proof.
    unfold huygensPSF. rewrite moved_lattice. destruct (huygens_lattice _ _ _ _ _ _ _ _ _ _) as [[pv pad]|e]; cbn [bind]; [|reflexivity].
    pose proof (traced_along tx ty w projection nx) as G.
    destruct (traced_grid niter tel0 tx ty w projection nx) as [rv|e], (traced_grid niter tel1 tx ty w projection nx) as [rv'|e'];
      cbn [bind]; try contradiction; [|congruence].
    rewrite (point_along _ _ reference nx G). destruct (reference_point reference nx rv) as [p|e]; cbn [bind]; [|reflexivity].
    rewrite (proj1 G). destruct (rays rv) as [|r0 l0] eqn:ER; cbn [bind]; [reflexivity|].
    f_equal. apply map_ext. intros q. unfold sumAmplitude. rewrite (proj1 G). reflexivity.
  Qed.
  Theorem moved_fft lstsq tx ty w projection nx pad sphereRadius reference :
    clear_reference niter tel0 tx ty w projection nx reference -> clear_radius sphereRadius tel0 ->
    fftPSF niter lstsq tel1 tx ty w projection nx pad sphereRadius reference
    = fftPSF niter lstsq tel0 tx ty w projection nx pad sphereRadius reference.
  Proof.
    intros HC HR. unfold fftPSF, fft_lattice. rewrite (moved_wavefront _ _ _ _ _ _ _ HC HR), moved_dkdu. reflexivity.
  Qed.
  Theorem moved_drdth tx ty w nrad naz projection :
    drdth niter tel1 tx ty w nrad naz projection = drdth niter tel0 tx ty w nrad naz projection.
  Proof.
    unfold drdth. cbv zeta. destruct (fieldToDirCos tx ty projection) as [d0|e]; cbn [bind]; [|reflexivity].
    destruct (fieldToDirCos (nadd tx _) ty projection) as [d1|e]; cbn [bind]; [|reflexivity].
    destruct (fieldToDirCos tx (nadd ty _) projection) as [d2|e]; cbn [bind]; [|reflexivity].
    destruct d0 as [[a0 b0] c0], d1 as [[a1 b1] c1], d2 as [[a2 b2] c2]. unfold generator.
    pose proof (polar_along w (DirCos (V3 a0 b0 c0)) None None nrad naz 6 n1 None) as G0.
    destruct (asPolar (Gen (Some (tl_attr tel0)) None None None None (Some w) (DirCos (V3 a0 b0 c0))) _ _ _ _ _ _ _) as [rv0|e0],
      (asPolar (Gen (Some (tl_attr tel1)) None None None None (Some w) (DirCos (V3 a0 b0 c0))) _ _ _ _ _ _ _) as [rv0'|e0']; cbn [bind]; try contradiction; [|congruence].
    pose proof (polar_along w (DirCos (V3 a1 b1 c1)) None None nrad naz 6 n1 None) as G1.
    destruct (asPolar (Gen (Some (tl_attr tel0)) None None None None (Some w) (DirCos (V3 a1 b1 c1))) _ _ _ _ _ _ _) as [rv1|e1],
      (asPolar (Gen (Some (tl_attr tel1)) None None None None (Some w) (DirCos (V3 a1 b1 c1))) _ _ _ _ _ _ _) as [rv1'|e1']; cbn [bind]; try contradiction; [|congruence].
    pose proof (polar_along w (DirCos (V3 a2 b2 c2)) None None nrad naz 6 n1 None) as G2.
    destruct (asPolar (Gen (Some (tl_attr tel0)) None None None None (Some w) (DirCos (V3 a2 b2 c2))) _ _ _ _ _ _ _) as [rv2|e2],
      (asPolar (Gen (Some (tl_attr tel1)) None None None None (Some w) (DirCos (V3 a2 b2 c2))) _ _ _ _ _ _ _) as [rv2'|e2']; cbn [bind]; try contradiction; [|congruence].
    rewrite (proj1 G0), (proj1 G1), (proj1 G2). change (tl_optic tel1) with (move_optic ms o). change (tl_optic tel0) with o.
    assert (T : along (trace niter o false (RV (rays rv0 ++ rays rv1 ++ rays rv2) (rvcs rv0)))
                      (trace niter (move_optic ms o) false (RV (rays rv0 ++ rays rv1 ++ rays rv2) (rvcs rv0')))).
    { apply trace_along. split; [reflexivity|]. exact (proj2 G0). }
    rewrite (proj1 T). reflexivity.
  Qed.
  Theorem moved_dthdr tx ty w nrad naz projection :
    dthdr niter tel1 tx ty w nrad naz projection = dthdr niter tel0 tx ty w nrad naz projection.
  Proof. unfold dthdr. rewrite moved_drdth. reflexivity. Qed.
  Theorem moved_focalLength tx ty w nrad naz projection :
    focalLength niter tel1 tx ty w nrad naz projection = focalLength niter tel0 tx ty w nrad naz projection.
  Proof. unfold focalLength. rewrite moved_drdth. reflexivity. Qed.
  Lemma spokes_along lg w d outer inner spokes rings spacing f :
    match asSpokes lg (generator tel0 w d) outer inner spokes rings spacing f, asSpokes lg (generator tel1 w d) outer inner spokes rings spacing f with
    | Ok rv, Ok rv' => along rv rv' | Err e, Err e' => e = e' | _, _ => False end.
  Proof. apply same_along. rewrite generator0, generator1. apply asSpokes_moved, HM. Qed.
  (** The rays at the stop. *)
  Lemma stop_along rv rv' s : along rv rv' ->
    rays (rv_intersect niter s None None (rv_toCoordSys (Fcs (moveF ms S)) rv')) = rays (rv_intersect niter s None None (rv_toCoordSys (Fcs S) rv)).
  Proof.
    intros (E & B & E1 & E2). destruct rv as [l c], rv' as [l' c']; cbn [rays rvcs] in *. subst.
    unfold rv_intersect, rv_toCoordSys, batch; cbn [rays rvcs dest]. rewrite !mkCT_F; cbn [ct_dr ct_drot].
    rewrite !moveF_dr, !moveF_drot by exact HM. reflexivity.
  Qed.
  Theorem moved_zernikeGQ lg basis tx ty w projection rings spokes sphereRadius jmax eps :
    (forall d rv, fieldToDirCos tx ty projection = Ok d ->
       asSpokes lg (generator tel0 w d) None (ndiv (nmul eps (or_else pupil n0)) n2) (option_map CInt spokes) (CInt rings) "GQ" n1 = Ok rv ->
       exists q, q <> [] /\ lit_rays (trace niter o false rv) q) -> clear_radius sphereRadius tel0 ->
    zernikeGQ niter lg basis tel1 tx ty w projection rings spokes sphereRadius "mean" jmax eps
    = zernikeGQ niter lg basis tel0 tx ty w projection rings spokes sphereRadius "mean" jmax eps.
  Proof.
    intros HC HR. unfold zernikeGQ. destruct (fieldToDirCos tx ty projection) as [d|e] eqn:ED; cbn [bind]; [|reflexivity].
    rewrite attr0, attr1; cbn [oa_pupil oa_stop oa_backDist oa_in]. destruct (need_attr None pupil) as [pu|e] eqn:EU; cbn [bind]; [|reflexivity].
    assert (E' : or_else pupil n0 = pu) by (clear - EU; destruct pupil; cbn in *; congruence). rewrite E' in HC.
    pose proof (spokes_along lg w d None (ndiv (nmul eps pu) n2) (option_map CInt spokes) (CInt rings) "GQ" n1) as G.
    destruct (asSpokes lg (generator tel0 w d) _ _ _ _ _ _) as [rv|e] eqn:E0, (asSpokes lg (generator tel1 w d) _ _ _ _ _ _) as [rv'|e'];
      cbn [bind]; try contradiction; [|congruence]. cbn [fst snd]. change (need_attr None (Some (surf, Fcs S))) with (Ok (surf, Fcs S)).
    change (need_attr None (Some (surf, Fcs (moveF ms S)))) with (Ok (surf, Fcs (moveF ms S))). cbn [bind fst snd]. rewrite (stop_along _ _ surf G).
    change (tl_radius tel1) with (tl_radius tel0). destruct (need_attr sphereRadius (tl_radius tel0)) as [r|e] eqn:ER; cbn [bind]; [|reflexivity].
    assert (Hr : exists x, r = Fin x).
    { apply HR. unfold need_attr in ER. destruct sphereRadius as [a|]; [left; congruence|right]. split; [reflexivity|].
      destruct (tl_radius tel0); congruence. }
    destruct Hr as (x & ->). change (tl_optic tel1) with (move_optic ms o). change (tl_optic tel0) with o.
    pose proof (trace_along _ _ G) as T. destruct (HC d rv eq_refl E0) as (q & Hq & HL).
    set (tv := trace niter o false rv) in *. set (tv' := trace niter (move_optic ms o) false rv') in *.
    rewrite (lit_along _ _ T), (proj1 T). destruct (existsb failed (rays tv)); [reflexivity|].
    destruct (need_attr None bd) as [bd'|e]; cbn [bind]; [|reflexivity]. change (("mean" =? "mean")%string) with true.
    assert (EP : mean3 (select (map pos (rays tv)) (lit tv)) = F3 (centroid (map pos q))).
    { assert (E : reference_point "mean" 1 tv = Ok (F3 (centroid (map pos q)))) by (apply (reference_ok 1 tv q "mean" _ HL); constructor; exact Hq).
      unfold reference_point in E. change (("mean" =? "mean")%string) with true in E. cbv iota in E. congruence. }
    cbn [bind]. rewrite EP.
    pose proof (sphere_along _ _ (centroid (map pos q)) x T) as Q. unfold to_sphere in Q. 
    unfold lit. rewrite Q. reflexivity.
  Qed.
End Images.

(** ** The same in terms of movable optics *)
Lemma movable_parts o : movable o -> unskipped o /\ Forall real_frame (frames o) /\
  exists A S surf, o_cs o = Fcs A /\ stop_of o = Some (surf, Fcs S).
Proof.
  intros (HU & HF & HS). split; [exact HU|]. split; [exact HF|]. destruct o as [i|a items]; [cbn in HS; congruence|].
  cbn [stop_of frames o_cs] in *. destruct (c_stop a) as [st|] eqn:E; [|cbn in HS; congruence].
  unfold stop_list in HF. rewrite E in HF. cbn in HF. inversion HF as [|x l (A & E1) H2]; subst. inversion H2 as [|y l' (S & E2) H3]; subst.
  exists A, S, (i_surf st). split; [exact E1|]. cbn. rewrite E2. reflexivity.
Qed.
Section Movable.
  Context (niter : nat) (ms : list motion) (o : optic XR) (bd pupil pobsc radius : option XR).
  Let tel0 := telescope_of o bd pupil pobsc radius.
  Let tel1 := telescope_of (move_optic ms o) bd pupil pobsc radius.
  Ltac parts := intros HM HO; destruct (movable_parts o HO) as (HU & HF & A & S & surf & HA & HS).
  Theorem spot_moved tx ty w projection nx reference : Forall rigid ms -> movable o ->
    clear_reference niter tel0 tx ty w projection nx reference ->
    spot niter tel1 tx ty w projection nx reference = spot niter tel0 tx ty w projection nx reference.
  Proof. parts. eapply moved_spot; eassumption. Qed.
  Theorem wavefront_moved tx ty w projection nx sphereRadius reference : Forall rigid ms -> movable o ->
    clear_reference niter tel0 tx ty w projection nx reference -> clear_radius sphereRadius tel0 ->
    wavefront niter tel1 tx ty w projection nx sphereRadius reference = wavefront niter tel0 tx ty w projection nx sphereRadius reference.
  Proof. parts. eapply moved_wavefront; eassumption. Qed.
  Theorem psf_moved lstsq tx ty w projection nx dx dy nxOut reference : Forall rigid ms -> movable o ->
    huygensPSF niter lstsq tel1 tx ty w projection nx dx dy nxOut reference
    = huygensPSF niter lstsq tel0 tx ty w projection nx dx dy nxOut reference.
  Proof. parts. eapply moved_huygens; eassumption. Qed.
  Theorem fft_moved lstsq tx ty w projection nx pad sphereRadius reference : Forall rigid ms -> movable o ->
    clear_reference niter tel0 tx ty w projection nx reference -> clear_radius sphereRadius tel0 ->
    fftPSF niter lstsq tel1 tx ty w projection nx pad sphereRadius reference
    = fftPSF niter lstsq tel0 tx ty w projection nx pad sphereRadius reference.
  Proof. parts. eapply moved_fft; eassumption. Qed.
  Theorem derivatives_moved lstsq tx ty w nrad naz projection : Forall rigid ms -> movable o ->
    dkdu niter lstsq tel1 tx ty w nrad naz projection = dkdu niter lstsq tel0 tx ty w nrad naz projection /\
    drdth niter tel1 tx ty w nrad naz projection = drdth niter tel0 tx ty w nrad naz projection /\
    dthdr niter tel1 tx ty w nrad naz projection = dthdr niter tel0 tx ty w nrad naz projection /\
    focalLength niter tel1 tx ty w nrad naz projection = focalLength niter tel0 tx ty w nrad naz projection.
  Proof.
    parts. split; [eapply moved_dkdu; eassumption|]. split; [eapply moved_drdth; eassumption|].
    split; [eapply moved_dthdr; eassumption|eapply moved_focalLength; eassumption].
  Qed.
  Theorem zernike_moved lg basis tx ty w projection rings spokes sphereRadius jmax eps D : Forall rigid ms -> movable o ->
    pupil = Some D -> clear_spokes niter lg tel0 tx ty w projection rings spokes eps D -> clear_radius sphereRadius tel0 ->
    zernikeGQ niter lg basis tel1 tx ty w projection rings spokes sphereRadius "mean" jmax eps
    = zernikeGQ niter lg basis tel0 tx ty w projection rings spokes sphereRadius "mean" jmax eps.
  Proof.
    parts. intros HD HC HR. assert (E : or_else pupil n0 = D) by (rewrite HD; reflexivity).
    eapply moved_zernikeGQ; try eassumption. intros d rv E1 E2. rewrite E in E2. exact (HC d rv E1 E2).
  Qed.
End Movable.
