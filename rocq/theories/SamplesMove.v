(** Concrete cases for the theorems on moved optics (C31-C33, C52, C53). *)
From Coq Require Import Reals String List Bool ZArith SpecFloat Lra.
From Verif Require Import Num NumR NumF Vec CoordSys Surface Medium Obscuration Ray Bundle Optic Ops TreeSpec
  Spec XRFacts CoordFacts MoveSpec SamplesTree.
Import ListNotations.
Open Scope R_scope.

Lemma at_z_F z : at_z z = Fcs (CS (V3 0 0 (IZR z)) eyeR).
Proof. reflexivity. Qed.
Lemma tel_real : Forall real_frame (frames (T:=XR) tel).
Proof. repeat constructor; eexists; apply at_z_F. Qed.
Lemma tel_unskipped {T} {NT : Num T} : unskipped (T:=T) tel.
Proof.
  constructor; cbn; intros it H; repeat destruct H as [<-|H]; try reflexivity; try contradiction; constructor;
    cbn; intros it H; repeat destruct H as [<-|H]; try reflexivity; try contradiction; constructor.
Qed.
Lemma mkI_built {T} {NT : Num T} k s n z ob : i_built (mkI (T:=T) k s n z ob).
Proof. do 10 eexists; reflexivity. Qed.
Lemma tel_built {T} {NT : Num T} : built (T:=T) tel.
Proof.
  refine (built_compound (catt "tel" false) _ tel _ _ eq_refl); [discriminate|].
  cbn [In]; intros it H; repeat destruct H as [<-|H]; try contradiction; try (apply built_iface, mkI_built).
  refine (built_compound (catt "sub" false) _ _ _ _ eq_refl); [discriminate|].
  cbn [In]; intros it H; repeat destruct H as [<-|H]; try contradiction; apply built_iface, mkI_built.
Qed.
(** A quarter turn about z. *)
Definition quarter : mR := M3 0 (-1) 0 1 0 0 0 0 1.
Lemma quarter_orth : orthonormal quarter.
Proof. unfold orthonormal, quarter, dotR, col0, col1, col2; cbn. repeat split; lra. Qed.
Lemma ex_c31 : orthonormal quarter /\ Forall real_frame (frames (T:=XR) tel) /\
  good_real_frame (o_cs (T:=XR) tel) /\ built (T:=XR) tel.
Proof.
  split; [apply quarter_orth|]. split; [apply tel_real|]. split; [|apply tel_built].
  exists (CS (V3 0 0 0) eyeR). split; [reflexivity|apply orth_eye].
Qed.
Definition sway : list motion := [MShift (V3 1 2 3); MTurn quarter (V3 1 0 0) (CS (V3 0 5 0) eyeR)].
Lemma ex_c32 : unskipped (T:=XR) tel /\ Forall real_frame (frames (T:=XR) tel) /\ leaves (T:=XR) tel <> [] /\
  Forall rigid sway /\ sway <> [] /\
  carried sway global_frame (CS (V3 4 5 3) quarter) /\ good_frame global_frame.
Proof.
  split; [apply tel_unskipped|]. split; [apply tel_real|]. split; [discriminate|].
  split; [repeat constructor; apply quarter_orth|]. split; [discriminate|]. split; [|apply orth_eye].
  intros p. unfold sway, move_points, global_point, global_frame, quarter, plusR, applyR, minusR, timesR, col0, col1, col2,
    move_point, fold_left. cbn. unfold plusR, applyR, minusR, timesR, global_point, col0, col1, col2.
  cbn. apply vec3_eq; cbn; lra.
Qed.

(** A mirror to which the user has given a coating, and one marked to be skipped. *)
Definition half {T} {NT : Num T} : coating T := SimpleCoating n1 n1.
Definition coated {T} {NT : Num T} : iface T :=
  IF KMirror Plane "M" (at_z 0) None air1 air1 (Some half) (Some half) false.
Definition marked {T} {NT : Num T} : iface T :=
  IF KMirror Plane "M" (at_z 0) None air1 air1 (Some (SimpleCoating n1 n0)) (Some (SimpleCoating n1 n0)) true.
Lemma coating_lost : exists (i : iface F64) (d : vec3 F64), i_fwd (i_withGlobalShift d i) <> i_fwd i.
Proof. exists coated, vzero. vm_compute. congruence. Qed.
Lemma skip_lost : exists (i : iface F64) (d : vec3 F64), i_skip (i_withGlobalShift d i) <> i_skip i.
Proof. exists marked, vzero. vm_compute. congruence. Qed.
Lemma surface_coating_lost : exists (i : iface F64) (s : surface F64), i_fwd (i_withSurface s i) <> i_fwd i.
Proof. exists coated, Plane. vm_compute. congruence. Qed.

(** A mirror constructed with skip=True still acts. *)
Lemma skip_ignored : exists (a : cattr F64) (i : iface F64) rv,
  i = mkIface KMirror Plane "M" (at_z 0) None air1 air1 None None true /\
  trace 5 (Compound a [Iface i]) false rv <> trace 5 (Compound a []) false rv.
Proof.
  exists (catt "t" false). eexists. exists rv0. split; [reflexivity|]. vm_compute. congruence.
Qed.
Lemma compound_skip_ignored : exists (a b : cattr F64) items o rv,
  c_skip b = true /\ mkCompound b items = Ok o /\
  trace 5 (Compound a [o]) false rv <> trace 5 (Compound a []) false rv.
Proof.
  exists (catt "t" false), (catt "s" true), [Iface iA]. eexists. exists rv0.
  split; [reflexivity|]. split; [reflexivity|]. vm_compute. congruence.
Qed.
Lemma ex_skip : o_skip (Iface (T:=F64) marked) = true.
Proof. reflexivity. Qed.

(** A window with different coatings on its two sides. *)
Definition window {T} {NT : Num T} : iface T :=
  IF KRefractive Plane "W" (at_z 0) None air1 air1 (Some (SimpleCoating n0 n1)) (Some (SimpleCoating n1 n0)) false.
Lemma coating_swapped : exists (i : iface F64) c rv,
  i_kind i = KRefractive /\ i_fwd i = Some c /\
  rSplit 5 i false rv <> (let '(t, r) := rv_rsplit 5 (i_surf i) (i_in i) (i_out i) c (Some (i_cs i)) rv in
                          Ok (Some t, Some r)).
Proof.
  exists window, (SimpleCoating n0 n1), rv0. split; [reflexivity|]. split; [reflexivity|].
  vm_compute. congruence.
Qed.
Lemma coating_swapped_rev : exists (i : iface F64) c rv,
  i_kind i = KRefractive /\ i_rev i = Some c /\
  rSplit 5 i true rv <> (let '(t, r) := rv_rsplit 5 (i_surf i) (i_out i) (i_in i) c (Some (i_cs i)) rv in
                          Ok (Some t, Some r)).
Proof.
  exists window, (SimpleCoating n1 n0), rv0. split; [reflexivity|]. split; [reflexivity|].
  vm_compute. congruence.
Qed.
Lemma same_coating {T} {NT : Num T} niter (i : iface T) c rv :
  i_kind i = KRefractive -> i_fwd i = Some c -> i_rev i = Some c ->
  (forall reverse : bool, rSplit niter i reverse rv
   = (let '(t, r) := rv_rsplit niter (i_surf i) (if reverse then i_out i else i_in i)
                       (if reverse then i_in i else i_out i) c (Some (i_cs i)) rv in Ok (Some t, Some r))).
Proof. intros K E1 E2 []; unfold rSplit; rewrite K, ?E1, ?E2; reflexivity. Qed.
Lemma detector_coating {T} {NT : Num T} niter (i : iface T) c rv :
  i_kind i = KDetector -> i_fwd i = Some c ->
  rSplit niter i false rv
   = (let '(t, r) := rv_rsplit niter (i_surf i) (i_in i) (i_out i) c (Some (i_cs i)) rv in Ok (Some t, Some r)).
Proof. intros K E1; unfold rSplit; rewrite K, ?E1; reflexivity. Qed.
Lemma ex_c53 : i_kind (T:=F64) (mkI KRefractive Plane "W" 0 None) = KRefractive /\
  i_fwd (T:=F64) (mkI KRefractive Plane "W" 0 None) = Some (SimpleCoating n0 n1) /\
  i_rev (T:=F64) (mkI KRefractive Plane "W" 0 None) = Some (SimpleCoating n0 n1).
Proof. repeat split. Qed.
