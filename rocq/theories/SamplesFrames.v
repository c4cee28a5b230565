(** Concrete data meeting the hypotheses of PropertiesFrames.v. *)
From Coq Require Import Reals List Lra.
From Verif Require Import Num NumR Vec CoordSys Ray Bundle Spec XRFacts CoordFacts FrameProofs.
Import ListNotations.
Open Scope R_scope.

(** 3-4-5 rotation about z, and about x. *)
Definition rotZ345 : mR := M3 (3/5) (-4/5) 0 (4/5) (3/5) 0 0 0 1.
Definition rotX345 : mR := M3 1 0 0 0 (3/5) (-4/5) 0 (4/5) (3/5).
Definition frA : frame := CS (V3 1 2 3) rotZ345.
Definition frB : frame := CS (V3 (-1) 0 5) rotX345.
Definition ray1 : ray R := Ray (V3 1 1 1) (V3 0 0 1) 2 (1/2) 1 false false.

Lemma rotZ345_rot : rotation rotZ345.
Proof.
  split; [unfold orthonormal, dotR; cbn; repeat split; lra|].
  unfold right_handed; apply vec3_eq; cbn; lra.
Qed.
Lemma rotX345_rot : rotation rotX345.
Proof.
  split; [unfold orthonormal, dotR; cbn; repeat split; lra|].
  unfold right_handed; apply vec3_eq; cbn; lra.
Qed.
Lemma frames_good : good_frame frA /\ good_frame frB /\ frA <> frB.
Proof.
  split; [apply rotZ345_rot|split; [apply rotX345_rot|]].
  intros H; injection H; intros; lra.
Qed.
Lemma frames_chain : good_frame frA /\ Forall good_frame [frB; global_frame; frA].
Proof.
  split; [apply rotZ345_rot|].
  repeat constructor; first [apply rotX345_rot | apply rotation_eye | apply rotZ345_rot].
Qed.
Lemma rigid_moves : exists r, rays (rv_toCoordSys (Fcs frB) (Frv (RV [ray1] frA))) = [r] /\
  pos r <> F3 (pos ray1).
Proof.
  rewrite rv_toCoordSys_F. eexists; split; [reflexivity|].
  cbn [Fray pos chg_ray]. intros H. apply F3_inj in H. apply (f_equal cx) in H.
  cbn in H. lra.
Qed.
Definition history1 : list (cs_op R) :=
  [OpShiftLocal (V3 1 0 0); OpRotateLocal rotX345 (V3 0 0 1) (Some frB);
   OpRotateGlobal rotZ345 (V3 1 1 1) None; OpShiftGlobal (V3 0 0 (-2))].
Lemma history1_ok : Forall rot_op history1 /\ good_frame frA.
Proof.
  split; [|apply rotZ345_rot]. unfold history1.
  repeat constructor; cbn; first [apply rotX345_rot | apply rotZ345_rot].
Qed.
Lemma propagate_moves : ray_propagate (Fin 3) (Fray ray1) <> Fray ray1.
Proof. intros H. apply (f_equal time) in H. cbn in H. injection H; intros; lra. Qed.
