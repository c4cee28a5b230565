(** Concrete cases for the theorems on bundles as arrays and on waves
    (C06, C44-C46, C54, C61). *)
From Coq Require Import Reals String List ZArith Bool SpecFloat Lra Lia.
From Verif Require Import Num NumR NumF Vec CoordSys Surface Medium Obscuration Ray Bundle Optic Spec XRFacts
  Trig Arrays ArraySpec Wave WaveSpec ArrayProofs SamplesTree SamplesFrames.
Import ListNotations.
Open Scope nat_scope.

Lemma negative_wrong : exists (rv : rayvec F64) (i : Z) (a : arrays F64),
  (- Z.of_nat (List.length (rays rv)) <= i < 0)%Z /\
  getitem_rv (to_arrays rv) (IInt i) = Ok a /\ List.length (a_t a) = 2.
Proof.
  exists rv0, (-2)%Z. eexists. split; [cbn; lia|]. split; [vm_compute; reflexivity|reflexivity].
Qed.
Lemma ex_index : nth_error (rays (T:=F64) rv0) 2 = Some dead /\ rays (T:=F64) rv0 = [up; axis] ++ [dead] /\
  filter (in_slice 3 (Some (-2)%Z) None) (seq 0 3) = [1; 2].
Proof. repeat split. Qed.
Open Scope R_scope.
Definition apart : frame := CS (V3 0 0 1) eyeR.
Lemma concat_moves : exists (A B : frame) (r1 r2 : ray R),
  concatenateRayVectors [to_arrays (Frv (RV [r1] A)); to_arrays (Frv (RV [r2] B))]
    = Ok (to_arrays (Frv (RV [r1; r2] A))) /\
  global_point A (pos r2) <> global_point B (pos r2).
Proof.
  exists global_frame, apart, ray1, ray1. split; [reflexivity|].
  unfold global_point, global_frame, apart, eyeR, zeroR, plusR, applyR, timesR, col0, col1, col2, ray1; cbn.
  intros E. injection E; intros. lra.
Qed.
Lemma ex_concat : [RV [ray1] global_frame; RV [ray1; ray1] global_frame] <> [] /\
  Forall (fun rv => rvcs rv = global_frame) [RV [ray1] global_frame; RV [ray1; ray1] global_frame].
Proof. split; [discriminate|repeat constructor]. Qed.
Open Scope nat_scope.

Lemma eq_lengths : exists a b : rayvec F64,
  eq_rv (to_arrays a) (to_arrays b) = Some true /\ eq_rv (to_arrays b) (to_arrays a) = None.
Proof. exists (RV [up] (at_z 0)), (RV [up; axis] (at_z 0)). split; vm_compute; reflexivity. Qed.
Lemma eq_frames : exists (a b : rayvec F64) (o : optic F64),
  eq_rv (to_arrays a) (to_arrays b) = Some true /\
  eq_rv (to_arrays (trace 5 o false a)) (to_arrays (trace 5 o false b)) = Some false.
Proof. exists (RV [up] (at_z 0)), (RV [up] (at_z 1)), tel. split; vm_compute; reflexivity. Qed.
Definition lost : ray F64 := Ray (V3 nnan nnan nnan) (V3 n0 n0 n1) n0 n1 n1 false false.
Lemma eq_nan : exists a : rayvec F64, eq_rv (to_arrays a) (to_arrays a) = Some false.
Proof. exists (RV [lost] (at_z 0)). vm_compute; reflexivity. Qed.
Lemma ex_eq : eq_rv (to_arrays (T:=F64) rv0) (to_arrays rv0) = Some true.
Proof. vm_compute; reflexivity. Qed.

Open Scope R_scope.
Definition wray : ray R := Ray (V3 1 2 3) (V3 0 0 (-1)) 4 (1/2) 7 false false.
Definition wbad : ray R := Ray (V3 1 2 3) (V3 0 0 0) 4 0 7 true true.
Lemma ex_wave : has_wave wray /\ wave_phase wray (V3 1 2 2) 4 = 4 * PI.
Proof.
  split; [split; cbn; [intros E; injection E; intros; lra|lra]|].
  unfold wave_phase, wavevector, frequency, dotR, timesR, minusR, wray; cbn. field.
Qed.
Lemma ex_sum : Forall has_wave (filter (counted true) [wray; wbad]) /\
  Forall (fun r => 0 <= flux r) (filter (counted true) [wray; wbad]) /\ filter (counted true) [wray; wbad] = [wray].
Proof. repeat split; cbn; repeat constructor; cbn; try lra. intros E; injection E; intros; lra. Qed.
Lemma good_global : good_frame global_frame.
Proof. unfold good_frame, global_frame, orthonormal, dotR, eyeR, col0, col1, col2; cbn. repeat split; ring. Qed.
Lemma good_apart : good_frame apart.
Proof. exact good_global. Qed.
Definition seen_then_lost : list step :=
  [Step "A" (RV [wray] global_frame) (RV [wray] apart); Step "B" (RV [wray] apart) (RV [wbad] global_frame)].
Lemma ex_steps : good_frame apart /\ Forall good_step seen_then_lost /\ NoDup (map s_name seen_then_lost) /\
  times_visible 0 (map s_out seen_then_lost) = 1%nat.
Proof.
  split; [apply good_apart|]. split; [|split; [|reflexivity]].
  - repeat constructor; cbn; first [apply good_global|apply good_apart].
  - cbn. repeat constructor; cbn; intuition discriminate.
Qed.
