(** A ray in double precision through a paraboloid into glass and out through a tilted plane. *)
From Coq Require Import Reals ZArith List Bool Lra Lia Floats.SpecFloat.
From Verif Require Import Num NumF Vec CoordSys Surface Medium Ray Bundle Spec AnalysisProofs FloatSpec FloatProofs FloatErr FloatFrames FloatTrace FloatNormal FloatMirrors FloatRefract SamplesFloat.
Import ListNotations.
Open Scope R_scope.

Definition f32 : F64 := f_frac 3 2.
Definition flenses : lens_list := [(Paraboloid (fz 5), feye, ConstM (fz 1), ConstM f32, None); (Plane, fturn, ConstM f32, ConstM (fz 1), None)].
Lemma val32 : valF f32 = 1.5.
Proof. replace f32 with (S754_finite false 6755399441055744 (-52)) by (vm_compute; reflexivity). lits. lra. Qed.
Definition gr1 : ray F64 := Eval vm_compute in nth 0 (rays (rv_refract 0 (Paraboloid (fz 5)) (ConstM (fz 1)) (ConstM f32) (Some feye) None frv0)) fray.
Definition gr2 : ray F64 := Eval vm_compute in nth 0 (rays (lenses 0 flenses frv0)) fray.
Lemma gr1_eq : rays (rv_refract 0 (Paraboloid (fz 5)) (ConstM (fz 1)) (ConstM f32) (Some feye) None frv0) = [gr1]. Proof. vm_compute; reflexivity. Qed.
Lemma gr2_eq : rays (lenses 0 flenses frv0) = [gr2]. Proof. vm_compute; reflexivity. Qed.
Definition gn1 : vec3 F64 := Eval vm_compute in normal (Paraboloid (fz 5)) (cx (pos gr1)) (cy (pos gr1)).
Lemma gn1_eq : normal (Paraboloid (fz 5)) (cx (pos gr1)) (cy (pos gr1)) = gn1. Proof. vm_compute; reflexivity. Qed.
Lemma lens_frames : Forall (fun c => finC c /\ nearly_orthonormal ftau (valM (rot c))) (rvcs frv0 :: map (fun m => snd (fst (fst (fst m)))) flenses).
Proof.
  change (rvcs frv0 :: map (fun m => snd (fst (fst (fst m)))) flenses) with [feye; feye; fturn].
  exact (Forall_cons _ (conj eye_fin eye_near) (Forall_cons _ (conj eye_fin eye_near) (Forall_cons _ (conj turn_fin turn_near) (Forall_nil _)))).
Qed.
Lemma lenses_ordinary : ordinary 0 0 1 flenses frv0.
Proof.
  unfold flenses. cbn [ordinary getN]. rewrite gr1_eq. cbn [nth_error]. intros r H _. injection H as <-. rewrite gn1_eq, val32.
  split; [cbn [mild]; split; [exact I|]; rewrite val5, Rabs_pos_eq by lra; apply Rle_trans with (two 0); [apply two_le; lia|]; rewrite two_0; lra|].
  split; [unfold finV; vm_compute; tauto|]. split; [unfold gn1; cbn [cz]; lits; lra|]. split; [unfold finV; vm_compute; tauto|].
  split; [vm_compute; tauto|]. split; [lra|]. split; [lra|].
  change (rays (rv_refract 0 Plane (ConstM f32) (ConstM (fz 1)) (Some fturn) None (rv_refract 0 (Paraboloid (fz 5)) (ConstM (fz 1)) (ConstM f32) (Some feye) None frv0))) with (rays (lenses 0 flenses frv0)).
  rewrite gr2_eq. cbn [nth_error]. intros r H _. injection H as <-. split; [exact I|]. change (normal Plane (cx (pos gr2)) (cy (pos gr2))) with (zhat (T := F64)). rewrite val1.
  split; [unfold finV; vm_compute; tauto|]. split; [change (cz zhat) with (n1 (T := F64)); rewrite val_n1; lra|]. split; [unfold finV; vm_compute; tauto|].
  split; [vm_compute; tauto|]. split; [lra|]. split; [lra|exact I].
Qed.
Lemma lens_start : Rabs (1 * 1 * dotR (valV (vel fray0)) (valV (vel fray0)) - 1) <= 350 * ulp.
Proof.
  change (vel fray0) with (vel fray). rewrite val_vel. unfold dotR, v35, v45; cbn [cx cy cz]. unfold ulp. rewrite (two_lit (-52) 4503599627370496) by (try lia; reflexivity). apply Rabs_le. lra.
Qed.
(** The speed is not exactly 1 / n. *)
Lemma lenses_inexact : exists niter l rv r r', ordinary niter 0 1 l rv /\ rays rv = [r] /\ rays (lenses niter l rv) = [r'] /\ failed r' = false /\
  let n' := last_index 1 (wavelength r) l in n' * n' * dotR (valV (vel r')) (valV (vel r')) <> 1.
Proof.
  exists 0%nat, flenses, frv0, fray0, gr2. split; [apply lenses_ordinary|]. split; [reflexivity|]. split; [apply gr2_eq|]. split; [reflexivity|].
  cbv zeta. unfold flenses, last_index. cbn [fold_left getN]. rewrite val1. unfold valV, gr2; cbn [vel cx cy cz]. unfold dotR; cbn [cx cy cz]. lits.
  rewrite (two_lit (-55) 36028797018963968) by (try lia; reflexivity). lra.
Qed.
