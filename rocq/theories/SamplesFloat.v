(** Concrete doubles meeting the hypotheses of the accuracy theorems. *)
From Coq Require Import Reals ZArith List Bool Lra Lia Floats.SpecFloat.
From Verif Require Import Num NumF Vec CoordSys Surface Medium Ray Bundle Spec AnalysisProofs FloatSpec FloatProofs FloatErr FloatFrames FloatTrace FloatNormal FloatMirrors.
Import ListNotations.
Open Scope R_scope.

Lemma two_lit e p : (e < 0)%Z -> (2 ^ (- e))%Z = Zpos p -> two e = / IZR (Zpos p).
Proof. intros H E. replace e with (- (- e))%Z by lia. rewrite two_inv, two_nonneg_Z by lia. rewrite E. reflexivity. Qed.
(** 3/5 and 4/5 as doubles: neither is exact. *)
Definition f35 : F64 := f_frac 3 5.
Definition f45 : F64 := f_frac 4 5.
Definition v35 : R := 5404319552844595 / 9007199254740992.
Definition v45 : R := 3602879701896397 / 4503599627370496.
Lemma val35 : valF f35 = v35.
Proof. replace f35 with (S754_finite false 5404319552844595 (-53)) by (vm_compute; reflexivity). unfold valF, v35. rewrite (two_lit (-53) 9007199254740992) by (try lia; reflexivity). lra. Qed.
Lemma val45 : valF f45 = v45.
Proof. replace f45 with (S754_finite false 7205759403792794 (-53)) by (vm_compute; reflexivity). unfold valF, v45. rewrite (two_lit (-53) 9007199254740992) by (try lia; reflexivity). lra. Qed.
Definition fz (z : Z) : F64 := f_ofZ z.
Lemma val1 : valF (fz 1) = 1. Proof. exact val_n1. Qed.
Lemma val0 : valF (fz 0) = 0. Proof. reflexivity. Qed.
Lemma val2 : valF (fz 2) = 2.
Proof. replace (fz 2) with (S754_finite false 4503599627370496 (-51)) by (vm_compute; reflexivity). unfold valF. rewrite (two_lit (-51) 2251799813685248) by (try lia; reflexivity). lra. Qed.
Lemma val3 : valF (fz 3) = 3.
Proof. replace (fz 3) with (S754_finite false 6755399441055744 (-51)) by (vm_compute; reflexivity). unfold valF. rewrite (two_lit (-51) 2251799813685248) by (try lia; reflexivity). lra. Qed.
Lemma val5 : valF (fz 5) = 5.
Proof. replace (fz 5) with (S754_finite false 5629499534213120 (-50)) by (vm_compute; reflexivity). unfold valF. rewrite (two_lit (-50) 1125899906842624) by (try lia; reflexivity). lra. Qed.
Lemma val_opp35 : valF (nopp f35) = - v35. Proof. rewrite <- val35. apply opp_exact. exact I. Qed.
Definition feye : coordsys F64 := CS (V3 (fz 0) (fz 0) (fz 0)) (M3 (fz 1) (fz 0) (fz 0) (fz 0) (fz 1) (fz 0) (fz 0) (fz 0) (fz 1)).
Definition fturn : coordsys F64 := CS (V3 (fz 1) (fz 2) (fz 3)) (M3 f45 (fz 0) f35 (fz 0) (fz 1) (fz 0) (nopp f35) (fz 0) f45).
Definition ftau : R := / 1000000000000000.
Lemma val_turn : valM (rot fturn) = M3 v45 0 v35 0 1 0 (- v35) 0 v45.
Proof. unfold valM, fturn; cbn [rot m00 m01 m02 m10 m11 m12 m20 m21 m22]. rewrite val_opp35, val35, val45, val1, val0. reflexivity. Qed.
Lemma val_eye : valM (rot feye) = eyeR.
Proof. unfold valM, feye; cbn [rot m00 m01 m02 m10 m11 m12 m20 m21 m22]. rewrite val1, val0. reflexivity. Qed.
Lemma turn_near : nearly_orthonormal ftau (valM (rot fturn)).
Proof. rewrite val_turn. unfold nearly_orthonormal, nearly_columns, nearly, ftau, dotR, col0, col1, col2, transR, v35, v45; cbn. conj; apply Rabs_le; lra. Qed.
Lemma eye_near : nearly_orthonormal ftau (valM (rot feye)).
Proof. rewrite val_eye. unfold nearly_orthonormal, nearly_columns, nearly, ftau, dotR, col0, col1, col2, transR, eyeR; cbn. conj; apply Rabs_le; lra. Qed.
Lemma turn_fin : finC fturn. Proof. unfold finC, finV, finM; vm_compute; tauto. Qed.
Lemma eye_fin : finC feye. Proof. unfold finC, finV, finM; vm_compute; tauto. Qed.
Lemma val_123 : valV (V3 (fz 1) (fz 2) (fz 3)) = V3 1 2 3. Proof. unfold valV; cbn [cx cy cz]. rewrite val1, val2, val3. reflexivity. Qed.
Lemma val_000 : valV (V3 (fz 0) (fz 0) (fz 0)) = V3 0 0 0. Proof. unfold valV; cbn [cx cy cz]. rewrite val0. reflexivity. Qed.
Lemma turn_frame : double_frame ftau 16 fturn.
Proof. split; [apply turn_fin|split; [apply turn_near|]]. change (origin fturn) with (V3 (fz 1) (fz 2) (fz 3)). rewrite val_123. apply len_le; unfold dotR; cbn; lra. Qed.
Lemma eye_frame : double_frame ftau 16 feye.
Proof. split; [apply eye_fin|split; [apply eye_near|]]. change (origin feye) with (V3 (fz 0) (fz 0) (fz 0)). rewrite val_000. apply len_le; unfold dotR; cbn; lra. Qed.
Lemma range_64 : inrange4 64.
Proof. destruct room_1 as [A B]. split; [lra|]. apply Rle_trans with (two 6); [rewrite two_nonneg_Z by lia; cbn; lra|apply two_le; lia]. Qed.
Lemma range_2 : inrange4 2.
Proof. destruct room_1 as [A B]. split; [lra|]. apply Rle_trans with (two 6); [rewrite two_nonneg_Z by lia; cbn; lra|apply two_le; lia]. Qed.
(** A ray at (1,2,3) with velocity (0, 3/5, 4/5) as doubles. *)
Definition fray : ray F64 := Ray (V3 (fz 1) (fz 2) (fz 3)) (V3 (fz 0) f35 f45) (fz 2) (fz 1) (fz 1) false false.
Lemma val_vel : valV (vel fray) = V3 0 v35 v45. Proof. unfold valV, fray; cbn [vel cx cy cz]. rewrite val0, val35, val45. reflexivity. Qed.
Lemma sized_lit B a x : finF a -> valF a = x -> Rabs x <= B -> sized B a. Proof. intros F <- H. split; assumption. Qed.
Lemma fray_sized : sizedV 64 (pos fray) /\ sizedV 2 (vel fray) /\ sized 64 (fz 5) /\ sized 64 (time fray).
Proof.
  unfold fray, sizedV; cbn [pos vel time cx cy cz]. conj; (eapply sized_lit; [exact I|first [apply val0|apply val1|apply val2|apply val3|apply val5|apply val35|apply val45]|]);
    unfold v35, v45; rewrite Rabs_pos_eq; lra.
Qed.
(** The position after propagation is not the exact one. *)
Lemma fray_inexact : valF (cy (pos (ray_propagate (fz 5) fray))) <> cy (plusR (valV (pos fray)) (timesR (valF (fz 5) - valF (time fray)) (valV (vel fray)))).
Proof.
  replace (cy (pos (ray_propagate (fz 5) fray))) with (S754_finite false 8556839292003942 (-51)) by (vm_compute; reflexivity).
  rewrite val_vel. unfold fray; cbn [pos time]. rewrite val_123, val2, val5. unfold plusR, timesR; cbn [cx cy cz]. unfold valF. rewrite (two_lit (-51) 2251799813685248) by (try lia; reflexivity).
  unfold v35. lra.
Qed.
Definition frv : rayvec F64 := RV [fray] feye.
Definition fmirrors : list (surface F64 * coordsys F64 * option (coating F64)) := [(Plane, fturn, None); (Paraboloid (fz 5), feye, None)].
Definition fray0 : ray F64 := Ray (V3 (fz 0) (fz 1) (fz 0)) (V3 (fz 0) f35 f45) (fz 2) (fz 1) (fz 1) false false.
Definition frv0 : rayvec F64 := RV [fray0] feye.

Lemma frames_ok : Forall (double_frame ftau (64 / 4)) (rvcs frv :: [fturn; feye; fturn]).
Proof. replace (64 / 4) with 16 by lra. change (rvcs frv) with feye. exact (Forall_cons _ eye_frame (Forall_cons _ turn_frame (Forall_cons _ eye_frame (Forall_cons _ turn_frame (Forall_nil _))))). Qed.
Lemma frv_small : lenR (global_point (valC (rvcs frv)) (valV (pos fray))) + INR 3 * ((212 * ulp + 9.3 * ftau) * 64) <= 64 / 2.
Proof.
  assert (L : lenR (global_point (valC (rvcs frv)) (valV (pos fray))) <= 10).
  { apply len_le; [lra|]. unfold frv, fray; cbn [rvcs pos]. unfold valC, global_point; cbn [origin rot]. change (origin feye) with (V3 (fz 0) (fz 0) (fz 0)). rewrite val_eye, val_123, val_000.
    unfold dotR, plusR, applyR, timesR, eyeR; cbn. lra. }
  pose proof ulp_small. unfold ftau. cbn [INR]. lra.
Qed.
Lemma frv_slow : lenR (global_dir (valC (rvcs frv)) (valV (vel fray))) + INR 3 * ((64 * ulp + 3.1 * ftau) * 2) <= 3/4 * 2.
Proof.
  assert (L : lenR (global_dir (valC (rvcs frv)) (valV (vel fray))) <= 1.1).
  { apply len_le; [lra|]. rewrite val_vel. unfold frv; cbn [rvcs]. unfold valC, global_dir; cbn [rot]. rewrite val_eye.
    unfold dotR, plusR, applyR, timesR, eyeR, v35, v45; cbn. lra. }
  pose proof ulp_small. unfold ftau. cbn [INR]. lra.
Qed.
Lemma round_trip_inexact : exists rv A B r r', Forall (double_frame ftau 16) [A; B] /\ rvcs rv = A /\ rays rv = [r] /\ finV (pos r) /\
  rays (hops [B; A] rv) = [r'] /\ valV (pos r') <> valV (pos r).
Proof.
  exists frv, feye, fturn, fray. eexists. split; [exact (Forall_cons _ eye_frame (Forall_cons _ turn_frame (Forall_nil _)))|]. split; [reflexivity|]. split; [reflexivity|].
  split; [unfold finV; vm_compute; tauto|]. split; [vm_compute; reflexivity|].
  unfold fray; cbn [pos]. rewrite val_123. unfold valV, valF; cbn [pos cx cy cz]. intros H. apply (f_equal cx) in H. cbn [cx] in H. rewrite (two_lit (-52) 4503599627370496) in H by (try lia; reflexivity). lra.
Qed.
(** The plane hit. *)
Definition fct : coordtransform F64 := mkCT feye fturn.
Ltac lits := unfold valF;
  try rewrite (two_lit (-49) 562949953421312) by (try lia; reflexivity);
  try rewrite (two_lit (-50) 1125899906842624) by (try lia; reflexivity);
  try rewrite (two_lit (-51) 2251799813685248) by (try lia; reflexivity);
  try rewrite (two_lit (-52) 4503599627370496) by (try lia; reflexivity);
  try rewrite (two_lit (-53) 9007199254740992) by (try lia; reflexivity);
  try rewrite (two_lit (-54) 18014398509481984) by (try lia; reflexivity).
Definition fp : vec3 F64 := Eval vm_compute in fwd_point (ct_dr fct) (ct_drot fct) (pos fray0).
Definition fv : vec3 F64 := Eval vm_compute in fwd_vel (ct_drot fct) (vel fray0).
Lemma fp_eq : fwd_point (ct_dr fct) (ct_drot fct) (pos fray0) = fp. Proof. vm_compute; reflexivity. Qed.
Lemma fv_eq : fwd_vel (ct_drot fct) (vel fray0) = fv. Proof. vm_compute; reflexivity. Qed.
Lemma plane_ok : failed fray0 = false /\ sizedV 64 (fwd_point (ct_dr fct) (ct_drot fct) (pos fray0)) /\ sizedV 2 (fwd_vel (ct_drot fct) (vel fray0)) /\
  valF (cz (fwd_vel (ct_drot fct) (vel fray0))) <> 0 /\ sized 64 (time fray0) /\
  Rabs (valF (cz (fwd_point (ct_dr fct) (ct_drot fct) (pos fray0))) / valF (cz (fwd_vel (ct_drot fct) (vel fray0)))) <= 64 /\
  two (-840) <= Rabs (valF (cz (fwd_vel (ct_drot fct) (vel fray0)))) * 64.
Proof.
  rewrite fp_eq, fv_eq.
  assert (V : exists vz, valF (cz fv) = vz /\ 0.6 <= vz <= 0.7) by (eexists; split; [unfold fv; cbn [cz]; lits; reflexivity|lra]).
  assert (P : exists pz, valF (cz fp) = pz /\ -5 <= pz <= 5) by (eexists; split; [unfold fp; cbn [cz]; lits; reflexivity|lra]).
  destruct V as (vz & EV & V), P as (pz & EP & P). rewrite EV, EP. split; [reflexivity|]. conj.
  - unfold sizedV, fp; cbn [cx cy cz]. conj; (split; [exact I|]); lits; apply Rabs_le; lra.
  - unfold sizedV, fv; cbn [cx cy cz]. conj; (split; [exact I|]); lits; apply Rabs_le; lra.
  - lra.
  - apply fray_sized.
  - assert (0 < / vz <= 2) by (split; [apply Rinv_0_lt_compat; lra|]; replace 2 with (/ / 2) by lra; apply Rinv_le_contravar; lra).
    unfold Rdiv. eapply Rle_trans; [apply (abs_mul _ _ 5 2); apply Rabs_le; lra|lra].
  - rewrite Rabs_pos_eq by lra. apply Rle_trans with (two 0); [apply two_le; lia|]. rewrite two_0. lra.
Qed.
(** Two mirrors: a tilted plane, then a paraboloid. *)
Lemma mirror_frames : Forall (fun c => finC c /\ nearly_orthonormal ftau (valM (rot c))) (rvcs frv0 :: map (fun m => snd (fst m)) fmirrors).
Proof.
  change (rvcs frv0 :: map (fun m => snd (fst m)) fmirrors) with [feye; fturn; feye].
  exact (Forall_cons _ (conj eye_fin eye_near) (Forall_cons _ (conj turn_fin turn_near) (Forall_cons _ (conj eye_fin eye_near) (Forall_nil _)))).
Qed.
Definition fr1 : ray F64 := Eval vm_compute in nth 0 (rays (rv_reflect 0 Plane (Some fturn) None frv0)) fray.
Definition fr2 : ray F64 := Eval vm_compute in nth 0 (rays (mirrors 0 fmirrors frv0)) fray.
Lemma fr1_eq : rays (rv_reflect 0 Plane (Some fturn) None frv0) = [fr1]. Proof. vm_compute; reflexivity. Qed.
Lemma fr2_eq : rays (mirrors 0 fmirrors frv0) = [fr2]. Proof. vm_compute; reflexivity. Qed.
Definition fn2 : vec3 F64 := Eval vm_compute in normal (Paraboloid (fz 5)) (cx (pos fr2)) (cy (pos fr2)).
Lemma fn2_eq : normal (Paraboloid (fz 5)) (cx (pos fr2)) (cy (pos fr2)) = fn2. Proof. vm_compute; reflexivity. Qed.
Lemma mirrors_gentle : gentle 0 0 fmirrors frv0.
Proof.
  unfold fmirrors. cbn [gentle]. split; [|split; [|exact I]].
  - rewrite fr1_eq. cbn [nth_error]. intros r H _. injection H as <-. split; [exact I|]. change (normal Plane (cx (pos fr1)) (cy (pos fr1))) with (zhat (T := F64)).
    split; [unfold finV; vm_compute; tauto|]. change (cz zhat) with (n1 (T := F64)). rewrite val_n1. lra.
  - change (rays (rv_reflect 0 (Paraboloid (fz 5)) (Some feye) None (rv_reflect 0 Plane (Some fturn) None frv0))) with (rays (mirrors 0 fmirrors frv0)).
    rewrite fr2_eq. cbn [nth_error]. intros r H _. injection H as <-. rewrite fn2_eq. split; [|split].
    + cbn [mild]. split; [exact I|]. rewrite val5, Rabs_pos_eq by lra. apply Rle_trans with (two 0); [apply two_le; lia|]. rewrite two_0. lra.
    + unfold finV; vm_compute; tauto.
    + unfold fn2; cbn [cz]. lits. lra.
Qed.
Lemma mirrors_slow : dotR (valV (vel fray0)) (valV (vel fray0)) + INR (length fmirrors) * (10 * ftau + 413 * ulp) <= 1.44.
Proof.
  change (vel fray0) with (vel fray). rewrite val_vel. pose proof ulp_small. unfold dotR, v35, v45, ftau, fmirrors; cbn [cx cy cz length INR]. lra.
Qed.
Lemma mirrors_inexact : exists niter l rv r r', gentle niter 0 l rv /\ rays rv = [r] /\ rays (mirrors niter l rv) = [r'] /\
  dotR (valV (vel r')) (valV (vel r')) <> dotR (valV (vel r)) (valV (vel r)).
Proof.
  exists 0%nat, fmirrors, frv0, fray0, fr2. split; [apply mirrors_gentle|]. split; [reflexivity|]. split; [apply fr2_eq|].
  change (vel fray0) with (vel fray). rewrite val_vel. unfold valV, fr2; cbn [vel cx cy cz]. unfold dotR, v35, v45; cbn [cx cy cz]. lits. lra.
Qed.
