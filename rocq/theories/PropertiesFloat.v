(** C88, C89, C91: double precision. *)
From Coq Require Import Reals List ZArith Bool Lra Lia.
From Verif Require Import Num NumF Vec CoordSys Surface Medium Ray Bundle Spec FloatSpec FloatProofs FloatErr FloatFrames FloatTrace
  FloatNormal FloatMirrors FloatRefract SamplesFloat SamplesLens.
Import ListNotations.
Open Scope R_scope.

(** Every operation on doubles returns the exact result rounded once, and does not overflow below 2^970. *)
Theorem C88_arithmetic : forall a b, finF a -> finF b ->
  (Rabs (valF a + valF b) < two 970 -> finF (nadd a b) /\ rounded (nadd a b) (valF a + valF b)) /\
  (Rabs (valF a - valF b) < two 970 -> finF (nsub a b) /\ rounded (nsub a b) (valF a - valF b)) /\
  (Rabs (valF a * valF b) < two 970 -> finF (nmul a b) /\ rounded (nmul a b) (valF a * valF b)) /\
  (valF b <> 0 -> Rabs (valF a / valF b) < two 970 -> finF (ndiv a b) /\ rounded (ndiv a b) (valF a / valF b)) /\
  (0 <= valF a -> sqrt (valF a) < two 970 -> finF (nsqrt a) /\ rounded (nsqrt a) (sqrt (valF a))).
Proof. exact arithmetic_rounded. Qed.
Print Assumptions C88_arithmetic.

Example C88_example_arithmetic : finF f35 /\ finF f45 /\ Rabs (valF f35 * valF f45) < two 970.
Proof.
  split; [exact I|split; [exact I|]]. apply Rlt_trans with (two 1); [|apply two_lt; lia]. rewrite val35, val45, two_1. unfold v35, v45. rewrite Rabs_pos_eq; lra.
Qed.

(** RayVector.propagate in doubles: 13 units in the last place of the scale S. *)
Theorem C88_propagate : forall S t r, inrange4 S -> sizedV S (pos r) -> sizedV 2 (vel r) -> sized S t -> sized S (time r) ->
  closeV (13 * ulp * S) (pos (ray_propagate t r)) (plusR (valV (pos r)) (timesR (valF t - valF (time r)) (valV (vel r)))).
Proof. exact propagate_accurate. Qed.
Print Assumptions C88_propagate.

(** RayVector.positionAtTime in doubles. *)
Theorem C88_positionAtTime : forall S t r, inrange4 S -> sizedV S (pos r) -> sizedV 2 (vel r) -> sized S t -> sized S (time r) ->
  closeV (13 * ulp * S) (ray_positionAtTime t r) (plusR (valV (pos r)) (timesR (valF t - valF (time r)) (valV (vel r)))).
Proof. exact positionAtTime_accurate. Qed.
Print Assumptions C88_positionAtTime.

Example C88_example_propagate : inrange4 64 /\ (sizedV 64 (pos fray) /\ sizedV 2 (vel fray) /\ sized 64 (fz 5) /\ sized 64 (time fray)) /\
  valF (cy (pos (ray_propagate (fz 5) fray))) <> cy (plusR (valV (pos fray)) (timesR (valF (fz 5) - valF (time fray)) (valV (vel fray)))).
Proof. exact (conj range_64 (conj fray_sized fray_inexact)). Qed.

(** A ray carried through N frames of doubles stays where it is in space. *)
Theorem C88_place : forall tau S cs, inrange4 S -> tau <= / 100 -> forall rv r, Forall (double_frame tau (S / 4)) (rvcs rv :: cs) ->
  forall i, nth_error (rays rv) i = Some r -> finV (pos r) ->
  lenR (global_point (valC (rvcs rv)) (valV (pos r))) + INR (length cs) * ((212 * ulp + 9.3 * tau) * S) <= S / 2 ->
  exists r', nth_error (rays (hops cs rv)) i = Some r' /\ finV (pos r') /\
    distR (global_point (valC (rvcs (hops cs rv))) (valV (pos r'))) (global_point (valC (rvcs rv)) (valV (pos r))) <=
      INR (length cs) * ((212 * ulp + 9.3 * tau) * S) /\
    time r' = time r /\ wavelength r' = wavelength r /\ flux r' = flux r /\ vignetted r' = vignetted r /\ failed r' = failed r.
Proof. exact hops_place. Qed.
Print Assumptions C88_place.

(** Its velocity stays what it is in space. *)
Theorem C88_direction : forall tau O V cs, inrange4 V -> tau <= / 100 -> forall rv r, Forall (double_frame tau O) (rvcs rv :: cs) ->
  forall i, nth_error (rays rv) i = Some r -> finV (vel r) ->
  lenR (global_dir (valC (rvcs rv)) (valV (vel r))) + INR (length cs) * ((64 * ulp + 3.1 * tau) * V) <= 3/4 * V ->
  exists r', nth_error (rays (hops cs rv)) i = Some r' /\ finV (vel r') /\
    distR (global_dir (valC (rvcs (hops cs rv))) (valV (vel r'))) (global_dir (valC (rvcs rv)) (valV (vel r))) <=
      INR (length cs) * ((64 * ulp + 3.1 * tau) * V).
Proof. exact hops_direction. Qed.
Print Assumptions C88_direction.

Example C88_example_place : inrange4 64 /\ inrange4 2 /\ ftau <= / 100 /\ Forall (double_frame ftau (64 / 4)) (rvcs frv :: [fturn; feye; fturn]) /\
  nth_error (rays frv) 0 = Some fray /\ finV (pos fray) /\ finV (vel fray) /\
  lenR (global_point (valC (rvcs frv)) (valV (pos fray))) + INR 3 * ((212 * ulp + 9.3 * ftau) * 64) <= 64 / 2 /\
  lenR (global_dir (valC (rvcs frv)) (valV (vel fray))) + INR 3 * ((64 * ulp + 3.1 * ftau) * 2) <= 3/4 * 2.
Proof.
  split; [exact range_64|]. split; [exact range_2|]. split; [unfold ftau; lra|]. split; [exact frames_ok|]. split; [reflexivity|].
  split; [unfold finV; vm_compute; tauto|]. split; [unfold finV; vm_compute; tauto|]. split; [exact frv_small|exact frv_slow].
Qed.

(** Going to another frame and back is not exact in doubles. *)
Theorem C88_round_trip_refuted : exists rv A B r r', Forall (double_frame ftau 16) [A; B] /\ rvcs rv = A /\ rays rv = [r] /\ finV (pos r) /\
  rays (hops [B; A] rv) = [r'] /\ valV (pos r') <> valV (pos r).
Proof. exact round_trip_inexact. Qed.
Print Assumptions C88_round_trip_refuted.

(** A ray that meets a plane lands where its line does, and on the plane. *)
Theorem C88_plane : forall L dr d c niter r, inrange4 L -> failed r = false ->
  let p := fwd_point dr d (pos r) in let v := fwd_vel d (vel r) in
  sizedV L p -> sizedV 2 v -> valF (cz v) <> 0 -> sized L (time r) -> Rabs (valF (cz p) / valF (cz v)) <= L ->
  let r' := ray_intersect Plane dr d c niter r in let T := - valF (cz p) / valF (cz v) in
  failed r' = false /\ vel r' = v /\
  closeV (7 * ulp * L) (pos r') (plusR (valV p) (timesR T (valV v))) /\ close (3 * ulp * L) (time r') (valF (time r) + T) /\
  (two (-840) <= Rabs (valF (cz v)) * L -> Rabs (valF (cz (pos r'))) <= 3 * ulp * (Rabs (valF (cz v)) * L)).
Proof. exact plane_accurate. Qed.
Print Assumptions C88_plane.

Example C88_example_plane : failed fray0 = false /\ sizedV 64 (fwd_point (ct_dr fct) (ct_drot fct) (pos fray0)) /\ sizedV 2 (fwd_vel (ct_drot fct) (vel fray0)) /\
  valF (cz (fwd_vel (ct_drot fct) (vel fray0))) <> 0 /\ sized 64 (time fray0) /\
  Rabs (valF (cz (fwd_point (ct_dr fct) (ct_drot fct) (pos fray0))) / valF (cz (fwd_vel (ct_drot fct) (vel fray0)))) <= 64 /\
  two (-840) <= Rabs (valF (cz (fwd_vel (ct_drot fct) (vel fray0)))) * 64.
Proof. exact plane_ok. Qed.

(** The computed normal of every surface has unit length to within 13 units in the last place. *)
Theorem C89_normal : forall s x y, mild s x y -> let n := normal s x y in finV n -> / 1000 <= valF (cz n) -> nearly (13 * ulp) (dotR (valV n) (valV n)) 1.
Proof. exact normal_unit. Qed.
Print Assumptions C89_normal.

Example C89_example_normal : mild (Paraboloid (fz 5)) (cx (pos fr2)) (cy (pos fr2)) /\ finV (normal (Paraboloid (fz 5)) (cx (pos fr2)) (cy (pos fr2))) /\
  / 1000 <= valF (cz (normal (Paraboloid (fz 5)) (cx (pos fr2)) (cy (pos fr2)))).
Proof. exact (proj1 (proj2 mirrors_gentle) fr2 (f_equal (fun l => nth_error l 0) fr2_eq) eq_refl). Qed.

(** One reflection. *)
Theorem C89_reflection : forall v n tau, finV v -> finV n -> lenR (valV v) <= 1.2 -> tau <= / 100 -> nearly tau (dotR (valV n) (valV n)) 1 ->
  finV (reflect_vel v n) /\ Rabs (dotR (valV (reflect_vel v n)) (valV (reflect_vel v n)) - dotR (valV v) (valV v)) <= 6 * tau + 145 * ulp.
Proof. exact reflect_speed. Qed.
Print Assumptions C89_reflection.

(** N mirrors change the squared speed of a ray by at most N times a few hundred units in the last place. *)
Theorem C89_mirrors : forall niter tau l, tau <= / 100 -> forall rv i r, nth_error (rays rv) i = Some r ->
  Forall (fun c => finC c /\ nearly_orthonormal tau (valM (rot c))) (rvcs rv :: map (fun m => snd (fst m)) l) -> gentle niter i l rv ->
  finV (vel r) -> dotR (valV (vel r)) (valV (vel r)) + INR (length l) * (10 * tau + 413 * ulp) <= 1.44 ->
  exists r', nth_error (rays (mirrors niter l rv)) i = Some r' /\ finV (vel r') /\
    Rabs (dotR (valV (vel r')) (valV (vel r')) - dotR (valV (vel r)) (valV (vel r))) <= INR (length l) * (10 * tau + 413 * ulp).
Proof. exact mirrors_speed. Qed.
Print Assumptions C89_mirrors.

Example C89_example : ftau <= / 100 /\ nth_error (rays frv0) 0 = Some fray0 /\
  Forall (fun c => finC c /\ nearly_orthonormal ftau (valM (rot c))) (rvcs frv0 :: map (fun m => snd (fst m)) fmirrors) /\ gentle 0 0 fmirrors frv0 /\
  finV (vel fray0) /\ dotR (valV (vel fray0)) (valV (vel fray0)) + INR (length fmirrors) * (10 * ftau + 413 * ulp) <= 1.44.
Proof.
  split; [unfold ftau; lra|]. split; [reflexivity|]. split; [exact mirror_frames|]. split; [exact mirrors_gentle|]. split; [unfold finV; vm_compute; tauto|exact mirrors_slow].
Qed.

(** The speed is not kept exactly. *)
Theorem C89_speed_refuted : exists niter l rv r r', gentle niter 0 l rv /\ rays rv = [r] /\ rays (mirrors niter l rv) = [r'] /\
  dotR (valV (vel r')) (valV (vel r')) <> dotR (valV (vel r)) (valV (vel r)).
Proof. exact mirrors_inexact. Qed.
Print Assumptions C89_speed_refuted.

(** One refraction. *)
Theorem C91_refraction : forall v n n2_ w, finV v -> finV n -> / 21 <= dotR (valV v) (valV v) <= 1.5 -> Rabs (dotR (valV n) (valV n) - 1) <= 13 * ulp ->
  finF n2_ -> / 2 <= valF n2_ <= 5 -> 1 <= 3.9 * (valF n2_ * valF n2_ * dotR (valV v) (valV v)) ->
  let nv := scale v (invspeed v) in refract_vel nv (fst (orient nv n)) (snd (orient nv n)) (invspeed v) n2_ = Some w -> finV w ->
  Rabs (valF n2_ * valF n2_ * dotR (valV w) (valV w) - 1) <= 350 * ulp.
Proof. exact refract_speed. Qed.
Print Assumptions C91_refraction.

(** Any number of refracting surfaces. *)
Theorem C91_lenses : forall niter tau l, tau <= / 10000 -> forall n rv i r r', nth_error (rays rv) i = Some r -> nth_error (rays (lenses niter l rv)) i = Some r' ->
  Forall (fun c => finC c /\ nearly_orthonormal tau (valM (rot c))) (rvcs rv :: map (fun m => snd (fst (fst (fst m)))) l) -> ordinary niter i n l rv ->
  0.9 <= n <= 4 -> finV (vel r) -> Rabs (n * n * dotR (valV (vel r)) (valV (vel r)) - 1) <= 350 * ulp -> failed r' = false ->
  let n' := last_index n (wavelength r) l in finV (vel r') /\ Rabs (n' * n' * dotR (valV (vel r')) (valV (vel r')) - 1) <= 350 * ulp.
Proof. exact lenses_speed. Qed.
Print Assumptions C91_lenses.

Example C91_example : ftau <= / 10000 /\ nth_error (rays frv0) 0 = Some fray0 /\ nth_error (rays (lenses 0 flenses frv0)) 0 = Some gr2 /\
  Forall (fun c => finC c /\ nearly_orthonormal ftau (valM (rot c))) (rvcs frv0 :: map (fun m => snd (fst (fst (fst m)))) flenses) /\ ordinary 0 0 1 flenses frv0 /\
  finV (vel fray0) /\ Rabs (1 * 1 * dotR (valV (vel fray0)) (valV (vel fray0)) - 1) <= 350 * ulp /\ failed gr2 = false /\ last_index 1 (wavelength fray0) flenses = 1.
Proof.
  split; [unfold ftau; lra|]. split; [reflexivity|]. split; [rewrite gr2_eq; reflexivity|]. split; [exact lens_frames|]. split; [exact lenses_ordinary|].
  split; [unfold finV; vm_compute; tauto|]. split; [exact lens_start|]. split; [reflexivity|exact val1].
Qed.

(** The speed is not exactly 1 / n. *)
Theorem C91_exact_refuted : exists niter l rv r r', ordinary niter 0 1 l rv /\ rays rv = [r] /\ rays (lenses niter l rv) = [r'] /\ failed r' = false /\
  let n' := last_index 1 (wavelength r) l in n' * n' * dotR (valV (vel r')) (valV (vel r')) <> 1.
Proof. exact lenses_inexact. Qed.
Print Assumptions C91_exact_refuted.

