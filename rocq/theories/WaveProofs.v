(** Proofs about plane waves (C06, C61). *)
From Coq Require Import Reals List ZArith Bool Lra Psatz Permutation.
From Verif Require Import Num NumR Vec CoordSys Ray Bundle Trig Spec XRFacts CoordFacts FrameProofs Wave WaveSpec.
Import ListNotations.
Open Scope R_scope.

Lemma dot_self_pos v : v <> zeroR -> 0 < dotR v v.
Proof.
  intros H. destruct v as [a b c]. unfold dotR; cbn.
  assert (0 <= a * a /\ 0 <= b * b /\ 0 <= c * c) as (Ha & Hb & Hc) by (repeat split; nra).
  destruct (Req_dec (a * a + b * b + c * c) 0) as [E|]; [|lra].
  exfalso. apply H. assert (a = 0 /\ b = 0 /\ c = 0) as (-> & -> & ->) by (repeat split; nra). reflexivity.
Qed.
Lemma phase_F r p t : has_wave r -> ray_phase (F3 p) (Fin t) (Fray r) = Fin (wave_phase r p t).
Proof.
  intros [Hv Hw]. assert (D := dot_self_pos _ Hv). unfold ray_phase, Fray; cbn [pos vel time wavelength].
  destruct r as [[x y z] [vx vy vz] t0 w f vg fl], p as [px py pz]. cbn [vel wavelength pos time] in *.
  unfold wave_phase, wavevector, frequency, dotR, minusR, timesR in *; cbn [pos vel time wavelength cx cy cz] in *.
  xunf. change (@npi XR TrigXR) with (Fin PI). cbn [xmul xadd xsub].
  rewrite xdiv_fin by lra. rewrite xdiv_fin by exact Hw. cbn [xmul xadd xsub]. f_equal.
  field. split; lra.
Qed.
Lemma k_F r : has_wave r -> ray_k (Fray r) = F3 (wavevector r).
Proof.
  intros [Hv Hw]. assert (D := dot_self_pos _ Hv). unfold ray_k, Fray; cbn [vel wavelength].
  destruct r as [p [vx vy vz] t0 w f vg fl]. cbn [vel wavelength] in *.
  unfold wavevector, dotR, timesR in *; cbn [vel wavelength cx cy cz] in *.
  unfold F3, vmap; cbn [cx cy cz]. xunf. change (@npi XR TrigXR) with (Fin PI). cbn [xmul].
  rewrite !xdiv_fin by exact Hw. cbn [xadd]. rewrite !xdiv_fin by lra.
  f_equal; f_equal; field; split; lra.
Qed.
Lemma omega_F r : wavelength r <> 0 -> ray_omega (Fray r) = Fin (frequency r).
Proof.
  intros Hw. unfold ray_omega, Fray; cbn [wavelength]. xunf. change (@npi XR TrigXR) with (Fin PI). cbn [xmul].
  rewrite xdiv_fin by exact Hw. reflexivity.
Qed.
Lemma phase_law r p t : has_wave r -> exists k w, ray_k (Fray r) = F3 k /\ ray_omega (Fray r) = Fin w /\
  k = wavevector r /\ w = frequency r /\
  ray_phase (F3 p) (Fin t) (Fray r) = Fin (dotR k (minusR p (pos r)) - w * (t - time r)).
Proof.
  intros H. exists (wavevector r), (frequency r). rewrite k_F, omega_F, phase_F by (try exact H; apply H). auto.
Qed.
Lemma phase_propagate r p t s : has_wave r ->
  ray_phase (F3 p) (Fin t) (ray_propagate (Fin s) (Fray r)) = ray_phase (F3 p) (Fin t) (Fray r).
Proof.
  intros H. rewrite propagate_F. assert (H' : has_wave (freeR s r)) by exact H.
  rewrite !phase_F by assumption. f_equal. destruct H as [Hv Hw]. assert (D := dot_self_pos _ Hv).
  destruct r as [[x y z] [vx vy vz] t0 w f vg fl], p as [px py pz]. cbn [vel wavelength] in *.
  unfold wave_phase, wavevector, frequency, freeR, dotR, minusR, plusR, timesR in *;
    cbn [pos vel time wavelength cx cy cz] in *. field. split; lra.
Qed.
Lemma phase_on_ray r t : has_wave r ->
  ray_phase (ray_positionAtTime (Fin t) (Fray r)) (Fin t) (Fray r) = Fin 0.
Proof.
  intros H. rewrite positionAtTime_F, phase_F by exact H. f_equal. destruct H as [Hv Hw]. assert (D := dot_self_pos _ Hv).
  destruct r as [[x y z] [vx vy vz] t0 w f vg fl]. cbn [vel wavelength] in *.
  unfold wave_phase, wavevector, frequency, dotR, minusR, plusR, timesR in *;
    cbn [pos vel time wavelength cx cy cz] in *. field. split; lra.
Qed.
Lemma dotR_global c u v : good_frame c -> dotR (global_dir c u) (global_dir c v) = dotR u v.
Proof. intros H. unfold global_dir. apply orth_dot; assumption. Qed.
Lemma wave_phase_dots r p t : wave_phase r p t =
  2 * PI / (wavelength r * dotR (vel r) (vel r)) * dotR (vel r) (minusR p (pos r)) - frequency r * (t - time r).
Proof. unfold wave_phase, wavevector, dotR, timesR; cbn [cx cy cz]. ring. Qed.
Lemma chg_pt_diff A B p q : minusR (chg_pt A B p) (chg_pt A B q) = applyR (transR (drotR A B)) (minusR p q).
Proof. unfold chg_pt. vec. Qed.
Lemma wave_phase_chg A B r p t : good_frame A -> good_frame B ->
  wave_phase (chg_ray A B r) (chg_pt A B p) t = wave_phase r p t.
Proof.
  intros HA HB. assert (O : orthonormal (transR (drotR A B))) by (apply orth_trans, drot_orth; assumption).
  rewrite !wave_phase_dots. unfold chg_ray, frequency; cbn [pos vel time wavelength].
  rewrite chg_pt_diff. unfold chg_vec. rewrite !orth_dot by exact O. reflexivity.
Qed.
Lemma has_wave_chg A B r : good_frame A -> good_frame B -> has_wave r -> has_wave (chg_ray A B r).
Proof.
  intros HA HB [Hv Hw]. split; [|exact Hw]. unfold chg_ray; cbn [vel]. intros E.
  assert (D := dot_self_pos _ Hv).
  assert (O : orthonormal (transR (drotR A B))) by (apply orth_trans, drot_orth; assumption).
  rewrite <- (orth_dot _ _ _ O) in D. unfold chg_vec in E. rewrite E in D. unfold dotR, zeroR in D; cbn in D. lra.
Qed.
Lemma phase_frame A B l p t : good_frame A -> good_frame B -> Forall has_wave l ->
  rv_phase (F3 (local_point B (global_point A p))) (Fin t) (rv_toCoordSys (Fcs B) (Frv (RV l A)))
  = rv_phase (F3 p) (Fin t) (Frv (RV l A)).
Proof.
  intros HA HB Hl. rewrite rv_toCoordSys_F. unfold rv_phase, Frv, chg_rv; cbn [rays rvcs]. rewrite !map_map.
  apply map_ext_in. intros r Hr. rewrite Forall_forall in Hl. specialize (Hl r Hr).
  assert (E : local_point B (global_point A p) = chg_pt A B p) by (symmetry; apply chg_pt_eq; assumption).
  rewrite E, !phase_F by (try apply has_wave_chg; assumption). f_equal. apply wave_phase_chg; assumption.
Qed.

(** ** C61 *)
Section Gen.
  Context {T : Type} {NT : Num T} {TT : Trig T}.
  Lemma sum_counted p t ign (l : list (ray T)) c c' :
    sumAmplitude p t ign (RV l c) = sumAmplitude p t ign (RV (filter (counted ign) l) c').
  Proof.
    unfold sumAmplitude; cbn [rays]. generalize (@n0 T NT, @n0 T NT). induction l as [|r l IH]; intros acc; [reflexivity|].
    cbn [fold_left filter].
    assert (E : counted ign r = negb (failed r) && negb (ign && vignetted r))
      by (unfold counted; destruct (failed r), (vignetted r), ign; reflexivity).
    destruct (counted ign r) eqn:C.
    - cbn [fold_left]. apply IH.
    - unfold add_amplitude at 2. rewrite <- E. apply IH.
  Qed.
End Gen.
Lemma sumR_app a b : sumR (a ++ b) = sumR a + sumR b.
Proof. induction a as [|x a IH]; unfold sumR in *; cbn; [ring|]. rewrite IH. ring. Qed.
Definition live (ign : bool) (l : list (ray R)) : Prop := Forall has_wave (filter (counted ign) l).
Lemma sum_F ign l p t c : Forall has_wave (filter (counted ign) l) ->
  sumAmplitude (F3 p) (Fin t) ign (Frv (RV l c))
  = (Fin (fst (wave_sum ign l p t)), Fin (snd (wave_sum ign l p t))).
Proof.
  intros H. unfold Frv; cbn [rays rvcs]. rewrite (sum_counted _ _ _ _ _ (Fcs c)).
  assert (E : filter (counted ign) (map Fray l) = map Fray (filter (counted ign) l)).
  { clear H. induction l as [|r l IH]; [reflexivity|]. cbn [map filter].
    replace (counted ign (Fray r)) with (counted ign r) by reflexivity.
    destruct (counted ign r); cbn [map]; rewrite IH; reflexivity. }
  rewrite E. unfold wave_sum; cbn [fst snd].
  assert (C : Forall (fun r => counted ign r = true) (filter (counted ign) l)).
  { apply Forall_forall. intros r Hr. apply filter_In in Hr. tauto. }
  clear E. generalize dependent (filter (counted ign) l). clear l. intros l H C. unfold sumAmplitude; cbn [rays].
  assert (G : forall a b, fold_left (add_amplitude (F3 p) (Fin t) ign) (map Fray l) (Fin a, Fin b) =
     (Fin (a + sumR (map (fun r => flux r * cos (wave_phase r p t)) l)),
      Fin (b + sumR (map (fun r => flux r * sin (wave_phase r p t)) l)))).
  { induction l as [|r l IH]; intros a b.
    - cbn. f_equal; f_equal; ring.
    - inversion H; subst. inversion C; subst. cbn [map fold_left]. unfold add_amplitude at 2.
      assert (E : negb (failed (Fray r)) && negb (ign && vignetted (Fray r)) = true).
      { unfold counted in H4. cbn [failed vignetted Fray]. destruct (failed r), (vignetted r), ign; cbn in *; congruence. }
      rewrite E, phase_F by assumption. cbn [fst snd]. change (flux (Fray r)) with (Fin (flux r)).
      change (@ncos XR TrigXR (Fin (wave_phase r p t))) with (Fin (cos (wave_phase r p t))).
      change (@nsin XR TrigXR (Fin (wave_phase r p t))) with (Fin (sin (wave_phase r p t))).
      cbn [nadd nmul NumXR xadd xmul]. rewrite IH by assumption. cbn [sumR fold_right]. unfold sumR. f_equal; f_equal; ring. }
  change (@n0 XR _) with (Fin 0). rewrite G. f_equal; f_equal; ring.
Qed.
Lemma sum_concat ign l1 l2 p t c :
  Forall has_wave (filter (counted ign) (l1 ++ l2)) ->
  let S l := sumAmplitude (F3 p) (Fin t) ign (Frv (RV l c)) in
  S (l1 ++ l2) = (nadd (fst (S l1)) (fst (S l2)), nadd (snd (S l1)) (snd (S l2))).
Proof.
  intros H S. unfold S. assert (H1 := H). rewrite filter_app in H1. apply Forall_app in H1. destruct H1 as [H1 H2].
  rewrite !sum_F by assumption. cbn [fst snd nadd NumXR xadd]. unfold wave_sum; cbn [fst snd].
  rewrite filter_app, !map_app, !sumR_app. reflexivity.
Qed.
Lemma sum_single ign r p t c : has_wave r -> counted ign r = true ->
  let a := ray_amplitude (F3 p) (Fin t) (Fray r) in
  sumAmplitude (F3 p) (Fin t) ign (Frv (RV [r] c)) = (nmul (Fin (flux r)) (fst a), nmul (Fin (flux r)) (snd a)).
Proof.
  intros H C a. rewrite sum_F by (cbn; rewrite C; constructor; [exact H|constructor]).
  unfold wave_sum; cbn [filter fst snd]. rewrite C. unfold a, ray_amplitude. rewrite phase_F by exact H.
  cbn. apply f_equal2; apply (f_equal Fin); ring.
Qed.
Lemma Cauchy a b F p : 0 <= F -> a * a + b * b <= F * F -> a * cos p + b * sin p <= F.
Proof.
  intros HF H. assert (S := sin2_cos2 p). unfold Rsqr in S.
  assert (Q : (a * cos p + b * sin p) * (a * cos p + b * sin p) <= F * F).
  { assert (0 <= (a * sin p - b * cos p) * (a * sin p - b * cos p)) by apply Rle_0_sqr.
    assert (Id : (a * cos p + b * sin p) * (a * cos p + b * sin p) + (a * sin p - b * cos p) * (a * sin p - b * cos p)
       = (a * a + b * b) * (sin p * sin p + cos p * cos p)) by ring.
    rewrite S in Id. lra. }
  destruct (Rle_dec (a * cos p + b * sin p) F); [assumption|]. exfalso. nra.
Qed.
Lemma sum_bounded ign l p t : Forall (fun r => 0 <= flux r) (filter (counted ign) l) ->
  fst (wave_sum ign l p t) * fst (wave_sum ign l p t) + snd (wave_sum ign l p t) * snd (wave_sum ign l p t)
  <= sumR (map flux (filter (counted ign) l)) * sumR (map flux (filter (counted ign) l))
  /\ 0 <= sumR (map flux (filter (counted ign) l)).
Proof.
  unfold wave_sum; cbn [fst snd]. generalize (filter (counted ign) l). clear l. intros l H.
  induction H as [|r l Hr H IH].
  - cbn. lra.
  - destruct IH as [I1 I2]. cbn [map sumR fold_right].
    change (fold_right Rplus 0) with sumR.
    set (a := sumR _) in *. set (b := sumR (map (fun r => flux r * sin _) l)) in *. set (F := sumR (map flux l)) in *.
    set (f := flux r) in *. set (ph := wave_phase r p t).
    assert (C := Cauchy a b F ph I2 I1). assert (S := sin2_cos2 ph). unfold Rsqr in S.
    split; [|lra]. assert (Id : (f * cos ph + a) * (f * cos ph + a) + (f * sin ph + b) * (f * sin ph + b)
      = f * f * (sin ph * sin ph + cos ph * cos ph) + (a * a + b * b) + 2 * f * (a * cos ph + b * sin ph)) by ring.
    rewrite Id, S. assert (f * (a * cos ph + b * sin ph) <= f * F) by (apply Rmult_le_compat_l; assumption). nra.
Qed.
Lemma sum_modulus ign l p t c : Forall has_wave (filter (counted ign) l) ->
  Forall (fun r => 0 <= flux r) (filter (counted ign) l) ->
  exists a b, sumAmplitude (F3 p) (Fin t) ign (Frv (RV l c)) = (Fin a, Fin b) /\
    sqrt (a * a + b * b) <= sumR (map flux (filter (counted ign) l)).
Proof.
  intros H Hf. exists (fst (wave_sum ign l p t)), (snd (wave_sum ign l p t)). split; [apply sum_F, H|].
  destruct (sum_bounded ign l p t Hf) as [B1 B2]. rewrite <- (sqrt_square (sumR _)) by exact B2. apply sqrt_le_1_alt, B1.
Qed.
Lemma filter_perm {A} (f : A -> bool) l l' : Permutation l l' -> Permutation (filter f l) (filter f l').
Proof.
  induction 1; cbn; try destruct (f x); try destruct (f y); eauto using Permutation. 
Qed.
Lemma sumR_perm l l' : Permutation l l' -> sumR l = sumR l'.
Proof. induction 1; unfold sumR in *; cbn; lra. Qed.
Lemma sum_order ign l l' p t c c' : Forall has_wave (filter (counted ign) l) -> Permutation l l' ->
  sumAmplitude (F3 p) (Fin t) ign (Frv (RV l c)) = sumAmplitude (F3 p) (Fin t) ign (Frv (RV l' c')).
Proof.
  intros H P. assert (P' := filter_perm (counted ign) _ _ P).
  assert (H' : Forall has_wave (filter (counted ign) l')).
  { apply Forall_forall. intros r Hr. rewrite Forall_forall in H. apply H.
    eapply Permutation_in; [apply Permutation_sym, P'|exact Hr]. }
  rewrite !sum_F by assumption. unfold wave_sum; cbn [fst snd].
  f_equal; f_equal; apply sumR_perm, Permutation_map, P'.
Qed.
