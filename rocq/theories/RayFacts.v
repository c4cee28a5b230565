(** The per-ray kernels on real data, in terms of the surface's frame. *)
From Coq Require Import Reals List ZArith Bool Lra Psatz.
From Verif Require Import Num NumR Vec CoordSys Surface Medium Ray Bundle Spec XRFacts CoordFacts FrameProofs.
Import ListNotations.
Open Scope R_scope.

Lemma fwd_point_in A B r : good_frame A -> good_frame B ->
  fwd_point (F3 (drR A B)) (FM (drotR A B)) (F3 (pos r)) = F3 (pos_in A B r).
Proof.
  intros HA HB. rewrite fwd_point_F. f_equal.
  change (chg_pt A B (pos r) = pos_in A B r). rewrite chg_pt_eq by assumption. reflexivity.
Qed.
Lemma fwd_vel_in A B r : fwd_vel (FM (drotR A B)) (F3 (vel r)) = F3 (vel_in A B r).
Proof. rewrite fwd_vel_F. f_equal. apply chg_vec_eq. Qed.

Lemma advance_F p v t : advance (F3 p) (F3 v) (Fin t) = F3 (on_line p v t).
Proof. apply vec3_eq; cbn; f_equal; ring. Qed.
Lemma on_line_0 p v : on_line p v 0 = p.
Proof. apply vec3_eq; cbn; ring. Qed.
Lemma dot3_F a b : dot3 (F3 a) (F3 b) = Fin (dotR a b).
Proof. reflexivity. Qed.

Lemma batch_nth body A B l k r : nth_error l k = Some r ->
  nth_error (rays (batch body (Some (Fcs B)) (Frv (RV l A)))) k
  = Some (body (F3 (drR A B)) (FM (drotR A B)) (Fray r)).
Proof.
  intros H. unfold batch, Frv; cbn [rays rvcs dest]. rewrite mkCT_F; cbn [ct_dr ct_drot].
  rewrite map_map, nth_error_map, H. reflexivity.
Qed.

(** intersect *)
Lemma intersect_miss s niter A B c l k r : good_frame A -> good_frame B ->
  nth_error l k = Some r -> failed r = false ->
  fst (hit s niter (F3 (pos_in A B r)) (F3 (vel_in A B r))) = false ->
  nth_error (rays (rv_intersect niter s (Some (Fcs B)) c (Frv (RV l A)))) k
  = Some (mark_failed (Fray r)).
Proof.
  intros HA HB Hk Hf Hh. unfold rv_intersect. rewrite (batch_nth _ _ _ _ _ _ Hk). f_equal.
  unfold ray_intersect; cbn [failed Fray pos vel]. rewrite Hf, fwd_point_in, fwd_vel_in by assumption.
  destruct (hit _ _ _ _) as [[] dt]; [discriminate|reflexivity].
Qed.
Lemma intersect_hit s niter A B l k r dt : good_frame A -> good_frame B ->
  nth_error l k = Some r -> failed r = false ->
  hit s niter (F3 (pos_in A B r)) (F3 (vel_in A B r)) = (true, dt) ->
  nth_error (rays (rv_intersect niter s (Some (Fcs B)) None (Frv (RV l A)))) k
  = Some (Ray (advance (F3 (pos_in A B r)) (F3 (vel_in A B r)) dt) (F3 (vel_in A B r))
              (nadd (Fin (time r)) dt) (Fin (wavelength r)) (Fin (flux r)) (vignetted r) false).
Proof.
  intros HA HB Hk Hf Hh. unfold rv_intersect. rewrite (batch_nth _ _ _ _ _ _ Hk). f_equal.
  unfold ray_intersect; cbn [failed Fray pos vel]. rewrite Hf, fwd_point_in, fwd_vel_in by assumption.
  rewrite Hh. reflexivity.
Qed.
