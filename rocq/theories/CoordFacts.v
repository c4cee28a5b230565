(** Facts about coordinate systems over the reals. *)
From Coq Require Import Reals List ZArith Bool Lra Psatz Setoid.
From Verif Require Import Num NumR Vec CoordSys Ray Bundle Spec XRFacts.
Import ListNotations.
Open Scope R_scope.

Ltac vec := apply vec3_eq; cbn; try ring.
Ltac unfR := unfold applyR, plusR, minusR, timesR, transR, mulR, col0, col1, col2, dotR, crossR in *;
             cbn [cx cy cz m00 m01 m02 m10 m11 m12 m20 m21 m22] in *.

Lemma plusR_comm a b : plusR a b = plusR b a.
Proof. vec. Qed.
Lemma plusR_assoc a b c : plusR a (plusR b c) = plusR (plusR a b) c.
Proof. vec. Qed.
Lemma plusR_0 a : plusR a zeroR = a.
Proof. vec. Qed.
Lemma minusR_plus a b : plusR (minusR a b) b = a.
Proof. vec. Qed.
Lemma plusR_minus a b : minusR (plusR a b) b = a.
Proof. vec. Qed.
Lemma applyR_plus m a b : applyR m (plusR a b) = plusR (applyR m a) (applyR m b).
Proof. vec. Qed.
Lemma applyR_minus m a b : applyR m (minusR a b) = minusR (applyR m a) (applyR m b).
Proof. vec. Qed.
Lemma applyR_times m k a : applyR m (timesR k a) = timesR k (applyR m a).
Proof. vec. Qed.
Lemma applyR_mul a b v : applyR (mulR a b) v = applyR a (applyR b v).
Proof. vec. Qed.
Lemma applyR_eye v : applyR eyeR v = v.
Proof. vec. Qed.
Lemma mulR_assoc a b c : mulR a (mulR b c) = mulR (mulR a b) c.
Proof. apply mat3_eq; cbn; ring. Qed.
Lemma mulR_eye_l a : mulR eyeR a = a.
Proof. apply mat3_eq; cbn; ring. Qed.
Lemma mulR_eye_r a : mulR a eyeR = a.
Proof. apply mat3_eq; cbn; ring. Qed.
Lemma transR_mul a b : transR (mulR a b) = mulR (transR b) (transR a).
Proof. apply mat3_eq; cbn; ring. Qed.
Lemma transR_trans a : transR (transR a) = a.
Proof. apply mat3_eq; reflexivity. Qed.
Lemma dotR_trans m a b : dotR (applyR m a) b = dotR a (applyR (transR m) b).
Proof. unfR. ring. Qed.
Lemma dotR_comm a b : dotR a b = dotR b a.
Proof. unfR; ring. Qed.

Lemma orthonormal_iff m : orthonormal m <-> mulR (transR m) m = eyeR.
Proof.
  unfold orthonormal; split.
  - intros (H0 & H1 & H2 & H3 & H4 & H5); unfR; apply mat3_eq; cbn; lra.
  - intros H; unfR. injection H; intros. repeat split; lra.
Qed.

Definition adjR (m : mR) : mR :=
  M3 (m11 m * m22 m - m12 m * m21 m) (m02 m * m21 m - m01 m * m22 m) (m01 m * m12 m - m02 m * m11 m)
     (m12 m * m20 m - m10 m * m22 m) (m00 m * m22 m - m02 m * m20 m) (m02 m * m10 m - m00 m * m12 m)
     (m10 m * m21 m - m11 m * m20 m) (m01 m * m20 m - m00 m * m21 m) (m00 m * m11 m - m01 m * m10 m).
Definition detR (m : mR) : R :=
  m00 m * (m11 m * m22 m - m12 m * m21 m) - m01 m * (m10 m * m22 m - m12 m * m20 m)
  + m02 m * (m10 m * m21 m - m11 m * m20 m).
Definition scaleM (k : R) (m : mR) : mR :=
  M3 (k * m00 m) (k * m01 m) (k * m02 m) (k * m10 m) (k * m11 m) (k * m12 m)
     (k * m20 m) (k * m21 m) (k * m22 m).
Lemma adj_l m : mulR (adjR m) m = scaleM (detR m) eyeR.
Proof. apply mat3_eq; cbn; unfold detR; ring. Qed.
Lemma det_mul a b : detR (mulR a b) = detR a * detR b.
Proof. unfold detR, mulR; cbn; ring. Qed.
Lemma mulR_scale_l k a b : mulR (scaleM k a) b = scaleM k (mulR a b).
Proof. apply mat3_eq; cbn; ring. Qed.
Lemma det_eye : detR eyeR = 1.
Proof. unfold detR; cbn; ring. Qed.
Lemma det_trans m : detR (transR m) = detR m.
Proof. unfold detR; cbn; ring. Qed.

Lemma mulR_inv a b : mulR a b = eyeR -> mulR b a = eyeR.
Proof.
  intros H.
  assert (Hd : detR a * detR b = 1) by (rewrite <- det_mul, H; apply det_eye).
  assert (Hb : scaleM (detR a) b = adjR a).
  { transitivity (mulR (mulR (adjR a) a) b).
    - rewrite adj_l, mulR_scale_l, mulR_eye_l. reflexivity.
    - rewrite <- mulR_assoc, H, mulR_eye_r. reflexivity. }
  assert (Hs : scaleM (detR a) (mulR b a) = scaleM (detR a) eyeR).
  { rewrite <- mulR_scale_l, Hb. apply adj_l. }
  assert (Hn : detR a <> 0) by (intro E; rewrite E in Hd; lra).
  unfold scaleM in Hs. injection Hs; intros.
  apply mat3_eq; apply (Rmult_eq_reg_l (detR a)); assumption.
Qed.

Lemma orth_l m : orthonormal m -> mulR (transR m) m = eyeR.
Proof. apply orthonormal_iff. Qed.
Lemma orth_r m : orthonormal m -> mulR m (transR m) = eyeR.
Proof. intros H; apply mulR_inv, orth_l, H. Qed.
Lemma orth_trans m : orthonormal m -> orthonormal (transR m).
Proof. intros H; apply orthonormal_iff. rewrite transR_trans. apply orth_r, H. Qed.
Lemma orth_mul a b : orthonormal a -> orthonormal b -> orthonormal (mulR a b).
Proof.
  intros Ha Hb; apply orthonormal_iff.
  rewrite transR_mul, <- mulR_assoc, (mulR_assoc (transR a)), (orth_l a Ha), mulR_eye_l.
  apply orth_l, Hb.
Qed.
Lemma orth_eye : orthonormal eyeR.
Proof. unfold orthonormal; unfR; cbn; repeat split; ring. Qed.
Lemma orth_apply_lr m v : orthonormal m -> applyR (transR m) (applyR m v) = v.
Proof. intros H; rewrite <- applyR_mul, (orth_l m H); apply applyR_eye. Qed.
Lemma orth_apply_rl m v : orthonormal m -> applyR m (applyR (transR m) v) = v.
Proof. intros H; rewrite <- applyR_mul, (orth_r m H); apply applyR_eye. Qed.
Lemma orth_dot m a b : orthonormal m -> dotR (applyR m a) (applyR m b) = dotR a b.
Proof. intros H; rewrite dotR_trans, orth_apply_lr by assumption; reflexivity. Qed.

Lemma det_triple m : detR m = dotR (crossR (col0 m) (col1 m)) (col2 m).
Proof. unfold detR; unfR; ring. Qed.
Lemma rotation_det m : rotation m <-> orthonormal m /\ detR m = 1.
Proof.
  unfold rotation, right_handed; split.
  - intros [Ho Hr]; split; [assumption|]. rewrite det_triple, Hr. apply Ho.
  - intros [Ho Hd]; split; [assumption|].
    (* adj m = det m * m^T *)
    assert (Ha : adjR m = transR m).
    { transitivity (mulR (adjR m) (mulR m (transR m))).
      - rewrite (orth_r m Ho), mulR_eye_r; reflexivity.
      - rewrite mulR_assoc, adj_l, Hd, mulR_scale_l, mulR_eye_l.
        apply mat3_eq; cbn; ring. }
    unfold adjR, transR in Ha. injection Ha; intros.
    apply vec3_eq; cbn; lra.
Qed.
Lemma rotation_mul a b : rotation a -> rotation b -> rotation (mulR a b).
Proof.
  rewrite !rotation_det; intros [Ha Da] [Hb Db]; split; [apply orth_mul; assumption|].
  rewrite det_mul, Da, Db; ring.
Qed.
Lemma rotation_trans a : rotation a -> rotation (transR a).
Proof.
  rewrite !rotation_det; intros [Ha Da]; split; [apply orth_trans; assumption|].
  rewrite det_trans; assumption.
Qed.
Lemma rotation_eye : rotation eyeR.
Proof. split; [apply orth_eye|]. unfold right_handed; vec. Qed.

(** ** Model functions on real data *)
Lemma fwd_point_F dr d p :
  fwd_point (F3 dr) (FM d) (F3 p) = F3 (applyR (transR d) (minusR p dr)).
Proof. apply vec3_eq; cbn; f_equal; ring. Qed.
Lemma fwd_vel_F d v : fwd_vel (FM d) (F3 v) = F3 (applyR (transR d) v).
Proof. apply vec3_eq; cbn; f_equal; ring. Qed.
Lemma rev_point_F dr d p :
  rev_point (F3 dr) (FM d) (F3 p) = F3 (plusR (applyR d p) dr).
Proof. apply vec3_eq; cbn; f_equal; ring. Qed.
Lemma rev_vel_F d v : rev_vel (FM d) (F3 v) = F3 (applyR d v).
Proof. apply vec3_eq; cbn; f_equal; ring. Qed.

Definition drR (f t : frame) : vR := applyR (transR (rot f)) (minusR (origin t) (origin f)).
Definition drotR (f t : frame) : mR := mulR (transR (rot f)) (rot t).
Lemma mkCT_F f t : mkCT (Fcs f) (Fcs t) = CT (Fcs f) (Fcs t) (F3 (drR f t)) (FM (drotR f t)).
Proof.
  unfold mkCT; cbn [origin rot Fcs]. rewrite mtr_F, vsub_F, mv_F, mm_F. reflexivity.
Qed.

(** The real-number change of coordinates. *)
Definition chg_pt (f t : frame) (p : vR) : vR := applyR (transR (drotR f t)) (minusR p (drR f t)).
Definition chg_vec (f t : frame) (v : vR) : vR := applyR (transR (drotR f t)) v.
Definition chg_ray (f t : frame) (r : ray R) : ray R :=
  Ray (chg_pt f t (pos r)) (chg_vec f t (vel r)) (time r) (wavelength r) (flux r)
      (vignetted r) (failed r).

Lemma chg_pt_eq f t p : good_frame f -> good_frame t ->
  chg_pt f t p = applyR (transR (rot t)) (minusR (global_point f p) (origin t)).
Proof.
  intros Hf Ht; unfold chg_pt, drotR, drR, global_point.
  rewrite transR_mul, transR_trans, applyR_mul. f_equal.
  rewrite applyR_minus, (orth_apply_rl _ _ Hf). vec.
Qed.
Lemma chg_vec_eq f t v : chg_vec f t v = applyR (transR (rot t)) (global_dir f v).
Proof. unfold chg_vec, drotR, global_dir. rewrite transR_mul, transR_trans, applyR_mul; reflexivity. Qed.

Lemma chg_pt_global f t p : good_frame f -> good_frame t ->
  global_point t (chg_pt f t p) = global_point f p.
Proof.
  intros Hf Ht. rewrite chg_pt_eq by assumption. unfold global_point at 1.
  rewrite orth_apply_rl by assumption. vec.
Qed.
Lemma chg_vec_global f t v : good_frame t -> global_dir t (chg_vec f t v) = global_dir f v.
Proof.
  intros Ht. rewrite chg_vec_eq. unfold global_dir at 1. apply orth_apply_rl; assumption.
Qed.
Lemma global_point_inj c p q : good_frame c -> global_point c p = global_point c q -> p = q.
Proof.
  intros Hc H. unfold global_point in H.
  rewrite <- (orth_apply_lr (rot c) p Hc), <- (orth_apply_lr (rot c) q Hc).
  f_equal. apply vec3_eq.
  - apply (f_equal cx) in H; cbn in H |- *; lra.
  - apply (f_equal cy) in H; cbn in H |- *; lra.
  - apply (f_equal cz) in H; cbn in H |- *; lra.
Qed.
Lemma global_dir_inj c p q : good_frame c -> global_dir c p = global_dir c q -> p = q.
Proof.
  intros Hc H. unfold global_dir in H.
  rewrite <- (orth_apply_lr (rot c) p Hc), <- (orth_apply_lr (rot c) q Hc), H. reflexivity.
Qed.

Lemma ray_forward_F f t r :
  ray_forward (F3 (drR f t)) (FM (drotR f t)) (Fray r) = Fray (chg_ray f t r).
Proof.
  unfold ray_forward, Fray; cbn [pos vel time wavelength flux vignetted failed chg_ray].
  rewrite fwd_point_F, fwd_vel_F. reflexivity.
Qed.
Definition rev_ray (f t : frame) (r : ray R) : ray R :=
  Ray (plusR (applyR (drotR f t) (pos r)) (drR f t)) (applyR (drotR f t) (vel r))
      (time r) (wavelength r) (flux r) (vignetted r) (failed r).
Lemma ray_reverse_F f t r :
  ray_reverse (F3 (drR f t)) (FM (drotR f t)) (Fray r) = Fray (rev_ray f t r).
Proof.
  unfold ray_reverse, Fray; cbn [pos vel time wavelength flux vignetted failed rev_ray].
  rewrite rev_point_F, rev_vel_F. reflexivity.
Qed.

Definition chg_rv (t : frame) (rv : rayvec R) : rayvec R :=
  RV (map (chg_ray (rvcs rv) t) (rays rv)) t.
Lemma rv_toCoordSys_F t rv : rv_toCoordSys (Fcs t) (Frv rv) = Frv (chg_rv t rv).
Proof.
  unfold rv_toCoordSys, batch, Frv, chg_rv; cbn [rays rvcs dest].
  rewrite mkCT_F; cbn [ct_dr ct_drot]. f_equal.
  rewrite !map_map. apply map_ext; intros r. apply ray_forward_F.
Qed.

Lemma chg_ray_comp a b c r : good_frame a -> good_frame b -> good_frame c ->
  chg_ray b c (chg_ray a b r) = chg_ray a c r.
Proof.
  intros Ha Hb Hc; unfold chg_ray; cbn. f_equal.
  - apply (global_point_inj c); [assumption|]. rewrite !chg_pt_global by assumption. reflexivity.
  - apply (global_dir_inj c); [assumption|]. rewrite !chg_vec_global by assumption. reflexivity.
Qed.
Lemma chg_ray_id a r : good_frame a -> chg_ray a a r = r.
Proof.
  intros Ha; destruct r; unfold chg_ray; cbn. f_equal.
  - apply (global_point_inj a); [assumption|]. rewrite !chg_pt_global by assumption. reflexivity.
  - apply (global_dir_inj a); [assumption|]. rewrite !chg_vec_global by assumption. reflexivity.
Qed.
Lemma drot_orth a b : good_frame a -> good_frame b -> orthonormal (drotR a b).
Proof. intros Ha Hb; apply orth_mul; [apply orth_trans|]; assumption. Qed.
Lemma rev_chg a b r : good_frame a -> good_frame b -> rev_ray a b (chg_ray a b r) = r.
Proof.
  intros Ha Hb; destruct r; unfold rev_ray, chg_ray; cbn. unfold chg_pt, chg_vec.
  rewrite !orth_apply_rl, minusR_plus by (apply drot_orth; assumption). reflexivity.
Qed.
Lemma chg_rev a b r : good_frame a -> good_frame b -> chg_ray a b (rev_ray a b r) = r.
Proof.
  intros Ha Hb; destruct r; unfold rev_ray, chg_ray; cbn. unfold chg_pt, chg_vec.
  rewrite plusR_minus, !orth_apply_lr by (apply drot_orth; assumption). reflexivity.
Qed.
