(** Proofs behind PropertiesFrames.v (C01-C05). *)
From Coq Require Import Reals List ZArith Bool Lra Psatz.
From Verif Require Import Num NumR Vec CoordSys Ray Bundle Spec XRFacts CoordFacts.
Import ListNotations.
Open Scope R_scope.

Lemma roundtrip_toCoordSys A B l : good_frame A -> good_frame B ->
  rv_toCoordSys (Fcs A) (rv_toCoordSys (Fcs B) (Frv (RV l A))) = Frv (RV l A).
Proof.
  intros HA HB. rewrite !rv_toCoordSys_F. unfold chg_rv; cbn. f_equal. f_equal.
  rewrite map_map, (map_ext _ (fun r => r)), map_id; [reflexivity|].
  intros r. rewrite chg_ray_comp, chg_ray_id; auto.
Qed.

Lemma applyForward_F A B l :
  rv_applyForward (mkCT (Fcs A) (Fcs B)) (Frv (RV l A)) = Frv (RV (map (chg_ray A B) l) B).
Proof.
  rewrite mkCT_F. unfold rv_applyForward, Frv; cbn. f_equal. rewrite !map_map.
  apply map_ext; intros; apply ray_forward_F.
Qed.
Lemma applyReverse_F A B l C :
  rv_applyReverse (mkCT (Fcs A) (Fcs B)) (Frv (RV l C)) = Frv (RV (map (rev_ray A B) l) A).
Proof.
  rewrite mkCT_F. unfold rv_applyReverse, Frv; cbn. f_equal. rewrite !map_map.
  apply map_ext; intros; apply ray_reverse_F.
Qed.
Lemma roundtrip_transform A B l : good_frame A -> good_frame B ->
  rv_applyReverse (mkCT (Fcs A) (Fcs B)) (rv_applyForward (mkCT (Fcs A) (Fcs B)) (Frv (RV l A)))
  = Frv (RV l A).
Proof.
  intros HA HB. rewrite applyForward_F, applyReverse_F. f_equal. f_equal.
  rewrite map_map, (map_ext _ (fun r => r)), map_id; [reflexivity|].
  intros r; apply rev_chg; assumption.
Qed.
Lemma applyForward_anyframe A B l C :
  rv_applyForward (mkCT (Fcs A) (Fcs B)) (Frv (RV l C)) = Frv (RV (map (chg_ray A B) l) B).
Proof.
  rewrite mkCT_F. unfold rv_applyForward, Frv; cbn. f_equal. rewrite !map_map.
  apply map_ext; intros; apply ray_forward_F.
Qed.
Lemma roundtrip_transform_rev A B l : good_frame A -> good_frame B ->
  rv_applyForward (mkCT (Fcs A) (Fcs B)) (rv_applyReverse (mkCT (Fcs A) (Fcs B)) (Frv (RV l B)))
  = Frv (RV l B).
Proof.
  intros HA HB. rewrite applyReverse_F, applyForward_anyframe. f_equal. f_equal.
  rewrite map_map, (map_ext _ (fun r => r)), map_id; [reflexivity|].
  intros r; apply chg_rev; assumption.
Qed.
Lemma roundtrip_array A B p : good_frame A -> good_frame B ->
  applyReverseArray (mkCT (Fcs A) (Fcs B)) (applyForwardArray (mkCT (Fcs A) (Fcs B)) (F3 p)) = F3 p
  /\ applyForwardArray (mkCT (Fcs A) (Fcs B)) (applyReverseArray (mkCT (Fcs A) (Fcs B)) (F3 p)) = F3 p.
Proof.
  intros HA HB. rewrite mkCT_F. unfold applyReverseArray, applyForwardArray; cbn [ct_dr ct_drot].
  rewrite !mtr_F. split.
  - rewrite vsub_F, mv_F, mv_F, vadd_F.
    rewrite orth_apply_rl, minusR_plus by (apply drot_orth; assumption). reflexivity.
  - rewrite mv_F, vadd_F, vsub_F, mv_F.
    rewrite plusR_minus, orth_apply_lr by (apply drot_orth; assumption). reflexivity.
Qed.
(** The array and the RayVector versions agree. *)
Lemma array_agrees A B l i r : 
  nth_error l i = Some r ->
  option_map pos (nth_error (rays (rv_applyForward (mkCT (Fcs A) (Fcs B)) (Frv (RV l A)))) i)
  = Some (applyForwardArray (mkCT (Fcs A) (Fcs B)) (F3 (pos r))).
Proof.
  intros H. rewrite applyForward_F; cbn. rewrite map_map, nth_error_map, H; cbn.
  rewrite mkCT_F; unfold applyForwardArray; cbn [ct_dr ct_drot].
  rewrite mtr_F, vsub_F, mv_F. reflexivity.
Qed.

Lemma compose_toCoordSys A B C l : good_frame A -> good_frame B -> good_frame C ->
  rv_toCoordSys (Fcs C) (rv_toCoordSys (Fcs B) (Frv (RV l A))) = rv_toCoordSys (Fcs C) (Frv (RV l A)).
Proof.
  intros HA HB HC. rewrite !rv_toCoordSys_F. unfold chg_rv; cbn. f_equal. f_equal.
  rewrite map_map. apply map_ext; intros; apply chg_ray_comp; assumption.
Qed.
Lemma identity_toCoordSys A l : good_frame A -> rv_toCoordSys (Fcs A) (Frv (RV l A)) = Frv (RV l A).
Proof.
  intros HA. rewrite !rv_toCoordSys_F. unfold chg_rv; cbn. f_equal. f_equal.
  rewrite (map_ext _ (fun r => r)), map_id; [reflexivity|]. intros; apply chg_ray_id; assumption.
Qed.
Lemma last_cons {A} (a d : A) l : last (a :: l) d = last l a.
Proof.
  revert a d. induction l as [|b l IH]; intros a d; [reflexivity|].
  change (last (a :: b :: l) d) with (last (b :: l) d). rewrite !IH. reflexivity.
Qed.
Lemma last_Forall {A} (P : A -> Prop) l d : P d -> Forall P l -> P (last l d).
Proof.
  intros Hd Hl. revert d Hd. induction Hl as [|a l Ha Hl IH]; intros d Hd; [exact Hd|].
  rewrite last_cons. apply IH, Ha.
Qed.
Lemma chain_toCoordSys A fs l : good_frame A -> Forall good_frame fs ->
  fold_left (fun rv c => rv_toCoordSys (Fcs c) rv) fs (Frv (RV l A))
  = rv_toCoordSys (Fcs (last fs A)) (Frv (RV l A)).
Proof.
  intros HA Hfs. revert A l HA. induction Hfs as [|B fs HB Hfs IH]; intros A l HA; cbn [fold_left].
  - symmetry; apply identity_toCoordSys; assumption.
  - rewrite rv_toCoordSys_F. unfold chg_rv; cbn [rays rvcs]. rewrite IH by assumption.
    rewrite last_cons.
    change (Frv (RV (map (chg_ray A B) l) B)) with (Frv (chg_rv B (RV l A))).
    rewrite <- rv_toCoordSys_F. apply compose_toCoordSys; auto.
    apply last_Forall; assumption.
Qed.

Lemma toGlobal_F c p : toGlobal (Fcs c) (F3 p) = F3 (global_point c p).
Proof.
  unfold toGlobal; cbn [rot origin Fcs]. rewrite mv_F, vadd_F. f_equal. apply plusR_comm.
Qed.
Lemma toLocal_F c p : toLocal (Fcs c) (F3 p) = F3 (applyR (transR (rot c)) (minusR p (origin c))).
Proof. unfold toLocal; cbn [rot origin Fcs]. rewrite mtr_F, vsub_F, mv_F. reflexivity. Qed.

Lemma chg_dot A B a b : good_frame A -> good_frame B ->
  dotR (chg_vec A B a) (chg_vec A B b) = dotR a b.
Proof. intros; unfold chg_vec; apply orth_dot, orth_trans, drot_orth; assumption. Qed.
Lemma chg_pt_minus A B p q : minusR (chg_pt A B p) (chg_pt A B q) = chg_vec A B (minusR p q).
Proof. unfold chg_pt, chg_vec. rewrite <- applyR_minus. f_equal. vec. Qed.
Lemma chg_dist A B p q : good_frame A -> good_frame B ->
  distR (chg_pt A B p) (chg_pt A B q) = distR p q.
Proof. intros HA HB; unfold distR, lenR. rewrite chg_pt_minus, chg_dot by assumption. reflexivity. Qed.

Lemma rigid_toCoordSys A B l : good_frame A -> good_frame B ->
  exists l',
    rv_toCoordSys (Fcs B) (Frv (RV l A)) = Frv (RV l' B) /\
    length l' = length l /\
    (forall i r r', nth_error l i = Some r -> nth_error l' i = Some r' ->
       global_point B (pos r') = global_point A (pos r) /\
       global_dir B (vel r') = global_dir A (vel r) /\
       toGlobal (Fcs B) (F3 (pos r')) = toGlobal (Fcs A) (F3 (pos r)) /\
       time r' = time r /\ wavelength r' = wavelength r /\ flux r' = flux r /\
       vignetted r' = vignetted r /\ failed r' = failed r /\
       lenR (vel r') = lenR (vel r)) /\
    (forall i j r s r' s', nth_error l i = Some r -> nth_error l j = Some s ->
       nth_error l' i = Some r' -> nth_error l' j = Some s' ->
       distR (pos r') (pos s') = distR (pos r) (pos s) /\
       dotR (vel r') (vel s') = dotR (vel r) (vel s)).
Proof.
  intros HA HB. exists (map (chg_ray A B) l). split; [|split; [|split]].
  - rewrite rv_toCoordSys_F. reflexivity.
  - apply map_length.
  - intros i r r' H H'. rewrite nth_error_map, H in H'. cbn in H'. injection H' as <-.
    cbn. rewrite !toGlobal_F, chg_pt_global, chg_vec_global by assumption.
    unfold lenR. rewrite chg_dot by assumption. repeat split; reflexivity.
  - intros i j r s r' s' H1 H2 H1' H2'.
    rewrite nth_error_map, H1 in H1'. rewrite nth_error_map, H2 in H2'. cbn in *.
    injection H1' as <-. injection H2' as <-. cbn. 
    rewrite chg_dist, chg_dot by assumption. split; reflexivity.
Qed.

(** ** C04 *)
Definition shiftG (c : frame) d : frame := CS (plusR (origin c) d) (rot c).
Definition rotG (c : frame) r g : frame :=
  CS (plusR (applyR r (minusR (origin c) g)) g) (mulR r (rot c)).
Definition rotL (c : frame) r g : frame :=
  CS (plusR (applyR (mulR (mulR (rot c) r) (transR (rot c))) (minusR (origin c) g)) g) (mulR (rot c) r).

Lemma cs_default_F : cs_default = Fcs global_frame.
Proof. reflexivity. Qed.
Lemma shiftGlobal_F c d : shiftGlobal (Fcs c) (F3 d) = Fcs (shiftG c d).
Proof. reflexivity. Qed.
Lemma shiftLocal_F c d : shiftLocal (Fcs c) (F3 d) = Fcs (shiftG c (applyR (rot c) d)).
Proof. unfold shiftLocal; cbn [rot Fcs]; rewrite mv_F; reflexivity. Qed.
Lemma rotateGlobal_F c r p cs :
  rotateGlobal (Fcs c) (FM r) (F3 p) (option_map Fcs cs)
  = Fcs (rotG c r (global_point (match cs with None => global_frame | Some s => s end) p)).
Proof.
  unfold rotateGlobal; cbn [rot origin Fcs].
  assert (E : match option_map Fcs cs with None => cs_default | Some s => s end
              = Fcs (match cs with None => global_frame | Some s => s end)) by (destruct cs; reflexivity).
  rewrite E. rewrite toGlobal_F, vsub_F, mv_F, vadd_F, mm_F. reflexivity.
Qed.
Lemma rotateLocal_F c r p cs :
  rotateLocal (Fcs c) (FM r) (F3 p) (option_map Fcs cs)
  = Fcs (rotL c r (global_point (match cs with None => c | Some s => s end) p)).
Proof.
  unfold rotateLocal.
  assert (E : match option_map Fcs cs with None => Fcs c | Some s => s end
              = Fcs (match cs with None => c | Some s => s end)) by (destruct cs; reflexivity).
  rewrite E, toGlobal_F. cbn [rot origin Fcs]. 
  rewrite vsub_F, mtr_F, !mm_F, mv_F, vadd_F. reflexivity.
Qed.

Definition stepR (c : frame) (o : cs_op R) : frame :=
  match o with
  | OpShiftGlobal d => shiftG c d
  | OpShiftLocal d => shiftG c (applyR (rot c) d)
  | OpRotateGlobal r p cs => rotG c r (global_point (match cs with None => global_frame | Some s => s end) p)
  | OpRotateLocal r p cs => rotL c r (global_point (match cs with None => c | Some s => s end) p)
  end.
Lemma cs_step_F c o : cs_step (Fcs c) (Fop o) = Fcs (stepR c o).
Proof.
  destruct o; cbn [cs_step Fop stepR].
  - apply shiftGlobal_F.
  - apply shiftLocal_F.
  - apply rotateGlobal_F.
  - apply rotateLocal_F.
Qed.
Lemma fold_steps_F ops c : fold_left cs_step (map Fop ops) (Fcs c) = Fcs (fold_left stepR ops c).
Proof.
  revert c; induction ops as [|o ops IH]; intros c; cbn [fold_left map]; [reflexivity|].
  rewrite cs_step_F. apply IH.
Qed.
Lemma stepR_rotation c o : rotation (rot c) -> rot_op o -> rotation (rot (stepR c o)).
Proof.
  intros Hc Ho; destruct o; cbn in *; try assumption; apply rotation_mul; assumption.
Qed.
Lemma history_rotation ops : Forall rot_op ops ->
  exists c : frame, fold_left cs_step (map Fop ops) cs_default = Fcs c /\ rotation (rot c).
Proof.
  intros H. exists (fold_left stepR ops global_frame). split.
  - rewrite cs_default_F. apply fold_steps_F.
  - assert (G : forall c, rotation (rot c) -> rotation (rot (fold_left stepR ops c))).
    { induction H as [|o ops Ho Hops IH]; intros c Hc; cbn; [exact Hc|].
      apply IH, stepR_rotation; assumption. }
    apply G, rotation_eye.
Qed.
Lemma toLocal_toGlobal c p : good_frame c ->
  toLocal (Fcs c) (toGlobal (Fcs c) (F3 p)) = F3 p /\ toGlobal (Fcs c) (toLocal (Fcs c) (F3 p)) = F3 p.
Proof.
  intros H. rewrite toGlobal_F, !toLocal_F, toGlobal_F. unfold global_point. split; f_equal.
  - rewrite <- (orth_apply_lr (rot c) p H) at 2. f_equal. vec.
  - rewrite orth_apply_rl by assumption. vec.
Qed.
Lemma local_shift c d :
  exists c', shiftLocal (Fcs c) (F3 d) = Fcs c' /\ rot c' = rot c /\
             origin c' = global_point c d /\
             (forall p, global_point c' p = plusR (global_point c p) (global_dir c d)).
Proof.
  exists (shiftG c (applyR (rot c) d)). split; [apply shiftLocal_F|]. repeat split.
  intros p. unfold global_point, global_dir, shiftG; cbn. vec.
Qed.
Lemma global_shift c d :
  exists c', shiftGlobal (Fcs c) (F3 d) = Fcs c' /\ rot c' = rot c /\
             (forall p, global_point c' p = plusR (global_point c p) d).
Proof.
  exists (shiftG c d). split; [apply shiftGlobal_F|]. split; [reflexivity|].
  intros p. unfold global_point, shiftG; cbn. vec.
Qed.
Lemma rotG_point c r g p :
  global_point (rotG c r g) p = plusR g (applyR r (minusR (global_point c p) g)).
Proof. unfold global_point, rotG; cbn. rewrite applyR_mul. vec. Qed.
Lemma global_rotation c r center cs :
  let g := global_point (match cs with None => global_frame | Some s => s end) center in
  exists c', rotateGlobal (Fcs c) (FM r) (F3 center) (option_map Fcs cs) = Fcs c' /\
             (forall p, global_point c' p = plusR g (applyR r (minusR (global_point c p) g))) /\
             (forall p, global_point c p = g -> global_point c' p = g).
Proof.
  intros g. exists (rotG c r g). split; [apply rotateGlobal_F|]. split.
  - intros p; apply rotG_point.
  - intros p H. rewrite rotG_point, H. vec.
Qed.
Lemma rotL_point c r g p : good_frame c ->
  global_point (rotL c r g) p =
  plusR g (applyR (rot c) (applyR r (applyR (transR (rot c)) (minusR (global_point c p) g)))).
Proof.
  intros H. unfold global_point, rotL; cbn [rot origin]. rewrite !applyR_mul.
  replace (minusR (plusR (origin c) (applyR (rot c) p)) g)
    with (plusR (minusR (origin c) g) (applyR (rot c) p)) by vec.
  rewrite (applyR_plus (transR (rot c))), orth_apply_lr by assumption.
  rewrite (applyR_plus r), (applyR_plus (rot c)). vec.
Qed.
Lemma local_rotation c r center cs : good_frame c ->
  let g := global_point (match cs with None => c | Some s => s end) center in
  exists c', rotateLocal (Fcs c) (FM r) (F3 center) (option_map Fcs cs) = Fcs c' /\
             (forall p, global_point c' p =
               plusR g (global_dir c (applyR r (applyR (transR (rot c)) (minusR (global_point c p) g))))) /\
             (forall p, global_point c p = g -> global_point c' p = g) /\
             (forall v, global_dir c' v = global_dir c (applyR r v)).
Proof.
  intros H g. exists (rotL c r g). split; [apply rotateLocal_F|]. repeat split.
  - intros p; apply rotL_point; assumption.
  - intros p E. rewrite rotL_point, E by assumption. vec.
  - intros v. unfold global_dir, rotL; cbn [rot]. apply applyR_mul.
Qed.
Lemma local_rotation_keeps_origin c r : good_frame c ->
  exists c', rotateLocal (Fcs c) (FM r) (F3 zeroR) None = Fcs c' /\ origin c' = origin c.
Proof.
  intros H. exists (rotL c r (global_point c zeroR)). split.
  - apply (rotateLocal_F c r zeroR None).
  - unfold rotL; cbn [origin].
    replace (global_point c zeroR) with (origin c) by (unfold global_point; vec).
    replace (minusR (origin c) (origin c)) with zeroR by vec. vec.
Qed.

(** ** C05 *)
Lemma propagate_positionAtTime {T} `{Num T} t (r : ray T) :
  ray_propagate t r =
  Ray (ray_positionAtTime t r) (vel r) t (wavelength r) (flux r) (vignetted r) (failed r).
Proof. reflexivity. Qed.
Definition freeR (t : R) (r : ray R) : ray R :=
  Ray (plusR (pos r) (timesR (t - time r) (vel r))) (vel r) t (wavelength r) (flux r)
      (vignetted r) (failed r).
Lemma propagate_F t r : ray_propagate (Fin t) (Fray r) = Fray (freeR t r).
Proof.
  unfold ray_propagate, Fray, freeR; cbn [pos vel time wavelength flux vignetted failed].
  f_equal. apply vec3_eq; cbn; f_equal; ring.
Qed.
Lemma positionAtTime_F t r : 
  ray_positionAtTime (Fin t) (Fray r) = F3 (plusR (pos r) (timesR (t - time r) (vel r))).
Proof. apply vec3_eq; cbn; f_equal; ring. Qed.
Lemma free_free t1 t2 r : freeR t2 (freeR t1 r) = freeR t2 r.
Proof. unfold freeR; cbn. f_equal. vec. Qed.
Lemma free_self r : freeR (time r) r = r.
Proof. destruct r as [p v t w f vg fl]; unfold freeR; cbn. f_equal. vec. Qed.
Lemma rv_propagate_F t rv :
  rv_propagate (Fin t) (Frv rv) = Frv (RV (map (freeR t) (rays rv)) (rvcs rv)).
Proof.
  unfold rv_propagate, Frv; cbn. f_equal. rewrite !map_map. apply map_ext; intros; apply propagate_F.
Qed.
Lemma propagate_flow t1 t2 rv :
  rv_propagate (Fin t2) (rv_propagate (Fin t1) (Frv rv)) = rv_propagate (Fin t2) (Frv rv).
Proof.
  rewrite !rv_propagate_F; cbn. f_equal. f_equal. rewrite map_map. apply map_ext; intros; apply free_free.
Qed.
Lemma positionAtTime_propagate t1 t2 r :
  ray_positionAtTime (Fin t2) (ray_propagate (Fin t1) (Fray r)) = ray_positionAtTime (Fin t2) (Fray r).
Proof. rewrite propagate_F, !positionAtTime_F. cbn. f_equal. vec. Qed.
Lemma propagate_own_time r : ray_propagate (Fin (time r)) (Fray r) = Fray r.
Proof. rewrite propagate_F, free_self; reflexivity. Qed.
