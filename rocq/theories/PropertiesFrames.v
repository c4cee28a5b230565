(** C01-C05: frames and free propagation. *)
From Coq Require Import Reals List.
From Verif Require Import Num NumR Vec CoordSys Ray Bundle Spec FrameProofs SamplesFrames.
Import ListNotations.
Open Scope R_scope.

(** C01: A -> B -> A is the identity on whole bundles (positions, velocities and
    everything else), by toCoordSys, by one CoordTransform used both ways, and on
    bare arrays of points. *)
Theorem C01_toCoordSys_roundtrip : forall (A B : frame) (l : list (ray R)),
  good_frame A -> good_frame B ->
  rv_toCoordSys (Fcs A) (rv_toCoordSys (Fcs B) (Frv (RV l A))) = Frv (RV l A).
Proof. exact roundtrip_toCoordSys. Qed.
Print Assumptions C01_toCoordSys_roundtrip.
Theorem C01_transform_roundtrip : forall (A B : frame) (l : list (ray R)),
  good_frame A -> good_frame B ->
  rv_applyReverse (mkCT (Fcs A) (Fcs B)) (rv_applyForward (mkCT (Fcs A) (Fcs B)) (Frv (RV l A)))
  = Frv (RV l A).
Proof. exact roundtrip_transform. Qed.
Print Assumptions C01_transform_roundtrip.
Theorem C01_transform_roundtrip_reverse : forall (A B : frame) (l : list (ray R)),
  good_frame A -> good_frame B ->
  rv_applyForward (mkCT (Fcs A) (Fcs B)) (rv_applyReverse (mkCT (Fcs A) (Fcs B)) (Frv (RV l B)))
  = Frv (RV l B).
Proof. exact roundtrip_transform_rev. Qed.
Print Assumptions C01_transform_roundtrip_reverse.
Theorem C01_array_roundtrip : forall (A B : frame) (p : vR),
  good_frame A -> good_frame B ->
  applyReverseArray (mkCT (Fcs A) (Fcs B)) (applyForwardArray (mkCT (Fcs A) (Fcs B)) (F3 p)) = F3 p /\
  applyForwardArray (mkCT (Fcs A) (Fcs B)) (applyReverseArray (mkCT (Fcs A) (Fcs B)) (F3 p)) = F3 p.
Proof. exact roundtrip_array. Qed.
Print Assumptions C01_array_roundtrip.
Example C01_example : good_frame frA /\ good_frame frB /\ frA <> frB.
Proof. exact frames_good. Qed.

(** C02: A -> B -> C is A -> C, A -> A is the identity, and so any chain of frame
    changes is the direct change to its last frame. *)
Theorem C02_compose : forall (A B C : frame) (l : list (ray R)),
  good_frame A -> good_frame B -> good_frame C ->
  rv_toCoordSys (Fcs C) (rv_toCoordSys (Fcs B) (Frv (RV l A))) = rv_toCoordSys (Fcs C) (Frv (RV l A)).
Proof. exact compose_toCoordSys. Qed.
Print Assumptions C02_compose.
Theorem C02_identity : forall (A : frame) (l : list (ray R)),
  good_frame A -> rv_toCoordSys (Fcs A) (Frv (RV l A)) = Frv (RV l A).
Proof. exact identity_toCoordSys. Qed.
Print Assumptions C02_identity.
Theorem C02_chain : forall (A : frame) (fs : list frame) (l : list (ray R)),
  good_frame A -> Forall good_frame fs ->
  fold_left (fun rv c => rv_toCoordSys (Fcs c) rv) fs (Frv (RV l A))
  = rv_toCoordSys (Fcs (last fs A)) (Frv (RV l A)).
Proof. exact chain_toCoordSys. Qed.
Print Assumptions C02_chain.
Example C02_example : good_frame frA /\ Forall good_frame [frB; global_frame; frA].
Proof. exact frames_chain. Qed.

(** C03: rigidity; the global ray does not move. *)
Theorem C03_rigid : forall (A B : frame) (l : list (ray R)),
  good_frame A -> good_frame B ->
  exists l' : list (ray R),
    rv_toCoordSys (Fcs B) (Frv (RV l A)) = Frv (RV l' B) /\
    length l' = length l /\
    (forall i r r', nth_error l i = Some r -> nth_error l' i = Some r' ->
       global_point B (pos r') = global_point A (pos r) /\
       global_dir B (vel r') = global_dir A (vel r) /\
       toGlobal (Fcs B) (F3 (pos r')) = toGlobal (Fcs A) (F3 (pos r)) /\
       time r' = time r /\ wavelength r' = wavelength r /\ flux r' = flux r /\
       vignetted r' = vignetted r /\ failed r' = failed r /\
       lenR (vel r') = lenR (vel r)) /\
    (forall i j r s r' s', nth_error l i = Some r -> nth_error l j = Some s ->
       nth_error l' i = Some r' -> nth_error l' j = Some s' ->
       distR (pos r') (pos s') = distR (pos r) (pos s) /\
       dotR (vel r') (vel s') = dotR (vel r) (vel s)).
Proof. exact rigid_toCoordSys. Qed.
Print Assumptions C03_rigid.
Example C03_example : exists r, rays (rv_toCoordSys (Fcs frB) (Frv (RV [ray1] frA))) = [r] /\ 
  pos r <> F3 (pos ray1).
Proof. exact rigid_moves. Qed.

(** C04: histories of edits. *)
Theorem C04_history_rotation : forall ops : list (cs_op R),
  Forall rot_op ops ->
  exists c : frame, fold_left cs_step (map Fop ops) cs_default = Fcs c /\ rotation (rot c).
Proof. exact history_rotation. Qed.
Print Assumptions C04_history_rotation.
Theorem C04_toLocal_toGlobal : forall (c : frame) (p : vR), good_frame c ->
  toLocal (Fcs c) (toGlobal (Fcs c) (F3 p)) = F3 p /\
  toGlobal (Fcs c) (toLocal (Fcs c) (F3 p)) = F3 p.
Proof. exact toLocal_toGlobal. Qed.
Print Assumptions C04_toLocal_toGlobal.
Theorem C04_toGlobal_spec : forall (c : frame) (p : vR),
  toGlobal (Fcs c) (F3 p) = F3 (global_point c p).
Proof. exact toGlobal_F. Qed.
Print Assumptions C04_toGlobal_spec.
Theorem C04_shiftGlobal : forall (c : frame) (d : vR),
  exists c', shiftGlobal (Fcs c) (F3 d) = Fcs c' /\ rot c' = rot c /\
             (forall p, global_point c' p = plusR (global_point c p) d).
Proof. exact global_shift. Qed.
Print Assumptions C04_shiftGlobal.
Theorem C04_shiftLocal : forall (c : frame) (d : vR),
  exists c', shiftLocal (Fcs c) (F3 d) = Fcs c' /\ rot c' = rot c /\
             origin c' = global_point c d /\
             (forall p, global_point c' p = plusR (global_point c p) (global_dir c d)).
Proof. exact local_shift. Qed.
Print Assumptions C04_shiftLocal.
(** Every point fixed to the frame turns about [g], the global image of the centre. *)
Theorem C04_rotateGlobal : forall (c : frame) (r : mR) (center : vR) (cs : option frame),
  let g := global_point (match cs with None => global_frame | Some s => s end) center in
  exists c', rotateGlobal (Fcs c) (FM r) (F3 center) (option_map Fcs cs) = Fcs c' /\
             (forall p, global_point c' p = plusR g (applyR r (minusR (global_point c p) g))) /\
             (forall p, global_point c p = g -> global_point c' p = g).
Proof. exact global_rotation. Qed.
Print Assumptions C04_rotateGlobal.
Theorem C04_rotateLocal : forall (c : frame) (r : mR) (center : vR) (cs : option frame),
  good_frame c ->
  let g := global_point (match cs with None => c | Some s => s end) center in
  exists c', rotateLocal (Fcs c) (FM r) (F3 center) (option_map Fcs cs) = Fcs c' /\
             (forall p, global_point c' p =
               plusR g (global_dir c (applyR r (applyR (transR (rot c)) (minusR (global_point c p) g))))) /\
             (forall p, global_point c p = g -> global_point c' p = g) /\
             (forall v, global_dir c' v = global_dir c (applyR r v)).
Proof. exact local_rotation. Qed.
Print Assumptions C04_rotateLocal.
Theorem C04_rotateLocal_keeps_origin : forall (c : frame) (r : mR), good_frame c ->
  exists c', rotateLocal (Fcs c) (FM r) (F3 zeroR) None = Fcs c' /\ origin c' = origin c.
Proof. exact local_rotation_keeps_origin. Qed.
Print Assumptions C04_rotateLocal_keeps_origin.
Example C04_example : Forall rot_op history1 /\ good_frame frA.
Proof. exact history1_ok. Qed.

(** C05: free flow. *)
Theorem C05_propagate_is_positionAtTime : forall (T : Type) (NT : Num T) (t : T) (r : ray T),
  ray_propagate t r =
  Ray (ray_positionAtTime t r) (vel r) t (wavelength r) (flux r) (vignetted r) (failed r).
Proof. exact @propagate_positionAtTime. Qed.
Print Assumptions C05_propagate_is_positionAtTime.
Theorem C05_positionAtTime_spec : forall (t : R) (r : ray R),
  ray_positionAtTime (Fin t) (Fray r) = F3 (plusR (pos r) (timesR (t - time r) (vel r))).
Proof. exact positionAtTime_F. Qed.
Print Assumptions C05_positionAtTime_spec.
Theorem C05_flow : forall (t1 t2 : R) (rv : rayvec R),
  rv_propagate (Fin t2) (rv_propagate (Fin t1) (Frv rv)) = rv_propagate (Fin t2) (Frv rv).
Proof. exact propagate_flow. Qed.
Print Assumptions C05_flow.
Theorem C05_trajectory_kept : forall (t1 t2 : R) (r : ray R),
  ray_positionAtTime (Fin t2) (ray_propagate (Fin t1) (Fray r)) = ray_positionAtTime (Fin t2) (Fray r).
Proof. exact positionAtTime_propagate. Qed.
Print Assumptions C05_trajectory_kept.
Theorem C05_own_time : forall r : ray R, ray_propagate (Fin (time r)) (Fray r) = Fray r.
Proof. exact propagate_own_time. Qed.
Print Assumptions C05_own_time.
Example C05_example : ray_propagate (Fin 3) (Fray ray1) <> Fray ray1.
Proof. exact propagate_moves. Qed.
