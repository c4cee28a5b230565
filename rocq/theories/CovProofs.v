(** Proof that tracing commutes with rigid motions (C32). *)
From Coq Require Import Reals List Bool String ZArith Lia Lra.
From Verif Require Import Num NumR Vec CoordSys Surface Medium Obscuration Ray Bundle Optic Ops StructProofs
  TreeSpec TreeProofs Spec XRFacts CoordFacts FrameProofs RayFacts MoveSpec MoveProofs.
Import ListNotations.
Open Scope R_scope.

(** ** Frames that move together: the trace does not see it *)
Section Generic.
  Context {T : Type} {NT : Num T}.
  Variable niter : nat.
  Variable f : coordsys T -> coordsys T.
  Variable P : coordsys T -> Prop.
  Hypothesis Hf : forall A B, P A -> P B ->
    ct_dr (mkCT (f A) (f B)) = ct_dr (mkCT A B) /\ ct_drot (mkCT (f A) (f B)) = ct_drot (mkCT A B).

  Definition carry (rv : rayvec T) : rayvec T := RV (rays rv) (f (rvcs rv)).
  Definition i_move (i : iface T) : iface T := i_reset (i_reframe f i).

  Lemma batch_carry body B rv : P B -> P (rvcs rv) ->
    batch body (Some (f B)) (carry rv) = carry (batch body (Some B) rv).
  Proof.
    intros HB HA. unfold batch, carry, dest; cbn [rays rvcs].
    destruct (Hf _ _ HA HB) as [E1 E2]. rewrite E1, E2. reflexivity.
  Qed.
  Lemma iface_carry i b rv : P (i_cs i) -> P (rvcs rv) ->
    iface_trace niter (i_move i) b (carry rv) = carry (iface_trace niter i b rv).
  Proof.
    intros HB HA. destruct i as [k s n cs ob mi mo fw rw sk]. cbn [i_cs] in HB.
    assert (E : interact niter (i_move (IF k s n cs ob mi mo fw rw sk)) b (carry rv)
                = carry (interact niter (IF k s n cs ob mi mo fw rw sk) b rv)).
    { unfold i_move, i_reset, i_reframe, i_rebuild, interact.
      destruct k; cbn; try (apply batch_carry; assumption). destruct b; apply batch_carry; assumption. }
    unfold iface_trace. rewrite E.
    replace (i_obsc (i_move (IF k s n cs ob mi mo fw rw sk))) with ob by (destruct k; reflexivity).
    cbn [i_obsc]. destruct ob; reflexivity.
  Qed.
  Lemma in_turn_carry is b rv : Forall (fun i => P (i_cs i)) is -> P (rvcs rv) ->
    in_turn niter b (map i_move is) (carry rv) = carry (in_turn niter b is rv).
  Proof.
    intros H. revert rv. induction H as [|i is Hi His IH]; intros rv HA; [reflexivity|].
    unfold in_turn in *; cbn [map fold_left]. rewrite iface_carry by assumption.
    apply IH. rewrite iface_frame. exact Hi.
  Qed.
  Lemma leaves_move o : unskipped o -> leaves (reset (reframe f o)) = map i_move (leaves o).
  Proof.
    induction 1 as [i|a items H Hu IH]; cbn [reframe reset leaves]; [reflexivity|].
    rewrite map_map. 
    induction items as [|it items IHl]; cbn [map flat_map]; [reflexivity|].
    rewrite map_app.
    assert (Hs := H it (or_introl eq_refl)).
    assert (Hs' : o_skip (reset (reframe f it)) = false).
    { destruct it; cbn; [|reflexivity]. destruct i as [k ? ? ? ? ? ? ? ? ?], k; reflexivity. }
    rewrite Hs, Hs', (IH it (or_introl eq_refl)). f_equal.
    apply IHl; intros x Hx; [apply H|apply Hu|apply IH]; right; exact Hx.
  Qed.
  Lemma unskipped_move o : unskipped o -> unskipped (reset (reframe f o)).
  Proof.
    induction 1 as [i|a items H Hu IH]; cbn [reframe reset]; constructor.
    all: rewrite map_map; intros it Hit; apply in_map_iff in Hit; destruct Hit as (x & <- & Hx).
    2: apply IH, Hx. destruct x; cbn; [|reflexivity]. destruct i as [k ? ? ? ? ? ? ? ? ?], k; reflexivity.
  Qed.
  Lemma leaves_frames o i : In i (leaves (T:=T) o) -> In (i_cs i) (frames o).
  Proof.
    induction o as [j|a items IH] using optic_ind2; cbn [leaves frames].
    - intros [<-|[]]. left; reflexivity.
    - intros H. right. apply in_or_app. right. apply in_flat_map in H. destruct H as (x & Hx & Hi).
      apply in_flat_map. exists x. split; [exact Hx|]. rewrite Forall_forall in IH.
      apply IH; [exact Hx|]. destruct (o_skip x); [destruct Hi|exact Hi].
  Qed.
  Lemma trace_carry o b rv : unskipped o -> Forall P (frames o) -> P (rvcs rv) ->
    trace niter (reset (reframe f o)) b (carry rv) = carry (trace niter o b rv).
  Proof.
    intros Ho HF HA. rewrite !trace_in_turn.
    assert (E : visit b (reset (reframe f o)) = map i_move (visit b o)).
    { unfold visit. rewrite leaves_move by exact Ho. destruct b; [now rewrite map_rev|reflexivity]. }
    rewrite E. apply in_turn_carry; [|exact HA].
    apply Forall_forall. intros i Hi. rewrite Forall_forall in HF. apply HF, leaves_frames.
    unfold visit in Hi. destruct b; [apply in_rev in Hi|]; exact Hi.
  Qed.
End Generic.

(** ** Rigid motions of real frames *)
Definition move_frame (m : motion) (c : frame) : frame :=
  match m with MShift d => shiftG c d | MTurn r p k => rotG c r (global_point k p) end.
Definition move_cs (m : motion) (c : coordsys XR) : coordsys XR :=
  match m with MShift d => shiftGlobal c (F3 d) | MTurn r p k => rotateGlobal c (FM r) (F3 p) (Some (Fcs k)) end.
Lemma move_cs_F m c : move_cs m (Fcs c) = Fcs (move_frame m c).
Proof. destruct m; cbn [move_cs move_frame]; [apply shiftGlobal_F|apply rotateGlobal_Some]. Qed.
Lemma move_frame_point m c p : global_point (move_frame m c) p = move_point m (global_point c p).
Proof.
  destruct m as [d|r q k]; cbn [move_frame move_point].
  - unfold shiftG, global_point, plusR; cbn. apply vec3_eq; cbn; ring.
  - set (g := global_point k q). unfold rotG, global_point; cbn [origin rot]. rewrite applyR_mul.
    unfold applyR, plusR, minusR, timesR; cbn. apply vec3_eq; cbn; ring.
Qed.
Lemma move_frames_point ms c p :
  global_point (fold_left (fun c m => move_frame m c) ms c) p = move_points ms (global_point c p).
Proof.
  revert c. induction ms as [|m ms IH]; intros c; [reflexivity|]. cbn [fold_left]. rewrite IH.
  unfold move_points at 2. cbn [fold_left]. rewrite move_frame_point. reflexivity.
Qed.
Lemma frame_ext c c' : (forall p, global_point c p = global_point c' p) -> c = c'.
Proof.
  destruct c as [[x y z] [a b cc d e f g h i]], c' as [[x' y' z'] [a' b' cc' d' e' f' g' h' i']].
  intros H.
  assert (H0 := H (V3 0 0 0)). assert (H1 := H (V3 1 0 0)). assert (H2 := H (V3 0 1 0)). assert (H3 := H (V3 0 0 1)).
  clear H. unfold global_point, plusR, applyR, timesR, col0, col1, col2 in *; cbn in *.
  injection H0 as ? ? ?. injection H1 as ? ? ?. injection H2 as ? ? ?. injection H3 as ? ? ?.
  f_equal; f_equal; lra.
Qed.
Lemma carried_frame ms A A' : carried ms A A' -> A' = fold_left (fun c m => move_frame m c) ms A.
Proof. intros H. apply frame_ext. intros p. rewrite H, move_frames_point. reflexivity. Qed.

Lemma drR_shift A B d : drR (shiftG A d) (shiftG B d) = drR A B.
Proof. unfold drR, shiftG; cbn [origin rot]. f_equal. unfold minusR, plusR; cbn. f_equal; ring. Qed.
Lemma drR_rot A B r g : orthonormal r -> drR (rotG A r g) (rotG B r g) = drR A B.
Proof.
  intros Hr. unfold drR, rotG; cbn [origin rot]. rewrite transR_mul.
  replace (minusR (plusR (applyR r (minusR (origin B) g)) g) (plusR (applyR r (minusR (origin A) g)) g))
    with (applyR r (minusR (origin B) (origin A))).
  - rewrite applyR_mul, orth_apply_lr by exact Hr. reflexivity.
  - unfold applyR, plusR, minusR, timesR; cbn. apply vec3_eq; cbn; ring.
Qed.
Lemma drotR_rot A B r g : orthonormal r -> drotR (rotG A r g) (rotG B r g) = drotR A B.
Proof.
  intros Hr. unfold drotR, rotG; cbn [rot]. rewrite transR_mul, <- mulR_assoc.
  rewrite (mulR_assoc (transR r) r), orth_l, mulR_eye_l by exact Hr. reflexivity.
Qed.
Lemma move_ct m A B : rigid m -> real_frame A -> real_frame B ->
  ct_dr (mkCT (move_cs m A) (move_cs m B)) = ct_dr (mkCT A B) /\
  ct_drot (mkCT (move_cs m A) (move_cs m B)) = ct_drot (mkCT A B).
Proof.
  intros Hm [a ->] [b ->]. rewrite !move_cs_F, !mkCT_F. cbn [ct_dr ct_drot].
  destruct m as [d|r p k]; cbn [move_frame rigid] in *.
  - rewrite drR_shift. split; reflexivity.
  - rewrite drR_rot, drotR_rot by exact Hm. split; reflexivity.
Qed.
Lemma move_one m o : (match m with MShift d => withGlobalShift (F3 d) o
   | MTurn r c k => withGlobalRotation (FM r) (F3 c) (Fcs k) o end) = reset (reframe (move_cs m) o).
Proof. destruct m; [apply shift_reset|apply rotation_reset]. Qed.
Lemma real_move m c : real_frame c -> real_frame (move_cs m c).
Proof. intros [f ->]. exists (move_frame m f). apply move_cs_F. Qed.

Lemma trace_moved niter ms o b : unskipped o -> Forall real_frame (frames o) -> Forall rigid ms ->
  forall l A, let rv := trace niter o b (RV l (Fcs A)) in
  real_frame (rvcs rv) /\
  trace niter (move_optic ms o) b (RV l (Fcs (fold_left (fun c m => move_frame m c) ms A)))
  = RV (rays rv) (fold_left (fun c m => move_cs m c) ms (rvcs rv)).
Proof.
  intros Ho HF HM l. revert o Ho HF. induction HM as [|m ms Hm Hms IH]; intros o Ho HF A; cbv zeta.
  - cbn [move_optic fold_left]. split; [|destruct (trace niter o b _); reflexivity].
    rewrite trace_in_turn. 
    assert (G : forall is rv, Forall (fun i => real_frame (i_cs i)) is -> real_frame (rvcs rv) ->
       real_frame (rvcs (in_turn niter b is rv))).
    { induction is as [|i is IHi]; intros rv Hi Hr; [exact Hr|].
      unfold in_turn in *; cbn [fold_left]. inversion Hi; subst. apply IHi; [assumption|].
      rewrite iface_frame. assumption. }
    apply G; [|exists A; reflexivity].
    apply Forall_forall. intros i Hi. rewrite Forall_forall in HF. apply HF, leaves_frames.
    unfold visit in Hi. destruct b; [apply in_rev in Hi|]; exact Hi.
  - unfold move_optic. cbn [fold_left]. rewrite move_one. fold (move_optic ms (reset (reframe (move_cs m) o))).
    assert (HF' : Forall real_frame (frames (reset (reframe (move_cs m) o)))).
    { rewrite frames_reset, frames_reframe. apply Forall_forall. intros c Hc. apply in_map_iff in Hc.
      destruct Hc as (c0 & <- & Hc0). apply real_move. rewrite Forall_forall in HF. apply HF, Hc0. }
    destruct (IH _ (unskipped_move (move_cs m) o Ho) HF' (move_frame m A)) as [R1 E1].
    assert (E : trace niter (reset (reframe (move_cs m) o)) b (RV l (Fcs (move_frame m A)))
                = carry (move_cs m) (trace niter o b (RV l (Fcs A)))).
    { rewrite <- (trace_carry niter (move_cs m) real_frame).
      - unfold carry; cbn [rays rvcs]. rewrite move_cs_F. reflexivity.
      - intros X Y HX HY. apply move_ct; assumption.
      - exact Ho.
      - exact HF.
      - exists A; reflexivity. }
    rewrite E in E1. cbn [rays rvcs carry] in E1. split; [|exact E1].
    clear - Ho HF. destruct (leaves o) as [|i0 is0] eqn:EL.
    + rewrite trace_empty; [exists A; reflexivity|]. unfold visit. rewrite EL. destruct b; reflexivity.
    + assert (NE : visit b o <> []).
      { unfold visit. rewrite EL. destruct b; [|discriminate]. intros E. apply (f_equal (@List.length _)) in E.
        rewrite rev_length in E. discriminate. }
      destruct (exists_last NE) as (is & i & Ei). rewrite (trace_frame niter o b _ is i Ei).
      rewrite Forall_forall in HF. apply HF, leaves_frames.
      assert (Hi : In i (visit b o)) by (rewrite Ei; apply in_or_app; right; left; reflexivity).
      unfold visit in Hi. destruct b; [apply in_rev in Hi|]; exact Hi.
Qed.
Lemma fold_move_cs ms c : fold_left (fun c m => move_cs m c) ms (Fcs c) = Fcs (fold_left (fun c m => move_frame m c) ms c).
Proof. revert c. induction ms as [|m ms IH]; intros c; [reflexivity|]. cbn [fold_left]. rewrite move_cs_F. apply IH. Qed.

(** The rays are carried along with their frame. *)
Lemma covariance niter ms o b l A A' : unskipped o -> Forall real_frame (frames o) -> Forall rigid ms ->
  carried ms A A' ->
  rays (trace niter (move_optic ms o) b (RV l (Fcs A'))) = rays (trace niter o b (RV l (Fcs A))) /\
  exists B B', rvcs (trace niter o b (RV l (Fcs A))) = Fcs B /\
               rvcs (trace niter (move_optic ms o) b (RV l (Fcs A'))) = Fcs B' /\ carried ms B B'.
Proof.
  intros Ho HF HM HC. rewrite (carried_frame _ _ _ HC).
  destruct (trace_moved niter ms o b Ho HF HM l A) as [[B EB] E]. rewrite E. cbn [rays rvcs].
  split; [reflexivity|]. exists B, (fold_left (fun c m => move_frame m c) ms B). split; [exact EB|].
  split; [rewrite EB; apply fold_move_cs|]. intros p. apply move_frames_point.
Qed.

(** ** The rays are moved in space and described in the unmoved frame *)
Lemma agree_kernel niter i b A B A' B' (r r' : ray XR) dr d dr' d' :
  ct_dr (mkCT A B) = dr -> ct_drot (mkCT A B) = d -> ct_dr (mkCT A' B') = dr' -> ct_drot (mkCT A' B') = d' ->
  i_cs i = B ->
  fwd_point dr' d' (pos r') = fwd_point dr d (pos r) -> fwd_vel d' (vel r') = fwd_vel d (vel r) ->
  failed r' = failed r -> vignetted r' = vignetted r -> time r' = time r -> flux r' = flux r ->
  wavelength r' = wavelength r -> (failed r = true -> vignetted r = true) ->
  forall f, f B = B' ->
  exists o o', iface_trace niter i b (RV [r] A) = RV [o] B /\
    iface_trace niter (i_move f i) b (RV [r'] A') = RV [o'] B' /\ agree o o'.
Proof.
  intros E1 E2 E3 E4 EB Ep Ev Ef Evg Et Efl Ew HV f <-. subst B.
  destruct i as [k s n cs ob mi mo fw rw sk]. cbn [i_cs] in *.
  set (i := IF k s n cs ob mi mo fw rw sk).
  assert (I : exists o o', interact niter i b (RV [r] A) = RV [o] cs /\
     interact niter (i_move f i) b (RV [r'] A') = RV [o'] (f cs) /\ agree o o').
  { unfold i, i_move, i_reset, i_reframe, i_rebuild, interact. 
    destruct r as [p v t w fl vg fa], r' as [p' v' t' w' fl' vg' fa'].
    cbn [pos vel time flux wavelength vignetted failed] in *. subst fa' vg' t' fl' w'.
    destruct k; cbn [i_kind mkIface]; try destruct b;
    unfold rv_intersect, rv_refract, rv_reflect, rv_screen, batch, dest; cbn [rays rvcs map i_cs i_surf];
    rewrite E1, E2, E3, E4; do 2 eexists; (split; [reflexivity|split; [reflexivity|]]);
    unfold ray_intersect, ray_refract, ray_reflect, ray_screen; cbn [pos vel time flux wavelength vignetted failed];
    rewrite Ep, Ev; (destruct fa; [repeat split; cbn; intros; auto; discriminate|]);
    (destruct (hit _ _ _ _) as [su dt]; destruct su;
      [|repeat split; cbn; intros; auto; discriminate]); cbn [i_out i_in];
    repeat match goal with |- context [orient ?a ?b] => destruct (orient a b) end;
    repeat match goal with |- context [refract_vel ?a ?b ?c ?d ?e] => destruct (refract_vel a b c d e) end;
    repeat split; cbn; intros; auto; discriminate. }
  destruct I as (o & o' & I1 & I2 & Ha). unfold iface_trace. rewrite I1, I2.
  replace (i_obsc (i_move f i)) with ob by (destruct k; reflexivity). cbn [i_obsc i].
  destruct ob as [ob|]; cbn [apply_obsc]; [|exists o, o'; auto].
  exists (ray_obscure ob o), (ray_obscure ob o'). split; [reflexivity|]. split; [reflexivity|].
  destruct Ha as (H1&H2&H3&H4&H5&H6&H7). unfold agree, ray_obscure; cbn.
  repeat split; auto.
  - destruct (failed o) eqn:Eo; [rewrite H2, H7 by reflexivity; reflexivity|rewrite H6 by reflexivity; reflexivity].
  - intros E. rewrite H6 by exact E. reflexivity.
  - intros E. rewrite H7 by exact E. reflexivity.
Qed.

Lemma local_moved m B g : rigid m -> local_point (move_frame m B) (move_point m g) = local_point B g.
Proof.
  destruct m as [d|r p k]; cbn [rigid move_frame move_point]; intros Hr; unfold local_point.
  - unfold shiftG; cbn [origin rot]. f_equal. unfold minusR, plusR; cbn. f_equal; ring.
  - set (c := global_point k p). unfold rotG; cbn [origin rot]. rewrite transR_mul, applyR_mul. f_equal.
    replace (minusR (plusR c (applyR r (minusR g c))) (plusR (applyR r (minusR (origin B) c)) c))
      with (applyR r (minusR g (origin B))).
    + apply orth_apply_lr, Hr.
    + unfold applyR, plusR, minusR, timesR; cbn. apply vec3_eq; cbn; ring.
Qed.
Lemma local_dir_moved m B v : rigid m -> local_dir (move_frame m B) (move_dir m v) = local_dir B v.
Proof.
  destruct m as [d|r p k]; cbn [rigid move_frame move_dir]; intros Hr; unfold local_dir; [reflexivity|].
  unfold rotG; cbn [rot]. rewrite transR_mul, applyR_mul, orth_apply_lr by exact Hr. reflexivity.
Qed.
Definition move_frames ms c := fold_left (fun c m => move_frame m c) ms c.
Lemma local_moves ms B g : Forall rigid ms -> local_point (move_frames ms B) (move_points ms g) = local_point B g.
Proof.
  intros H. revert B g. induction H as [|m ms Hm Hms IH]; intros B g; [reflexivity|].
  unfold move_frames, move_points in *; cbn [fold_left]. rewrite IH. apply local_moved, Hm.
Qed.
Lemma local_dir_moves ms B g : Forall rigid ms -> local_dir (move_frames ms B) (move_dirs ms g) = local_dir B g.
Proof.
  intros H. revert B g. induction H as [|m ms Hm Hms IH]; intros B g; [reflexivity|].
  unfold move_frames, move_dirs in *; cbn [fold_left]. rewrite IH. apply local_dir_moved, Hm.
Qed.
Lemma global_local A g : good_frame A -> global_point A (local_point A g) = g.
Proof.
  intros H. unfold global_point, local_point. rewrite orth_apply_rl by exact H.
  unfold plusR, minusR; cbn. destruct g; cbn. f_equal; ring.
Qed.
Lemma global_local_dir A g : good_frame A -> global_dir A (local_dir A g) = g.
Proof. intros H. unfold global_dir, local_dir. apply orth_apply_rl, H. Qed.
Lemma fwd_point_good A B p : good_frame A ->
  fwd_point (F3 (drR A B)) (FM (drotR A B)) (F3 p) = F3 (local_point B (global_point A p)).
Proof.
  intros H. rewrite fwd_point_F. f_equal. unfold drR, drotR, local_point, global_point.
  rewrite transR_mul, transR_trans, applyR_mul. f_equal.
  rewrite applyR_minus, orth_apply_rl by exact H. unfold plusR, minusR; cbn. f_equal; ring.
Qed.
Lemma fwd_vel_any A B v : fwd_vel (FM (drotR A B)) (F3 v) = F3 (local_dir B (global_dir A v)).
Proof.
  rewrite fwd_vel_F. f_equal. unfold drotR, local_dir, global_dir.
  rewrite transR_mul, transR_trans, applyR_mul. reflexivity.
Qed.

(** The moves of an optic, as one change of frames. *)
Definition moves_cs ms (c : coordsys XR) := fold_left (fun c m => move_cs m c) ms c.
Lemma move_optic_reset ms o : ms <> [] -> move_optic ms o = reset (reframe (moves_cs ms) o).
Proof.
  intros H. destruct ms as [|m ms]; [congruence|]. clear H.
  unfold move_optic; cbn [fold_left]. rewrite move_one.
  assert (G : forall ms f, fold_left (fun (o : optic XR) (m : motion) => match m with MShift d => withGlobalShift (F3 d) o
     | MTurn r c k => withGlobalRotation (FM r) (F3 c) (Fcs k) o end) ms (reset (reframe f o))
     = reset (reframe (fun c => moves_cs ms (f c)) o)).
  { clear. induction ms as [|m ms IH]; intros f; [reflexivity|]. cbn [fold_left].
    rewrite move_one, <- reset_reframe, reset_reset, reframe_reframe. apply IH. }
  apply (G ms (move_cs m)).
Qed.
Lemma moves_cs_F ms c : moves_cs ms (Fcs c) = Fcs (move_frames ms c).
Proof. apply fold_move_cs. Qed.
Lemma moves_ct ms A B : Forall rigid ms -> real_frame A -> real_frame B ->
  ct_dr (mkCT (moves_cs ms A) (moves_cs ms B)) = ct_dr (mkCT A B) /\
  ct_drot (mkCT (moves_cs ms A) (moves_cs ms B)) = ct_drot (mkCT A B).
Proof.
  intros H. revert A B. induction H as [|m ms Hm Hms IH]; intros A B HA HB; [split; reflexivity|].
  unfold moves_cs in *; cbn [fold_left]. destruct (IH _ _ (real_move m A HA) (real_move m B HB)) as [-> ->].
  apply move_ct; assumption.
Qed.

Lemma agree_step niter i b f (P : coordsys XR -> Prop) r r' A : 
  (forall A B, P A -> P B -> ct_dr (mkCT (f A) (f B)) = ct_dr (mkCT A B) /\ ct_drot (mkCT (f A) (f B)) = ct_drot (mkCT A B)) ->
  P (i_cs i) -> P A -> agree r r' ->
  exists o o', iface_trace niter i b (RV [r] A) = RV [o] (i_cs i) /\
    iface_trace niter (i_move f i) b (RV [r'] (f A)) = RV [o'] (f (i_cs i)) /\ agree o o'.
Proof.
  intros Hf Hi HA (H1&H2&H3&H4&H5&H6&H7). destruct (failed r) eqn:E.
  - destruct i as [k s n cs ob mi mo fw rw sk]. set (i := IF k s n cs ob mi mo fw rw sk).
    assert (I : interact niter i b (RV [r] A) = RV [r] cs /\
                interact niter (i_move f i) b (RV [r'] (f A)) = RV [r'] (f cs)).
    { unfold i, i_move, i_reset, i_reframe, i_rebuild, interact.
      destruct r as [p v t w fl vg fa], r' as [p' v' t' w' fl' vg' fa'].
      cbn [pos vel time flux wavelength vignetted failed] in *. subst fa fa'.
      destruct k; cbn [i_kind mkIface]; try destruct b; split; reflexivity. }
    destruct I as [I1 I2]. unfold iface_trace. rewrite I1, I2.
    replace (i_obsc (i_move f i)) with ob by (destruct k; reflexivity). cbn [i_obsc i i_cs].
    destruct ob as [ob|]; cbn [apply_obsc].
    + exists (ray_obscure ob r), (ray_obscure ob r'). split; [reflexivity|]. split; [reflexivity|].
      unfold agree, ray_obscure; cbn. rewrite H2, H7 by reflexivity. cbn.
      repeat split; auto; try congruence.
    + exists r, r'. split; [reflexivity|]. split; [reflexivity|]. unfold agree. rewrite E. tauto.
  - rewrite H6 by reflexivity. clear H1 H2 H3 H4 H5 H6 H7.
    assert (C := iface_carry niter f P Hf i b (RV [r] A) Hi HA). unfold carry in C; cbn [rays rvcs] in C.
    rewrite C, iface_frame.
    assert (F : rvcs (iface_trace niter i b (RV [r] A)) = i_cs i) by apply iface_frame.
    assert (FV : Forall (fun r => failed r = true -> vignetted r = true) (rays (run_ops niter [OTrace (Iface i) b] (RV [r] A)))).
    { apply fv_ops. constructor; [intros; congruence|constructor]. }
    cbn in FV.
    assert (LN := length_ops niter [OTrace (Iface i) b] [r] A). cbn in LN.
    destruct (iface_trace niter i b (RV [r] A)) as [l c]. cbn [rays rvcs] in *. subst c.
    destruct l as [|o [|]]; try discriminate. exists o, o. split; [reflexivity|]. split; [reflexivity|].
    inversion FV; subst. repeat split; auto.
Qed.
Lemma agree_turn niter is b f (P : coordsys XR -> Prop) r r' A :
  (forall A B, P A -> P B -> ct_dr (mkCT (f A) (f B)) = ct_dr (mkCT A B) /\ ct_drot (mkCT (f A) (f B)) = ct_drot (mkCT A B)) ->
  Forall (fun i => P (i_cs i)) is -> P A -> agree r r' ->
  exists o o' c, in_turn niter b is (RV [r] A) = RV [o] c /\
    in_turn niter b (map (i_move f) is) (RV [r'] (f A)) = RV [o'] (f c) /\ agree o o'.
Proof.
  intros Hf H. revert r r' A. induction H as [|i is Hi His IH]; intros r r' A HA Ha.
  - exists r, r', A. repeat split; try reflexivity; apply Ha.
  - destruct (agree_step niter i b f P r r' A Hf Hi HA Ha) as (o & o' & E1 & E2 & Ho).
    unfold in_turn in *. cbn [map fold_left]. rewrite E1, E2. apply IH; assumption.
Qed.

Lemma single_nth niter o b l (A : coordsys XR) k r : nth_error l k = Some r ->
  nth_error (rays (trace niter o b (RV l A))) k = nth_error (rays (trace niter o b (RV [r] A))) 0.
Proof.
  intros H. destruct (maplike_trace niter o b A) as (f & c & E). rewrite !E. cbn [rays map nth_error].
  rewrite nth_error_map, H. reflexivity.
Qed.
(** The rays are moved in space and described in the unmoved frame A. *)
Lemma covariance_rays niter ms o b l A k r : unskipped o -> Forall real_frame (frames o) ->
  leaves o <> [] -> good_frame A -> Forall rigid ms -> ms <> [] ->
  nth_error l k = Some r -> (failed r = true -> vignetted r = true) ->
  exists q q',
    nth_error (rays (trace niter o b (Frv (RV l A)))) k = Some q /\
    nth_error (rays (trace niter (move_optic ms o) b (Frv (RV (map (moved_ray ms A) l) A)))) k = Some q' /\
    agree q q'.
Proof.
  intros Ho HF HL HA HM Hne Hk HV. unfold Frv; cbn [rays rvcs].
  rewrite (single_nth _ _ _ _ _ k (Fray r)) by (rewrite nth_error_map, Hk; reflexivity).
  rewrite (single_nth _ _ _ _ _ k (Fray (moved_ray ms A r))) by (rewrite !nth_error_map, Hk; reflexivity).
  rewrite move_optic_reset by exact Hne. rewrite !trace_in_turn.
  set (f := moves_cs ms).
  assert (Hf : forall X Y : coordsys XR, real_frame X -> real_frame Y -> ct_dr (mkCT (f X) (f Y)) = ct_dr (mkCT X Y)
     /\ ct_drot (mkCT (f X) (f Y)) = ct_drot (mkCT X Y)).
  { intros X Y HX HY. apply moves_ct; assumption. }
  assert (E : visit b (reset (reframe f o)) = map (i_move f) (visit b o)).
  { unfold visit. rewrite leaves_move by exact Ho. destruct b; [now rewrite map_rev|reflexivity]. }
  rewrite E.
  assert (HP : Forall (fun i => real_frame (i_cs i)) (visit b o)).
  { apply Forall_forall. intros i Hi. rewrite Forall_forall in HF. apply HF, leaves_frames.
    unfold visit in Hi. destruct b; [apply in_rev in Hi|]; exact Hi. }
  assert (NE : visit b o <> []).
  { unfold visit. destruct b; [|exact HL]. intros E0. apply HL. rewrite <- (rev_involutive (leaves o)), E0. reflexivity. }
  destruct (visit b o) as [|i is]; [congruence|]. inversion HP as [|? ? Hi His]; subst. destruct Hi as [B EB].
  unfold in_turn; cbn [map fold_left].
  assert (Ec : f (i_cs i) = Fcs (move_frames ms B)) by (rewrite EB; apply moves_cs_F).
  assert (K := agree_kernel niter i b (Fcs A) (i_cs i) (Fcs A) (Fcs (move_frames ms B)) (Fray r) (Fray (moved_ray ms A r))
    (F3 (drR A B)) (FM (drotR A B)) (F3 (drR A (move_frames ms B))) (FM (drotR A (move_frames ms B)))).
  edestruct K as (o1 & o1' & E1 & E2 & Ha); try reflexivity; try eassumption; try (rewrite ?EB, mkCT_F; reflexivity).
  - unfold Fray. cbn [pos moved_ray]. rewrite !fwd_point_good by exact HA. f_equal.
    rewrite global_local by exact HA. apply local_moves, HM.
  - unfold Fray. cbn [vel moved_ray]. rewrite !fwd_vel_any. f_equal.
    rewrite global_local_dir by exact HA. apply local_dir_moves, HM.
  - rewrite E1, E2. rewrite <- Ec.
    destruct (agree_turn niter is b f real_frame o1 o1' (i_cs i) Hf His) as (q & q' & c & F1 & F2 & Hq).
    + exists B; exact EB.
    + exact Ha.
    + unfold in_turn in *. rewrite F1, F2. exists q, q'. auto.
Qed.
