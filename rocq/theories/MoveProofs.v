(** Proofs about moving whole optics (C31, C32, C33). *)
From Coq Require Import Reals List Bool String ZArith Lia Lra.
From Verif Require Import Num NumR Vec CoordSys Surface Medium Obscuration Ray Bundle Optic Ops StructProofs
  TreeSpec TreeProofs Spec XRFacts CoordFacts FrameProofs MoveSpec SlopeProofs.
Import ListNotations.
Open Scope R_scope.

Section Rebuild.
  Context {T : Type} {NT : Num T}.
  Definition i_reset (i : iface T) : iface T := i_rebuild i (i_cs i) (i_surf i).
  Fixpoint reset (o : optic T) : optic T :=
    match o with
    | Iface i => Iface (i_reset i)
    | Compound a items =>
        Compound (CA (c_lens a) (c_name a) (c_cs a) (c_in a) (c_out a) false
                     (option_map i_reset (c_stop a))) (map reset items)
    end.
  Lemma i_reset_reset i : i_reset (i_reset i) = i_reset i.
  Proof. destruct i as [k s n cs ob mi mo f r sk]. destruct k; reflexivity. Qed.
  Lemma i_reset_reframe f i : i_reset (i_reframe f i) = i_reframe f (i_reset i).
  Proof. destruct i as [k s n cs ob mi mo fw r sk]. destruct k; reflexivity. Qed.
  Lemma i_bare_reset i : i_bare (i_reset i) = i_bare i.
  Proof. destruct i as [k s n cs ob mi mo f r sk]. destruct k; reflexivity. Qed.
  Lemma i_reset_cs i : i_cs (i_reset i) = i_cs i.
  Proof. destruct i as [k s n cs ob mi mo f r sk]. destruct k; reflexivity. Qed.
  Lemma i_built_reset i : i_built i -> i_reset i = i.
  Proof. intros (k&s&n&cs&ob&mi&mo&f&r&sk&->). destruct k; reflexivity. Qed.
  Lemma map_Forall_eq {A B} (f g : A -> B) l : Forall (fun x => f x = g x) l -> map f l = map g l.
  Proof. induction 1; cbn; congruence. Qed.

  Lemma shift_reset d o : withGlobalShift d o = reset (reframe (fun c => shiftGlobal c d) o).
  Proof.
    induction o as [i|a items IH] using optic_ind2; [reflexivity|].
    cbn [withGlobalShift reframe reset c_lens c_name c_cs c_in c_out c_stop]. f_equal.
    - f_equal. destruct (c_stop a); reflexivity.
    - rewrite map_map. apply map_Forall_eq, IH.
  Qed.
  Lemma rotation_reset r p k o :
    withGlobalRotation r p k o = reset (reframe (fun c => rotateGlobal c r p (Some k)) o).
  Proof.
    induction o as [i|a items IH] using optic_ind2; [reflexivity|].
    cbn [withGlobalRotation reframe reset c_lens c_name c_cs c_in c_out c_stop]. f_equal.
    - f_equal. destruct (c_stop a); reflexivity.
    - rewrite map_map. apply map_Forall_eq, IH.
  Qed.
  Lemma reset_reset o : reset (reset o) = reset o.
  Proof.
    induction o as [i|a items IH] using optic_ind2; cbn [reset]; [now rewrite i_reset_reset|].
    cbn [c_lens c_name c_cs c_in c_out c_stop]. f_equal.
    - f_equal. destruct (c_stop a); cbn; [now rewrite i_reset_reset|reflexivity].
    - rewrite map_map. apply map_Forall_eq, IH.
  Qed.
  Lemma reset_reframe f o : reset (reframe f o) = reframe f (reset o).
  Proof.
    induction o as [i|a items IH] using optic_ind2; cbn [reset reframe]; [now rewrite i_reset_reframe|].
    cbn [c_lens c_name c_cs c_in c_out c_stop c_skip]. f_equal.
    - f_equal. destruct (c_stop a); cbn; [now rewrite i_reset_reframe|reflexivity].
    - rewrite !map_map. apply map_Forall_eq, IH.
  Qed.
  Lemma bare_reset o : bare (reset o) = bare o.
  Proof.
    induction o as [i|a items IH] using optic_ind2; cbn [reset bare]; [now rewrite i_bare_reset|].
    cbn [c_lens c_name c_cs c_in c_out c_stop]. f_equal.
    - f_equal. destruct (c_stop a); cbn; [now rewrite i_bare_reset|reflexivity].
    - rewrite map_map. apply map_Forall_eq, IH.
  Qed.
  Lemma frames_reset o : frames (reset o) = frames o.
  Proof.
    induction o as [i|a items IH] using optic_ind2; cbn [reset frames]; [now rewrite i_reset_cs|].
    cbn [c_cs c_stop stop_list]. f_equal. unfold stop_list; cbn [c_stop]. f_equal.
    - destruct (c_stop a); cbn; [now rewrite i_reset_cs|reflexivity].
    - induction IH as [|x l Hx Hl IHl]; cbn [map flat_map]; [reflexivity|]. rewrite Hx, IHl. reflexivity.
  Qed.
  Lemma built_reset o : built o -> reset o = o.
  Proof.
    induction 1 as [i H|a items o Hs Hi IH Hm]; cbn [reset]; [now rewrite i_built_reset|].
    unfold mkCompound in Hm. destruct (c_lens a && _); [discriminate|]. injection Hm as <-.
    cbn [reset c_lens c_name c_cs c_in c_out c_stop]. f_equal.
    - f_equal. destruct (c_stop a) as [i|]; cbn; [|reflexivity]. rewrite (i_built_reset _ (Hs _ eq_refl)). reflexivity.
    - rewrite <- (map_id items) at 2. apply map_ext_in. exact IH.
  Qed.
  Lemma frames_reframe f o : frames (reframe (T:=T) f o) = map f (frames o).
  Proof.
    induction o as [i|a items IH] using optic_ind2; cbn [reframe frames]; [reflexivity|].
    cbn [c_cs map]. f_equal. rewrite map_app. unfold stop_list; cbn [c_stop]. f_equal.
    - destruct (c_stop a); reflexivity.
    - induction IH as [|x l Hx Hl IHl]; cbn [map flat_map]; [reflexivity|]. rewrite map_app, Hx, IHl. reflexivity.
  Qed.
  Lemma reframe_reframe f g o : reframe f (reframe g o) = reframe (T:=T) (fun c => f (g c)) o.
  Proof.
    induction o as [i|a items IH] using optic_ind2; cbn [reframe]; [reflexivity|].
    cbn [c_lens c_name c_cs c_in c_out c_stop c_skip]. f_equal.
    - f_equal. destruct (c_stop a); reflexivity.
    - rewrite map_map. apply map_Forall_eq, IH.
  Qed.
  Lemma reframe_ext f g o : (forall c, In c (frames o) -> f c = g c) -> reframe f o = reframe (T:=T) g o.
  Proof.
    induction o as [i|a items IH] using optic_ind2; cbn [reframe frames]; intros H.
    - unfold i_reframe. rewrite H by (left; reflexivity). reflexivity.
    - f_equal.
      + rewrite H by (left; reflexivity). f_equal. unfold stop_list in H.
        destruct (c_stop a) as [i|]; cbn in *; [|reflexivity]. unfold i_reframe. rewrite H by auto. reflexivity.
      + assert (H' : forall c, In c (flat_map frames items) -> f c = g c).
        { intros c Hc. apply H. right. apply in_or_app. right. exact Hc. }
        clear H. induction IH as [|x l Hx Hl IHl]; cbn [map flat_map] in *; [reflexivity|]. f_equal.
        * apply Hx. intros c Hc. apply H', in_or_app. left; exact Hc.
        * apply IHl. intros c Hc. apply H', in_or_app. right; exact Hc.
  Qed.
  Lemma reframe_id f o : (forall c, In c (frames o) -> f c = c) -> reframe (T:=T) f o = o.
  Proof.
    intros H. transitivity (reframe (fun c => c) o); [apply reframe_ext, H|].
    clear H. induction o as [i|a items IH] using optic_ind2; cbn [reframe].
    - destruct i; reflexivity.
    - destruct a as [l n c mi mo sk st]; cbn [c_lens c_name c_cs c_in c_out c_stop c_skip]. f_equal.
      + f_equal. destruct st as [[]|]; reflexivity.
      + rewrite <- (map_id items) at 2. apply map_Forall_eq, IH.
  Qed.
  Lemma bare_reframe f o : bare (reframe (T:=T) f o) = reframe f (bare o).
  Proof.
    induction o as [i|a items IH] using optic_ind2; cbn [reframe bare]; [reflexivity|].
    cbn [c_lens c_name c_cs c_in c_out c_stop c_skip]. f_equal.
    - f_equal. destruct (c_stop a); reflexivity.
    - rewrite !map_map. apply map_Forall_eq, IH.
  Qed.
  Lemma o_cs_reset o : o_cs (reset o) = o_cs o.
  Proof. destruct o; cbn; [apply i_reset_cs|reflexivity]. Qed.
  Lemma o_cs_reframe f o : o_cs (reframe (T:=T) f o) = f (o_cs o).
  Proof. destruct o; reflexivity. Qed.
  Lemma o_cs_frames (o : optic T) : In (o_cs o) (frames o).
  Proof. destruct o; left; reflexivity. Qed.

  (** withLocalRotation as a change of frames. *)
  Definition local_turn (r : mat3 T) (p : vec3 T) (cs : option (coordsys T)) (o : optic T)
      (c : coordsys T) : coordsys T :=
    let k := match cs with None => o_cs o | Some k => k end in
    match o with
    | Iface _ => rotateLocal c r p (Some k)
    | Compound a _ => rotateGlobal c (mm (mm (rot (c_cs a)) r) (mtr (rot (c_cs a)))) p (Some k)
    end.
  Lemma local_rotation_reset r p cs o :
    withLocalRotation r p cs o = reset (reframe (local_turn r p cs o) o).
  Proof.
    destruct o as [i|a items].
    - cbn [withLocalRotation reframe reset]. unfold i_withLocalRotation. f_equal.
    - unfold withLocalRotation. rewrite rotation_reset. reflexivity.
  Qed.
  Lemma local_shift_reset d o :
    withLocalShift d o = reset (reframe (fun c => shiftGlobal c (mv (rot (o_cs o)) d)) o).
  Proof. apply shift_reset. Qed.

  (** C33 *)
  Lemma keeps_shift d o :
    bare (withGlobalShift d o) = reframe (fun c => shiftGlobal c d) (bare o) /\
    (built o -> withGlobalShift d o = reframe (fun c => shiftGlobal c d) o).
  Proof.
    rewrite shift_reset. split; [now rewrite bare_reset, bare_reframe|].
    intros H. rewrite reset_reframe, built_reset by assumption. reflexivity.
  Qed.
  Lemma keeps_local_shift d o :
    let f c := shiftGlobal c (mv (rot (o_cs o)) d) in
    bare (withLocalShift d o) = reframe f (bare o) /\
    (built o -> withLocalShift d o = reframe f o).
  Proof. cbv zeta. apply keeps_shift. Qed.
  Lemma keeps_rotation r p k o :
    bare (withGlobalRotation r p k o) = reframe (fun c => rotateGlobal c r p (Some k)) (bare o) /\
    (built o -> withGlobalRotation r p k o = reframe (fun c => rotateGlobal c r p (Some k)) o).
  Proof.
    rewrite rotation_reset. split; [now rewrite bare_reset, bare_reframe|].
    intros H. rewrite reset_reframe, built_reset by assumption. reflexivity.
  Qed.
  Lemma keeps_local_rotation r p cs o :
    exists f, bare (withLocalRotation r p cs o) = reframe f (bare o) /\
      (built o -> withLocalRotation r p cs o = reframe f o).
  Proof.
    exists (local_turn r p cs o). rewrite local_rotation_reset. split; [now rewrite bare_reset, bare_reframe|].
    intros H. rewrite reset_reframe, built_reset by assumption. reflexivity.
  Qed.
  Lemma keeps_surface s (i : iface T) :
    i_bare (i_withSurface s i)
      = i_bare (IF (i_kind i) s (i_name i) (i_cs i) (i_obsc i) (i_in i) (i_out i) (i_fwd i) (i_rev i) (i_skip i)) /\
    (i_built i -> i_withSurface s i
      = IF (i_kind i) s (i_name i) (i_cs i) (i_obsc i) (i_in i) (i_out i) (i_fwd i) (i_rev i) (i_skip i)).
  Proof.
    split.
    - destruct i as [k s0 n cs ob mi mo f r sk]. destruct k; reflexivity.
    - intros (k&s0&n&cs&ob&mi&mo&f&r&sk&->). destruct k; reflexivity.
  Qed.
  Lemma reset_built_i i : i_built (i_reset i).
  Proof. unfold i_reset, i_rebuild, i_built. do 10 eexists. reflexivity. Qed.
End Rebuild.

(** ** C31 *)
Lemma Fcs_inj f g : Fcs f = Fcs g -> f = g.
Proof.
  intros E. destruct f as [o1 r1], g as [o2 r2]. f_equal.
  - apply (f_equal origin) in E. cbn [origin Fcs] in E. apply F3_inj, E.
  - apply (f_equal rot) in E. cbn [rot Fcs] in E. apply FM_inj, E.
Qed.
Lemma after_mul a b : afterR a b = mulR a b.
Proof. unfold afterR, mulR, applyR; cbn. apply mat3_eq; cbn; ring. Qed.
Lemma xvadd_assoc (a b c : vec3 XR) : vadd (vadd a b) c = vadd a (vadd b c).
Proof. destruct a, b, c; unfold vadd; cbn. f_equal; apply xadd_assoc. Qed.
Lemma shift_shift d1 d2 (o : optic XR) :
  withGlobalShift d2 (withGlobalShift d1 o) = withGlobalShift (vadd d1 d2) o.
Proof.
  rewrite !shift_reset, <- reset_reframe, reset_reset, reframe_reframe. f_equal.
  apply reframe_ext. intros c _. unfold shiftGlobal; cbn. rewrite xvadd_assoc. reflexivity.
Qed.
Lemma frames_shift d (o : optic XR) : frames (withGlobalShift d o) = map (fun c => shiftGlobal c d) (frames o).
Proof. rewrite shift_reset, frames_reset, frames_reframe. reflexivity. Qed.

(** Two changes of frames that cancel. *)
Lemma cancel {T} {NT : Num T} (f g : coordsys T -> coordsys T) (o : optic T) :
  (forall c, In c (frames o) -> g (f c) = c) ->
  frames (reset (reframe g (reset (reframe f o)))) = frames o /\
  (built o -> reset (reframe g (reset (reframe f o))) = o).
Proof.
  intros H. rewrite <- reset_reframe, reset_reset, reframe_reframe, reset_reframe, reframe_id.
  - split; [apply frames_reset|apply built_reset].
  - rewrite frames_reset. exact H.
Qed.
Lemma real_in (o : optic XR) c : Forall real_frame (frames o) -> In c (frames o) -> exists f, c = Fcs f.
Proof. intros H Hc. rewrite Forall_forall in H. apply H, Hc. Qed.
Lemma shift_undo d (o : optic XR) : Forall real_frame (frames o) ->
  frames (withGlobalShift (F3 (negR d)) (withGlobalShift (F3 d) o)) = frames o /\
  (built o -> withGlobalShift (F3 (negR d)) (withGlobalShift (F3 d) o) = o).
Proof.
  intros H. rewrite !shift_reset. apply cancel. intros c Hc. destruct (real_in _ _ H Hc) as [f ->].
  rewrite !shiftGlobal_F. f_equal. destruct f as [[] m]. unfold shiftG, plusR, negR; cbn.
  f_equal. f_equal; ring.
Qed.
Lemma local_shift_shift d1 d2 (o : optic XR) : real_frame (o_cs o) ->
  withLocalShift (F3 d2) (withLocalShift (F3 d1) o) = withLocalShift (F3 (plusR d1 d2)) o.
Proof.
  intros [f E]. unfold withLocalShift at 1. 
  assert (R0 : rot (o_cs (withLocalShift (F3 d1) o)) = rot (o_cs o)).
  { rewrite local_shift_reset, o_cs_reset, o_cs_reframe. reflexivity. }
  rewrite R0. unfold withLocalShift. rewrite shift_shift. f_equal. rewrite E. cbn [rot Fcs].
  rewrite !mv_F, vadd_F, applyR_plus. reflexivity.
Qed.
Lemma local_shift_undo d (o : optic XR) : Forall real_frame (frames o) ->
  frames (withLocalShift (F3 (negR d)) (withLocalShift (F3 d) o)) = frames o /\
  (built o -> withLocalShift (F3 (negR d)) (withLocalShift (F3 d) o) = o).
Proof.
  intros H. destruct (real_in _ _ H (o_cs_frames o)) as [f E].
  unfold withLocalShift at 1 3.
  assert (R0 : rot (o_cs (withLocalShift (F3 d) o)) = rot (o_cs o)).
  { rewrite local_shift_reset, o_cs_reset, o_cs_reframe. reflexivity. }
  rewrite R0. unfold withLocalShift. rewrite E. cbn [rot Fcs]. rewrite !mv_F.
  replace (applyR (rot f) (negR d)) with (negR (applyR (rot f) d)).
  - apply shift_undo, H.
  - unfold negR, applyR, plusR, timesR; cbn. apply vec3_eq; cbn; ring.
Qed.
Lemma rotG_rotG c r1 r2 g : rotG (rotG c r1 g) r2 g = rotG c (mulR r2 r1) g.
Proof.
  unfold rotG; cbn [origin rot]. f_equal; [|apply mulR_assoc].
  rewrite plusR_minus, applyR_mul. reflexivity.
Qed.
Lemma rotG_eye c g : rotG c eyeR g = c.
Proof. unfold rotG. rewrite applyR_eye, mulR_eye_l, minusR_plus. destruct c; reflexivity. Qed.
Lemma rotateGlobal_Some c r p k : rotateGlobal (Fcs c) (FM r) (F3 p) (Some (Fcs k)) = Fcs (rotG c r (global_point k p)).
Proof. apply (rotateGlobal_F c r p (Some k)). Qed.
Lemma rotateLocal_Some c r p k : rotateLocal (Fcs c) (FM r) (F3 p) (Some (Fcs k)) = Fcs (rotL c r (global_point k p)).
Proof. apply (rotateLocal_F c r p (Some k)). Qed.
Lemma rotation_rotation r1 r2 p k (o : optic XR) : Forall real_frame (frames o) ->
  withGlobalRotation (FM r2) (F3 p) (Fcs k) (withGlobalRotation (FM r1) (F3 p) (Fcs k) o)
  = withGlobalRotation (FM (afterR r2 r1)) (F3 p) (Fcs k) o.
Proof.
  intros H. rewrite !rotation_reset, <- reset_reframe, reset_reset, reframe_reframe. f_equal.
  apply reframe_ext. intros c Hc. destruct (real_in _ _ H Hc) as [f ->].
  rewrite !rotateGlobal_Some, rotG_rotG, after_mul. reflexivity.
Qed.
Lemma rotation_undo r p k (o : optic XR) : orthonormal r -> Forall real_frame (frames o) ->
  frames (withGlobalRotation (FM (transR r)) (F3 p) (Fcs k) (withGlobalRotation (FM r) (F3 p) (Fcs k) o)) = frames o /\
  (built o -> withGlobalRotation (FM (transR r)) (F3 p) (Fcs k) (withGlobalRotation (FM r) (F3 p) (Fcs k) o) = o).
Proof.
  intros Hr H. rewrite !rotation_reset. apply cancel. intros c Hc. destruct (real_in _ _ H Hc) as [f ->].
  rewrite !rotateGlobal_Some, rotG_rotG, orth_l, rotG_eye by assumption. reflexivity.
Qed.

(** Local rotation: the frame of [o] turns by [r] about its own axes; every other
    frame of a compound goes along. *)
Lemma local_rotation_undo r p k (o : optic XR) : orthonormal r -> Forall real_frame (frames o) ->
  good_real_frame (o_cs o) ->
  let k := option_map Fcs k in
  frames (withLocalRotation (FM (transR r)) (F3 p) k (withLocalRotation (FM r) (F3 p) k o)) = frames o /\
  (built o -> withLocalRotation (FM (transR r)) (F3 p) k (withLocalRotation (FM r) (F3 p) k o) = o).
Proof.
  intros Hr H (A & EA & HA). cbv zeta.
  rewrite (local_rotation_reset (FM r)). rewrite local_rotation_reset.
  apply cancel. intros c Hc. destruct (real_in _ _ H Hc) as [f ->].
  set (K := match k with None => A | Some k => k end).
  set (g := global_point K p).
  assert (EK : match option_map Fcs k with None => o_cs o | Some k => k end = Fcs K).
  { unfold K. destruct k; [reflexivity|exact EA]. }
  destruct o as [i|a items].
  - (* Interface *)
    cbn [o_cs] in EA. 
    assert (Ef : Fcs f = i_cs i) by (cbn in Hc; destruct Hc as [<-|[]]; reflexivity).
    cbn [o_cs] in *.
    assert (L : forall c, local_turn (FM r) (F3 p) (option_map Fcs k) (Iface i) (Fcs c) = Fcs (rotL c r g)).
    { intros c. unfold local_turn. cbn [o_cs]. rewrite EK. apply rotateLocal_Some. }
    rewrite L. cbn [reset reframe].
    assert (EA' : i_cs (i_reset (i_reframe (local_turn (FM r) (F3 p) (option_map Fcs k) (Iface i)) i)) = Fcs (rotL A r g)).
    { rewrite i_reset_cs. cbn [i_cs i_reframe]. rewrite EA. apply L. }
    unfold local_turn at 1. cbn [o_cs]. rewrite EA'.
    set (K' := match k with None => rotL A r g | Some k => k end).
    assert (EK' : match option_map Fcs k with None => Fcs (rotL A r g) | Some k => k end = Fcs K').
    { unfold K'. destruct k; reflexivity. }
    rewrite EK', rotateLocal_Some.
    assert (Ff : f = A) by (apply Fcs_inj; congruence).
    subst f.
    assert (G : global_point K' p = g).
    { unfold K', g, K. destruct k as [k|]; [reflexivity|].
      unfold rotL, global_point; cbn [origin rot].
      set (o0 := origin A). set (q := applyR (rot A) p).
      replace (minusR o0 (plusR o0 q)) with (negR q) by (unfold minusR, plusR, negR; apply vec3_eq; cbn; ring).
      rewrite (applyR_mul (mulR (rot A) r)). unfold q.
      replace (applyR (transR (rot A)) (negR (applyR (rot A) p))) with (negR p).
      - rewrite (applyR_mul (rot A) r (negR p)), (applyR_mul (rot A) r p).
        unfold negR, applyR, plusR, timesR; cbn. apply vec3_eq; cbn; ring.
      - transitivity (negR (applyR (transR (rot A)) (applyR (rot A) p))).
        + rewrite orth_apply_lr by exact HA. reflexivity.
        + unfold negR, applyR, plusR, timesR; cbn. apply vec3_eq; cbn; ring. }
    rewrite G. f_equal. unfold rotL; cbn [origin rot]. rewrite plusR_minus.
    assert (M1 : mulR (mulR (rot A) r) (transR r) = rot A).
    { rewrite <- mulR_assoc, orth_r, mulR_eye_r by assumption. reflexivity. }
    rewrite M1. rewrite transR_mul.
    rewrite !applyR_mul. rewrite (orth_apply_lr (rot A)) by exact HA. rewrite orth_apply_lr by exact Hr.
    rewrite orth_apply_rl by exact HA. rewrite minusR_plus. destruct A; reflexivity.
  - (* CompoundOptic *)
    cbn [o_cs] in EA, EK.
    set (S := mulR (mulR (rot A) r) (transR (rot A))).
    assert (L : forall c, local_turn (FM r) (F3 p) (option_map Fcs k) (Compound a items) (Fcs c) = Fcs (rotG c S g)).
    { intros c. unfold local_turn. cbn [o_cs]. rewrite EK, EA. cbn [rot Fcs].
      rewrite mtr_F, !mm_F. apply rotateGlobal_Some. }
    rewrite L. cbn [reset reframe]. rewrite EA, L. unfold local_turn at 1. cbn [o_cs c_cs].
    set (A' := rotG A S g).
    set (K' := match k with None => A' | Some k => k end).
    assert (EK' : match option_map Fcs k with None => Fcs A' | Some k => k end = Fcs K').
    { unfold K'. destruct k; reflexivity. }
    rewrite EK'. cbn [rot Fcs]. rewrite mtr_F, !mm_F, rotateGlobal_Some.
    assert (HS : mulR S (rot A) = mulR (rot A) r).
    { unfold S. rewrite <- mulR_assoc, orth_l, mulR_eye_r by exact HA. reflexivity. }
    assert (G : global_point K' p = g).
    { unfold K'. destruct k as [k|]; [reflexivity|]. unfold A', g, K, rotG, global_point; cbn [origin rot].
      rewrite HS. set (o0 := origin A). set (q := applyR (rot A) p).
      replace (minusR o0 (plusR o0 q)) with (negR q) by (unfold minusR, plusR, negR; apply vec3_eq; cbn; ring).
      assert (Sq : applyR S q = applyR (mulR (rot A) r) p) by (unfold q; rewrite <- applyR_mul, HS; reflexivity).
      rewrite <- Sq. unfold negR, applyR, plusR, timesR; cbn. apply vec3_eq; cbn; ring. }
    rewrite G, rotG_rotG. f_equal.
    replace (mulR _ S) with eyeR; [apply rotG_eye|].
    unfold A', rotG; cbn [rot]. rewrite HS. rewrite transR_mul. unfold S.
    rewrite <- !mulR_assoc. rewrite (mulR_assoc (transR (rot A)) (rot A)), orth_l, mulR_eye_l by exact HA.
    rewrite (mulR_assoc (transR r) r), orth_l, mulR_eye_l by exact Hr.
    rewrite (mulR_assoc r (transR r)), orth_r, mulR_eye_l by exact Hr.
    rewrite orth_r by exact HA. reflexivity.
Qed.
