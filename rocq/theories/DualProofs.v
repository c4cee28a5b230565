(** C49: host and device copies stay coherent. *)
From Coq Require Import List Bool PeanoNat Lia.
From Verif Require Import Num Vec CoordSys Surface Medium Obscuration Ray Bundle Optic Trig Wave DualView DualSpec.
Import ListNotations.

Section P.
  Context {T : Type} {NT : Num T} {TT : Trig T}.
  Variables (gpu : bool) (niter : nat).
  Implicit Types (o : obj T) (r : ray T) (f : fld).

  Lemma fld_eqb_spec f g : reflect (f = g) (fld_eqb f g).
  Proof. destruct f, g; constructor; congruence. Qed.
  Lemma rget_blend m f (a b : ray T) : rget f (blend m a b) = if m f then rget f a else rget f b.
  Proof. destruct f; cbn; destruct (m _); reflexivity. Qed.
  Lemma ray_ext (a b : ray T) : (forall f, rget f a = rget f b) -> a = b.
  Proof.
    intros H. destruct a as [[x y z] [u v w] t l fl vg fa], b as [[x' y' z'] [u' v' w'] t' l' fl' vg' fa'].
    pose proof (H FX) as H1. pose proof (H FY) as H2. pose proof (H FZ) as H3. pose proof (H FVX) as H4. pose proof (H FVY) as H5. pose proof (H FVZ) as H6.
    pose proof (H FT) as H7. pose proof (H FW) as H8. pose proof (H FL) as H9. pose proof (H FV) as H10. pose proof (H FF) as H11. cbn in *. congruence.
  Qed.
  Lemma memf_In f l : memf f l = true <-> In f l.
  Proof.
    unfold memf. rewrite existsb_exists. split.
    - intros (g & Hg & E). destruct (fld_eqb_spec f g); [subst; exact Hg|discriminate].
    - intros H. exists f. split; [exact H|]. destruct (fld_eqb_spec f f); congruence.
  Qed.
  Lemma map_cells (g h : ray T * ray T -> ray T) (l : list (ray T * ray T)) (k : ray T * ray T -> ray T * ray T) :
    (forall c, g (k c) = h c) -> map g (map k l) = map h l.
  Proof. intros H. rewrite map_map. apply map_ext, H. Qed.

  (** Synchronising changes nothing that can be seen. *)
  Lemma view_toHost f o : view gpu (toHost gpu f o) = view gpu o.
  Proof.
    unfold toHost. destruct (on_dev o f) eqn:E; [|reflexivity]. unfold view. cbn [cells ocs]. f_equal. destruct gpu.
    - apply map_cells. intros (h, d). apply ray_ext. intros g. unfold latest, set_flag. cbn [on_dev fst snd]. rewrite !rget_blend. cbn [andb].
      destruct (fld_eqb_spec f g) as [<-|]; [rewrite E; reflexivity|]. reflexivity.
    - apply map_ext. intros (h, d). apply ray_ext. intros g. unfold latest. rewrite !rget_blend. reflexivity.
  Qed.
  Lemma view_toDevice f o : view gpu (toDevice gpu f o) = view gpu o.
  Proof.
    unfold toDevice. destruct (on_dev o f) eqn:E; [reflexivity|]. unfold view. cbn [cells ocs]. f_equal. destruct gpu.
    - apply map_cells. intros (h, d). apply ray_ext. intros g. unfold latest, set_flag. cbn [on_dev fst snd]. rewrite !rget_blend. cbn [andb].
      destruct (fld_eqb_spec f g) as [<-|]; [rewrite E; reflexivity|]. reflexivity.
    - apply map_ext. intros (h, d). apply ray_ext. intros g. unfold latest. rewrite !rget_blend. reflexivity.
  Qed.
  Lemma view_toHosts l : forall o, view gpu (toHosts gpu l o) = view gpu o.
  Proof. induction l as [|f l IH]; intros o; [reflexivity|]. cbn. unfold toHosts in IH. rewrite IH. apply view_toHost. Qed.
  Lemma view_toDevices l : forall o, view gpu (toDevices gpu l o) = view gpu o.
  Proof. induction l as [|f l IH]; intros o; [reflexivity|]. cbn. unfold toDevices in IH. rewrite IH. apply view_toDevice. Qed.
  Lemma flag_toDevice f g o : on_dev (toDevice gpu f o) g = if fld_eqb f g then true else on_dev o g.
  Proof. unfold toDevice. destruct (on_dev o f) eqn:E; [|reflexivity]. destruct (fld_eqb_spec f g); [subst; exact E|reflexivity]. Qed.
  Lemma flag_toDevices l : forall g o, on_dev (toDevices gpu l o) g = memf g l || on_dev o g.
  Proof.
    induction l as [|f l IH]; intros g o; [reflexivity|]. cbn. unfold toDevices in IH. rewrite IH, flag_toDevice.
    destruct (fld_eqb_spec f g) as [->|Hn]; [destruct (fld_eqb_spec g g); [|congruence]; rewrite orb_true_r; reflexivity|].
    destruct (fld_eqb_spec g f); [congruence|reflexivity].
  Qed.
  Lemma flag_toHost f g o : on_dev (toHost gpu f o) g = if fld_eqb f g then false else on_dev o g.
  Proof. unfold toHost. destruct (on_dev o f) eqn:E; [reflexivity|]. destruct (fld_eqb_spec f g); [subst; exact E|reflexivity]. Qed.
  Lemma flag_toHosts l : forall g o, on_dev (toHosts gpu l o) g = negb (memf g l) && on_dev o g.
  Proof.
    induction l as [|f l IH]; intros g o; [reflexivity|]. cbn. unfold toHosts in IH. rewrite IH, flag_toHost.
    destruct (fld_eqb_spec f g) as [->|Hn]; [destruct (fld_eqb_spec g g); [|congruence]; rewrite andb_false_r; reflexivity|].
    destruct (fld_eqb_spec g f); [congruence|reflexivity].
  Qed.
  Lemma ocs_toHosts l : forall o, ocs (toHosts gpu l o) = ocs o.
  Proof. induction l as [|f l IH]; intros o; [reflexivity|]. cbn. unfold toHosts in IH. rewrite IH. unfold toHost. destruct (on_dev o f); reflexivity. Qed.
  Lemma ocs_toDevices l : forall o, ocs (toDevices gpu l o) = ocs o.
  Proof. induction l as [|f l IH]; intros o; [reflexivity|]. cbn. unfold toDevices in IH. rewrite IH. unfold toDevice. destruct (on_dev o f); reflexivity. Qed.

  (** The wavelength is never written on the device, so its host copy stays right. *)
  Definition wok o : Prop := gpu = true -> on_dev o FW = true -> Forall (fun c => wavelength (fst c) = wavelength (snd c)) (cells o).
  Lemma wok_toHost f o : wok o -> wok (toHost gpu f o).
  Proof.
    intros H Hg. rewrite flag_toHost. destruct (fld_eqb_spec f FW) as [->|Hn]; [discriminate|]. intros Hw. specialize (H Hg Hw). unfold toHost.
    destruct (on_dev o f); [|exact H]. rewrite Hg. cbn [cells]. apply Forall_map. revert H. apply Forall_impl. intros (h, d) E. cbn in *. destruct f; cbn; congruence.
  Qed.
  Lemma wok_toDevice f o : wok o -> wok (toDevice gpu f o).
  Proof.
    intros H Hg. rewrite flag_toDevice. unfold toDevice. destruct (on_dev o f) eqn:E.
    - destruct (fld_eqb_spec f FW) as [->|Hn]; intros Hw; apply H; auto.
    - rewrite Hg. cbn [cells]. destruct (fld_eqb_spec f FW) as [->|Hn]; intros Hw; apply Forall_map.
      + apply Forall_forall. intros (h, d) _. reflexivity.
      + specialize (H Hg Hw). revert H. apply Forall_impl. intros (h, d) K. cbn in *. destruct f; cbn; congruence.
  Qed.
  Lemma wok_toHosts l : forall o, wok o -> wok (toHosts gpu l o).
  Proof. induction l as [|f l IH]; intros o H; [exact H|]. cbn. apply IH, wok_toHost, H. Qed.
  Lemma wok_toDevices l : forall o, wok o -> wok (toDevices gpu l o).
  Proof. induction l as [|f l IH]; intros o H; [exact H|]. cbn. apply IH, wok_toDevice, H. Qed.

  (** *** Loops *)
  Definition kernel_ok (S W : list fld) (g : ray T -> ray T) : Prop :=
    (forall f, In f W -> In f S) /\
    (forall a b : ray T, (forall f, In f S -> rget f a = rget f b) -> forall f, In f W -> rget f (g a) = rget f (g b)) /\
    (forall a f, ~ In f W -> rget f (g a) = rget f a).
  Lemma view_launch S W g o : kernel_ok S W g -> (forall f, In f S -> on_dev o f = true) ->
    view gpu (launch gpu W g o) = RV (map g (rays (view gpu o))) (ocs o).
  Proof.
    intros (HW & Hdep & Hpre) Hon. unfold view, launch. cbn [cells ocs rays]. f_equal. rewrite !map_map. apply map_ext. intros (h, d). apply ray_ext. intros f.
    unfold latest. cbn [fst snd on_dev].
    assert (PUT : forall r, rget f (blend (fun f0 => memf f0 W) (g r) r) = rget f (g r)).
    { intros r. rewrite rget_blend. destruct (memf f W) eqn:E; [reflexivity|]. symmetry. apply Hpre. intros Hi. apply memf_In in Hi. congruence. }
    destruct gpu; cbn [fst snd andb].
    - rewrite rget_blend, PUT. destruct (memf f W) eqn:E.
      + apply memf_In in E. rewrite (Hon f (HW f E)). apply Hdep; [|exact E]. intros f' Hf'. rewrite rget_blend, (Hon f' Hf'). reflexivity.
      + assert (Hn : ~ In f W) by (intros Hi; apply memf_In in Hi; congruence). rewrite !(Hpre _ f Hn), rget_blend. reflexivity.
    - rewrite rget_blend, PUT. replace (blend (fun _ : fld => false) d h) with h; [reflexivity|]. apply ray_ext. intros f'. rewrite rget_blend. reflexivity.
  Qed.
  Lemma wok_launch S W g o : kernel_ok S W g -> ~ In FW W -> wok o -> wok (launch gpu W g o).
  Proof.
    intros _ Hn H Hg Hw. specialize (H Hg Hw). unfold launch. cbn [cells]. rewrite Hg. apply Forall_map. revert H. apply Forall_impl. intros (h, d) E. cbn in *.
    destruct (memf FW W) eqn:K; [apply memf_In in K; contradiction|exact E].
  Qed.
  Lemma kern_kernel k cs : kernel_ok (syncs k) (stores k) (body niter k cs).
  Proof.
    assert (AG : forall (S : list fld) (a b : ray T), (forall f, In f S -> rget f a = rget f b) -> forall f, memf f S = true -> rget f a = rget f b).
    { intros S a b H f Hf. apply H, memf_In, Hf. }
    split; [|split].
    - intros f. destruct k; cbn; try (destruct c); cbn; intuition.
    - intros a b H f Hf. pose proof (AG _ _ _ H) as K. clear AG H. revert Hf.
      destruct a as [[x y z] [u v w] t l fl vg fa], b as [[x' y' z'] [u' v' w'] t' l' fl' vg' fa'].
      assert (KX := K FX). assert (KY := K FY). assert (KZ := K FZ). assert (KVX := K FVX). assert (KVY := K FVY). assert (KVZ := K FVZ).
      assert (KT := K FT). assert (KW := K FW). assert (KL := K FL). assert (KV := K FV). assert (KF := K FF). clear K.
      destruct k; try (destruct c as [c|]); cbn [syncs app memf existsb fld_eqb orb rget pos vel cx cy cz time wavelength flux vignetted failed] in *;
        repeat match goal with H : true = true -> _ |- _ => specialize (H eq_refl) end;
        repeat match goal with H : inl _ = inl _ |- _ => injection H as H | H : inr _ = inr _ |- _ => injection H as H end; subst;
        cbn [stores app]; unfold body, ray_forward, ray_reverse, ray_obscure, ray_intersect, ray_reflect, ray_refract, ray_screen, ray_propagate, mark_failed;
        cbn [pos vel cx cy cz time wavelength flux vignetted failed].
      all: intros Hf.
      all: try (destruct (contains _ _ _)); try match goal with |- context [if failed ?r then _ else _] => idtac | |- context [if ?q then Ray _ _ _ _ _ _ _ else _] => destruct q end.
      all: try match goal with |- context [let '(_, _) := hit ?p ?q ?e ?g in _] => destruct (hit p q e g) as [[|] dt] end.
      all: try match goal with |- context [let '(_, _) := orient ?p ?q in _] => destruct (orient p q) end.
      all: try match goal with |- context [match refract_vel ?p ?q ?e ?g ?h with _ => _ end] => destruct (refract_vel p q e g h) end.
      all: cbn [In] in Hf; repeat (destruct Hf as [<-|Hf]; [reflexivity|]); contradiction.
    - intros [[x y z] [u v w] t l fl vg fa] f Hf.
      destruct k; try (destruct c as [c|]); cbn [stores app] in Hf; unfold body, ray_forward, ray_reverse, ray_obscure, ray_intersect, ray_reflect, ray_refract, ray_screen, ray_propagate, mark_failed;
        cbn [pos vel cx cy cz time wavelength flux vignetted failed].
      all: try (destruct fa; [reflexivity|]).
      all: try match goal with |- context [let '(_, _) := hit ?p ?q ?e ?g in _] => destruct (hit p q e g) as [[|] dt] end.
      all: try match goal with |- context [let '(_, _) := orient ?p ?q in _] => destruct (orient p q) end.
      all: try match goal with |- context [match refract_vel ?p ?q ?e ?g ?h with _ => _ end] => destruct (refract_vel p q e g h) end.
      all: destruct f; try reflexivity; exfalso; apply Hf; cbn; tauto.
  Qed.
  Lemma stores_no_w (k : kern T) : ~ In FW (stores k).
  Proof. destruct k; try (destruct c); cbn; intuition discriminate. Qed.
  Lemma view_kern k o : view gpu (run_kern gpu niter k o) = ref_kern niter k (view gpu o).
  Proof.
    unfold run_kern. set (o1 := toDevices gpu (syncs k) o). cbv zeta.
    assert (L := view_launch _ _ _ o1 (kern_kernel k (ocs o1))). assert (V1 : view gpu o1 = view gpu o) by apply view_toDevices.
    assert (Hon : forall f, In f (syncs k) -> on_dev o1 f = true) by (intros f Hf; apply memf_In in Hf; unfold o1; rewrite flag_toDevices, Hf; reflexivity).
    specialize (L Hon). rewrite V1 in L.
    assert (E : forall k0, view gpu (OBJ (cells (launch gpu (stores k) (body niter k (ocs o1)) o1)) (on_dev (launch gpu (stores k) (body niter k (ocs o1)) o1)) k0) =
      RV (rays (view gpu (launch gpu (stores k) (body niter k (ocs o1)) o1))) k0) by reflexivity.
    rewrite E, L. cbn [rays]. assert (C1 : ocs o1 = rvcs (view gpu o)) by apply (ocs_toDevices (syncs k) o). change (ocs (launch gpu (stores k) (body niter k (ocs o1)) o1)) with (ocs o1). rewrite C1.
    destruct k; try destruct cs; reflexivity.
  Qed.
  Lemma wok_kern k o : wok o -> wok (run_kern gpu niter k o).
  Proof. intros H. pose proof (wok_launch _ _ _ _ (kern_kernel k (ocs (toDevices gpu (syncs k) o))) (stores_no_w k) (wok_toDevices (syncs k) o H)) as K. exact K. Qed.

  (** *** Reading *)
  Lemma seen_view S o : (forall f, In f S -> on_dev o f = true) -> forall c f, In f S -> rget f (seen gpu c) = rget f (latest gpu o c).
  Proof. intros H (h, d) f Hf. unfold latest, seen. rewrite rget_blend, (H f Hf). destruct gpu; reflexivity. Qed.
  Lemma view_probe p o : view gpu (fst (run_probe gpu p o)) = view gpu o /\ snd (run_probe gpu p o) = ref_probe p (view gpu o).
  Proof.
    unfold run_probe. cbn [fst snd]. set (o1 := toDevices gpu (probe_syncs p) o). assert (V1 : view gpu o1 = view gpu o) by apply view_toDevices.
    split; [exact V1|]. rewrite <- V1.
    assert (Hon : forall f, In f (probe_syncs p) -> on_dev o1 f = true) by (intros f Hf; apply memf_In in Hf; unfold o1; rewrite flag_toDevices, Hf; reflexivity).
    pose proof (seen_view _ o1 Hon) as SV. unfold view, ref_probe, probe_out, rv_phase, sumAmplitude. cbn [rays].
    assert (LI : forall (B : Type) (g : ray T -> B), (forall a b, (forall f, In f (probe_syncs p) -> rget f a = rget f b) -> g a = g b) ->
      map g (map (seen gpu) (cells o1)) = map g (map (latest gpu o1) (cells o1))).
    { intros B g Hg. rewrite !map_map. apply map_ext. intros c. apply Hg. intros f Hf. apply SV, Hf. }
    destruct p as [t|q t|q t iv]; f_equal.
    - apply LI. intros a b H. unfold ray_positionAtTime. pose proof (H FX) as H1. pose proof (H FY) as H2. pose proof (H FZ) as H3. pose proof (H FVX) as H4. pose proof (H FVY) as H5. pose proof (H FVZ) as H6. pose proof (H FT) as H7. cbn in *.
      specialize (H1 ltac:(tauto)). specialize (H2 ltac:(tauto)). specialize (H3 ltac:(tauto)). specialize (H4 ltac:(tauto)). specialize (H5 ltac:(tauto)). specialize (H6 ltac:(tauto)). specialize (H7 ltac:(tauto)). congruence.
    - apply LI. intros a b H. unfold ray_phase. pose proof (H FX) as H1. pose proof (H FY) as H2. pose proof (H FZ) as H3. pose proof (H FVX) as H4. pose proof (H FVY) as H5. pose proof (H FVZ) as H6. pose proof (H FT) as H7. pose proof (H FW) as H8. cbn in *.
      specialize (H1 ltac:(tauto)). specialize (H2 ltac:(tauto)). specialize (H3 ltac:(tauto)). specialize (H4 ltac:(tauto)). specialize (H5 ltac:(tauto)). specialize (H6 ltac:(tauto)). specialize (H7 ltac:(tauto)). specialize (H8 ltac:(tauto)).
      injection H1 as H1. injection H2 as H2. injection H3 as H3. injection H4 as H4. injection H5 as H5. injection H6 as H6. injection H7 as H7. injection H8 as H8. rewrite H1, H2, H3, H4, H5, H6, H7, H8. reflexivity.
    - assert (E : map (seen gpu) (cells o1) = map (latest gpu o1) (cells o1)).
      { apply map_ext. intros c. apply ray_ext. intros f. apply SV. destruct f; cbn; tauto. }
      rewrite E. reflexivity.
  Qed.
  Lemma wok_probe p o : wok o -> wok (fst (run_probe gpu p o)).
  Proof. apply wok_toDevices. Qed.
  Lemma host_col f o : wok o -> host_column f (getter gpu f o) = map (rget f) (rays (view gpu o)).
  Proof.
    intros H. unfold host_column. destruct (fld_eqb_spec f FW) as [->|Hn].
    - cbn [getter]. unfold view. cbn [rays]. rewrite map_map. apply map_ext_in. intros c Hc. unfold latest. rewrite rget_blend.
      destruct gpu eqn:Eg; cbn [andb]; [|reflexivity]. destruct (on_dev o FW) eqn:E; [|reflexivity]. specialize (H Eg E). rewrite Forall_forall in H. cbn. f_equal. apply H, Hc.
    - assert (E : getter gpu f o = toHost gpu f o) by (destruct f; try reflexivity; congruence). rewrite E, <- (view_toHost f o). unfold view. cbn [rays]. rewrite map_map. apply map_ext. intros c.
      unfold latest. rewrite rget_blend, flag_toHost. destruct (fld_eqb_spec f f); [|congruence]. rewrite andb_false_r. reflexivity.
  Qed.
  Lemma view_getter f o : view gpu (getter gpu f o) = view gpu o.
  Proof. destruct f; try apply view_toHost. reflexivity. Qed.
  Lemma wok_getter f o : wok o -> wok (getter gpu f o).
  Proof. destruct f; try apply wok_toHost. auto. Qed.

  (** *** Writing through the property *)
  Lemma set_nth_map {A B} (g : A -> B) (u : A -> A) (w : B -> B) : (forall a, g (u a) = w (g a)) -> forall l j, map g (set_nth j u l) = set_nth j w (map g l).
  Proof. intros H. induction l as [|a l IH]; intros [|j]; cbn; congruence. Qed.
  Lemma rget_rput_other f v r g : f <> g -> rget g (rput f v r) = rget g r.
  Proof. intros Hn. unfold rput. destruct v; rewrite rget_blend; destruct (fld_eqb_spec f g); congruence. Qed.
  Lemma rput_latest f v o c : (gpu && on_dev o f = false) -> latest gpu o (rput f v (fst c), snd c) = rput f v (latest gpu o c).
  Proof.
    intros H. apply ray_ext. intros g. unfold latest. cbn [fst snd]. rewrite rget_blend. destruct (fld_eqb_spec f g) as [<-|Hn].
    - rewrite H. unfold rput. destruct v as [x|x]; rewrite !rget_blend; (destruct (fld_eqb_spec f f); [|congruence]); destruct f; cbn; rewrite ?H; reflexivity.
    - rewrite !(rget_rput_other _ _ _ _ Hn), rget_blend. reflexivity.
  Qed.
  Lemma view_write f j v o : (gpu = true -> f <> FW) -> view gpu (host_write f j v (getter gpu f o)) = RV (set_nth j (rput f v) (rays (view gpu o))) (ocs o).
  Proof.
    intros Hw. rewrite <- (view_getter f o). assert (C : ocs (getter gpu f o) = ocs o) by (destruct f; try reflexivity; apply (ocs_toHosts [_] o)).
    unfold view, host_write. cbn [cells ocs rays on_dev]. rewrite C. f_equal.
    apply (set_nth_map (latest gpu (getter gpu f o)) (fun c => (rput f v (fst c), snd c)) (rput f v)). intros c. apply rput_latest.
    destruct gpu; [|reflexivity]. cbn [andb]. specialize (Hw eq_refl). assert (E : getter true f o = toHost true f o) by (destruct f; try reflexivity; congruence).
    rewrite E. unfold toHost. destruct (on_dev o f) eqn:K; [|exact K]. cbn [on_dev]. unfold set_flag. destruct (fld_eqb_spec f f); congruence.
  Qed.
  Lemma Forall_set_nth {A} (P : A -> Prop) u : (forall a, P a -> P (u a)) -> forall l j, Forall P l -> Forall P (set_nth j u l).
  Proof. intros H. induction l as [|a l IH]; intros [|j] K; cbn; try exact K; inversion K; subst; constructor; auto. Qed.
  Lemma wok_write f j v o : (gpu = true -> f <> FW) -> wok o -> wok (host_write f j v (getter gpu f o)).
  Proof.
    intros Hw H Hg Hd. specialize (wok_getter f o H Hg Hd). cbn [host_write cells]. apply Forall_set_nth. intros (h, d) E. cbn in *. rewrite <- E.
    specialize (Hw Hg). pose proof (rget_rput_other f v h FW Hw) as R. cbn in R. congruence.
  Qed.

  Lemma held_col f o : gpu <> true -> host_column f o = map (rget f) (rays (view gpu o)).
  Proof.
    intros H. apply not_true_is_false in H. unfold host_column, view. cbn [rays]. rewrite map_map. apply map_ext. intros c. unfold latest. rewrite rget_blend, H. reflexivity.
  Qed.
  Lemma held_write f j v o : gpu <> true -> view gpu (host_write f j v o) = RV (set_nth j (rput f v) (rays (view gpu o))) (ocs o).
  Proof.
    intros H. apply not_true_is_false in H. unfold view, host_write. cbn [cells ocs rays on_dev]. f_equal.
    apply (set_nth_map (latest gpu o) (fun c => (rput f v (fst c), snd c)) (rput f v)). intros c. apply rput_latest. rewrite H. reflexivity.
  Qed.

  (** *** New objects, copies *)
  Lemma latest_host o c : (forall f, on_dev o f = false) -> latest gpu o c = fst c.
  Proof. intros H. apply ray_ext. intros f. unfold latest. rewrite rget_blend, H, andb_false_r. reflexivity. Qed.
  Lemma fst_combine {A B} (l : list A) : forall (m : list B), List.length l <= List.length m -> map fst (combine l m) = l.
  Proof. induction l as [|a l IH]; intros [|b m] H; cbn in *; try reflexivity; [lia|]. f_equal. apply IH. lia. Qed.
  Lemma view_fresh (rv : rayvec T) junk : view gpu (fresh rv junk) = rv.
  Proof.
    unfold view. assert (E : map (latest gpu (fresh rv junk)) (cells (fresh rv junk)) = rays rv).
    { rewrite (map_ext _ fst) by (intros c; apply latest_host; reflexivity). unfold fresh. cbn [cells]. apply fst_combine. rewrite map_length, seq_length. lia. }
    rewrite E. destruct rv. reflexivity.
  Qed.
  Lemma wok_fresh (rv : rayvec T) junk : wok (fresh rv junk).
  Proof. intros _ H. discriminate. Qed.
  Lemma hosts_view o : map fst (cells (toHosts gpu all_flds o)) = rays (view gpu o).
  Proof.
    rewrite <- (view_toHosts all_flds o). unfold view. cbn [rays]. apply map_ext. intros c. symmetry. apply latest_host. intros f. rewrite flag_toHosts. destruct f; reflexivity.
  Qed.
  Lemma view_dup idx junk o : view gpu (fst (dup gpu idx junk o)) = view gpu o /\ view gpu (snd (dup gpu idx junk o)) = RV (take_rays idx (rays (view gpu o))) (ocs o).
  Proof.
    unfold dup. cbn [fst snd]. split; [apply view_toHosts|]. rewrite view_fresh, hosts_view. rewrite ocs_toHosts. reflexivity.
  Qed.
  Lemma wok_dup idx junk o : wok o -> wok (fst (dup gpu idx junk o)) /\ wok (snd (dup gpu idx junk o)).
  Proof. intros H. split; [apply wok_toHosts, H|apply wok_fresh]. Qed.

  (** *** rSplit *)
  Lemma map_combine_l {A B C} (g : A -> C) (l : list A) : forall (m : list B), List.length l <= List.length m -> map (fun p => g (fst p)) (combine l m) = map g l.
  Proof. induction l as [|a l IH]; intros [|b m] H; cbn in *; try reflexivity; [lia|]. f_equal. apply IH. lia. Qed.
  Lemma cells_len_toDevices l : forall o, List.length (cells (toDevices gpu l o)) = List.length (cells o).
  Proof.
    induction l as [|f l IH]; intros o; [reflexivity|]. cbn. unfold toDevices in IH. rewrite IH. unfold toDevice. destruct (on_dev o f); [reflexivity|]. cbn [cells]. destruct gpu; rewrite ?map_length; reflexivity.
  Qed.
  Lemma view_len o : List.length (rays (view gpu o)) = List.length (cells o).
  Proof. unfold view. cbn. apply map_length. Qed.
  (** the state just before the loop of rSplit *)
  Lemma split_before junk o : wok o -> exists l,
    let p := dup gpu None junk o in let o1 := toDevices gpu all_flds (fst p) in
    combine (cells o1) (cells (snd p)) = l /\ List.length (cells o1) = List.length (cells (snd p)) /\
    map (fun q => seen gpu (fst q)) l = rays (view gpu o) /\ map (fun q => fst (snd q)) l = rays (view gpu o) /\
    (forall f, on_dev o1 f = true) /\ (gpu = true -> Forall (fun q => wavelength (fst (fst q)) = wavelength (snd (fst q))) l).
  Proof.
    intros Hok. eexists. cbv zeta. split; [reflexivity|]. set (p := dup gpu None junk o). set (o1 := toDevices gpu all_flds (fst p)).
    assert (L : List.length (cells o1) = List.length (cells (snd p))).
    { unfold o1. rewrite cells_len_toDevices. destruct (view_dup None junk o) as (V1 & V2). fold p in V1, V2. rewrite <- (view_len (fst p)), <- (view_len (snd p)), V1, V2. reflexivity. }
    assert (Hon : forall f, on_dev o1 f = true) by (intros f; unfold o1; rewrite flag_toDevices; destruct f; reflexivity).
    assert (V : view gpu o1 = view gpu o) by (unfold o1; rewrite view_toDevices; apply view_dup).
    split; [exact L|]. split; [|split; [|split; [exact Hon|]]].
    - rewrite map_combine_l by lia. rewrite <- V. unfold view. cbn [rays]. apply map_ext. intros c. apply ray_ext. intros f. apply (seen_view all_flds o1); [intros; apply Hon|destruct f; cbn; tauto].
    - assert (K : forall (A B : Type) (l : list A) (m : list B), List.length l = List.length m -> map snd (combine l m) = m).
      { clear. induction l as [|a l IH]; intros [|b m] H; cbn in *; try reflexivity; try discriminate. f_equal. apply IH. lia. }
      rewrite <- (map_map snd fst). rewrite K by exact L. unfold p, dup. cbn [snd]. rewrite hosts_view. cbn [take_rays]. unfold fresh. cbn [cells]. apply fst_combine. rewrite map_length, seq_length. apply le_n.
    - intros Hg. assert (W : wok o1) by (apply wok_toDevices, wok_dup, Hok). specialize (W Hg (Hon FW)). rewrite Forall_forall in *. intros (c, c2) Hq. apply in_combine_l in Hq. apply W, Hq.
  Qed.
  Definition clean s ct r : Prop := failed r = false /\ hits niter s ct r = true.
  Lemma split_cell_clean s ct m2 c r q : clean s ct r -> split_cell (ray_rsplit s (ct_dr ct) (ct_drot ct) m2 c niter) (hits niter s ct) r q = ray_rsplit s (ct_dr ct) (ct_drot ct) m2 c niter r.
  Proof. intros (H1 & H2). unfold split_cell. rewrite H1, H2. reflexivity. Qed.
  Lemma split_cell_cpu s ct m2 c r : split_cell (ray_rsplit s (ct_dr ct) (ct_drot ct) m2 c niter) (hits niter s ct) r r = ray_rsplit s (ct_dr ct) (ct_drot ct) m2 c niter r.
  Proof.
    unfold split_cell, ray_rsplit, hits. destruct (failed r); [reflexivity|]. destruct (hit _ _ _ _) as [[|] dt]; reflexivity.
  Qed.
  Lemma rsplit_wave s ct m2 c r : wavelength (fst (ray_rsplit s (ct_dr ct) (ct_drot ct) m2 c niter r)) = wavelength r /\ wavelength (snd (ray_rsplit s (ct_dr ct) (ct_drot ct) m2 c niter r)) = wavelength r.
  Proof.
    unfold ray_rsplit. destruct (failed r); [split; reflexivity|]. destruct (hit _ _ _ _) as [[|] dt]; [|split; reflexivity]. destruct (orient _ _). destruct (getCoefs _ _ _). destruct (refract_vel _ _ _ _ _); split; reflexivity.
  Qed.
  Lemma latest_dev o c : (forall f, on_dev o f = true) -> latest gpu o c = seen gpu c.
  Proof. intros H. apply ray_ext. intros f. unfold latest, seen. rewrite rget_blend, H, andb_true_r. destruct gpu; reflexivity. Qed.
  (** The loop with any loop body. *)
  Definition split_with (body : ray T -> ray T * ray T) (hit_ : ray T -> bool) (k : coordsys T) (p : obj T * obj T) : obj T * obj T :=
    let o := toDevices gpu all_flds (fst p) in
    let step q := split_cell body hit_ (seen gpu (fst q)) (seen gpu (snd q)) in
    let both := combine (cells o) (cells (snd p)) in
    let put (c : ray T * ray T) r := if gpu then (fst c, r) else (r, snd c) in
    (OBJ (map (fun q => put (fst q) (fst (step q))) both) (on_dev o) k,
     OBJ (map (fun q => put (snd q) (snd (step q))) both) (fun _ => true) k).
  Lemma run_split_with s m1 m2 c cs junk o : run_split gpu niter s m1 m2 c cs junk o =
    split_with (ray_rsplit s (ct_dr (mkCT (ocs o) (target (ocs o) cs))) (ct_drot (mkCT (ocs o) (target (ocs o) cs))) m2 c niter) (hits niter s (mkCT (ocs o) (target (ocs o) cs)))
      (target (ocs o) cs) (dup gpu None junk o).
  Proof. unfold run_split, split_with. destruct (dup gpu None junk o). reflexivity. Qed.
  Lemma map_eq_in {A B} (g h : A -> B) l q : map g l = map h l -> In q l -> g q = h q.
  Proof. induction l as [|a l IH]; intros M Hq; [destruct Hq|]. cbn in M. injection M as M1 M2. destruct Hq as [<-|Hq]; [exact M1|apply IH; assumption]. Qed.
  Lemma view_split_with (body : ray T -> ray T * ray T) hit_ k junk o : wok o ->
    (forall r, In r (rays (view gpu o)) -> gpu = true -> forall q, split_cell body hit_ r q = body r) ->
    (forall r, split_cell body hit_ r r = body r) ->
    (forall r, wavelength (fst (body r)) = wavelength r /\ wavelength (snd (body r)) = wavelength r) ->
    let out := split_with body hit_ k (dup gpu None junk o) in
    view gpu (fst out) = RV (map (fun r => fst (body r)) (rays (view gpu o))) k /\
    view gpu (snd out) = RV (map (fun r => snd (body r)) (rays (view gpu o))) k /\ wok (fst out) /\ wok (snd out).
  Proof.
    intros Hok Hcl Hcpu WV. destruct (split_before junk o Hok) as (l & El & Hlen & Hs1 & Hs2 & Hon & Hw). cbv zeta in El, Hlen, Hon.
    unfold split_with. generalize dependent (dup gpu None junk o). intros p El Hlen Hon. generalize dependent (toDevices gpu all_flds (fst p)). intros o1 El Hlen Hon. rewrite El. clear El.
    assert (STEP : forall q, In q l -> split_cell body hit_ (seen gpu (fst q)) (seen gpu (snd q)) = body (seen gpu (fst q))).
    { intros q Hq. destruct (Bool.bool_dec gpu true) as [Eg|Eg].
      - apply Hcl; [|exact Eg]. rewrite <- Hs1. exact (in_map (fun q => seen gpu (fst q)) l q Hq).
      - assert (E : seen gpu (snd q) = seen gpu (fst q)).
        { pose proof (map_eq_in _ _ l q (eq_trans Hs2 (eq_sym Hs1)) Hq) as E. cbn beta in E. rewrite <- E. apply not_true_is_false in Eg. unfold seen. rewrite Eg. reflexivity. }
        rewrite E. apply Hcpu. }
    assert (SAME : forall q, In q l -> seen gpu (fst q) = fst (snd q)) by (intros q Hq; exact (map_eq_in _ _ l q (eq_trans Hs1 (eq_sym Hs2)) Hq)).
    assert (PUT : forall (d : fld -> bool) (cc : list (ray T * ray T)) k0 (c : ray T * ray T) r, (forall f, d f = true) -> latest gpu (OBJ cc d k0) (if gpu then (fst c, r) else (r, snd c)) = r).
    { intros d cc k0 c r Hd. rewrite latest_dev by exact Hd. unfold seen. destruct gpu; reflexivity. }
    cbv zeta. cbn [fst snd]. split; [|split; [|split]].
    - unfold view at 1. cbn [cells ocs]. rewrite <- Hs1, !map_map. f_equal. apply map_ext_in. intros q Hq. rewrite PUT by exact Hon. rewrite STEP by exact Hq. reflexivity.
    - unfold view at 1. cbn [cells ocs]. rewrite <- Hs1, !map_map. f_equal. apply map_ext_in. intros q Hq. rewrite PUT by reflexivity. rewrite STEP by exact Hq. reflexivity.
    - intros Hg _. cbn [cells]. apply Forall_map. specialize (Hw Hg). rewrite Forall_forall in *. intros q Hq. rewrite STEP by exact Hq. rewrite Hg. cbn [fst snd].
      rewrite (proj1 (WV _)). unfold seen. apply Hw, Hq.
    - intros Hg _. cbn [cells]. apply Forall_map. rewrite Forall_forall. intros q Hq. rewrite STEP by exact Hq. rewrite (SAME q Hq). rewrite Hg. cbn [fst snd].
      rewrite (proj2 (WV _)). reflexivity.
  Qed.
  Lemma view_split s m1 m2 c cs junk o : wok o ->
    (gpu = true -> Forall (clean s (mkCT (ocs o) (target (ocs o) cs))) (rays (view gpu o))) ->
    let out := run_split gpu niter s m1 m2 c cs junk o in
    (view gpu (fst out), view gpu (snd out)) = rv_rsplit niter s m1 m2 c cs (view gpu o) /\ wok (fst out) /\ wok (snd out).
  Proof.
    intros Hok Hcl. cbv zeta. rewrite run_split_with. set (ct := mkCT (ocs o) (target (ocs o) cs)) in *.
    destruct (view_split_with (ray_rsplit s (ct_dr ct) (ct_drot ct) m2 c niter) (hits niter s ct) (target (ocs o) cs) junk o Hok) as (V1 & V2 & W1 & W2).
    - intros r Hr Hg q. apply split_cell_clean. specialize (Hcl Hg). rewrite Forall_forall in Hcl. apply Hcl, Hr.
    - intros r. apply split_cell_cpu.
    - intros r. apply rsplit_wave.
    - split; [|split; assumption]. rewrite V1, V2. unfold rv_rsplit. cbv zeta. rewrite !map_map. reflexivity.
  Qed.

  (** *** Comparison *)
  Lemma nth_on_obj i g : forall st : list (obj T), nth_error (on_obj i g st) i = option_map g (nth_error st i).
  Proof. unfold on_obj. induction i as [|i IH]; intros [|x st]; cbn; try reflexivity. apply IH. Qed.
  Lemma nth_on_obj_other i g : forall j (st : list (obj T)), i <> j -> nth_error (on_obj i g st) j = nth_error st j.
  Proof. unfold on_obj. induction i as [|i IH]; intros [|j] [|x st] H; cbn; try reflexivity; try congruence. apply IH. congruence. Qed.
  Lemma views_on_obj i g (st : list (obj T)) : (forall o, nth_error st i = Some o -> view gpu (g o) = view gpu o) -> map (view gpu) (on_obj i g st) = map (view gpu) st.
  Proof. unfold on_obj. revert i. induction st as [|o st IH]; intros [|i] H; cbn; try reflexivity; [rewrite (H o eq_refl); reflexivity|]. f_equal. apply IH. intros o' Ho. apply H. exact Ho. Qed.
  Lemma woks_on_obj i g (st : list (obj T)) : (forall o, nth_error st i = Some o -> wok o -> wok (g o)) -> Forall wok st -> Forall wok (on_obj i g st).
  Proof. unfold on_obj. revert i. induction st as [|o st IH]; intros [|i] H K; cbn; try exact K; inversion K; subst; constructor; auto. Qed.
  Lemma column_cmp f (a b : obj T) (g : ray T * ray T -> ray T) : 
    (forall c, rget f (g c) = rget f (latest gpu a c)) -> (forall c, rget f (g c) = rget f (latest gpu b c)) ->
    forallb (fun p => veqb (rget f (g (fst p))) (rget f (g (snd p)))) (combine (cells a) (cells b)) =
    forallb (fun p => veqb (rget f (fst p)) (rget f (snd p))) (combine (rays (view gpu a)) (rays (view gpu b))).
  Proof.
    intros Ha Hb. unfold view. cbn [rays]. generalize (cells b). induction (cells a) as [|c l IH]; intros [|c' l']; cbn [combine map forallb fst snd]; try reflexivity.
    rewrite Ha, Hb, IH. reflexivity.
  Qed.
  Definition same_view (st st' : list (obj T)) : Prop := map (view gpu) st' = map (view gpu) st /\ (Forall wok st -> Forall wok st').
  Lemma eq_column_ok f i j (st : list (obj T)) a b : nth_error st i = Some a -> nth_error st j = Some b ->
    exists st', eq_column gpu f i j st = Ok (st', forallb (fun p => veqb (rget f (fst p)) (rget f (snd p))) (combine (rays (view gpu a)) (rays (view gpu b)))) /\ same_view st st'.
  Proof.
    intros Ha Hb. unfold eq_column. rewrite Ha, Hb. destruct (negb (on_dev a f) && negb (on_dev b f)) eqn:E.
    - apply andb_true_iff in E. destruct E as (E1 & E2). apply negb_true_iff in E1, E2. exists st. split; [|split; [reflexivity|auto]]. do 2 f_equal.
      apply (column_cmp f a b fst); intros c; unfold latest; rewrite rget_blend, ?E1, ?E2, andb_false_r; reflexivity.
    - set (st1 := on_obj i (toDevice gpu f) st). set (st2 := on_obj j (toDevice gpu f) st1).
      assert (IDEM : forall o, toDevice gpu f (toDevice gpu f o) = toDevice gpu f o).
      { intros o. unfold toDevice at 1. rewrite flag_toDevice. destruct (fld_eqb_spec f f); [reflexivity|congruence]. }
      assert (N2 : nth_error st2 j = Some (toDevice gpu f b)).
      { unfold st2. rewrite nth_on_obj. unfold st1. destruct (Nat.eq_dec i j) as [->|Hn]; [rewrite nth_on_obj, Hb; cbn; rewrite IDEM; reflexivity|]. rewrite nth_on_obj_other, Hb by exact Hn. reflexivity. }
      assert (N1 : nth_error st2 i = Some (toDevice gpu f a)).
      { unfold st2. destruct (Nat.eq_dec i j) as [->|Hn]; [fold st2; rewrite N2; congruence|]. rewrite nth_on_obj_other by congruence. unfold st1. rewrite nth_on_obj, Ha. reflexivity. }
      rewrite N1, N2. exists st2. split.
      + do 2 f_equal. rewrite <- (view_toDevice f a), <- (view_toDevice f b). apply (column_cmp f _ _ (seen gpu)); intros c; apply (seen_view [f]); try (left; reflexivity);
          intros g [<-|[]]; rewrite flag_toDevice; destruct (fld_eqb_spec f f); congruence.
      + split.
        * unfold st2, st1. rewrite !views_on_obj; [reflexivity| |]; intros; apply view_toDevice.
        * intros K. unfold st2, st1. apply woks_on_obj; [intros; apply wok_toDevice; assumption|]. apply woks_on_obj; [intros; apply wok_toDevice; assumption|exact K].
  Qed.
  Lemma nth_view (st st' : list (obj T)) i a : map (view gpu) st' = map (view gpu) st -> nth_error st i = Some a -> exists a', nth_error st' i = Some a' /\ view gpu a' = view gpu a.
  Proof.
    intros E H. assert (K : nth_error (map (view gpu) st') i = Some (view gpu a)) by (rewrite E, nth_error_map, H; reflexivity).
    rewrite nth_error_map in K. destruct (nth_error st' i) as [a'|]; [|discriminate]. exists a'. split; [reflexivity|]. cbn [option_map] in K. congruence.
  Qed.
  Lemma eq_columns_ok l : forall i j (st : list (obj T)) a b, nth_error st i = Some a -> nth_error st j = Some b ->
    exists st', eq_columns gpu l i j st = Ok (st', forallb (fun f => forallb (fun p => veqb (rget f (fst p)) (rget f (snd p))) (combine (rays (view gpu a)) (rays (view gpu b)))) l) /\ same_view st st'.
  Proof.
    induction l as [|f l IH]; intros i j st a b Ha Hb; cbn [eq_columns forallb]; [exists st; split; [reflexivity|split; auto]|].
    destruct (eq_column_ok f i j st a b Ha Hb) as (st1 & E1 & V1 & W1). rewrite E1. cbn [bind]. destruct (forallb _ (combine _ _)) eqn:K.
    - destruct (nth_view _ _ _ _ V1 Ha) as (a' & Ha' & Va). destruct (nth_view _ _ _ _ V1 Hb) as (b' & Hb' & Vb).
      destruct (IH i j st1 a' b' Ha' Hb') as (st2 & E2 & V2 & W2). exists st2. rewrite E2, Va, Vb. split; [reflexivity|]. split; [congruence|auto].
    - exists st1. split; [reflexivity|split; assumption].
  Qed.

  (** *** Every operation *)
  Lemma views_replace i g (st : list (obj T)) rv : (forall o, nth_error st i = Some o -> view gpu (g o) = rv) -> map (view gpu) (on_obj i g st) = replace_at i rv (map (view gpu) st).
  Proof. unfold on_obj, replace_at. revert i. induction st as [|o st IH]; intros [|i] H; cbn; try reflexivity; [rewrite (H o eq_refl); reflexivity|]. f_equal. apply IH. intros o' Ho. apply H. exact Ho. Qed.
  Lemma step_ok a (st : list (obj T)) : Forall wok st -> (gpu = true -> safe_step niter a (map (view gpu) st)) ->
    match step gpu niter a st with
    | Ok (st', x) => ref_step niter a (map (view gpu) st) = Ok (map (view gpu) st', x) /\ Forall wok st'
    | Err e => ref_step niter a (map (view gpu) st) = Err e
    end.
  Proof.
    intros Hok Hs. destruct a as [rv junk|i k|i p|i f|i f j v|i f|i f j v|i idx junk|i s m1 m2 c cs junk|i j]; cbn [step ref_step].
    - rewrite map_app. cbn [map]. rewrite view_fresh. split; [reflexivity|]. apply Forall_app. split; [exact Hok|]. constructor; [apply wok_fresh|constructor].
    - rewrite nth_error_map. destruct (nth_error st i) as [o|] eqn:E; [|reflexivity]. cbn [option_map]. split.
      + do 2 f_equal. symmetry. apply views_replace. intros o' E'. rewrite E in E'. injection E' as <-. apply view_kern.
      + apply woks_on_obj; [intros; apply wok_kern; assumption|exact Hok].
    - rewrite nth_error_map. destruct (nth_error st i) as [o|] eqn:E; [|reflexivity]. cbn [option_map]. split.
      + rewrite views_on_obj by (intros; apply view_probe). rewrite (proj2 (view_probe p o)). reflexivity.
      + apply woks_on_obj; [intros; apply wok_probe; assumption|exact Hok].
    - rewrite nth_error_map. destruct (nth_error st i) as [o|] eqn:E; [|reflexivity]. cbn [option_map]. split.
      + rewrite views_on_obj by (intros; apply view_getter). rewrite host_col; [reflexivity|]. rewrite Forall_forall in Hok. apply Hok, (nth_error_In _ _ E).
      + apply woks_on_obj; [intros; apply wok_getter; assumption|exact Hok].
    - rewrite nth_error_map. destruct (nth_error st i) as [o|] eqn:E; [|reflexivity]. cbn [option_map]. cbn [safe_step] in Hs. split.
      + do 2 f_equal. symmetry. apply views_replace. intros o' E'. rewrite E in E'. injection E' as <-. apply view_write, Hs.
      + apply woks_on_obj; [intros; apply wok_write; assumption|exact Hok].
    - rewrite nth_error_map. destruct (nth_error st i) as [o|] eqn:E; [|reflexivity]. cbn [option_map]. cbn [safe_step] in Hs. split; [|exact Hok].
      destruct (Bool.bool_dec gpu true) as [Hg|Hg]; [destruct (Hs Hg)|]. rewrite held_col by exact Hg. reflexivity.
    - rewrite nth_error_map. destruct (nth_error st i) as [o|] eqn:E; [|reflexivity]. cbn [option_map]. cbn [safe_step] in Hs.
      destruct (Bool.bool_dec gpu true) as [Hg|Hg]; [destruct (Hs Hg)|]. split.
      + do 2 f_equal. symmetry. apply views_replace. intros o' E'. rewrite E in E'. injection E' as <-. apply held_write, Hg.
      + apply woks_on_obj; [intros; intros Hg'; contradiction|exact Hok].
    - rewrite nth_error_map. destruct (nth_error st i) as [o|] eqn:E; [|reflexivity]. cbn [option_map]. split.
      + rewrite map_app. cbn [map]. rewrite views_on_obj by (intros; apply view_dup). rewrite (proj2 (view_dup idx junk o)). reflexivity.
      + apply Forall_app. split; [apply woks_on_obj; [intros; apply wok_dup; assumption|exact Hok]|]. constructor; [|constructor]. apply wok_dup. rewrite Forall_forall in Hok. apply Hok, (nth_error_In _ _ E).
    - rewrite nth_error_map. destruct (nth_error st i) as [o|] eqn:E; [|reflexivity]. cbn [option_map]. cbn [safe_step] in Hs.
      assert (Ho : wok o) by (rewrite Forall_forall in Hok; apply Hok, (nth_error_In _ _ E)).
      assert (Hc : gpu = true -> Forall (clean s (mkCT (ocs o) (target (ocs o) cs))) (rays (view gpu o))).
      { intros Hg. specialize (Hs Hg (view gpu o)). rewrite nth_error_map, E in Hs. exact (Hs eq_refl). }
      destruct (view_split s m1 m2 c cs junk o Ho Hc) as (V & W1 & W2). destruct (rv_rsplit niter s m1 m2 c cs (view gpu o)) as [p q]. pose proof (f_equal fst V) as V1. pose proof (f_equal snd V) as V2. cbn [fst snd] in V1, V2. split.
      + rewrite map_app. cbn [map]. rewrite V2. do 3 f_equal. symmetry. apply views_replace. intros o' E'. rewrite E in E'. injection E' as <-. exact V1.
      + apply Forall_app. split; [|constructor; [exact W2|constructor]]. apply woks_on_obj; [|exact Hok]. intros o' E' _. rewrite E in E'. injection E' as <-. exact W1.
    - rewrite !nth_error_map. destruct (nth_error st i) as [a|] eqn:Ea; [|reflexivity]. destruct (nth_error st j) as [b|] eqn:Eb; [|reflexivity]. cbn [option_map].
      rewrite !view_len. destruct (Nat.ltb _ _); [reflexivity|]. destruct (eq_columns_ok all_flds i j st a b Ea Eb) as (st' & E & V & W). rewrite E. cbn [bind]. rewrite V. split; [reflexivity|auto].
  Qed.
  Theorem dual_coherent : forall l (st : list (obj T)), Forall wok st -> (gpu = true -> safe niter l (map (view gpu) st)) ->
    ref_steps niter l (map (view gpu) st) = match steps gpu niter l st with Ok (st', xs) => Ok (map (view gpu) st', xs) | Err e => Err e end.
  Proof.
    induction l as [|a l IH]; intros st Hok Hs; [reflexivity|]. cbn [steps ref_steps].
    assert (Hs1 : gpu = true -> safe_step niter a (map (view gpu) st)) by (intros Hg; apply (Hs Hg)).
    pose proof (step_ok a st Hok Hs1) as K. destruct (step gpu niter a st) as [[st1 x]|e]; [|rewrite K; reflexivity]. destruct K as (K & Hok1). rewrite K. cbn [bind].
    rewrite IH; [|exact Hok1|]. { destruct (steps gpu niter l st1) as [[st2 xs]|]; reflexivity. }
    intros Hg. destruct (Hs Hg) as (_ & Hn). exact (Hn _ _ K).
  Qed.
  Theorem dual_outputs : forall l, (gpu = true -> safe niter l []) -> outputs (steps gpu niter l []) = outputs (ref_steps niter l []).
  Proof.
    intros l Hs. pose proof (dual_coherent l [] (Forall_nil _) Hs) as H. cbn [map] in H. rewrite H. destruct (steps gpu niter l []) as [[st xs]|e]; reflexivity.
  Qed.
End P.
