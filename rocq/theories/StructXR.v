(** Flux never grows (C22), over XR. *)
From Coq Require Import Reals List Bool Lra Psatz.
From Verif Require Import Num NumR Vec CoordSys Surface Medium Obscuration Ray Bundle Optic Ops StructProofs XRFacts TreeSpec.
Import ListNotations.
Open Scope R_scope.

Lemma flux_le niter ops l cs i r f :
  Forall lossy ops -> nth_error l i = Some r -> flux r = Fin f -> 0 <= f ->
  exists r' f', nth_error (rays (run_ops niter ops (RV l cs))) i = Some r' /\
                flux r' = Fin f' /\ 0 <= f' <= f.
Proof.
  intros Hl Hi Hf Hf0.
  set (okc := fun c : coating XR => unit_coating c).
  set (Q := fun r r' : ray XR => forall f, flux r = Fin f -> 0 <= f ->
               exists f', flux r' = Fin f' /\ 0 <= f' <= f).
  assert (Qrefl : forall r, Q r r) by (intros r0 f0 E H; exists f0; split; [assumption|lra]).
  assert (Qtrans : forall a b c, Q a b -> Q b c -> Q a c).
  { intros a b c Hab Hbc f0 E H. destruct (Hab f0 E H) as (f1 & E1 & H1).
    destruct (Hbc f1 E1) as (f2 & E2 & H2); [lra|]. exists f2; split; [assumption|lra]. }
  assert (Qsame : forall r r', flux r' = flux r -> Q r r').
  { intros a b E f0 E0 H. exists f0. split; [congruence|lra]. }
  assert (Qmul : forall r r' k, flux r' = nmul (flux r) (Fin k) -> 0 <= k <= 1 -> Q r r').
  { intros a b k E Hk f0 E0 H. exists (f0 * k). rewrite E, E0. split; [reflexivity|]. nra. }
  assert (Hok : forall c wl al, okc c ->
     (exists k, getReflect c wl al = Fin k /\ 0 <= k <= 1) /\
     (exists k, getTransmit c wl al = Fin k /\ 0 <= k <= 1)).
  { intros c wl al (a & b & -> & Ha & Hb). split; eexists; (split; [reflexivity|assumption]). }
  assert (P : preserves Q (run_ops niter ops)).
  { apply (pres_ops niter Q Qrefl Qtrans) with (okc := okc).
    - intros o r0; apply Qsame; reflexivity.
    - intros s dr d r0; unfold ray_intersect. destruct (failed r0); [apply Qrefl|].
      destruct (hit _ _ _ _) as [[] ?]; apply Qsame; reflexivity.
    - intros s dr d r0; unfold ray_reflect. destruct (failed r0); [apply Qrefl|].
      destruct (hit _ _ _ _) as [[] ?]; apply Qsame; reflexivity.
    - intros s dr d m2 r0; unfold ray_refract. destruct (failed r0); [apply Qrefl|].
      destruct (hit _ _ _ _) as [[] ?]; [|apply Qsame; reflexivity].
      destruct (orient _ _); destruct (refract_vel _ _ _ _ _); apply Qsame; reflexivity.
    - intros s sc dr d r0; unfold ray_screen. destruct (failed r0); [apply Qrefl|].
      destruct (hit _ _ _ _) as [[] ?]; apply Qsame; reflexivity.
    - intros s dr d c r0 Hc; unfold ray_intersect. destruct (failed r0); [apply Qrefl|].
      destruct (hit _ _ _ _) as [[] ?]; [|apply Qsame; reflexivity].
      match goal with |- context [getTransmit c ?w ?a] => destruct (Hok c w a Hc) as [_ (k & Ek & Hk)] end.
      eapply Qmul; [cbn [flux]; rewrite Ek; reflexivity|exact Hk].
    - intros s dr d c r0 Hc; unfold ray_reflect. destruct (failed r0); [apply Qrefl|].
      destruct (hit _ _ _ _) as [[] ?]; [|apply Qsame; reflexivity].
      match goal with |- context [getReflect c ?w ?a] => destruct (Hok c w a Hc) as [(k & Ek & Hk) _] end.
      eapply Qmul; [cbn [flux]; rewrite Ek; reflexivity|exact Hk].
    - intros s dr d m2 c r0 Hc; unfold ray_refract. destruct (failed r0); [apply Qrefl|].
      destruct (hit _ _ _ _) as [[] ?]; [|apply Qsame; reflexivity].
      destruct (orient _ _) as [n al].
      destruct (Hok c (wavelength r0) al Hc) as [_ (k & Ek & Hk)].
      destruct (refract_vel _ _ _ _ _); (eapply Qmul; [cbn [flux]; rewrite Ek; reflexivity|exact Hk]).
    - intros s dr d m2 c r0 Hc; unfold ray_rsplit. destruct (failed r0); [apply Qrefl|].
      destruct (hit _ _ _ _) as [[] ?]; [|apply Qsame; reflexivity].
      destruct (orient _ _) as [n al]. destruct Hc as (a & b & -> & Ha & Hb). cbn [getCoefs].
      destruct (refract_vel _ _ _ _ _); (eapply Qmul; [cbn [flux fst]; reflexivity|exact Hb]).
    - intros s dr d m2 c r0 Hc; unfold ray_rsplit. destruct (failed r0); [apply Qrefl|].
      destruct (hit _ _ _ _) as [[] ?]; [|apply Qsame; reflexivity].
      destruct (orient _ _) as [n al]. destruct Hc as (a & b & -> & Ha & Hb). cbn [getCoefs].
      destruct (refract_vel _ _ _ _ _); (eapply Qmul; [cbn [flux snd]; reflexivity|exact Ha]).
    - revert Hl. apply Forall_impl. intros [? ? []|? ? []|? ? ? ? []| | | | | ]; cbn; auto. }
  destruct (Forall2_nth _ _ _ _ _ (P l cs) Hi) as (r' & Hr' & HQ).
  destruct (HQ f Hf Hf0) as (f' & E & H). eauto.
Qed.
