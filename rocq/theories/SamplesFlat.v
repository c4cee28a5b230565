(** A corner of three mirrors, and a plate of glass. *)
From Coq Require Import Reals String List ZArith Bool Lra Psatz.
From Verif Require Import Num NumR Vec CoordSys Surface Medium Obscuration Ray Bundle Optic Spec OpticsSpec StigSpec StigProofs XRFacts CoordFacts FlatSpec FlatProofs SamplesStig.
Import ListNotations.
Open Scope R_scope.

Definition fl_x : frame := CS (V3 0 0 0) (M3 0 0 1 1 0 0 0 1 0).
Definition fl_y : frame := CS (V3 0 0 0) (M3 0 1 0 0 0 1 1 0 0).
Definition fl_mirror (B : frame) : sheet :=
  Sheet (mkIface KMirror Plane "flat" (Fcs B) None (ConstM (Fin 1)) (ConstM (Fin 1)) None None false) B.
Definition fl_ray : ray R := Ray (V3 1 2 3) (V3 (-2/3) (-1/3) (-2/3)) 0 (1/2) 1 false false.
Lemma fl_mirror_ok B : good_frame B -> flat_mirror (fl_mirror B).
Proof. intros H. split; [split; [reflexivity|split; [reflexivity|exact H]]|reflexivity]. Qed.
Lemma fl_x_good : good_frame fl_x.
Proof. unfold good_frame, orthonormal, dotR; cbn; lra. Qed.
Lemma fl_y_good : good_frame fl_y.
Proof. unfold good_frame, orthonormal, dotR; cbn; lra. Qed.
Lemma fl_x_axis : axis_dir fl_x = V3 1 0 0.
Proof. apply vec3_eq; cbn; ring. Qed.
Lemma fl_y_axis : axis_dir fl_y = V3 0 1 0.
Proof. apply vec3_eq; cbn; ring. Qed.
Lemma fl_z_axis : axis_dir global_frame = V3 0 0 1.
Proof. apply vec3_eq; cbn; ring. Qed.
Lemma fl_meets niter B A r : good_frame A -> good_frame B -> failed r = false -> dotR (global_dir A (vel r)) (axis_dir B) <> 0 ->
  exists r1, lands niter (s_iface (fl_mirror B)) false A r B r1 /\ failed r1 = false /\ global_dir B (vel r1) = image_dir B (global_dir A (vel r)).
Proof.
  intros HA HB F N. destruct (layer_lands niter (fl_mirror B) false A r (axis_dir B)) as (r1 & La); try assumption.
  - apply axis_unit, HB.
  - split; [exact (proj1 (fl_mirror_ok B HB))|]. split; [left; reflexivity|exact I].
  - intros n E. discriminate.
  - cbn [fl_mirror s_frame] in La. exists r1. split; [exact La|]. split; [apply La|]. apply (mirror_step niter (fl_mirror B) false A r B r1 (fl_mirror_ok B HB) HA La).
Qed.
Lemma fl_corner niter : exists r2, through niter false global_frame fl_ray (map s_iface [fl_mirror fl_x; fl_mirror fl_y; fl_mirror global_frame]) global_frame r2.
Proof.
  assert (G : good_frame global_frame) by exact global_good.
  assert (V : global_dir global_frame (vel fl_ray) = V3 (-2/3) (-1/3) (-2/3)) by (apply vec3_eq; cbn; lra).
  destruct (fl_meets niter fl_x global_frame fl_ray G fl_x_good eq_refl) as (r1 & L1 & F1 & D1); [rewrite V, fl_x_axis; unfold dotR; cbn; lra|].
  rewrite V in D1. assert (E1 : image_dir fl_x (V3 (-2/3) (-1/3) (-2/3)) = V3 (2/3) (-1/3) (-2/3)) by (unfold image_dir; rewrite fl_x_axis; apply vec3_eq; unfold dotR; cbn; lra). rewrite E1 in D1.
  destruct (fl_meets niter fl_y fl_x r1 fl_x_good fl_y_good F1) as (r2 & L2 & F2 & D2); [rewrite D1, fl_y_axis; unfold dotR; cbn; lra|].
  rewrite D1 in D2. assert (E2 : image_dir fl_y (V3 (2/3) (-1/3) (-2/3)) = V3 (2/3) (1/3) (-2/3)) by (unfold image_dir; rewrite fl_y_axis; apply vec3_eq; unfold dotR; cbn; lra). rewrite E2 in D2.
  destruct (fl_meets niter global_frame fl_y r2 fl_y_good G F2) as (r3 & L3 & F3 & D3); [rewrite D2, fl_z_axis; unfold dotR; cbn; lra|].
  exists r3. cbn [map]. eapply through_cons; [exact L1|]. eapply through_cons; [exact L2|]. eapply through_cons; [exact L3|]. apply through_nil.
Qed.
(** A plate of glass, 1 thick, in air. *)
Definition fl_top : frame := CS (V3 0 0 1) eyeR.
Definition fl_face (B : frame) (n1 n2 : R) : sheet :=
  Sheet (mkIface KRefractive Plane "face" (Fcs B) None (ConstM (Fin n1)) (ConstM (Fin n2)) None None false) B.
Definition fl_plate : list sheet := [fl_face fl_top 1 (3/2); fl_face global_frame (3/2) 1].
Definition fl_light : ray R := Ray (V3 0 0 5) (V3 (3/5) 0 (-4/5)) 0 (1/2) 1 false false.
Lemma fl_top_good : good_frame fl_top.
Proof. unfold good_frame, orthonormal, dotR; cbn; lra. Qed.
Lemma fl_layers w s : In s fl_plate -> layer false w (V3 0 0 1) s.
Proof.
  intros [<-|[<-|[]]]; (split; [split; [reflexivity|split; [reflexivity|]]; [exact fl_top_good|..]|]); try exact global_good;
    (split; [left; apply vec3_eq; cbn; ring|]); cbn; eexists; (split; [reflexivity|lra]).
Qed.
Lemma fl_through niter : exists r2, through niter false global_frame fl_light (map s_iface fl_plate) global_frame r2 /\ index_of (vel r2) = index_of (vel fl_light).
Proof.
  assert (U : dotR (V3 0 0 1) (V3 0 0 1) = 1) by (unfold dotR; cbn; ring). assert (G : good_frame global_frame) by exact global_good.
  assert (I1 : index_of (vel fl_light) = 1).
  { apply len_of; [lra|]. unfold dotR; cbn; lra. }
  assert (S1 : slowness global_frame fl_light = V3 (3/5) 0 (-4/5)) by (unfold slowness; rewrite I1; apply vec3_eq; cbn; lra).
  assert (T1 : tangR (slowness global_frame fl_light) (V3 0 0 1) = V3 (3/5) 0 0) by (rewrite S1; unfold tangR; apply vec3_eq; unfold dotR; cbn; lra).
  pose proof (fl_layers (wavelength fl_light) _ (or_introl eq_refl)) as L1.
  destruct (layer_lands niter (fl_face fl_top 1 (3/2)) false global_frame fl_light (V3 0 0 1) U L1 G eq_refl) as (r1 & La1).
  { unfold dotR; cbn; lra. }
  { intros n _ E. rewrite T1. unfold index_after in E; cbn in E. injection E as <-. unfold dotR; cbn; lra. }
  destruct (layer_bends niter _ false _ _ _ r1 _ U L1 G La1) as (_ & W1 & T2 & N1 & P1 & X1). rewrite T1 in T2. unfold index_after in X1; cbn in X1. injection X1 as X1.
  cbn [fl_face s_frame] in *.
  pose proof (fl_layers (wavelength r1) _ (or_intror (or_introl eq_refl))) as L2.
  assert (Nz : dotR (global_dir fl_top (vel r1)) (V3 0 0 1) <> 0).
  { intros E. set (V := global_dir fl_top (vel r1)) in *. unfold slowness in T2. fold V in T2. rewrite <- X1 in T2.
    assert (LV : dotR (timesR (3/2) V) (timesR (3/2) V) = 1).
    { transitivity (9/4 * dotR V V); [unfold dotR; cbn; field|]. unfold V, global_dir. rewrite orth_dot by exact fl_top_good.
      unfold index_of in X1. pose proof (Rinv_inv (lenR (vel r1))) as Q. rewrite <- X1 in Q. assert (LL : lenR (vel r1) * lenR (vel r1) = dotR (vel r1) (vel r1)) by (apply sqrt_sqrt; unfold dotR; nra).
      rewrite <- LL, <- Q. field. }
    clear P1. clearbody V. destruct V as [a b c].
    pose proof (f_equal cx T2) as Hx. pose proof (f_equal cy T2) as Hy. cbv [tangR dotR minusR plusR timesR mulR cx cy cz] in Hx, Hy, E, LV.
    assert (X : a = 4/15) by lra. assert (Y : b = 0) by lra. assert (Z : c = 0) by lra. subst a b c. lra. }
  destruct (layer_lands niter (fl_face global_frame (3/2) 1) false fl_top r1 (V3 0 0 1) U L2 fl_top_good (proj1 (proj2 La1)) Nz) as (r2 & La2).
  { intros n _ E. rewrite T2. unfold index_after in E; cbn in E. injection E as <-. unfold dotR; cbn; lra. }
  destruct (layer_bends niter _ false _ _ _ r2 _ U L2 fl_top_good La2) as (_ & _ & _ & _ & _ & X2). unfold index_after in X2; cbn in X2. injection X2 as X2.
  exists r2. split; [|congruence]. cbn [fl_plate map]. eapply through_cons; [exact La1|]. eapply through_cons; [exact La2|]. apply through_nil.
Qed.
