(** A ball of index 25/16 with a concentric core of index 2. *)
From Coq Require Import Reals String List ZArith Bool Lra Psatz.
From Verif Require Import Num NumR Vec CoordSys Surface Medium Obscuration Ray Bundle Optic Spec OpticsSpec TreeSpec SurfSpec
  XRFacts CoordFacts RayFacts NormalFacts SurfMore RefractProofs OpticsProofs RootFacts IntersectProofs IntersectMore TreeProofs AxialTrace StigSpec StigProofs SamplesStig AplanSpec AplanProofs SamplesAplan FlatSpec FlatProofs BallSpec BallProofs.
Import ListNotations.
Open Scope R_scope.

Definition core_frame : frame := CS (V3 0 0 (31/13)) eyeR.
Definition core : iface XR :=
  mkIface KRefractive (Sphere (Fin (34/13))) "core" (Fcs core_frame) None (ConstM (Fin (25/16))) (ConstM (Fin 2)) None None false.
Definition onion : list sheet := [Sheet ball global_frame; Sheet core core_frame].
Lemma core_good : good_frame core_frame.
Proof. unfold good_frame, orthonormal, dotR; cbn; lra. Qed.
Lemma onion_shells w s : In s onion -> shell false w (V3 0 0 5) s.
Proof.
  intros [<-|[<-|[]]]; (split; [|split; [reflexivity|split; [first [exact global_good|exact core_good]|cbn; eexists; split; [reflexivity|lra]]]]).
  - exists 5. split; [lra|]. split; [reflexivity|]. apply vec3_eq; cbn; ring.
  - exists (34/13). split; [lra|]. split; [reflexivity|]. apply vec3_eq; cbn; field.
Qed.
Definition core_dir : vR := V3 (-16/65) 0 (192/325).
Lemma core_len : lenR core_dir = 16/25.
Proof. unfold lenR, dotR, core_dir; cbn. replace (-16/65*(-16/65)+0*0+192/325*(192/325)) with (16/25 * (16/25)) by field. apply sqrt_square; lra. Qed.
Lemma onion_through niter : exists r2, through niter false global_frame ball_ray (map s_iface onion) core_frame r2.
Proof.
  assert (P : chg_pt global_frame global_frame (pos ball_ray) = V3 (211/65) 0 (2/65)) by (apply vec3_eq; cbn; ring).
  assert (V : chg_vec global_frame global_frame (vel ball_ray) = ball_dir) by (apply vec3_eq; cbn; ring).
  destruct (lens_lands niter ball false global_frame global_frame ball_ray (Sphere 5) _ _ 1 (V3 3 0 1) (25/16) eq_refl eq_refl eq_refl eq_refl eq_refl ltac:(lra) P V) as (r1 & La & T).
  { intros E. apply (f_equal cz) in E. cbn in E. lra. }
  { cbn [Fsurf]. apply (sphere_hits niter _ _ _ _ (133/13)); unfold coefA, coefB, coefC, ball_dir; cbn [cx cy cz]; lra. }
  { apply vec3_eq; cbn; field. }
  { intros m Hm. unfold unitR, index_of. rewrite ball_len. destruct (normal_unit _ _ _ _ Hm) as (U & _). unfold sin2R.
    set (x := dotR _ m). assert (0 <= x * x) by nra. replace (/ 1 / (25 / 16) * (/ 1 / (25 / 16))) with (256/625) by field. lra. }
  { exact I. }
  { right. cbn. lra. }
  { apply (on_sag_iff (ShSphere 5)); cbn; lra. }
  assert (Pa : passes global_frame ball_ray (4 + 1 + 195/16) (beyond_centre global_frame 5 (25/16 / index_of (vel ball_ray)))).
  { rewrite ball_index. apply vec3_eq; cbn; field. }
  pose proof (aplanatic niter ball false _ _ _ _ 5 (25/16) _ ball_ok global_good La Pa) as P2.
  destruct (lands_inv niter ball false _ ball_ray global_frame r1 ltac:(discriminate) eq_refl La) as (u & v' & _ & Ep & _ & Et & Ew).
  rewrite P, V in Ep. assert (u = 1) by lra. subst u.
  assert (E1 : pos r1 = V3 3 0 1) by (rewrite Ep; apply vec3_eq; cbn; field).
  assert (E2 : vel r1 = core_dir).
  { unfold passes in P2. rewrite ball_index, T, E1 in P2. cbn [time ball_ray] in P2. destruct (vel r1) as [a b c].
    pose proof (f_equal cx P2) as X. pose proof (f_equal cy P2) as Y. pose proof (f_equal cz P2) as Z. cbn in X, Y, Z. unfold core_dir. apply vec3_eq; cbn; lra. }
  assert (P' : chg_pt global_frame core_frame (pos r1) = V3 3 0 (-18/13)) by (rewrite E1; apply vec3_eq; cbn; field).
  assert (V' : chg_vec global_frame core_frame (vel r1) = core_dir) by (rewrite E2; apply vec3_eq; cbn; ring).
  destruct (lens_lands niter core false global_frame core_frame r1 (Sphere (34/13)) _ _ (825/208) (V3 (342/169) 0 (162/169)) 2 eq_refl eq_refl eq_refl (proj1 (proj2 La)) eq_refl ltac:(lra) P' V') as (r2 & La2 & _).
  { intros E. apply (f_equal cz) in E. cbn in E. lra. }
  { cbn [Fsurf]. apply (sphere_hits niter _ _ _ _ (2325/208)); unfold coefA, coefB, coefC, core_dir; cbn [cx cy cz]; lra. }
  { apply vec3_eq; cbn; field. }
  { intros m Hm. unfold unitR, index_of. rewrite core_len. destruct (normal_unit _ _ _ _ Hm) as (U & _). unfold sin2R.
    set (x := dotR _ m). assert (0 <= x * x) by nra. replace (/ (16/25) / 2 * (/ (16/25) / 2)) with (625/1024) by field. lra. }
  { exact I. }
  { right. cbn. lra. }
  { apply (on_sag_iff (ShSphere (34/13))); cbn; lra. }
  exists r2. cbn [onion map s_iface]. eapply through_cons; [exact La|]. eapply through_cons; [exact La2|]. apply through_nil.
Qed.
Lemma onion_moment : moment (V3 0 0 5) global_frame ball_ray <> zeroR.
Proof. intros E. apply (f_equal cy) in E. unfold moment, slowness in E. rewrite ball_index in E. cbn in E. lra. Qed.
