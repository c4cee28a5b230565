(** A ball lens of index 25/16 and a ray towards its first aplanatic point. *)
From Coq Require Import Reals String List ZArith Bool Lra Psatz.
From Verif Require Import Num NumR Vec CoordSys Surface Medium Obscuration Ray Bundle Optic Spec OpticsSpec TreeSpec SurfSpec
  XRFacts CoordFacts RayFacts NormalFacts SurfMore RefractProofs OpticsProofs RootFacts IntersectProofs IntersectMore TreeProofs AxialTrace StigSpec StigProofs SamplesStig AplanSpec AplanProofs.
Import ListNotations.
Open Scope R_scope.

Lemma sphere_hits niter rad p v t0 t1 : let sh := ShSphere rad in
  coefA sh p v <> 0 -> coefB sh p v = - (coefA sh p v * (t0 + t1)) -> coefC sh p v = coefA sh p v * (t0 * t1) -> t0 * t1 <> 0 ->
  0 <= cz v * rad -> t0 < t1 -> hit (Sphere (Fin rad)) niter (F3 p) (F3 v) = (true, Fin t0).
Proof.
  intros sh HA HB HC HT HV HN. change (Sphere (Fin rad)) with (Fshape sh). unfold sh. rewrite hit_sphere. fold sh. unfold by_roots.
  set (a := coefA sh p v) in *.
  assert (C0 : a * (t0 * t1) <> 0) by (apply Rmult_integral_contrapositive; auto).
  destruct (roots_two a (coefB sh p v) (coefC sh p v)) as (x & y & -> & _ & _ & S & M); [exact HA| |rewrite HC; exact C0|].
  { unfold discR. rewrite HB, HC. replace (- (a * (t0 + t1)) * - (a * (t0 + t1)) - 4 * a * (a * (t0 * t1))) with ((a * (t0 - t1)) * (a * (t0 - t1))) by ring. apply Rle_0_sqr. }
  assert (Q : forall t, t = t0 \/ t = t1 -> t = x \/ t = y).
  { intros t H. apply (root_cases a (coefB sh p v) (coefC sh p v)); auto. unfold quad. rewrite HB, HC. destruct H as [-> | ->]; ring. }
  assert (XY : x + y = t0 + t1) by (apply (Rmult_eq_reg_l a); [rewrite S, HB; ring|exact HA]).
  f_equal. cbn [pick_root sh]. xunf. cbn [xmul]. rewrite xltb_f by lra. unfold nmin. xunf.
  destruct (Q t0 (or_introl eq_refl)) as [E|E].
  - assert (y = t1) by lra. subst x y. first [rewrite xltb_t by lra|rewrite xltb_f by lra]; reflexivity.
  - assert (x = t1) by lra. subst x y. first [rewrite xltb_t by lra|rewrite xltb_f by lra]; reflexivity.
Qed.
Definition ball : iface XR :=
  mkIface KRefractive (Sphere (Fin 5)) "ball" (Fcs global_frame) None (ConstM (Fin 1)) (ConstM (Fin (25/16))) None None false.
Definition ball_dir : vR := V3 (-16/65) 0 (63/65).
Definition ball_ray : ray R := Ray (V3 (211/65) 0 (2/65)) ball_dir 4 (1/2) 1 false false.
Lemma ball_ok : sphere_lens ball false global_frame 5 (1/2) (25/16).
Proof. split; [reflexivity|]. split; [reflexivity|]. split; [reflexivity|]. split; [exact global_good|]. split; [lra|]. split; [reflexivity|lra]. Qed.
Lemma ball_len : lenR ball_dir = 1.
Proof. unfold lenR, dotR, ball_dir; cbn. replace (-16/65*(-16/65)+0*0+63/65*(63/65)) with (1 * 1) by field. apply sqrt_square; lra. Qed.
Lemma ball_index : index_of (vel ball_ray) = 1.
Proof. unfold index_of. cbn [vel ball_ray]. rewrite ball_len. field. Qed.
Lemma ball_lands niter : exists r1, lands niter ball false global_frame ball_ray global_frame r1 /\
  passes global_frame ball_ray (4 + 1 + 195/16) (beyond_centre global_frame 5 (25/16 / index_of (vel ball_ray))) /\
  passes global_frame r1 (4 + 1 + 195/16) (beyond_centre global_frame 5 (index_of (vel ball_ray) / (25/16))).
Proof.
  assert (P : chg_pt global_frame global_frame (pos ball_ray) = V3 (211/65) 0 (2/65)) by (apply vec3_eq; cbn; ring).
  assert (V : chg_vec global_frame global_frame (vel ball_ray) = ball_dir) by (apply vec3_eq; cbn; ring).
  destruct (lens_lands niter ball false global_frame global_frame ball_ray (Sphere 5) _ _ 1 (V3 3 0 1) (25/16) eq_refl eq_refl eq_refl eq_refl eq_refl ltac:(lra) P V) as (r1 & La & T).
  - intros E. apply (f_equal cz) in E. cbn in E. lra.
  - cbn [Fsurf]. apply (sphere_hits niter _ _ _ _ (133/13)); unfold coefA, coefB, coefC, ball_dir; cbn [cx cy cz]; lra.
  - apply vec3_eq; cbn; field.
  - intros m Hm. unfold unitR, index_of. rewrite ball_len. destruct (normal_unit _ _ _ _ Hm) as (U & _). unfold sin2R.
    set (x := dotR _ m). assert (0 <= x * x) by nra. replace (/ 1 / (25 / 16) * (/ 1 / (25 / 16))) with (256/625) by field. lra.
  - exact I.
  - right. cbn. lra.
  - apply (on_sag_iff (ShSphere 5)); cbn; lra.
  - assert (Pa : passes global_frame ball_ray (4 + 1 + 195/16) (beyond_centre global_frame 5 (25/16 / index_of (vel ball_ray)))).
    { rewrite ball_index. apply vec3_eq; cbn; field. }
    exists r1. split; [exact La|]. split; [exact Pa|].
    exact (aplanatic niter ball false _ _ _ _ 5 (25/16) _ ball_ok global_good La Pa).
Qed.
(** A ray towards the centre. *)
Definition radial_dir : vR := V3 (-3/5) 0 (4/5).
Definition radial_ray : ray R := Ray (V3 (18/5) 0 (1/5)) radial_dir 4 (1/2) 1 false false.
Lemma radial_len : lenR radial_dir = 1.
Proof. unfold lenR, dotR, radial_dir; cbn. replace (-3/5*(-3/5)+0*0+4/5*(4/5)) with (1 * 1) by field. apply sqrt_square; lra. Qed.
Lemma radial_lands niter : exists r1, lands niter ball false global_frame radial_ray global_frame r1 /\
  passes global_frame radial_ray 10 (beyond_centre global_frame 5 0).
Proof.
  assert (P : chg_pt global_frame global_frame (pos radial_ray) = V3 (18/5) 0 (1/5)) by (apply vec3_eq; cbn; ring).
  assert (V : chg_vec global_frame global_frame (vel radial_ray) = radial_dir) by (apply vec3_eq; cbn; ring).
  destruct (lens_lands niter ball false global_frame global_frame radial_ray (Sphere 5) _ _ 1 (V3 3 0 1) (25/16) eq_refl eq_refl eq_refl eq_refl eq_refl ltac:(lra) P V) as (r1 & La & T).
  - intros E. apply (f_equal cz) in E. cbn in E. lra.
  - cbn [Fsurf]. apply (sphere_hits niter _ _ _ _ 11); unfold coefA, coefB, coefC, radial_dir; cbn [cx cy cz]; lra.
  - apply vec3_eq; cbn; field.
  - intros m Hm. unfold unitR, index_of. rewrite radial_len. destruct (normal_unit _ _ _ _ Hm) as (U & _). unfold sin2R.
    set (x := dotR _ m). assert (0 <= x * x) by nra. replace (/ 1 / (25 / 16) * (/ 1 / (25 / 16))) with (256/625) by field. lra.
  - exact I.
  - right. cbn. lra.
  - apply (on_sag_iff (ShSphere 5)); cbn; lra.
  - exists r1. split; [exact La|]. apply vec3_eq; cbn; field.
Qed.
