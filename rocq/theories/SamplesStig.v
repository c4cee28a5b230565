(** An ellipsoidal mirror, a lens surface, and a two-mirror telescope. *)
From Coq Require Import Reals String List ZArith Bool Lra Psatz.
From Verif Require Import Num NumR Vec CoordSys Surface Medium Obscuration Ray Bundle Optic Spec OpticsSpec TreeSpec SurfSpec
  XRFacts CoordFacts RayFacts NormalFacts SurfMore RefractProofs OpticsProofs RootFacts IntersectProofs IntersectMore TreeProofs AxialTrace StigSpec StigProofs.
Import ListNotations.
Open Scope R_scope.

(** The nearer of the two crossings. *)
Lemma quadric_hits niter rad k p v t0 t1 : 1 + k <> 0 -> let sh := ShQuadric rad k in
  coefA sh p v <> 0 -> coefB sh p v = - (coefA sh p v * (t0 + t1)) -> coefC sh p v = coefA sh p v * (t0 * t1) -> t0 * t1 <> 0 ->
  Rabs (cz p + cz v * t0) < Rabs (cz p + cz v * t1) -> hit (Quadric (Fin rad) (Fin k)) niter (F3 p) (F3 v) = (true, Fin t0).
Proof.
  intros Hk sh HA HB HC HT HN. change (Quadric (Fin rad) (Fin k)) with (Fshape sh). unfold sh. rewrite hit_quadric by exact Hk. fold sh. unfold by_roots.
  set (a := coefA sh p v) in *. 
  assert (C0 : a * (t0 * t1) <> 0) by (apply Rmult_integral_contrapositive; auto).
  destruct (roots_two a (coefB sh p v) (coefC sh p v)) as (x & y & -> & _ & _ & S & M); [exact HA| |rewrite HC; exact C0|].
  { unfold discR. rewrite HB, HC. replace (- (a * (t0 + t1)) * - (a * (t0 + t1)) - 4 * a * (a * (t0 * t1))) with ((a * (t0 - t1)) * (a * (t0 - t1))) by ring. apply Rle_0_sqr. }
  assert (Q : forall t, t = t0 \/ t = t1 -> t = x \/ t = y).
  { intros t H. apply (root_cases a (coefB sh p v) (coefC sh p v)); auto. unfold quad. rewrite HB, HC. destruct H as [-> | ->]; ring. }
  assert (XY : x + y = t0 + t1) by (apply (Rmult_eq_reg_l a); [rewrite S, HB; ring|exact HA]).
  f_equal. cbn [pick_root sh xmul xadd xabs xltb]. destruct (Q t0 (or_introl eq_refl)) as [E|E].
  - assert (y = t1) by lra. subst x y. destruct (Rlt_dec _ _); [reflexivity|contradiction].
  - assert (x = t1) by lra. subst x y. destruct (Rlt_dec _ _); [lra|reflexivity].
Qed.
Ltac crunch := unfold coefA, coefB, coefC; cbn [cx cy cz];
  first [match goal with |- Rabs _ < Rabs _ => rewrite !Rabs_right; lra end | lra | field; lra
        |apply Rgt_not_eq; unfold Rdiv; try replace (- (1 * / 2 * (1 * / 2)) + 1) with (3 * / 4) by field; try replace (- (2 * / 3 * (2 * / 3)) + 1) with (5 * / 9) by field; rewrite ?Rinv_mult, ?Rinv_inv; lra].
Lemma mirror_lands niter i b A B r s p v u q : i_kind i = KMirror -> i_surf i = Fsurf s -> i_cs i = Fcs B -> failed r = false ->
  chg_pt A B (pos r) = p -> chg_vec A B (vel r) = v -> hit (Fsurf s) niter (F3 p) (F3 v) = (true, Fin u) -> plusR p (timesR u v) = q ->
  smooth s -> regular s (cx q) (cy q) -> on_sag (Fsurf s) q ->
  exists r1 m, lands niter i b A r B r1 /\ pos r1 = q /\ time r1 = time r + u /\ vel r1 = reflR v m /\ normal (Fsurf s) (Fin (cx q)) (Fin (cy q)) = F3 m.
Proof.
  intros Ki Si Ci F P V Hh Q Sm Rg On. destruct (normals_exist s _ _ Sm Rg) as (m & Hm).
  eexists _, m. split; [|cbn].
  - split; [apply (iface_do niter i b A B r u (reflR v m)); [rewrite Ki; discriminate|exact Ci|exact F| |]|].
    + rewrite P, V, Si. exact Hh.
    + unfold bends. rewrite Ki, Si, P, V, Q. eauto.
    + split; [reflexivity|]. rewrite Si. unfold after. cbn [pos]. rewrite P, V, Q. exact On.
  - unfold after. cbn [pos vel time]. rewrite P, V, Q. auto.
Qed.
(** The ellipsoid with radius 3 and eccentricity 1/2, lit from its near focus. *)
Definition st_mirror : iface XR :=
  mkIface KMirror (Quadric (Fin 3) (Fin (- (1/2 * (1/2))))) "ellipsoid" (Fcs global_frame) None (ConstM (Fin 1)) (ConstM (Fin 1)) None None false.
Definition st_ray : ray R := Ray (V3 0 0 2) (V3 (4/5) 0 (-3/5)) 7 (1/2) 1 false false.
Lemma global_good : good_frame global_frame.
Proof. unfold good_frame, orthonormal, dotR; cbn; lra. Qed.
Lemma st_mirror_ok : conic_mirror st_mirror global_frame 3 (1/2).
Proof. split; [reflexivity|]. split; [reflexivity|]. split; [reflexivity|]. split; [exact global_good|]. lra. Qed.
Lemma st_lands niter : exists r1, lands niter st_mirror false global_frame st_ray global_frame r1 /\ passes global_frame st_ray 7 (near_focus global_frame 3 (1/2)) /\
  7 < time r1 /\ passes global_frame r1 15 (far_focus global_frame 3 (1/2)).
Proof.
  assert (P : chg_pt global_frame global_frame (pos st_ray) = V3 0 0 2) by (apply vec3_eq; cbn; ring).
  assert (V : chg_vec global_frame global_frame (vel st_ray) = V3 (4/5) 0 (-3/5)) by (apply vec3_eq; cbn; ring).
  destruct (mirror_lands niter st_mirror false global_frame global_frame st_ray (Quadric 3 (- (1/2 * (1/2)))) _ _ (30/13) (V3 (24/13) 0 (8/13)) eq_refl eq_refl eq_refl eq_refl P V) as (r1 & m & La & _ & T & _).
  - cbn [Fsurf]. apply (quadric_hits niter _ _ _ _ _ (-30/7)); crunch.
  - apply vec3_eq; cbn; field.
  - exact I.
  - right. cbn. lra.
  - apply (on_sag_iff (ShQuadric 3 (- (1/2 * (1/2))))); cbn; lra.
  - assert (Pa : passes global_frame st_ray 7 (near_focus global_frame 3 (1/2))) by (apply vec3_eq; cbn; field).
    exists r1. split; [exact La|]. split; [exact Pa|]. cbn in T.
    destruct (conic_near niter _ false _ _ _ _ _ _ 7 st_mirror_ok global_good La Pa) as [(A & B)|(A & _)]; [|lra]. split; [exact A|].
    assert (L : lenR (vel st_ray) = 1) by (unfold lenR, dotR; cbn; replace (4/5*(4/5)+0*0+-3/5*(-3/5)) with (1*1) by field; apply sqrt_square; lra).
    unfold index_of in B. rewrite L, Rabs_right in B by lra. replace (7 + / 1 * (2 * 3 / (1 - 1 / 2 * (1 / 2)))) with 15 in B by field. exact B.
Qed.
(** From air into glass through the ellipsoid of radius 1 and eccentricity 2/3. *)
Definition st_lens : iface XR :=
  mkIface KRefractive (Quadric (Fin 1) (Fin (- (2/3 * (2/3))))) "lens" (Fcs global_frame) None (ConstM (Fin 1)) (ConstM (Fin (3/2))) None None false.
Definition st_parallel : ray R := Ray (V3 (9/7) 0 (-1)) (V3 0 0 1) 4 (1/2) 1 false false.
Definition st_source : ray R := Ray (V3 0 0 3) (V3 (2/5) 0 (-8/15)) 4 (1/2) 1 false false.
Lemma st_lens_ok : conic_lens st_lens false global_frame 1 (2/3) (1/2) (3/2) /\ conic_lens st_lens true global_frame 1 (2/3) (1/2) 1.
Proof. split; (split; [reflexivity|]; split; [reflexivity|]; split; [reflexivity|]; split; [exact global_good|]; repeat (split; [lra|]); split; [reflexivity|lra]). Qed.
Lemma lens_lands niter i (b : bool) A B r s p v u q n : i_kind i = KRefractive -> i_surf i = Fsurf s -> i_cs i = Fcs B -> failed r = false ->
  getN (if b then i_in i else i_out i) (Fin (wavelength r)) = Fin n -> n <> 0 ->
  chg_pt A B (pos r) = p -> chg_vec A B (vel r) = v -> v <> zeroR -> hit (Fsurf s) niter (F3 p) (F3 v) = (true, Fin u) -> plusR p (timesR u v) = q ->
  (forall m, normal (Fsurf s) (Fin (cx q)) (Fin (cy q)) = F3 m -> sin2R (unitR v) m (index_of v) n <= 1) ->
  smooth s -> regular s (cx q) (cy q) -> on_sag (Fsurf s) q ->
  exists r1, lands niter i b A r B r1 /\ time r1 = time r + u.
Proof.
  intros Ki Si Ci F Hn N0 P V Vz Hh Q S2 Sm Rg On. destruct (normals_exist s _ _ Sm Rg) as (m & Hm).
  exists (after (chg_pt A B (pos r)) (chg_vec A B (vel r)) u (refrR (unitR v) m (index_of v) n) i r). split; [|reflexivity].
  split; [apply (iface_do niter i b A B r u (refrR (unitR v) m (index_of v) n)); [rewrite Ki; discriminate|exact Ci|exact F| |]|].
  + rewrite P, V, Si. exact Hh.
  + unfold bends. rewrite Ki, Si, P, V, Q, Hn. exists m. split; [exact Hm|]. split; [exact Vz|]. left. exists n. auto.
  + split; [reflexivity|]. rewrite Si. unfold after. cbn [pos]. rewrite P, V, Q. exact On.
Qed.
Lemma st_parallel_len : lenR (V3 0 0 1) = 1.
Proof. rewrite len_axis. apply Rabs_right. lra. Qed.
Lemma st_source_len : lenR (V3 (2/5) 0 (-8/15)) = 2/3.
Proof. unfold lenR, dotR; cbn. replace (2/5*(2/5)+0*0+-8/15*(-8/15)) with (2/3 * (2/3)) by field. apply sqrt_square; lra. Qed.
Lemma st_focusing niter : exists r1, lands niter st_lens false global_frame st_parallel global_frame r1 /\ vel_in global_frame global_frame st_parallel = V3 0 0 1 /\
  index_of (vel st_parallel) = 2/3 * (3/2) /\ passes global_frame r1 (19/2) (far_focus global_frame 1 (2/3)).
Proof.
  assert (P : chg_pt global_frame global_frame (pos st_parallel) = V3 (9/7) 0 (-1)) by (apply vec3_eq; cbn; ring).
  assert (V : chg_vec global_frame global_frame (vel st_parallel) = V3 0 0 1) by (apply vec3_eq; cbn; ring).
  assert (Ix : index_of (vel st_parallel) = 2/3 * (3/2)) by (unfold index_of; cbn [vel st_parallel]; rewrite st_parallel_len; field).
  destruct (lens_lands niter st_lens false global_frame global_frame st_parallel (Quadric 1 (- (2/3 * (2/3)))) _ _ (16/7) (V3 (9/7) 0 (9/7)) (3/2) eq_refl eq_refl eq_refl eq_refl eq_refl ltac:(lra) P V) as (r1 & La & T).
  - intros E. apply (f_equal cz) in E. cbn in E. lra.
  - cbn [Fsurf]. apply (quadric_hits niter _ _ _ _ _ (116/35)); crunch.
  - apply vec3_eq; cbn; field.
  - intros m Hm. unfold unitR, index_of. rewrite st_parallel_len. destruct (normal_unit _ _ _ _ Hm) as (U & _). unfold sin2R. 
    set (x := dotR _ m). assert (0 <= x * x) by nra. replace (/ 1 / (3 / 2) * (/ 1 / (3 / 2))) with (4/9) by field. lra.
  - exact I.
  - right. cbn. lra.
  - apply (on_sag_iff (ShQuadric 1 (- (2/3 * (2/3))))); cbn; lra.
  - assert (Vi : vel_in global_frame global_frame st_parallel = V3 0 0 1) by (apply vec3_eq; cbn; ring).
    exists r1. split; [exact La|]. split; [exact Vi|]. split; [exact Ix|].
    pose proof (conic_focusing niter st_lens false _ _ _ _ 1 (2/3) (3/2) _ 1 (proj1 st_lens_ok) global_good La Vi eq_refl Ix) as H.
    eapply (eq_ind _ (fun x => passes _ _ x _)); [exact H|]. rewrite Rabs_right by lra. cbn. field.
Qed.
Lemma st_collimating niter : exists r1, lands niter st_lens true global_frame st_source global_frame r1 /\ passes global_frame st_source 4 (far_focus global_frame 1 (2/3)) /\
  1 = 2/3 * index_of (vel st_source) /\ 4 < time r1 /\ vel r1 = V3 0 0 (-1).
Proof.
  assert (P : chg_pt global_frame global_frame (pos st_source) = V3 0 0 3) by (apply vec3_eq; cbn; ring).
  assert (V : chg_vec global_frame global_frame (vel st_source) = V3 (2/5) 0 (-8/15)) by (apply vec3_eq; cbn; ring).
  assert (Ix : 1 = 2/3 * index_of (vel st_source)) by (unfold index_of; cbn [vel st_source]; rewrite st_source_len; field).
  destruct (lens_lands niter st_lens true global_frame global_frame st_source (Quadric 1 (- (2/3 * (2/3)))) _ _ (45/14) (V3 (9/7) 0 (9/7)) 1 eq_refl eq_refl eq_refl eq_refl eq_refl ltac:(lra) P V) as (r1 & La & T).
  - intros E. apply (f_equal cz) in E. cbn in E. lra.
  - cbn [Fsurf]. apply (quadric_hits niter _ _ _ _ _ (-45/46)); crunch.
  - apply vec3_eq; cbn; field.
  - intros m Hm. unfold unitR, index_of. rewrite st_source_len. destruct (normal_unit _ _ _ _ Hm) as (U & _).
    destruct (conic_normal 1 (- (2/3 * (2/3))) (V3 (9/7) 0 (9/7)) ltac:(lra) ltac:(lra)) with (m := m) as (c & -> & _); [apply (on_sag_iff (ShQuadric 1 (- (2/3 * (2/3))))); cbn; lra|exact Hm|].
    unfold sin2R, dotR in *. cbn in *. lra.
  - exact I.
  - right. cbn. lra.
  - apply (on_sag_iff (ShQuadric 1 (- (2/3 * (2/3))))); cbn; lra.
  - assert (Pa : passes global_frame st_source 4 (far_focus global_frame 1 (2/3))) by (apply vec3_eq; cbn; field).
    exists r1. split; [exact La|]. split; [exact Pa|]. split; [exact Ix|]. cbn in T.
    destruct (conic_collimating niter st_lens true _ _ _ _ 1 (2/3) 1 4 (proj2 st_lens_ok) global_good La Pa Ix) as [(A & B & _)|(A & _)]; [|lra]. split; [exact A|].
    rewrite B. rewrite Rabs_right by lra. f_equal. field.
Qed.
(** A Cassegrain telescope: a paraboloid of radius 20 and, 8 above it, a hyperboloid of radius 6 and eccentricity 2. *)
Definition st_top : frame := CS (V3 0 0 8) eyeR.
Definition st_primary : iface XR :=
  mkIface KMirror (Paraboloid (Fin 20)) "primary" (Fcs global_frame) None (ConstM (Fin 1)) (ConstM (Fin 1)) None None false.
Definition st_secondary : iface XR :=
  mkIface KMirror (Quadric (Fin 6) (Fin (- (2 * 2)))) "secondary" (Fcs st_top) None (ConstM (Fin 1)) (ConstM (Fin 1)) None None false.
Definition st_starlight : ray R := Ray (V3 10 0 5) (V3 0 0 (-1)) 0 (1/2) 1 false false.
Definition st_leg : leg := Leg st_secondary st_top 6 2 false.
Lemma top_good : good_frame st_top.
Proof. unfold good_frame, orthonormal, dotR; cbn; lra. Qed.
Lemma st_pair_ok : paraboloid_mirror st_primary global_frame 20 /\ conic_mirror st_secondary st_top 6 2.
Proof.
  split; (split; [reflexivity|]; split; [reflexivity|]; split; [reflexivity|]); [split; [exact global_good|lra]|split; [exact top_good|lra]].
Qed.
Lemma st_confocal : near_focus st_top 6 2 = axis_point global_frame (20 / 2).
Proof. apply vec3_eq; cbn; field. Qed.
Lemma st_telescope niter : exists r1 r2, lands niter st_primary false global_frame st_starlight global_frame r1 /\ lands niter st_secondary false global_frame r1 st_top r2 /\
  vel_in global_frame global_frame st_starlight = V3 0 0 (-1) /\
  time r2 < 15 /\ passes st_top r2 19 (far_focus st_top 6 2).
Proof.
  assert (P : chg_pt global_frame global_frame (pos st_starlight) = V3 10 0 5) by (apply vec3_eq; cbn; ring).
  assert (V : chg_vec global_frame global_frame (vel st_starlight) = V3 0 0 (-1)) by (apply vec3_eq; cbn; ring).
  destruct (mirror_lands niter st_primary false global_frame global_frame st_starlight (Paraboloid 20) _ _ (5/2) (V3 10 0 (5/2)) eq_refl eq_refl eq_refl eq_refl P V) as (r1 & m & La & Q1 & T1 & V1 & Hm).
  - change (Fsurf (Paraboloid 20)) with (Fshape (ShParaboloid 20)). rewrite hit_paraboloid by lra. unfold coefA, coefB, coefC; cbn [cx cy cz].
    destruct (Req_EM_T _ 0) as [E|E]; [|exfalso; apply E; field]. f_equal. apply xdiv_fin_eq; lra.
  - apply vec3_eq; cbn; field.
  - exact I.
  - exact I.
  - apply (on_sag_iff (ShParaboloid 20)); cbn; lra.
  - assert (Vr : vel r1 = V3 (-4/5) 0 (3/5)).
    { rewrite V1. destruct (para_normal 20 (V3 10 0 (5/2)) ltac:(lra) m Hm) as (c & Em). destruct (normal_unit _ _ _ _ Hm) as (U & _).
      apply (refl_char _ _ m (V3 (-(10)) (-0) 20) c (-2/25)); [unfold dotR; cbn; field|apply vec3_eq; cbn; field|lra|exact Em|exact U]. }
    assert (P2 : chg_pt global_frame st_top (pos r1) = V3 10 0 (-11/2)) by (rewrite Q1; apply vec3_eq; cbn; field).
    assert (V2 : chg_vec global_frame st_top (vel r1) = V3 (-4/5) 0 (3/5)) by (rewrite Vr; apply vec3_eq; cbn; ring).
    destruct (mirror_lands niter st_secondary false global_frame st_top r1 (Quadric 6 (- (2 * 2))) _ _ (215/22) (V3 (24/11) 0 (4/11)) eq_refl eq_refl eq_refl (proj1 (proj2 La)) P2 V2) as (r2 & m2 & Lb & _ & T2 & _).
    + cbn [Fsurf]. apply (quadric_hits niter _ _ _ _ _ (-35/2)); unfold coefA, coefB, coefC; cbn [cx cy cz]; try (field; lra); try lra.
      * apply Rgt_not_eq. replace (- (2 * 2) + 1) with (-3) by ring. lra.
      * rewrite (Rabs_right (_ + _ * (215/22))), Rabs_left; lra.
    + apply vec3_eq; cbn; field.
    + exact I.
    + right. cbn. lra.
    + apply (on_sag_iff (ShQuadric 6 (- (2 * 2)))); cbn; lra.
    + assert (Vi : vel_in global_frame global_frame st_starlight = V3 0 0 (-1)) by (apply vec3_eq; cbn; ring).
      exists r1, r2. split; [exact La|]. split; [exact Lb|]. split; [exact Vi|]. cbn in T1.
      destruct (two_mirrors niter false _ _ _ _ _ _ _ _ _ _ _ _ _ _ (-1) (proj1 st_pair_ok) (proj2 st_pair_ok) global_good st_confocal La Lb Vi ltac:(lra) eq_refl) as (_ & [(A & _)|(A & B)]); cbn [pos_in] in *.
      * exfalso. cbn in A. lra.
      * cbn in A. split; [lra|]. assert (L : lenR (vel st_starlight) = 1) by (cbn [vel st_starlight]; rewrite len_axis, Rabs_left; lra).
        eapply (eq_ind _ (fun x => passes _ _ x _)); [exact B|]. unfold index_of. rewrite L, Rabs_right by lra. cbn. field.
Qed.
