(** Proofs about flat mirrors and plates. *)
From Coq Require Import Reals List ZArith Bool Lra Psatz.
From Verif Require Import Num NumR Vec CoordSys Surface Medium Obscuration Ray Bundle Optic Spec OpticsSpec XRFacts CoordFacts
  RayFacts NormalFacts RefractProofs OpticsProofs RootFacts IntersectProofs IntersectMore TreeSpec TreeProofs AnalysisProofs AnalysisFocus MoveProofs AxialProofs AxialTrace StigSpec StigProofs FlatSpec.
Import ListNotations.
Open Scope R_scope.

Definition flipz (v : vR) : vR := V3 (cx v) (cy v) (- cz v).
Lemma axis_unit B : good_frame B -> dotR (axis_dir B) (axis_dir B) = 1.
Proof. intros H. unfold axis_dir, global_dir. rewrite orth_dot by exact H. unfold dotR; cbn; ring. Qed.
Lemma axis_dot B v : good_frame B -> dotR (global_dir B v) (axis_dir B) = cz v.
Proof. intros H. unfold axis_dir, global_dir. rewrite orth_dot by exact H. unfold dotR; cbn; ring. Qed.
Lemma image_dir_local B v : good_frame B -> image_dir B (global_dir B v) = global_dir B (flipz v).
Proof.
  intros H. unfold image_dir. rewrite axis_dot by exact H. unfold axis_dir, global_dir, flipz. destruct v as [x y z]. unfold applyR. apply vec3_eq; cbn; ring.
Qed.
Lemma image_point_local B p : good_frame B -> image_point B (global_point B p) = global_point B (flipz p).
Proof.
  intros H. unfold image_point. replace (minusR (global_point B p) (origin B)) with (global_dir B p) by (unfold global_point, global_dir; apply vec3_eq; cbn; ring).
  rewrite axis_dot by exact H. unfold axis_dir, global_dir, global_point, flipz. destruct p as [x y z]. unfold applyR. apply vec3_eq; cbn; ring.
Qed.
Lemma plane_normal x y : normal (T := XR) Plane x y = F3 (V3 0 0 1).
Proof. reflexivity. Qed.
Lemma refl_axis v : reflR v (V3 0 0 1) = flipz v.
Proof. unfold reflR, flipz. apply vec3_eq; unfold dotR; cbn; ring. Qed.
(** What landing on a flat surface means. *)
Lemma flat_lands niter s b A r C r1 : flat s -> (forall k, i_kind (s_iface s) <> KScreen k) -> lands niter (s_iface s) b A r C r1 ->
  C = s_frame s /\ exists u v', let v := chg_vec A (s_frame s) (vel r) in
    cz v <> 0 /\ cz (pos r1) = 0 /\ bends (s_iface s) b (wavelength r) (pos r1) v v' /\
    pos r1 = plusR (chg_pt A (s_frame s) (pos r)) (timesR u v) /\ vel r1 = v' /\ time r1 = time r + u /\ wavelength r1 = wavelength r.
Proof.
  intros (Hs & Hc & HB) Hk La. pose proof (lands_frame niter _ b A r C r1 _ Hc Hk La) as ->. split; [reflexivity|].
  destruct La as (E & F & On). rewrite Hs in On. unfold on_sag in On. cbn [sag] in On. injection On as On.
  destruct (iface_inv niter _ b A _ (Fray r) r1 _ Hk Hc E F) as (r0 & u & v' & Er & F0 & H). apply Fray_inj in Er. subst r0. cbv zeta in H.
  destruct H as (Hh & Hb & ->). exists u, v'. cbv zeta. rewrite Hs in Hh. change (@Plane XR) with (Fshape ShPlane) in Hh. rewrite hit_plane in Hh.
  destruct (Req_EM_T _ 0) as [|N]; [discriminate|]. split; [exact N|]. split; [symmetry; exact On|]. unfold after; cbn. repeat split; try exact Hb; reflexivity.
Qed.
(** The mirror step. *)
Lemma mirror_step niter s b A r C r1 : flat_mirror s -> good_frame A -> lands niter (s_iface s) b A r C r1 ->
  C = s_frame s /\ (forall t g, passes A r t g -> passes C r1 t (image_point (s_frame s) g)) /\
  global_dir C (vel r1) = image_dir (s_frame s) (global_dir A (vel r)).
Proof.
  intros (Hf & Hk) HA La. assert (HB : good_frame (s_frame s)) by apply Hf. destruct (flat_lands niter s b A r C r1 Hf ltac:(rewrite Hk; discriminate) La) as (-> & u & v' & H). cbv zeta in H.
  destruct H as (_ & Z & Hb & Ep & Ev & Et & _). split; [reflexivity|]. set (B := s_frame s) in *. set (v := chg_vec A B (vel r)) in *.
  unfold bends in Hb. rewrite Hk in Hb. destruct Hb as (m & Hm & ->). destruct Hf as (Hs & _). rewrite Hs in Hm. rewrite plane_normal in Hm. apply F3_inj in Hm. subst m. rewrite refl_axis in Ev.
  split.
  - intros t g Pa. unfold passes in *.
    assert (G : g = global_point B (plusR (pos r1) (timesR (t - time r1) v))).
    { rewrite <- Pa, Et, Ep. rewrite <- (chg_pt_global A B (pos r)) by assumption. rewrite <- (chg_vec_global A B (vel r)) by assumption. fold v.
      unfold global_point, global_dir, applyR. apply vec3_eq; cbn; ring. }
    rewrite G, image_point_local by exact HB. rewrite Ev. 
    replace (flipz (plusR (pos r1) (timesR (t - time r1) v))) with (plusR (pos r1) (timesR (t - time r1) (flipz v))).
    + unfold global_point, global_dir, applyR. apply vec3_eq; cbn; ring.
    + apply vec3_eq; cbn; rewrite ?Z; ring.
  - rewrite Ev, <- image_dir_local by exact HB. unfold v. rewrite chg_vec_global by exact HB. reflexivity.
Qed.
Lemma mirrors niter b ss : (forall s, In s ss -> flat_mirror s) -> forall A r C r2, good_frame A -> through niter b A r (map s_iface ss) C r2 ->
  good_frame C /\ (forall t g, passes A r t g -> passes C r2 t (images ss g)) /\ global_dir C (vel r2) = images_dir ss (global_dir A (vel r)).
Proof.
  induction ss as [|s ss IH]; intros Hl A r C r2 HA Th; cbn [map] in Th.
  - inversion Th; subst. split; [exact HA|]. split; [auto|reflexivity].
  - inversion Th as [|A' r' i is B r1 C' r2' La Th']; subst. pose proof (Hl s (or_introl eq_refl)) as L0.
    destruct (mirror_step niter s b A r B r1 L0 HA La) as (-> & P & D). destruct (IH (fun l' H => Hl l' (or_intror H)) _ r1 C r2 (proj2 (proj2 (proj1 L0))) Th') as (GC & P' & D').
    split; [exact GC|]. split; [intros t g Pa; apply P', P, Pa|]. rewrite D', D. reflexivity.
Qed.
(** Points that meet at the same time stay together: a point source has a point for an image. *)
Lemma passes_unique A r t g g' : passes A r t g -> passes A r t g' -> g = g'.
Proof. unfold passes. intros; congruence. Qed.
Section Three.
  Context (a b c : vR) (Ha : dotR a a = 1) (Hb : dotR b b = 1) (Hc : dotR c c = 1) (Hab : dotR a b = 0) (Hac : dotR a c = 0) (Hbc : dotR b c = 0).
  Let step (n v : vR) := minusR v (timesR (2 * dotR v n) n).
  Lemma complete v : plusR (plusR (timesR (dotR v a) a) (timesR (dotR v b) b)) (timesR (dotR v c) c) = v.
  Proof.
    set (M := M3 (cx a) (cx b) (cx c) (cy a) (cy b) (cy c) (cz a) (cz b) (cz c)).
    assert (O : orthonormal M) by (unfold orthonormal, col0, col1, col2, M, dotR; cbn; unfold dotR in *; repeat split; assumption).
    pose proof (orth_apply_rl M v O) as E. rewrite <- E at 4. unfold M, applyR, transR, dotR. apply vec3_eq; cbn; ring.
  Qed.
  Lemma corner_dir v : step c (step b (step a v)) = timesR (-1) v.
  Proof.
    assert (E : step c (step b (step a v)) = minusR v (timesR 2 (plusR (plusR (timesR (dotR v a) a) (timesR (dotR v b) b)) (timesR (dotR v c) c)))).
    { unfold step. assert (D1 : dotR (minusR v (timesR (2 * dotR v a) a)) b = dotR v b) by (transitivity (dotR v b - 2 * dotR v a * dotR a b); [unfold dotR; cbn; ring|rewrite Hab; ring]).
      rewrite D1. assert (D2 : dotR (minusR (minusR v (timesR (2 * dotR v a) a)) (timesR (2 * dotR v b) b)) c = dotR v c).
      { transitivity (dotR v c - 2 * dotR v a * dotR a c - 2 * dotR v b * dotR b c); [unfold dotR; cbn; ring|rewrite Hac, Hbc; ring]. }
      rewrite D2. apply vec3_eq; cbn; ring. }
    rewrite E, complete. apply vec3_eq; cbn; ring.
  Qed.
End Three.
Lemma image_about B P p : in_plane B P -> image_point B p = plusR P (image_dir B (minusR p P)).
Proof.
  unfold in_plane, image_point, image_dir. intros H.
  assert (E : dotR (minusR p (origin B)) (axis_dir B) = dotR (minusR p P) (axis_dir B)).
  { transitivity (dotR (minusR p P) (axis_dir B) + dotR (minusR P (origin B)) (axis_dir B)); [unfold dotR; cbn; ring|rewrite H; ring]. }
  rewrite E. apply vec3_eq; cbn; ring.
Qed.
(** Three mirrors at right angles send the light back. *)
Lemma corner niter b s1 s2 s3 A r C r2 P : flat_mirror s1 -> flat_mirror s2 -> flat_mirror s3 -> good_frame A ->
  dotR (axis_dir (s_frame s1)) (axis_dir (s_frame s2)) = 0 -> dotR (axis_dir (s_frame s1)) (axis_dir (s_frame s3)) = 0 -> dotR (axis_dir (s_frame s2)) (axis_dir (s_frame s3)) = 0 ->
  in_plane (s_frame s1) P -> in_plane (s_frame s2) P -> in_plane (s_frame s3) P ->
  through niter b A r (map s_iface [s1; s2; s3]) C r2 ->
  global_dir C (vel r2) = timesR (-1) (global_dir A (vel r)) /\ forall t g, passes A r t g -> passes C r2 t (opposite P g).
Proof.
  intros H1 H2 H3 HA D12 D13 D23 P1 P2 P3 Th.
  assert (Hl : forall s, In s [s1; s2; s3] -> flat_mirror s) by (intros s [<-|[<-|[<-|[]]]]; assumption).
  destruct (mirrors niter b _ Hl A r C r2 HA Th) as (_ & Hp & Hd).
  pose proof (axis_unit _ (proj2 (proj2 (proj1 H1)))) as U1. pose proof (axis_unit _ (proj2 (proj2 (proj1 H2)))) as U2. pose proof (axis_unit _ (proj2 (proj2 (proj1 H3)))) as U3.
  pose proof (corner_dir _ _ _ U1 U2 U3 D12 D13 D23) as K. cbv beta zeta in K. split.
  - rewrite Hd. unfold images_dir; cbn [fold_left]. apply K.
  - intros t g Pa. apply Hp in Pa. replace (opposite P g) with (images [s1; s2; s3] g); [exact Pa|]. unfold images; cbn [fold_left].
    rewrite (image_about _ P g P1). set (d1 := image_dir _ (minusR g P)). rewrite (image_about _ P _ P2).
    replace (minusR (plusR P d1) P) with d1 by (apply vec3_eq; cbn; ring). set (d2 := image_dir _ d1). rewrite (image_about _ P _ P3).
    replace (minusR (plusR P d2) P) with d2 by (apply vec3_eq; cbn; ring). unfold d2, d1, image_dir. rewrite K. apply vec3_eq; cbn; ring.
Qed.
(** Two mirrors turn the light by twice the angle between them, whichever way they are held. *)
Lemma two_flats niter b s1 s2 A r C r2 : flat_mirror s1 -> flat_mirror s2 -> good_frame A ->
  through niter b A r (map s_iface [s1; s2]) C r2 ->
  let n1 := axis_dir (s_frame s1) in let n2 := axis_dir (s_frame s2) in let v := global_dir A (vel r) in let v2 := global_dir C (vel r2) in
  dotR v2 (crossR n1 n2) = dotR v (crossR n1 n2) /\
  (dotR v (crossR n1 n2) = 0 -> dotR v v2 = (2 * (dotR n1 n2 * dotR n1 n2) - 1) * dotR v v).
Proof.
  intros H1 H2 HA Th n1 n2 v v2. assert (Hl : forall s, In s [s1; s2] -> flat_mirror s) by (intros s [<-|[<-|[]]]; assumption).
  destruct (mirrors niter b _ Hl A r C r2 HA Th) as (_ & _ & Hd). unfold images_dir in Hd; cbn [fold_left] in Hd. fold v v2 in Hd. unfold image_dir in Hd. fold n1 n2 in Hd.
  pose proof (axis_unit _ (proj2 (proj2 (proj1 H1)))) as U1. pose proof (axis_unit _ (proj2 (proj2 (proj1 H2)))) as U2. fold n1 in U1. fold n2 in U2.
  clearbody n1 n2 v v2. set (a := dotR v n1) in *. assert (E2 : dotR (minusR v (timesR (2 * a) n1)) n2 = dotR v n2 - 2 * a * dotR n1 n2) by (unfold dotR; cbn; ring).
  rewrite E2 in Hd. subst v2. split; [unfold dotR, crossR; cbn; ring|]. intros Z.
  assert (G : dotR v v * (dotR n1 n1 * dotR n2 n2 - dotR n1 n2 * dotR n1 n2) - a * a * dotR n2 n2 - dotR v n2 * dotR v n2 * dotR n1 n1 + 2 * a * dotR v n2 * dotR n1 n2
              = dotR v (crossR n1 n2) * dotR v (crossR n1 n2)) by (unfold a, dotR, crossR; cbn; ring).
  rewrite Z, U1, U2 in G.
  transitivity (dotR v v - 2 * a * a - 2 * (dotR v n2 - 2 * a * dotR n1 n2) * dotR v n2); [unfold a, dotR; cbn; ring|]. lra.
Qed.
(** Parallel mirrors displace the light. *)
Lemma periscope niter b s1 s2 A r C r2 : flat_mirror s1 -> flat_mirror s2 -> good_frame A ->
  (axis_dir (s_frame s2) = axis_dir (s_frame s1) \/ axis_dir (s_frame s2) = timesR (-1) (axis_dir (s_frame s1))) ->
  through niter b A r (map s_iface [s1; s2]) C r2 ->
  let n := axis_dir (s_frame s1) in
  global_dir C (vel r2) = global_dir A (vel r) /\
  forall t g, passes A r t g -> passes C r2 t (plusR g (timesR (2 * dotR (minusR (origin (s_frame s2)) (origin (s_frame s1))) n) n)).
Proof.
  intros H1 H2 HA HP Th n. assert (Hl : forall s, In s [s1; s2] -> flat_mirror s) by (intros s [<-|[<-|[]]]; assumption).
  destruct (mirrors niter b _ Hl A r C r2 HA Th) as (_ & Hp & Hd). pose proof (axis_unit _ (proj2 (proj2 (proj1 H1)))) as U1. fold n in U1, HP.
  assert (K : forall w, timesR (2 * dotR w (axis_dir (s_frame s2))) (axis_dir (s_frame s2)) = timesR (2 * dotR w n) n).
  { intros w. destruct HP as [->| ->]; [reflexivity|]. apply vec3_eq; unfold dotR; cbn; ring. }
  split.
  - rewrite Hd. unfold images_dir; cbn [fold_left]. unfold image_dir. rewrite K. fold n. set (v := global_dir A (vel r)).
    assert (E : dotR (minusR v (timesR (2 * dotR v n) n)) n = - dotR v n) by (transitivity (dotR v n - 2 * dotR v n * dotR n n); [unfold dotR; cbn; ring|rewrite U1; ring]).
    rewrite E. apply vec3_eq; cbn; ring.
  - intros t g Pa. apply Hp in Pa. unfold images in Pa; cbn [fold_left] in Pa. unfold image_point in Pa. rewrite K in Pa. fold n in Pa.
    set (o1 := origin (s_frame s1)) in *. set (o2 := origin (s_frame s2)) in *.
    assert (E : dotR (minusR (minusR g (timesR (2 * dotR (minusR g o1) n) n)) o2) n = - dotR (minusR g o1) n - dotR (minusR o2 o1) n).
    { transitivity (dotR (minusR g o1) n - dotR (minusR o2 o1) n - 2 * dotR (minusR g o1) n * dotR n n); [unfold dotR; cbn; ring|rewrite U1; ring]. }
    rewrite E in Pa. eapply (eq_ind _ (passes C r2 t)); [exact Pa|]. apply vec3_eq; cbn; ring.
Qed.

(** ** Parallel layers *)
Definition flat_part (v : vR) : vR := V3 (cx v) (cy v) 0.
Lemma tang_local B m x : good_frame B -> (axis_dir B = m \/ axis_dir B = timesR (-1) m) ->
  tangR (global_dir B x) m = global_dir B (flat_part x) /\ dotR (global_dir B x) m * dotR (global_dir B x) m = cz x * cz x /\
  forall y, dotR (global_dir B x) m * dotR (global_dir B y) m = cz x * cz y.
Proof.
  intros HB HM. assert (D : forall x, exists s, (s = 1 \/ s = -1) /\ dotR (global_dir B x) m = s * cz x /\ m = timesR s (axis_dir B)).
  { intros z. destruct HM as [E|E].
    - exists 1. split; [auto|]. subst m. rewrite axis_dot by exact HB. split; [ring|apply vec3_eq; cbn; ring].
    - exists (-1). split; [auto|]. assert (M : m = timesR (-1) (axis_dir B)) by (rewrite E; apply vec3_eq; cbn; ring). split; [|exact M].
      rewrite M. transitivity (- dotR (global_dir B z) (axis_dir B)); [unfold dotR; cbn; ring|]. rewrite axis_dot by exact HB. ring. }
  assert (S : exists s, (s = 1 \/ s = -1) /\ (forall z, dotR (global_dir B z) m = s * cz z) /\ m = timesR s (axis_dir B)).
  { destruct (D zeroR) as (s & Hs & _ & Em). exists s. split; [exact Hs|]. split; [|exact Em]. intros z. rewrite Em.
    transitivity (s * dotR (global_dir B z) (axis_dir B)); [unfold dotR; cbn; ring|]. rewrite axis_dot by exact HB. reflexivity. }
  destruct S as (s & Hs & E & Em). assert (SS : s * s = 1) by (destruct Hs as [->| ->]; ring). split; [|split].
  - unfold tangR. rewrite E, Em. unfold axis_dir, global_dir, flat_part. destruct x as [a b c]. unfold applyR. cbn [cx cy cz].
    apply vec3_eq; cbn; [transitivity (m00 (rot B) * a + m01 (rot B) * b + m02 (rot B) * c - (s * s) * c * m02 (rot B))|transitivity (m10 (rot B) * a + m11 (rot B) * b + m12 (rot B) * c - (s * s) * c * m12 (rot B))|transitivity (m20 (rot B) * a + m21 (rot B) * b + m22 (rot B) * c - (s * s) * c * m22 (rot B))]; try (ring || (rewrite SS; ring)).
  - rewrite E. transitivity (s * s * (cz x * cz x)); [ring|rewrite SS; ring].
  - intros y. rewrite !E. transitivity (s * s * (cz x * cz y)); [ring|rewrite SS; ring].
Qed.
Lemma len_of v k : 0 < k -> dotR (timesR k v) (timesR k v) = 1 -> index_of v = k.
Proof.
  intros Hk E. unfold index_of, lenR. replace (dotR v v) with (/ k * / k).
  - rewrite sqrt_square by (left; apply Rinv_0_lt_compat, Hk). apply Rinv_inv.
  - apply (Rmult_eq_reg_l (k * k)); [|nra]. transitivity 1; [field; lra|]. rewrite <- E. unfold dotR; cbn; ring.
Qed.
Lemma layer_bends niter s b A r C r1 m : dotR m m = 1 -> layer b (wavelength r) m s -> good_frame A -> lands niter (s_iface s) b A r C r1 ->
  C = s_frame s /\ wavelength r1 = wavelength r /\ tangR (slowness C r1) m = tangR (slowness A r) m /\
  dotR (global_dir A (vel r)) m <> 0 /\
  0 <= parity [s] * (dotR (global_dir A (vel r)) m * dotR (global_dir C (vel r1)) m) /\
  index_after b (wavelength r) s (index_of (vel r)) (index_of (vel r1)).
Proof.
  intros Um (Hf & Hm & Hk) HA La. assert (HB : good_frame (s_frame s)) by apply Hf.
  destruct (flat_lands niter s b A r C r1 Hf ltac:(intros k E; rewrite E in Hk; exact Hk) La) as (-> & u & v' & H). cbv zeta in H.
  destruct H as (Vz & Z & Hb & Ep & Ev & Et & Ew). split; [reflexivity|]. split; [exact Ew|]. set (B := s_frame s) in *. set (v := chg_vec A B (vel r)) in *.
  assert (GV : global_dir A (vel r) = global_dir B v) by (unfold v; rewrite chg_vec_global by exact HB; reflexivity).
  assert (Iv : index_of (vel r) = index_of v) by (unfold index_of, v; rewrite chg_vec_len by assumption; reflexivity).
  assert (V0 : v <> zeroR) by (intros E; rewrite E in Vz; apply Vz; reflexivity).
  pose proof (len_pos v V0) as L. assert (I0 : 0 < index_of v) by (apply Rinv_0_lt_compat; exact L).
  assert (K : flat_part (timesR (index_of v' * index_of v') v') = flat_part (timesR (index_of v * index_of v) v) /\ 0 <= parity [s] * (cz v * cz v') /\ index_after b (wavelength r) s (index_of v) (index_of v')).
  { unfold bends in Hb. destruct Hf as (Hs & _). cbn [parity]. unfold index_after. destruct (i_kind (s_iface s)) eqn:Kd; try (subst v'; split; [reflexivity|split; [nra|reflexivity]]).
    - destruct Hb as (mm & Hn & _ & Hbt). rewrite Hs, plane_normal in Hn. apply F3_inj in Hn. subst mm. destruct Hk as (n2 & Hn2 & P2). rewrite Hn2 in Hbt.
      apply bent_fin in Hbt. destruct Hbt as (_ & S2 & Hv). assert (UU : dotR (unitR v) (unitR v) = 1).
      { unfold unitR. transitivity (/ lenR v * / lenR v * dotR v v); [unfold dotR; cbn; ring|]. assert (dotR v v = lenR v * lenR v) as -> by (symmetry; apply sqrt_sqrt; unfold dotR; nra). field. lra. }
      destruct (refr_props (unitR v) (V3 0 0 1) (index_of v) n2 UU ltac:(unfold dotR; cbn; ring) I0 P2 S2) as (W1 & W2 & W3). rewrite <- Hv in W1, W2, W3.
      rewrite (len_of v' n2 P2 W1). split; [|split; [|exact Hn2]].
      + pose proof (f_equal cx W2) as X. pose proof (f_equal cy W2) as Y. unfold tangR, unitR, dotR in X, Y. cbn in X, Y. fold (index_of v) in X, Y.
        apply vec3_eq; cbn; [lra|lra|reflexivity].
      + assert (DZ : dotR (unitR v) (V3 0 0 1) = index_of v * cz v) by (unfold dotR, unitR; cbn; fold (index_of v); ring).
        assert (DW : dotR (timesR n2 v') (V3 0 0 1) = n2 * cz v') by (unfold dotR; cbn; ring). rewrite DW in W3.
        pose proof (sqrt_pos (1 - sin2R (unitR v) (V3 0 0 1) (index_of v) n2)) as SP. set (q := sqrt _) in *.
        destruct (side_cases (unitR v) (V3 0 0 1)) as [(G & S)|(G & S)]; rewrite S in W3; rewrite DZ in G.
        * assert (0 < cz v) by nra. assert (0 <= cz v') by nra. nra.
        * assert (cz v <= 0) by nra. assert (cz v' <= 0) by nra. nra.
    - destruct Hb as (mm & Hn & ->). rewrite Hs, plane_normal in Hn. apply F3_inj in Hn. subst mm. rewrite refl_axis.
      assert (index_of (flipz v) = index_of v) as -> by (unfold index_of, lenR; do 2 f_equal; unfold dotR; cbn; ring).
      split; [apply vec3_eq; reflexivity|]. split; [|reflexivity]. unfold flipz; cbn [cz]. pose proof (Rle_0_sqr (cz v)) as Q0. unfold Rsqr in Q0. lra. }
  destruct K as (K1 & K2 & K3). destruct (tang_local B m v HB Hm) as (_ & Q & QQ). rewrite GV, Ev. split; [|split; [|split; [|rewrite Iv; exact K3]]].
  - unfold slowness. rewrite Ev, GV, Iv.
    assert (TD : forall k x, timesR k (global_dir B x) = global_dir B (timesR k x)) by (intros; unfold global_dir, applyR; apply vec3_eq; cbn; ring).
    rewrite !TD. destruct (tang_local B m (timesR (index_of v' * index_of v') v') HB Hm) as (-> & _). destruct (tang_local B m (timesR (index_of v * index_of v) v) HB Hm) as (-> & _).
    rewrite K1. reflexivity.
  - intros E. rewrite E, Rmult_0_l in Q. apply Vz. nra.
  - rewrite QQ. exact K2.
Qed.
Lemma parity_cons s ss : parity (s :: ss) = parity [s] * parity ss.
Proof. cbn [parity]. destruct (i_kind (s_iface s)); ring. Qed.
Lemma parity_sq ss : parity ss * parity ss = 1.
Proof. induction ss as [|s ss IH]; cbn [parity]; [ring|]. destruct (i_kind (s_iface s)); lra. Qed.
Lemma layers niter b m ss : dotR m m = 1 -> forall A r C r2, (forall s, In s ss -> layer b (wavelength r) m s) -> good_frame A -> through niter b A r (map s_iface ss) C r2 ->
  good_frame C /\ tangR (slowness C r2) m = tangR (slowness A r) m /\
  0 <= parity ss * (dotR (global_dir A (vel r)) m * dotR (global_dir C (vel r2)) m).
Proof.
  intros Um. induction ss as [|s ss IH]; intros A r C r2 Hl HA Th; cbn [map] in Th.
  - inversion Th; subst. split; [exact HA|]. split; [reflexivity|]. cbn [parity]. nra.
  - inversion Th as [|A' r' i is B r1 C' r2' La Th']; subst. pose proof (Hl s (or_introl eq_refl)) as L0.
    destruct (layer_bends niter s b A r B r1 m Um L0 HA La) as (-> & W & T & N & P & _).
    assert (HB : good_frame (s_frame s)) by apply L0.
    destruct (IH _ r1 C r2 (fun l' H => eq_ind_r (fun w => layer b w m l') (Hl l' (or_intror H)) W) HB Th') as (GC & T' & P').
    split; [exact GC|]. split; [congruence|]. rewrite parity_cons.
    destruct ss as [|s' ss'].
    + cbn [map] in Th'. inversion Th'; subst. cbn [parity] in *. lra.
    + cbn [map] in Th'. inversion Th' as [|A1 ri i1 is1 B1 r3 C1 r4 La1 Th1]; subst.
      destruct (layer_bends niter s' b (s_frame s) r1 B1 r3 m Um (eq_ind_r (fun w => layer b w m s') (Hl s' (or_intror (or_introl eq_refl))) W) HB La1) as (_ & _ & _ & N1 & _ & _).
      pose proof (parity_sq [s]) as S1. pose proof (parity_sq (s' :: ss')) as S2. set (p := parity [s]) in *. set (p' := parity (s' :: ss')) in *.
      set (a := dotR (global_dir A (vel r)) m) in *. set (x := dotR (global_dir (s_frame s) (vel r1)) m) in *. set (y := dotR (global_dir C (vel r2)) m) in *.
      assert (X : 0 < x * x) by nra. assert (PP : 0 <= (p * (a * x)) * (p' * (x * y))) by (apply Rmult_le_pos; assumption).
      assert (E : (p * (a * x)) * (p' * (x * y)) = (x * x) * (p * p' * (a * y))) by ring. rewrite E in PP.
      apply (Rmult_le_reg_l (x * x)); [exact X|]. lra.
Qed.
Lemma same_sq x y : x * x = y * y -> 0 <= y * x -> x = y.
Proof. intros H P. assert (D : (x - y) * (x + y) = 0) by lra. apply Rmult_integral in D. destruct D as [D|D]; [lra|]. assert (x = - y) by lra. subst x. nra. Qed.
(** The velocity is determined by the index, the slowness along the layers and the side. *)
Lemma window niter b m ss A r C r2 : dotR m m = 1 -> (forall s, In s ss -> layer b (wavelength r) m s) -> good_frame A -> vel r <> zeroR -> through niter b A r (map s_iface ss) C r2 ->
  index_of (vel r2) = index_of (vel r) ->
  (parity ss = 1 -> global_dir C (vel r2) = global_dir A (vel r)) /\
  (parity ss = -1 -> global_dir C (vel r2) = minusR (global_dir A (vel r)) (timesR (2 * dotR (global_dir A (vel r)) m) m)).
Proof.
  intros Um Hl HA V0 Th Ix. destruct (layers niter b m ss Um A r C r2 Hl HA Th) as (GC & T & P).
  set (v := global_dir A (vel r)) in *. set (w := global_dir C (vel r2)) in *.
  pose proof (len_pos _ V0) as L. assert (I0 : 0 < index_of (vel r)) by (apply Rinv_0_lt_compat; exact L).
  assert (TT : tangR w m = tangR v m).
  { unfold slowness in T. fold v w in T. rewrite Ix in T. set (k := index_of (vel r)) in *.
    assert (S : forall x, tangR (timesR (k * k) x) m = timesR (k * k) (tangR x m)) by (intros; unfold tangR, dotR; apply vec3_eq; cbn; ring).
    rewrite !S in T. assert (KK : k * k <> 0) by nra.
    apply vec3_eq; apply (Rmult_eq_reg_l (k * k)); try exact KK; [exact (f_equal cx T)|exact (f_equal cy T)|exact (f_equal cz T)]. }
  assert (LL : dotR w w = dotR v v).
  { unfold w, v, global_dir. rewrite !orth_dot by assumption. unfold index_of in Ix. assert (E : lenR (vel r2) = lenR (vel r)) by (rewrite <- (Rinv_inv (lenR (vel r2))), Ix; apply Rinv_inv).
    unfold lenR in E. apply sqrt_inj in E; [exact E|unfold dotR; nra|unfold dotR; nra]. }
  assert (DD : dotR w m * dotR w m = dotR v m * dotR v m).
  { assert (Q : forall x, dotR x x = dotR (tangR x m) (tangR x m) + dotR x m * dotR x m).
    { intros x. transitivity (dotR x x - 2 * (dotR x m * dotR x m) + dotR x m * dotR x m * dotR m m + dotR x m * dotR x m); [rewrite Um; ring|unfold tangR, dotR; cbn; ring]. }
    pose proof (Q w) as Q1. pose proof (Q v) as Q2. rewrite TT in Q1. lra. }
  assert (Re : forall x, x = plusR (tangR x m) (timesR (dotR x m) m)) by (intros; unfold tangR; apply vec3_eq; cbn; ring).
  split; intros E; rewrite E in P.
  - assert (dotR w m = dotR v m) as D by (apply same_sq; [exact DD|lra]). rewrite (Re w), (Re v), TT, D. reflexivity.
  - assert (dotR w m = - dotR v m) as D by (apply same_sq; [rewrite DD; ring|lra]). rewrite (Re w), TT, D. unfold tangR. apply vec3_eq; cbn; ring.
Qed.

(** A ray that is alive and does not run along the surface lands on it, and goes on unless it is totally reflected inside. *)
Lemma layer_lands niter s b A r m : dotR m m = 1 -> layer b (wavelength r) m s -> good_frame A -> failed r = false -> dotR (global_dir A (vel r)) m <> 0 ->
  (forall n, i_kind (s_iface s) = KRefractive -> index_after b (wavelength r) s (index_of (vel r)) n ->
     dotR (tangR (slowness A r) m) (tangR (slowness A r) m) <= n * n) ->
  exists r1, lands niter (s_iface s) b A r (s_frame s) r1.
Proof.
  intros Um (Hf & Hm & Hk) HA F Nz Hs2. assert (HB : good_frame (s_frame s)) by apply Hf. destruct Hf as (Hs & Hc & _).
  set (B := s_frame s) in *. set (v := chg_vec A B (vel r)). set (p := chg_pt A B (pos r)).
  assert (GV : global_dir A (vel r) = global_dir B v) by (unfold v; rewrite chg_vec_global by exact HB; reflexivity).
  assert (Iv : index_of (vel r) = index_of v) by (unfold index_of, v; rewrite chg_vec_len by assumption; reflexivity).
  destruct (tang_local B m v HB Hm) as (_ & Q & _).
  assert (Vz : cz v <> 0) by (intros E; rewrite E, <- GV in Q; apply Nz; nra).
  assert (V0 : v <> zeroR) by (intros E; rewrite E in Vz; apply Vz; reflexivity).
  pose proof (len_pos v V0) as L. assert (I0 : 0 < index_of v) by (apply Rinv_0_lt_compat; exact L).
  assert (NS : forall k, i_kind (s_iface s) <> KScreen k) by (intros k E; rewrite E in Hk; exact Hk).
  assert (Hh : hit (i_surf (s_iface s)) niter (F3 p) (F3 v) = (true, Fin (- cz p / cz v))).
  { rewrite Hs. change (@Plane XR) with (Fshape ShPlane). rewrite hit_plane. destruct (Req_EM_T _ 0); [contradiction|reflexivity]. }
  assert (Bd : exists v', bends (s_iface s) b (wavelength r) (plusR p (timesR (- cz p / cz v) v)) v v').
  { unfold bends. unfold index_after in Hs2. rewrite Hs. destruct (i_kind (s_iface s)) eqn:Kd; try (eexists; reflexivity).
    - destruct Hk as (n & Hn & P). specialize (Hs2 n eq_refl Hn). eexists. exists (V3 0 0 1). split; [reflexivity|]. split; [exact V0|]. left. exists n. split; [exact Hn|]. split; [lra|]. split; [|reflexivity].
      unfold slowness in Hs2. rewrite GV, Iv in Hs2.
      assert (TD : forall k x, timesR k (global_dir B x) = global_dir B (timesR k x)) by (intros; unfold global_dir, applyR; apply vec3_eq; cbn; ring).
      rewrite TD in Hs2. destruct (tang_local B m (timesR (index_of v * index_of v) v) HB Hm) as (TL & _). rewrite TL in Hs2.
      unfold global_dir in Hs2. rewrite orth_dot in Hs2 by exact HB. unfold sin2R.
      assert (UU : dotR (unitR v) (unitR v) = 1).
      { unfold unitR. transitivity (/ lenR v * / lenR v * dotR v v); [unfold dotR; cbn; ring|]. assert (dotR v v = lenR v * lenR v) as -> by (symmetry; apply sqrt_sqrt; unfold dotR; nra). field. lra. }
      assert (E : index_of v * index_of v * (1 - dotR (unitR v) (V3 0 0 1) * dotR (unitR v) (V3 0 0 1)) = dotR (flat_part (timesR (index_of v * index_of v) v)) (flat_part (timesR (index_of v * index_of v) v))).
      { transitivity (index_of v * index_of v * (dotR (unitR v) (unitR v) - dotR (unitR v) (V3 0 0 1) * dotR (unitR v) (V3 0 0 1))); [rewrite UU; reflexivity|].
        unfold unitR. fold (index_of v). unfold flat_part, dotR; cbn [cx cy cz timesR]. ring. }
      rewrite <- E in Hs2. set (x := 1 - dotR (unitR v) (V3 0 0 1) * dotR (unitR v) (V3 0 0 1)) in *. set (k1 := index_of v) in *. clearbody x k1.
      apply (Rmult_le_reg_l (n * n)); [nra|]. apply (Rle_trans _ (k1 * k1 * x)); [right; field; lra|]. lra.
    - eexists. exists (V3 0 0 1). split; reflexivity. }
  destruct Bd as (v' & Bd). eexists. split; [apply (iface_do niter _ b A B r _ v' NS Hc F Hh Bd)|]. split; [reflexivity|].
  rewrite Hs. unfold on_sag. cbn [sag]. unfold after; cbn [pos]. f_equal. unfold plusR, timesR; cbn [cz]. change (@n0 XR _) with (Fin 0). f_equal. fold v p. field. exact Vz.
Qed.

(** Apparent depth: where a point seen through one flat surface appears to be. *)
Lemma layer_index niter s b A r C r1 m : dotR m m = 1 -> layer b (wavelength r) m s -> good_frame A -> lands niter (s_iface s) b A r C r1 ->
  0 < index_of (vel r) /\ 0 < index_of (vel r1).
Proof.
  intros Um L HA La. pose proof L as (Hf & Hm & Hk). destruct (layer_bends niter s b A r C r1 m Um L HA La) as (_ & _ & _ & N & _ & I).
  assert (I0 : 0 < index_of (vel r)).
  { apply Rinv_0_lt_compat, len_pos. intros E. apply N. rewrite E. unfold global_dir, applyR, dotR; cbn. ring. }
  split; [exact I0|]. unfold index_after in I. destruct (i_kind (s_iface s)); try (rewrite I; exact I0).
  destruct Hk as (n & Hn & P). rewrite Hn in I. injection I as <-. exact P.
Qed.
Lemma depth niter s b A r C r1 m : dotR m m = 1 -> layer b (wavelength r) m s -> good_frame A -> lands niter (s_iface s) b A r C r1 ->
  let q := dotR (slowness A r) m in let q1 := dotR (slowness C r1) m in let n := index_of (vel r) in let n1 := index_of (vel r1) in
  q <> 0 /\ q1 * q1 = n1 * n1 - n * n + q * q /\
  forall t g, passes A r t g -> let h := dotR (minusR g (origin (s_frame s))) m in
    passes C r1 (t + h * (n1 * n1 - n * n) / q) (plusR g (timesR (h * (q1 / q - 1)) m)).
Proof.
  intros Um L HA La q q1 n n1. pose proof L as (Hf & Hm & Hk). assert (HB : good_frame (s_frame s)) by apply Hf.
  destruct (layer_index niter s b A r C r1 m Um L HA La) as (P & P1). fold n in P. fold n1 in P1.
  destruct (layer_bends niter s b A r C r1 m Um L HA La) as (-> & _ & T & N & _ & _).
  destruct (flat_lands niter s b A r _ r1 Hf ltac:(intros k E; rewrite E in Hk; exact Hk) La) as (_ & u & v' & H). cbv zeta in H.
  destruct H as (Vz & Z & _ & Ep & _ & Et & _). set (B := s_frame s) in *.
  assert (G : forall t g, passes A r t g -> g = plusR (global_point B (pos r1)) (timesR (t - time r1) (global_dir A (vel r)))).
  { intros t g Pa. rewrite <- Pa, Et, Ep. rewrite <- (chg_pt_global A B (pos r)) by assumption. rewrite <- (chg_vec_global A B (vel r)) by assumption.
    unfold global_point, global_dir, applyR. apply vec3_eq; cbn; ring. }
  assert (O : dotR (minusR (global_point B (pos r1)) (origin B)) m = 0).
  { replace (minusR (global_point B (pos r1)) (origin B)) with (global_dir B (pos r1)) by (unfold global_point, global_dir; apply vec3_eq; cbn; ring).
    pose proof (axis_dot B (pos r1) HB) as D. rewrite Z in D. destruct Hm as [<-|E]; [exact D|]. rewrite E in D. revert D. generalize (global_dir B (pos r1)). intros w D. unfold dotR in D |- *. cbn in D. lra. }
  assert (SS : forall F (r : ray R), good_frame F -> 0 < index_of (vel r) -> dotR (slowness F r) (slowness F r) = index_of (vel r) * index_of (vel r)).
  { intros F x HF Hx. unfold slowness. set (k := index_of (vel x)) in *. transitivity (k * k * (k * k) * dotR (global_dir F (vel x)) (global_dir F (vel x))); [unfold dotR; cbn; ring|].
    unfold global_dir. rewrite orth_dot by exact HF. assert (Q : dotR (vel x) (vel x) = lenR (vel x) * lenR (vel x)) by (symmetry; apply sqrt_sqrt; unfold dotR; nra).
    rewrite Q. assert (E : lenR (vel x) = / k) by (unfold k, index_of; rewrite Rinv_inv; reflexivity). rewrite E. field. lra. }
  pose proof (SS A r HA P) as S1. pose proof (SS B r1 HB P1) as S2. fold n in S1. fold n1 in S2.
  assert (TT : forall S, dotR (tangR S m) (tangR S m) = dotR S S - dotR S m * dotR S m).
  { intros S. unfold tangR. transitivity (dotR S S - 2 * dotR S m * dotR S m + dotR S m * dotR S m * dotR m m); [unfold dotR; cbn; ring|rewrite Um; ring]. }
  assert (Q2 : q1 * q1 = n1 * n1 - n * n + q * q).
  { pose proof (TT (slowness B r1)) as E1. rewrite T, TT, S1, S2 in E1. unfold q, q1. lra. }
  assert (Eq : q = n * n * dotR (global_dir A (vel r)) m) by (unfold q, slowness; fold n; unfold dotR; cbn; ring).
  assert (Q0 : q <> 0) by (rewrite Eq; intros E; apply Rmult_integral in E; destruct E as [E|E]; [nra|exact (N E)]).
  split; [exact Q0|]. split; [exact Q2|]. intros t g Pa h. specialize (G t g Pa). set (p := global_point B (pos r1)) in *. set (V := global_dir A (vel r)) in *.
  assert (Eh : h = (t - time r1) * dotR V m).
  { unfold h. rewrite G. transitivity (dotR (minusR p (origin B)) m + (t - time r1) * dotR V m); [unfold dotR; cbn; ring|rewrite O; ring]. }
  assert (Ehq : h / q = (t - time r1) / (n * n)) by (rewrite Eh, Eq; field; repeat split; try lra; exact N).
  unfold passes. fold p. set (V1 := global_dir B (vel r1)).
  assert (EV : forall c, (c = cx \/ c = cy \/ c = cz) -> n1 * n1 * c V1 - q1 * c m = n * n * c V - q * c m).
  { intros c Hc. pose proof (f_equal c T) as E. unfold tangR in E. fold q q1 in E. unfold slowness in E. fold n n1 V V1 in E. clear - E Hc. clearbody V V1 q q1 n n1. destruct Hc as [->|[->| ->]]; cbn in E; lra. }
  assert (Tm : t + h * (n1 * n1 - n * n) / q - time r1 = (t - time r1) / (n * n) * (n1 * n1)).
  { replace (h * (n1 * n1 - n * n) / q) with (h / q * (n1 * n1 - n * n)) by (field; exact Q0). rewrite Ehq. field. lra. }
  rewrite Tm, G. assert (Hh : h * (q1 / q - 1) = (t - time r1) / (n * n) * (q1 - q)).
  { replace (h * (q1 / q - 1)) with (h / q * (q1 - q)) by (field; exact Q0). rewrite Ehq. reflexivity. }
  rewrite Hh. set (k := (t - time r1) / (n * n)). assert (Ek : t - time r1 = k * (n * n)) by (unfold k; field; lra).
  rewrite Ek. clear - EV. clearbody V V1 q q1 n n1 p k. apply vec3_eq; cbn.
  - pose proof (EV cx (or_introl eq_refl)). replace (k * (n1 * n1) * cx V1) with (k * (n1 * n1 * cx V1)) by ring. replace (n1 * n1 * cx V1) with (n * n * cx V - q * cx m + q1 * cx m) by lra. ring.
  - pose proof (EV cy (or_intror (or_introl eq_refl))). replace (k * (n1 * n1) * cy V1) with (k * (n1 * n1 * cy V1)) by ring. replace (n1 * n1 * cy V1) with (n * n * cy V - q * cy m + q1 * cy m) by lra. ring.
  - pose proof (EV cz (or_intror (or_intror eq_refl))). replace (k * (n1 * n1) * cz V1) with (k * (n1 * n1 * cz V1)) by ring. replace (n1 * n1 * cz V1) with (n * n * cz V - q * cz m + q1 * cz m) by lra. ring.
Qed.
(** A plate moves what is seen through it along its normal. *)
Lemma plate niter b s1 s2 A r C r2 m n2 q1 : dotR m m = 1 -> layer b (wavelength r) m s1 -> layer b (wavelength r) m s2 -> good_frame A ->
  parity [s1] = 1 -> parity [s2] = 1 ->
  through niter b A r (map s_iface [s1; s2]) C r2 -> let n := index_of (vel r) in let q := dotR (slowness A r) m in
  index_after b (wavelength r) s1 n n2 -> index_of (vel r2) = n -> 0 < q * q1 -> q1 * q1 = n2 * n2 - n * n + q * q ->
  let d := dotR (minusR (origin (s_frame s2)) (origin (s_frame s1))) m in
  forall t g, passes A r t g -> passes C r2 (t + d * (n2 * n2 - n * n) / q1) (plusR g (timesR (d * (1 - q / q1)) m)).
Proof.
  intros Um L1 L2 HA Y1 Y2 Th n q Ia In Hq Hq1 d t g Pa. cbn [map] in Th. inversion Th as [|A' r' i is B r1 C' r2' La1 Th']; subst. inversion Th' as [|A'' r'' i' is' B' r3 C'' r2'' La2 Th'']; subst. inversion Th''; subst. clear Th Th' Th''.
  destruct (layer_bends niter s1 b A r B r1 m Um L1 HA La1) as (-> & W & _ & N & Pr & I1). fold n in I1.
  rewrite <- W in L2. assert (HB : good_frame (s_frame s1)) by apply L1.
  destruct (layer_bends niter s2 b _ r1 C r2 m Um L2 HB La2) as (-> & _ & _ & N1 & Pr2 & _).
  destruct (layer_index niter s1 b A r _ r1 m Um L1 HA La1) as (P0 & P1). destruct (layer_index niter s2 b _ r1 _ r2 m Um L2 HB La2) as (_ & P2).
  assert (E2 : index_of (vel r1) = n2).
  { unfold index_after in *. destruct (i_kind (s_iface s1)); try (rewrite I1, Ia; reflexivity). rewrite I1 in Ia. injection Ia as Ia. exact Ia. }
  destruct (depth niter s1 b A r _ r1 m Um L1 HA La1) as (Q0 & QQ & D1). destruct (depth niter s2 b _ r1 _ r2 m Um L2 HB La2) as (Q1 & QQ1 & D2).
  fold n q in QQ, D1, Q0. rewrite E2 in *. rewrite In in *.
  set (p := dotR (slowness (s_frame s1) r1) m) in *. set (p2 := dotR (slowness (s_frame s2) r2) m) in *.
  assert (Dot : forall F (x : ray R), dotR (slowness F x) m = index_of (vel x) * index_of (vel x) * dotR (global_dir F (vel x)) m) by (intros; unfold slowness, dotR; cbn; ring).
  assert (S1 : 0 <= q * p).
  { unfold p, q. rewrite !Dot, E2. fold n. rewrite Y1, Rmult_1_l in Pr. assert (0 <= n * n * (n2 * n2)) by nra.
    replace (n * n * dotR (global_dir A (vel r)) m * (n2 * n2 * dotR (global_dir (s_frame s1) (vel r1)) m)) with
      (n * n * (n2 * n2) * (dotR (global_dir A (vel r)) m * dotR (global_dir (s_frame s1) (vel r1)) m)) by ring. apply Rmult_le_pos; assumption. }
  assert (S2 : 0 <= p * p2).
  { unfold p, p2. rewrite !Dot, E2, In. rewrite Y2, Rmult_1_l in Pr2. assert (0 <= n2 * n2 * (n * n)) by nra.
    replace (n2 * n2 * dotR (global_dir (s_frame s1) (vel r1)) m * (n * n * dotR (global_dir (s_frame s2) (vel r2)) m)) with
      (n2 * n2 * (n * n) * (dotR (global_dir (s_frame s1) (vel r1)) m * dotR (global_dir (s_frame s2) (vel r2)) m)) by ring. apply Rmult_le_pos; assumption. }
  assert (Ep : p = q1).
  { apply same_sq; [lra|]. clearbody q p. destruct (Rtotal_order q 0) as [X|[X|X]]; [|contradiction|].
    - assert (q1 < 0) by nra. assert (p <= 0) by nra. nra.
    - assert (0 < q1) by nra. assert (0 <= p) by nra. nra. }
  assert (Ep2 : p2 = q).
  { apply same_sq; [lra|]. rewrite Ep in S2. clearbody q p2. destruct (Rtotal_order q 0) as [X|[X|X]]; [|contradiction|].
    - assert (q1 < 0) by nra. assert (p2 <= 0) by nra. nra.
    - assert (0 < q1) by nra. assert (0 <= p2) by nra. nra. }
  rewrite Ep in *. rewrite Ep2 in *. specialize (D1 t g Pa). cbv zeta in D1. set (h := dotR (minusR g (origin (s_frame s1))) m) in *.
  specialize (D2 _ _ D1). cbv zeta in D2. set (h2 := dotR _ m) in D2.
  assert (Eh : h2 = h * q1 / q - d).
  { unfold h2. transitivity (h - d + h * (q1 / q - 1) * dotR m m); [unfold h, d, dotR; cbn; ring|rewrite Um; field; exact Q0]. }
  clearbody h2 h d. subst h2. eapply (eq_ind _ (fun t => passes _ _ t _)); [eapply (eq_ind _ (fun g => passes _ _ _ g)); [exact D2|]|].
  - apply vec3_eq; cbn; field; split; assumption.
  - field; split; assumption.
Qed.
