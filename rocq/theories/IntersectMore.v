(** C11, C12 for bundles; C13 for every arithmetic; C60; refutations. *)
From Coq Require Import Reals List ZArith Bool Lra Psatz SpecFloat.
From Verif Require Import Num NumR NumF Vec CoordSys Surface Medium Obscuration Ray Bundle Spec OpticsSpec
  XRFacts CoordFacts FrameProofs RayFacts NormalFacts RefractProofs OpticsProofs RootFacts IntersectProofs.
Import ListNotations.
Open Scope R_scope.

(** ** C11 *)
Lemma on_line_on_whole niter sh A B l k r ri q : good_shape sh ->
  arrives niter (Fshape sh) A B l k r ri q ->
  exists t, q = on_line (pos_in A B r) (vel_in A B r) t /\ whole sh q.
Proof.
  intros Hg Ha. destruct (arrives_hit _ _ _ _ _ _ _ _ _ Ha) as (t & Hh & Hq & _).
  exists t. split; [exact Hq|]. rewrite Hq. eapply hit_sound; eassumption.
Qed.
Definition one_sheet (sh : shape) : Prop :=
  match sh with ShPlane | ShTilted _ _ | ShParaboloid _ => True | _ => False end.
Lemma one_sheet_on_sag niter sh A B l k r ri q : good_shape sh -> one_sheet sh ->
  arrives niter (Fshape sh) A B l k r ri q -> on_sag (Fshape sh) q.
Proof.
  intros Hg Ho Ha. destruct (on_line_on_whole _ _ _ _ _ _ _ _ _ Hg Ha) as (t & _ & W).
  apply on_sag_iff; [assumption|]. split; [assumption|]. destruct sh; try destruct Ho; exact I.
Qed.
Lemma meets_on_sag niter sh A B l k r ri q t0 : good_shape sh ->
  arrives niter (Fshape sh) A B l k r ri q -> vel_in A B r <> zeroR ->
  let p := pos_in A B r in
  let v := vel_in A B r in
  (whole sh p -> on_sag (Fshape sh) p) ->
  on_sag (Fshape sh) (on_line p v t0) -> separable sh (on_line p v t0) ->
  on_sag (Fshape sh) q.
Proof.
  intros Hg Ha Hv p v Hp H0 S0. destruct (arrives_hit _ _ _ _ _ _ _ _ _ Ha) as (t & Hh & Hq & _).
  apply on_sag_iff in H0; [|assumption]. destruct H0 as [W0 V0].
  apply on_sag_iff; [assumption|]. rewrite Hq. split; [eapply hit_sound; eassumption|].
  eapply hit_near; try eassumption. intros W. apply Hp, on_sag_iff in W; tauto.
Qed.
Lemma crossing_arrives niter sh A B l k r : good_shape sh -> good_frame A -> good_frame B ->
  nth_error l k = Some r -> failed r = false -> vel_in A B r <> zeroR ->
  let p := pos_in A B r in
  let v := vel_in A B r in
  ~ degenerate sh p v -> ~ whole sh p -> (exists t, whole sh (on_line p v t)) ->
  exists ri q, arrives niter (Fshape sh) A B l k r ri q.
Proof.
  intros Hg HA HB Hk Hf Hv p v Hd Hp He.
  destruct (hit_real sh p v niter Hg Hv Hd Hp He) as [t Ht].
  pose proof (intersect_hit (Fshape sh) niter A B l k r (Fin t) HA HB Hk Hf Ht) as Hi.
  rewrite advance_F in Hi. eexists. exists (on_line p v t). constructor; try eassumption; reflexivity.
Qed.
(** ** C12 *)
Lemma miss_iff niter sh A B l k r ri : good_shape sh -> good_frame A -> good_frame B ->
  nth_error l k = Some r -> failed r = false -> vel_in A B r <> zeroR ->
  let p := pos_in A B r in
  let v := vel_in A B r in
  ~ degenerate sh p v ->
  kth k (rv_intersect niter (Fshape sh) (Some (Fcs B)) None (Frv (RV l A))) ri ->
  (failed ri = true <-> ~ exists t, whole sh (on_line p v t)) /\
  (failed ri = true -> vignetted ri = true /\ pos ri = F3 (pos r) /\ vel ri = F3 (vel r) /\
                       time ri = Fin (time r)).
Proof.
  intros Hg HA HB Hk Hf Hv p v Hd Hi. unfold kth in Hi.
  rewrite <- (hit_miss sh p v niter Hg Hv Hd).
  destruct (hit (Fshape sh) niter (F3 p) (F3 v)) as [[] dt] eqn:E; cbn [fst].
  - rewrite (intersect_hit _ niter A B l k r dt HA HB Hk Hf E) in Hi. injection Hi; intros <-.
    cbn. repeat split; discriminate.
  - rewrite (intersect_miss _ niter A B None l k r HA HB Hk Hf) in Hi by (fold p v; rewrite E; reflexivity).
    injection Hi; intros <-. cbn. repeat split.
Qed.

(** ** C13 *)
Section Iter.
  Context {T : Type} {NT : Num T}.
  Lemma newton_loop_ok sg nm x y z vx vy vz n dt rx ry rz sz :
    rx = nadd x (nmul vx dt) -> ry = nadd y (nmul vy dt) -> rz = nadd z (nmul vz dt) -> sz = sg rx ry ->
    let out := newton_loop (T:=T) sg nm x y z vx vy vz n dt rx ry rz sz in
    fst out = true ->
    nltb (nabs (nsub (sg (nadd x (nmul vx (snd out))) (nadd y (nmul vy (snd out))))
                     (nadd z (nmul vz (snd out))))) (nfrac 1 1000000000000) = true.
  Proof.
    revert dt rx ry rz sz. induction n as [|n IH]; intros dt rx ry rz sz Hx Hy Hz Hs; cbn [newton_loop].
    - cbn. subst. auto.
    - apply IH; reflexivity.
  Qed.
  Lemma newton_ok sg nm x y z vx vy vz dt n :
    let out := newton (T:=T) sg nm x y z vx vy vz dt n in
    fst out = true ->
    nltb (nabs (nsub (sg (nadd x (nmul vx (snd out))) (nadd y (nmul vy (snd out))))
                     (nadd z (nmul vz (snd out))))) (nfrac 1 1000000000000) = true.
  Proof. apply newton_loop_ok; reflexivity. Qed.
  (** Surfaces intersected by iteration. *)
  Definition iterative (s : surface T) : Prop :=
    match s with Asphere _ _ _ | Poly _ _ _ _ _ _ _ | Bicubic _ | Sum _ => True | _ => False end.
  Lemma hit_iter s n p v : iterative s -> fst (hit s n p v) = true ->
    nltb (nabs (nsub (sag s (cx (advance p v (snd (hit s n p v)))) (cy (advance p v (snd (hit s n p v)))))
                     (cz (advance p v (snd (hit s n p v)))))) (nfrac 1 1000000000000) = true.
  Proof.
    intros Hi. unfold hit, advance; cbn [cx cy cz].
    destruct s as [| | | | |R k cs|cs gx gy x0 y0 xs ys|tb|l]; try destruct Hi; cbn [tti sag].
    - destruct (quadric_tti _ _ _ _ _ _ _ _ _) as [[] dt]; cbn [negb fst]; [|discriminate]. apply newton_ok.
    - apply newton_ok.
    - apply newton_ok.
    - destruct l as [|s0 l]; [discriminate|].
      destruct (tti s0 _ _ _ _ _ _ _ _) as [[] dt]; cbn [negb fst]; [|discriminate].
      intros H. apply newton_ok in H. exact H.
  Qed.
  Lemma iterative_on_surface n s cs (l : list (ray T)) c0 k r ri :
    iterative s -> nth_error l k = Some r -> failed r = false ->
    nth_error (rays (rv_intersect n s cs None (RV l c0))) k = Some ri -> failed ri = false ->
    nltb (nabs (nsub (sag s (cx (pos ri)) (cy (pos ri))) (cz (pos ri)))) (nfrac 1 1000000000000) = true /\
    exists p v dt, pos ri = advance p v dt /\ vel ri = v /\ time ri = nadd (time r) dt /\
      let ct := mkCT c0 (match cs with None => c0 | Some c => c end) in
      p = fwd_point (ct_dr ct) (ct_drot ct) (pos r) /\ v = fwd_vel (ct_drot ct) (vel r).
  Proof.
    intros Hs Hk Hf Hi Hok. unfold rv_intersect, batch in Hi. cbn [rays rvcs dest] in Hi.
    rewrite nth_error_map, Hk in Hi. cbn [option_map] in Hi. injection Hi; intros <-; clear Hi.
    unfold ray_intersect in *. rewrite Hf in *.
    match type of Hok with context [hit s n ?P ?V] => pose proof (hit_iter s n P V Hs) as HI;
      destruct (hit s n P V) as [[] dt] eqn:E; [|discriminate] end.
    cbn [fst snd] in HI. cbn [pos vel time]. split; [apply HI; reflexivity|].
    do 3 eexists. repeat split; reflexivity.
  Qed.
  (** Every kernel moves the ray to the point found by intersect. *)
  Lemma same_point s dr d m2 c c' n screen (r : ray T) : failed r = false ->
    let ri := ray_intersect s dr d None n r in
    failed ri = false ->
    pos (ray_reflect s dr d c n r) = pos ri /\ time (ray_reflect s dr d c n r) = time ri /\
    pos (ray_refract s dr d m2 c n r) = pos ri /\ time (ray_refract s dr d m2 c n r) = time ri /\
    pos (fst (ray_rsplit s dr d m2 c' n r)) = pos ri /\ pos (snd (ray_rsplit s dr d m2 c' n r)) = pos ri /\
    pos (ray_screen s screen dr d n r) = pos ri.
  Proof.
    intros Hf. cbv zeta. unfold ray_intersect, ray_reflect, ray_refract, ray_rsplit, ray_screen. rewrite Hf.
    destruct (hit _ _ _ _) as [[] dt]; [|discriminate]. intros _.
    destruct (orient _ _) as [nn a]. destruct (getCoefs _ _ _) as [rf tr].
    destruct (refract_vel _ _ _ _ _); repeat split; reflexivity.
  Qed.
End Iter.
Lemma iterative_real niter s A B l k r ri : iterative s -> nth_error l k = Some r -> failed r = false ->
  kth k (rv_intersect niter s (Some (Fcs B)) None (Frv (RV l A))) ri -> failed ri = false ->
  exists x y z h, pos ri = V3 x y (Fin z) /\ sag s x y = Fin h /\ Rabs (h - z) < 1 / 1000000000000.
Proof.
  intros Hs Hk Hf Hi Hok. unfold Frv in Hi.
  assert (Hk' : nth_error (map Fray l) k = Some (Fray r)) by (rewrite nth_error_map, Hk; reflexivity).
  destruct (iterative_on_surface niter s (Some (Fcs B)) (map Fray l) (Fcs A) k (Fray r) ri Hs Hk' Hf Hi Hok) as [H _].
  destruct (pos ri) as [x y z]. cbn [cx cy cz] in H. cbn [nltb nabs nsub NumXR nfrac] in H.
  destruct (sag s x y) as [h| | |] eqn:E, z as [z| | |]; cbn in H; try discriminate.
  destruct (Rlt_dec _ _) as [L|L]; [|discriminate].
  exists x, y, z, h. repeat split; auto. 
Qed.

(** ** C60 *)
Lemma paraboloid_normal_F rad x y : rad <> 0 ->
  paraboloid_normal (Fin rad) (Fin x) (Fin y) =
  let nz := / sqrt (1 + (x * x + y * y) / rad / rad) in
  F3 (V3 (- x / rad * nz) (- y / rad * nz) nz).
Proof.
  intros Hr. unfold paraboloid_normal. xunf. rewrite xeqb_f by assumption.
  rewrite (xdiv_fin 1 rad) by assumption. cbn [xmul xadd xopp].
  assert (Hq : 0 < 1 + (x * x + y * y) * (1 / rad) * (1 / rad)).
  { replace ((x * x + y * y) * (1 / rad) * (1 / rad)) with ((x / rad) * (x / rad) + (y / rad) * (y / rad)) by (field; assumption).
    pose proof (sq_nonneg (x / rad)). pose proof (sq_nonneg (y / rad)). lra. }
  rewrite unit_nz by assumption. cbn [xmul]. cbv zeta.
  replace (1 + (x * x + y * y) / rad / rad) with (1 + (x * x + y * y) * (1 / rad) * (1 / rad)) by (field; assumption).
  apply vec3_eq; cbn; f_equal; unfold Rdiv; ring.
Qed.
Lemma paraboloid_focus niter rad A B l k r c x y z0 w : rad <> 0 -> good_frame A -> good_frame B ->
  nth_error l k = Some r -> failed r = false ->
  pos_in A B r = V3 x y z0 -> vel_in A B r = V3 0 0 w -> w <> 0 ->
  exists r', kth k (rv_reflect niter (Paraboloid (Fin rad)) (Some (Fcs B)) (option_map Fcoat c) (Frv (RV l A))) r' /\
    failed r' = false /\ vignetted r' = vignetted r /\
    ray_positionAtTime (Fin (time r - (z0 + rad / 2) / w)) r' = F3 (V3 0 0 (rad / 2)).
Proof.
  intros Hr HA HB Hk Hf Hp Hv Hw.
  assert (Hh : hit (Fshape (ShParaboloid rad)) niter (F3 (pos_in A B r)) (F3 (vel_in A B r))
             = (true, Fin (((x * x + y * y) / (2 * rad) - z0) / w))).
  { rewrite hit_paraboloid by assumption. rewrite Hp, Hv. unfold coefA, coefB, coefC; cbn [cx cy cz].
    destruct (Req_EM_T _ 0) as [E|E]; [|exfalso; apply E; field; assumption].
    f_equal. apply xdiv_fin_eq; [|field; lra].
    replace ((x * 0 + y * 0) * (1 / rad) - w) with (- w) by ring. lra. }
  set (t := ((x * x + y * y) / (2 * rad) - z0) / w) in *.
  pose proof (intersect_hit _ niter A B l k r _ HA HB Hk Hf Hh) as Hi. rewrite advance_F in Hi.
  set (q := on_line (pos_in A B r) (vel_in A B r) t) in *.
  assert (Q : q = V3 x y ((x * x + y * y) / (2 * rad))).
  { unfold q, t. rewrite Hp, Hv. apply vec3_eq; cbn; field; auto. }
  assert (Ha : arrives niter (Paraboloid (Fin rad)) A B l k r
     (Ray (F3 q) (F3 (vel_in A B r)) (nadd (Fin (time r)) (Fin t)) (Fin (wavelength r)) (Fin (flux r)) (vignetted r) false) q).
  { constructor; auto. }
  set (nz := / sqrt (1 + (x * x + y * y) / rad / rad)).
  assert (Hn : normal_at (Paraboloid (Fin rad)) q (V3 (- x / rad * nz) (- y / rad * nz) nz)).
  { unfold normal_at. rewrite Q. cbn [normal cx cy]. apply paraboloid_normal_F, Hr. }
  assert (Hvz : vel_in A B r <> zeroR).
  { rewrite Hv. intros E. apply (f_equal cz) in E. cbn in E. contradiction. }
  eexists. split; [eapply reflect_nth; eauto|]. cbn [failed vignetted]. split; [reflexivity|split; [reflexivity|]].
  unfold ray_positionAtTime; cbn [pos vel time]. rewrite Q, Hv.
  assert (Hq : 0 < 1 + (x * x + y * y) / rad / rad).
  { replace ((x * x + y * y) / rad / rad) with ((x / rad) * (x / rad) + (y / rad) * (y / rad)) by (field; assumption).
    pose proof (sq_nonneg (x / rad)). pose proof (sq_nonneg (y / rad)). lra. }
  assert (N2 : nz * nz = rad * rad / (rad * rad + (x * x + y * y))).
  { unfold nz. rewrite inv_sqrt_sq by assumption. 
    assert (rad * rad + (x * x + y * y) <> 0) by (pose proof (sq_nonneg x); pose proof (sq_nonneg y); nra).
    field. repeat split; try assumption; try lra. }
  assert (D : rad * rad + (x * x + y * y) <> 0) by (pose proof (sq_nonneg x); pose proof (sq_nonneg y); nra).
  unfold reflR, dotR. unfold t.
  assert (X : forall a, (0 * (- x / rad * nz) + 0 * (- y / rad * nz) + w * nz) * (a * nz) = w * a * (nz * nz)) by (intros; ring).
  apply vec3_eq; cbn; f_equal; unfold Rdiv in *.
  - transitivity (x + (- (2 * (w * (- x * / rad) * (nz * nz)))) *
      (time r - (z0 + rad * / 2) * / w - (time r + ((x * x + y * y) * / (2 * rad) - z0) * / w))); [ring|].
    rewrite N2. field. auto.
  - transitivity (y + (- (2 * (w * (- y * / rad) * (nz * nz)))) *
      (time r - (z0 + rad * / 2) * / w - (time r + ((x * x + y * y) * / (2 * rad) - z0) * / w))); [ring|].
    rewrite N2. field. auto.
  - transitivity ((x * x + y * y) * / (2 * rad) + (w - (2 * (w * (nz * nz)))) *
      (time r - (z0 + rad * / 2) * / w - (time r + ((x * x + y * y) * / (2 * rad) - z0) * / w))); [ring|].
    rewrite N2. field. auto.
Qed.
