(** Proofs for C11, C12 (closed-form intersections). *)
From Coq Require Import Reals List ZArith Bool Lra Psatz.
From Verif Require Import Num NumR Vec CoordSys Surface Medium Ray Bundle Spec OpticsSpec
  XRFacts CoordFacts FrameProofs RayFacts NormalFacts RefractProofs OpticsProofs RootFacts.
Import ListNotations.
Open Scope R_scope.

(** ** sag and the complete surface *)
Lemma xdiv_fin_eq x y z : y <> 0 -> x = y * z -> xdiv (Fin x) (Fin y) = Fin z.
Proof. intros Hy ->. rewrite xdiv_fin by assumption. f_equal. field. assumption. Qed.

Lemma sphere_sag_iff rad x y z : rad <> 0 ->
  sphere_sag (Fin rad) (Fin x) (Fin y) = Fin z <->
  x * x + y * y + (z - rad) * (z - rad) = rad * rad /\ 0 <= rad * (rad - z).
Proof.
  intros Hr. unfold sphere_sag. xunf. rewrite (xeqb_f rad 0) by assumption. cbn [negb].
  rewrite (xdiv_fin 1 rad), xdiv_fin by assumption. cbn [xmul xsub].
  assert (Hr2 : 0 < rad * rad) by nra.
  set (g := 1 - (x * x + y * y) * (1 / rad / rad)).
  assert (G : rad * rad * g = rad * rad - (x * x + y * y)) by (unfold g; field; assumption).
  cbn [xsqrt]. destruct (Rlt_dec g 0) as [Hg|Hg].
  - split.
    + cbn. discriminate.
    + intros [E _]. exfalso. pose proof (sq_nonneg (z - rad)). nra.
  - pose proof (sqrt_sqrt g ltac:(lra)) as S. pose proof (sqrt_pos g) as P. cbn [xsub xmul].
    split.
    + intros E. apply Fin_inj in E. subst z. split.
      * replace ((rad * (1 - sqrt g) - rad) * (rad * (1 - sqrt g) - rad)) with (rad * rad * (sqrt g * sqrt g)) by ring.
        rewrite S. lra.
      * replace (rad * (rad - rad * (1 - sqrt g))) with (rad * rad * sqrt g) by ring. nra.
    + intros [E N]. f_equal.
      assert (Q : sqrt g = (rad - z) / rad).
      { apply Rsqr_inj; [assumption| |].
        - unfold Rdiv. replace ((rad - z) * / rad) with ((rad * (rad - z)) * / (rad * rad)) by (field; assumption).
          apply Rmult_le_pos; [assumption|]. left. apply Rinv_0_lt_compat, Hr2.
        - unfold Rsqr. rewrite S. apply Rmult_eq_reg_l with (rad * rad); [|lra]. rewrite G.
          replace (rad * rad * ((rad - z) / rad * ((rad - z) / rad))) with ((z - rad) * (z - rad)) by (field; assumption).
          lra. }
      rewrite Q. field. assumption.
Qed.
Lemma paraboloid_sag_iff rad x y z : rad <> 0 ->
  paraboloid_sag (Fin rad) (Fin x) (Fin y) = Fin z <-> x * x + y * y = 2 * rad * z.
Proof.
  intros Hr. unfold paraboloid_sag. xunf. rewrite (xeqb_f rad 0) by assumption. cbn [negb].
  rewrite (xdiv_fin 1 2), xdiv_fin by lra. cbn [xmul]. split.
  - intros E. apply Fin_inj in E. subst z. field. assumption.
  - intros E. f_equal. rewrite E. field. assumption.
Qed.
Lemma quadric_sag_iff rad k x y z : rad <> 0 ->
  quadric_sag (Fin rad) (Fin k) (Fin x) (Fin y) = Fin z <->
  x * x + y * y + (1 + k) * (z * z) = 2 * rad * z /\ 0 <= rad * (rad - (1 + k) * z).
Proof.
  intros Hr. unfold quadric_sag. xunf. rewrite (xeqb_f rad 0) by assumption. cbn [negb].
  rewrite (xdiv_fin _ rad), xdiv_fin by assumption. cbn [xmul xsub].
  assert (Hr2 : 0 < rad * rad) by nra.
  set (g := 1 - (x * x + y * y) * ((k + 1) / rad / rad)).
  assert (G : rad * rad * g = rad * rad - (x * x + y * y) * (1 + k)) by (unfold g; field; assumption).
  cbn [xsqrt]. destruct (Rlt_dec g 0) as [Hg|Hg].
  - split.
    + cbn. discriminate.
    + intros [E _]. exfalso. pose proof (sq_nonneg (rad - (1 + k) * z)) as Q.
      assert (X : x * x + y * y = 2 * rad * z - (1 + k) * (z * z)) by lra. rewrite X in G.
      assert (rad * rad * g = (rad - (1 + k) * z) * (rad - (1 + k) * z)) by (rewrite G; ring). nra.
  - pose proof (sqrt_sqrt g ltac:(lra)) as S. pose proof (sqrt_pos g) as P. cbn [xadd xmul].
    assert (Hden : rad * (1 + sqrt g) <> 0) by (apply Rmult_integral_contrapositive_currified; [assumption|lra]).
    rewrite xdiv_fin by assumption. split.
    + intros E. apply Fin_inj in E.
      assert (E' : x * x + y * y = rad * (1 + sqrt g) * z) by (rewrite <- E; field; lra).
      assert (K : (1 + k) * z = rad * (1 - sqrt g)).
      { apply Rmult_eq_reg_l with (rad * (1 + sqrt g)); [|assumption].
        transitivity ((x * x + y * y) * (1 + k)); [rewrite E'; ring|].
        transitivity (rad * rad * (1 - sqrt g * sqrt g)); [rewrite S; lra|ring]. }
      split.
      * replace ((1 + k) * (z * z)) with (((1 + k) * z) * z) by ring. rewrite K, E'. ring.
      * rewrite K. replace (rad * (rad - rad * (1 - sqrt g))) with (rad * rad * sqrt g) by ring. nra.
    + intros [E N]. f_equal.
      assert (Q : sqrt g = (rad - (1 + k) * z) / rad).
      { apply Rsqr_inj; [assumption| |].
        - unfold Rdiv. replace ((rad - (1 + k) * z) * / rad)
            with ((rad * (rad - (1 + k) * z)) * / (rad * rad)) by (field; assumption).
          apply Rmult_le_pos; [assumption|]. left. apply Rinv_0_lt_compat, Hr2.
        - unfold Rsqr. rewrite S. apply Rmult_eq_reg_l with (rad * rad); [|lra]. rewrite G.
          replace (rad * rad * ((rad - (1 + k) * z) / rad * ((rad - (1 + k) * z) / rad)))
            with (rad * rad - (1 + k) * (2 * rad * z - (1 + k) * (z * z))) by (field; assumption).
          replace (2 * rad * z - (1 + k) * (z * z)) with (x * x + y * y) by lra. ring. }
      rewrite Q in *. apply Rmult_eq_reg_l with (rad * (1 + (rad - (1 + k) * z) / rad)); [|assumption].
      replace (rad * (1 + (rad - (1 + k) * z) / rad) * z) with (2 * rad * z - (1 + k) * (z * z)) by (field; assumption).
      unfold Rdiv at 2. rewrite <- Rmult_assoc, (Rmult_comm _ (x * x + y * y)), Rmult_assoc, Rinv_r by assumption. lra.
Qed.
Lemma on_sag_iff sh q : good_shape sh -> on_sag (Fshape sh) q <-> whole sh q /\ vertex_part sh q.
Proof.
  unfold on_sag, whole, vertex_part. destruct sh as [|tx ty|rad|rad|rad k]; cbn [Fshape sag good_shape].
  - intros _. cbn. split; [intros E; apply Fin_inj in E; auto|intros [-> _]; reflexivity].
  - intros _. unfold tilted_sag. cbn. split; [intros E; apply Fin_inj in E; auto|intros [-> _]; reflexivity].
  - apply sphere_sag_iff.
  - intros H. rewrite paraboloid_sag_iff by assumption. tauto.
  - intros [H _]. apply quadric_sag_iff, H.
Qed.

(** ** Coefficients of the intersection equation *)
Definition coefA (sh : shape) (p v : vR) : R :=
  match sh with
  | ShPlane | ShTilted _ _ => 0
  | ShSphere rad => cz v * cz v + (cx v * cx v + cy v * cy v)
  | ShParaboloid rad => (cx v * cx v + cy v * cy v) * (1 / 2 / rad)
  | ShQuadric rad k => cz v * cz v + (cx v * cx v + cy v * cy v) * (1 / (k + 1))
  end.
Definition coefB (sh : shape) (p v : vR) : R :=
  match sh with
  | ShPlane => cz v
  | ShTilted tx ty => cz v - (cx v * tx + cy v * ty)
  | ShSphere rad => 2 * cz v * (cz p - rad) + 2 * (cx v * cx p + cy v * cy p)
  | ShParaboloid rad => (cx p * cx v + cy p * cy v) * (1 / rad) - cz v
  | ShQuadric rad k => 2 * (cz v * (cz p - rad / (k + 1)) + (cx v * cx p + cy v * cy p) * (1 / (k + 1)))
  end.
Definition coefC (sh : shape) (p v : vR) : R :=
  match sh with
  | ShPlane => cz p
  | ShTilted tx ty => cz p - cx p * tx - cy p * ty
  | ShSphere rad => (cz p - rad) * (cz p - rad) - rad * rad + (cx p * cx p + cy p * cy p)
  | ShParaboloid rad => (cx p * cx p + cy p * cy p) * (1 / 2 / rad) - cz p
  | ShQuadric rad k => (cz p - rad / (k + 1)) * (cz p - rad / (k + 1)) - rad * rad / (k + 1) / (k + 1)
                       + (cx p * cx p + cy p * cy p) * (1 / (k + 1))
  end.
Lemma quad_whole sh p v t : good_shape sh ->
  quad (coefA sh p v) (coefB sh p v) (coefC sh p v) t = 0 <-> whole sh (on_line p v t).
Proof.
  unfold quad, whole, on_line. destruct sh as [|tx ty|rad|rad|rad k]; cbn; intros Hg.
  - split; intros; lra.
  - split; intros; lra.
  - split; intros; lra.
  - set (X := cx p + t * cx v). set (Y := cy p + t * cy v). set (Z := cz p + t * cz v).
    assert (E : (cx v * cx v + cy v * cy v) * (1 / 2 / rad) * t * t +
       ((cx p * cx v + cy p * cy v) * (1 / rad) - cz v) * t +
       ((cx p * cx p + cy p * cy p) * (1 / 2 / rad) - cz p) = (X * X + Y * Y - 2 * rad * Z) / (2 * rad))
      by (unfold X, Y, Z; field; assumption).
    rewrite E. split.
    + intros H. apply Rmult_integral in H. destruct H as [H|H]; [lra|].
      exfalso. revert H. apply Rinv_neq_0_compat. lra.
    + intros ->. field. assumption.
  - destruct Hg as [Hr Hk].
    set (X := cx p + t * cx v). set (Y := cy p + t * cy v). set (Z := cz p + t * cz v).
    match goal with |- ?L = 0 <-> _ =>
      assert (E : L = (X * X + Y * Y + (1 + k) * (Z * Z) - 2 * rad * Z) / (1 + k))
        by (unfold X, Y, Z; field; lra) end.
    rewrite E. split.
    + intros H. apply Rmult_integral in H. destruct H as [H|H]; [lra|].
      exfalso. revert H. apply Rinv_neq_0_compat. lra.
    + intros H. replace (X * X + Y * Y + (1 + k) * (Z * Z) - 2 * rad * Z) with 0 by lra. field. lra.
Qed.
Lemma whole_start sh p v : good_shape sh -> coefC sh p v = 0 <-> whole sh p.
Proof.
  intros Hg. rewrite <- (on_line_0 p v) at 2. rewrite <- quad_whole by assumption.
  unfold quad. split; intros; lra.
Qed.

(** ** The intersection routines in terms of the coefficients *)
Definition pick_root (sh : shape) (p v : vR) (d1 d2 : XR) : XR :=
  match sh with
  | ShQuadric _ _ =>
      if xltb (xabs (xadd (Fin (cz p)) (xmul (Fin (cz v)) d1)))
              (xabs (xadd (Fin (cz p)) (xmul (Fin (cz v)) d2))) then d1 else d2
  | ShSphere rad | ShParaboloid rad =>
      if xltb (Fin (cz v * rad)) (Fin 0) then nmax d1 d2 else nmin d1 d2
  | _ => d1
  end.
Lemma hit_plane p v niter : hit (Fshape ShPlane) niter (F3 p) (F3 v) =
  if Req_EM_T (cz v) 0 then (false, Fin 0) else (true, Fin (- cz p / cz v)).
Proof.
  unfold hit; cbn [Fshape tti]. unfold plane_tti. xunf. cbn [xeqb]. destruct (Req_EM_T (cz v) 0); [reflexivity|].
  rewrite xdiv_fin by assumption. reflexivity.
Qed.
Lemma hit_tilted tx ty p v niter : hit (Fshape (ShTilted tx ty)) niter (F3 p) (F3 v) =
  if Req_EM_T (cx v * tx + cy v * ty - cz v) 0 then (false, Fin 0)
  else (true, Fin ((cz p - cx p * tx - cy p * ty) / (cx v * tx + cy v * ty - cz v))).
Proof.
  unfold hit; cbn [Fshape tti]. unfold tilted_tti. xunf. cbn [xeqb]. destruct (Req_EM_T _ 0); [reflexivity|].
  rewrite xdiv_fin by assumption. reflexivity.
Qed.
Definition by_roots (sh : shape) (p v : vR) : bool * XR :=
  match roots (Fin (coefA sh p v)) (Fin (coefB sh p v)) (Fin (coefC sh p v)) with
  | None => (false, Fin 0)
  | Some (d1, d2) => (true, pick_root sh p v d1 d2)
  end.
Lemma hit_sphere rad p v niter : hit (Fshape (ShSphere rad)) niter (F3 p) (F3 v) = by_roots (ShSphere rad) p v.
Proof. unfold hit; cbn [Fshape tti]. unfold sphere_tti, by_roots. reflexivity. Qed.
Lemma hit_paraboloid rad p v niter : rad <> 0 ->
  hit (Fshape (ShParaboloid rad)) niter (F3 p) (F3 v) =
  if Req_EM_T (coefA (ShParaboloid rad) p v) 0
  then (true, xdiv (Fin (- coefC (ShParaboloid rad) p v)) (Fin (coefB (ShParaboloid rad) p v)))
  else by_roots (ShParaboloid rad) p v.
Proof.
  intros Hr. unfold hit; cbn [Fshape tti]. unfold paraboloid_tti. xunf.
  rewrite (xdiv_fin 1 rad), (xdiv_fin 1 2), (xdiv_fin (1 / 2)) by (try assumption; lra).
  cbn [xmul xadd xsub xopp]. unfold coefA, coefB, coefC, by_roots.
  cbn [xeqb]. destruct (Req_EM_T _ 0); [reflexivity|]. reflexivity.
Qed.
Lemma hit_quadric rad k p v niter : 1 + k <> 0 ->
  hit (Fshape (ShQuadric rad k)) niter (F3 p) (F3 v) = by_roots (ShQuadric rad k) p v.
Proof.
  intros Hk. unfold hit; cbn [Fshape tti]. unfold quadric_tti. xunf.
  rewrite !xdiv_fin by lra. cbn [xmul xadd xsub xopp]. reflexivity.
Qed.

Lemma pick_is sh p v d1 d2 : pick_root sh p v d1 d2 = d1 \/ pick_root sh p v d1 d2 = d2.
Proof.
  destruct sh; cbn [pick_root]; auto; unfold nmax, nmin;
  repeat match goal with |- context [if ?b then _ else _] => destruct b end; auto.
Qed.
Lemma by_roots_sound sh p v t : good_shape sh -> by_roots sh p v = (true, Fin t) ->
  whole sh (on_line p v t).
Proof.
  intros Hg H. unfold by_roots in H. destruct (roots _ _ _) as [[d1 d2]|] eqn:E; [|discriminate].
  injection H; intros Hp. clear H. apply quad_whole; [assumption|].
  destruct (pick_is sh p v d1 d2) as [Q|Q]; rewrite Q in Hp;
  destruct (roots_cases _ _ _ _ _ E) as [(t1 & t2 & -> & -> & _ & Q1 & Q2 & _)
    |[(C & _ & _ & -> & ->)|[(_ & _ & -> & ->)|[(A & B & -> & Hd)|(A & Hd & ->)]]]];
  try discriminate; try (exfalso; eapply Hd; eassumption);
  try (apply Fin_inj in Hp; subst t; assumption).
  - apply Fin_inj in Hp. subst t. unfold quad. rewrite C. ring.
  - apply Fin_inj in Hp. subst t. unfold quad. rewrite A. field. lra.
Qed.
Lemma hit_sound sh p v niter t : good_shape sh ->
  hit (Fshape sh) niter (F3 p) (F3 v) = (true, Fin t) -> whole sh (on_line p v t).
Proof.
  intros Hg. destruct sh as [|tx ty|rad|rad|rad k].
  - rewrite hit_plane. destruct (Req_EM_T _ _) as [|n]; [discriminate|]. intros H; injection H; intros <-.
    cbn. field. assumption.
  - rewrite hit_tilted. destruct (Req_EM_T _ _) as [|n]; [discriminate|]. intros H; injection H; intros <-.
    cbn. field. assumption.
  - rewrite hit_sphere. apply by_roots_sound, Hg.
  - rewrite hit_paraboloid by exact Hg. destruct (Req_EM_T _ 0) as [A|A]; [|apply by_roots_sound, Hg].
    intros H. apply (f_equal snd) in H; cbn [snd] in H. rename H into E. apply quad_whole; [assumption|].
    destruct (Req_dec (coefB (ShParaboloid rad) p v) 0) as [B|B].
    + rewrite B in E. exfalso. exact (xdiv0_not_fin _ _ E).
    + rewrite xdiv_fin in E by assumption. apply Fin_inj in E. subst t. unfold quad. rewrite A. field. assumption.
  - destruct Hg as [Hr Hk]. rewrite hit_quadric by assumption. apply by_roots_sound. split; assumption.
Qed.

(** ** Misses *)
Lemma by_roots_miss sh p v : good_shape sh -> coefA sh p v <> 0 ->
  fst (by_roots sh p v) = false <-> ~ exists t, whole sh (on_line p v t).
Proof.
  intros Hg HA. unfold by_roots. destruct (roots _ _ _) as [[d1 d2]|] eqn:E; cbn [fst].
  - split; [discriminate|]. intros N. exfalso. apply N.
    assert (0 <= discR (coefA sh p v) (coefB sh p v) (coefC sh p v)).
    { destruct (Rlt_dec (discR (coefA sh p v) (coefB sh p v) (coefC sh p v)) 0) as [L|L]; [|lra].
      apply roots_none in L. congruence. }
    destruct (quad_solves _ _ _ HA H) as [t Ht]. exists t. apply quad_whole; assumption.
  - apply roots_none in E. split; [|reflexivity]. intros _ [t Ht].
    apply quad_whole in Ht; [|assumption]. apply quad_real in Ht. lra.
Qed.
Lemma nonzero_axis v : v <> zeroR -> cx v * cx v + cy v * cy v = 0 -> cz v <> 0.
Proof.
  intros Hv H E. apply Hv. pose proof (sq_nonneg (cx v)). pose proof (sq_nonneg (cy v)).
  apply vec3_eq; cbn; [nra|nra|assumption].
Qed.
Lemma coefA_quadric rad k p v : 1 + k <> 0 -> ~ degenerate (ShQuadric rad k) p v ->
  coefA (ShQuadric rad k) p v <> 0.
Proof.
  intros Hk Hd E. apply Hd. cbn in *.
  replace ((1 + k) * (cz v * cz v) + (cx v * cx v + cy v * cy v))
    with ((1 + k) * (cz v * cz v + (cx v * cx v + cy v * cy v) * (1 / (k + 1)))) by (field; lra).
  rewrite E. ring.
Qed.
Lemma coefA_sphere rad p v : v <> zeroR -> coefA (ShSphere rad) p v <> 0.
Proof. intros Hv. cbn. pose proof (dot_pos v Hv) as D. unfold dotR in D. lra. Qed.

Lemma hit_miss sh p v niter : good_shape sh -> v <> zeroR -> ~ degenerate sh p v ->
  fst (hit (Fshape sh) niter (F3 p) (F3 v)) = false <-> ~ exists t, whole sh (on_line p v t).
Proof.
  intros Hg Hv Hd. destruct sh as [|tx ty|rad|rad|rad k].
  - rewrite hit_plane. cbn in *. destruct (Req_EM_T _ _) as [E|E]; cbn.
    + split; [|reflexivity]. intros _ [t Ht]. rewrite E in Ht. apply Hd. split; [assumption|lra].
    + split; [discriminate|]. intros N. exfalso. apply N. exists (- cz p / cz v). field. assumption.
  - rewrite hit_tilted. cbn in *. destruct (Req_EM_T _ _) as [E|E]; cbn.
    + split; [|reflexivity]. intros _ [t Ht]. apply Hd. split; [lra|].
      replace (cz v) with (cx v * tx + cy v * ty) in Ht by lra. lra.
    + split; [discriminate|]. intros N. exfalso. apply N.
      exists ((cz p - cx p * tx - cy p * ty) / (cx v * tx + cy v * ty - cz v)). field. assumption.
  - rewrite hit_sphere. apply by_roots_miss; [assumption|]. apply coefA_sphere, Hv.
  - rewrite hit_paraboloid by exact Hg. destruct (Req_EM_T _ 0) as [A|A]; [|apply by_roots_miss; assumption].
    cbn [fst]. split; [discriminate|]. intros N. exfalso. apply N.
    assert (H0 : cx v * cx v + cy v * cy v = 0).
    { cbn in A. cbn in Hg. apply Rmult_integral in A. destruct A as [A|A]; [exact A|].
      exfalso. revert A. unfold Rdiv. apply Rmult_integral_contrapositive_currified.
      - lra. - apply Rinv_neq_0_compat, Hg. }
    pose proof (nonzero_axis v Hv H0) as Hz.
    assert (cx v = 0 /\ cy v = 0) as [Hx Hy].
    { pose proof (sq_nonneg (cx v)). pose proof (sq_nonneg (cy v)). split; nra. }
    exists (((cx p * cx p + cy p * cy p) / (2 * rad) - cz p) / cz v). cbn. rewrite Hx, Hy. cbn in Hg. field.
    split; assumption.
  - destruct Hg as [Hr Hk]. rewrite hit_quadric by assumption.
    apply by_roots_miss; [split; assumption|]. apply coefA_quadric; assumption.
Qed.

(** ** A ray off the surface that crosses it gets a real intersection *)
Lemma pick_fin sh p v t1 t2 : exists t, pick_root sh p v (Fin t1) (Fin t2) = Fin t.
Proof.
  destruct (pick_is sh p v (Fin t1) (Fin t2)) as [-> | ->]; eauto.
Qed.
Lemma by_roots_real sh p v : good_shape sh -> coefA sh p v <> 0 -> ~ whole sh p ->
  (exists t, whole sh (on_line p v t)) -> exists t, by_roots sh p v = (true, Fin t).
Proof.
  intros Hg HA Hp [t0 Ht]. apply quad_whole in Ht; [|assumption]. apply quad_real in Ht.
  assert (HC : coefC sh p v <> 0) by (intros E; apply Hp; apply (whole_start sh p v Hg); assumption).
  destruct (roots_two _ _ _ HA Ht HC) as (t1 & t2 & E & _). unfold by_roots. rewrite E.
  destruct (pick_fin sh p v t1 t2) as [t Hpk]. exists t. rewrite Hpk. reflexivity.
Qed.
Lemma hit_real sh p v niter : good_shape sh -> v <> zeroR -> ~ degenerate sh p v -> ~ whole sh p ->
  (exists t, whole sh (on_line p v t)) ->
  exists t, hit (Fshape sh) niter (F3 p) (F3 v) = (true, Fin t).
Proof.
  intros Hg Hv Hd Hp He. destruct sh as [|tx ty|rad|rad|rad k].
  - rewrite hit_plane. destruct (Req_EM_T _ _) as [E|E]; [|eauto]. exfalso.
    destruct He as [t Ht]. cbn in Ht, Hp. rewrite E in Ht. apply Hp. lra.
  - rewrite hit_tilted. destruct (Req_EM_T _ _) as [E|E]; [|eauto]. exfalso.
    destruct He as [t Ht]. cbn in Ht, Hp. apply Hp.
    replace (cz v) with (cx v * tx + cy v * ty) in Ht by lra. lra.
  - rewrite hit_sphere. apply by_roots_real; auto. apply coefA_sphere, Hv.
  - rewrite hit_paraboloid by exact Hg. destruct (Req_EM_T _ 0) as [A|A]; [|apply by_roots_real; assumption].
    assert (H0 : cx v * cx v + cy v * cy v = 0).
    { cbn in A. cbn in Hg. apply Rmult_integral in A. destruct A as [A|A]; [exact A|].
      exfalso. revert A. unfold Rdiv. apply Rmult_integral_contrapositive_currified.
      - lra. - apply Rinv_neq_0_compat, Hg. }
    pose proof (nonzero_axis v Hv H0) as Hz.
    assert (cx v = 0 /\ cy v = 0) as [Hx Hy].
    { pose proof (sq_nonneg (cx v)). pose proof (sq_nonneg (cy v)). split; nra. }
    rewrite xdiv_fin; [eauto|]. cbn. rewrite Hx, Hy. lra.
  - destruct Hg as [Hr Hk]. rewrite hit_quadric by assumption.
    apply by_roots_real; [split; assumption| | |]; auto. apply coefA_quadric; assumption.
Qed.

(** ** The chosen root is on the vertex part whenever the line meets it *)
(** For hyperboloids: the meeting point is nearer to the vertex plane than the
    vertex of the other sheet. *)
Definition separable (sh : shape) (q : vR) : Prop :=
  match sh with
  | ShQuadric rad k => 0 < 1 + k \/ ((1 + k) * cz q) * ((1 + k) * cz q) < 4 * (rad * rad)
  | _ => True
  end.
Lemma sphere_pick rad p v t0 t1 t2 t : 
  vertex_part (ShSphere rad) (on_line p v t0) -> (t0 = t1 \/ t0 = t2) ->
  pick_root (ShSphere rad) p v (Fin t1) (Fin t2) = Fin t -> vertex_part (ShSphere rad) (on_line p v t).
Proof.
  cbn [pick_root vertex_part on_line]. intros Hv Ht Hp. rewrite nmax_fin, nmin_fin in Hp.
  cbn [xltb] in Hp. cbn in *.
  assert (M : rad * (cz v * t) <= rad * (cz v * t0)).
  { destruct (Rlt_dec (cz v * rad) 0); apply Fin_inj in Hp; subst t.
    - assert (t0 <= Rmax t1 t2) by (destruct Ht as [-> | ->]; [apply Rmax_l|apply Rmax_r]). nra.
    - assert (Rmin t1 t2 <= t0) by (destruct Ht as [-> | ->]; [apply Rmin_l|apply Rmin_r]). nra. }
  nra.
Qed.
Lemma abs_le_sq a b : Rabs a <= Rabs b -> a * a <= b * b.
Proof. intros H. apply Rsqr_le_abs_1 in H. exact H. Qed.
Lemma quadric_near rad k (q q0 : vR) : rad <> 0 -> 1 + k <> 0 ->
  whole (ShQuadric rad k) q -> whole (ShQuadric rad k) q0 ->
  vertex_part (ShQuadric rad k) q0 -> separable (ShQuadric rad k) q0 ->
  cz q * cz q <= cz q0 * cz q0 -> vertex_part (ShQuadric rad k) q.
Proof.
  cbn. intros Hr Hk W W0 V S L.
  pose proof (sq_nonneg (cx q)). pose proof (sq_nonneg (cy q)).
  pose proof (sq_nonneg (cx q0)). pose proof (sq_nonneg (cy q0)).
  set (z := cz q) in *. set (z0 := cz q0) in *.
  destruct (Rlt_dec 0 (1 + k)) as [P|P].
  - (* ellipsoid: rad*z >= 0 *)
    assert (A : 0 <= rad * z) by nra. assert (A0 : 0 <= rad * z0) by nra.
    assert (B : rad * z <= rad * z0).
    { apply Rsqr_incr_0; unfold Rsqr; try assumption.
      replace (rad * z * (rad * z)) with ((rad * rad) * (z * z)) by ring.
      replace (rad * z0 * (rad * z0)) with ((rad * rad) * (z0 * z0)) by ring.
      apply Rmult_le_compat_l; nra. }
    nra.
  - assert (N : 1 + k < 0) by lra. destruct S as [S|S]; [lra|].
    (* hyperboloid: if on the far sheet then rad*z <= 2 rad^2/(1+k) *)
    destruct (Rle_dec 0 (rad * z)) as [Q|Q]; [nra|]. exfalso.
    assert (F : z * (2 * rad - (1 + k) * z) >= 0) by nra.
    (* rad z < 0 and rad z * (2 rad^2 - (1+k) rad z) >= 0 *)
    assert (F' : rad * z * (2 * (rad * rad) - (1 + k) * (rad * z)) >= 0).
    { replace (rad * z * (2 * (rad * rad) - (1 + k) * (rad * z)))
        with ((rad * rad) * (z * (2 * rad - (1 + k) * z))) by ring. nra. }
    assert (G : 2 * (rad * rad) <= (1 + k) * (rad * z)) by nra.
    assert (G2 : (2 * (rad * rad)) * (2 * (rad * rad)) <= ((1 + k) * (rad * z)) * ((1 + k) * (rad * z))) by nra.
    assert (Hrr : 0 < rad * rad) by nra.
    assert (G3 : 4 * (rad * rad) <= ((1 + k) * (1 + k)) * (z * z)).
    { apply Rmult_le_reg_l with (rad * rad); [assumption|]. nra. }
    assert (G4 : ((1 + k) * (1 + k)) * (z * z) <= ((1 + k) * (1 + k)) * (z0 * z0)).
    { apply Rmult_le_compat_l; [nra|assumption]. }
    nra.
Qed.
Lemma hit_near sh p v niter t t0 : good_shape sh -> v <> zeroR ->
  hit (Fshape sh) niter (F3 p) (F3 v) = (true, Fin t) ->
  (whole sh p -> vertex_part sh p) ->
  whole sh (on_line p v t0) -> vertex_part sh (on_line p v t0) -> separable sh (on_line p v t0) ->
  vertex_part sh (on_line p v t).
Proof.
  intros Hg Hv Hh Hp W0 V0 S0. pose proof (hit_sound _ _ _ _ _ Hg Hh) as W.
  destruct sh as [|tx ty|rad|rad|rad k]; try exact I.
  - rewrite hit_sphere in Hh. unfold by_roots in Hh.
    destruct (roots _ _ _) as [[d1 d2]|] eqn:E; [|discriminate]. apply (f_equal snd) in Hh; cbn [snd] in Hh; rename Hh into Hpk.
    apply quad_whole in W0; [|assumption].
    destruct (roots_cases _ _ _ _ _ E) as [(t1 & t2 & -> & -> & _ & Q1 & Q2 & Q)
      |[(C & _ & _ & -> & ->)|[(_ & _ & -> & ->)|[(A & _)|(A & _)]]]].
    + eapply sphere_pick; eauto.
    + cbn [pick_root xltb] in Hpk. rewrite nmax_nan, nmin_nan in Hpk.
      assert (t = 0) as -> by (destruct (Rlt_dec (cz v * rad) 0); apply Fin_inj in Hpk; lra).
      rewrite on_line_0. apply Hp. apply (whole_start (ShSphere rad) p v Hg). exact C.
    + cbn [pick_root] in Hpk. unfold nmax, nmin in Hpk. cbn in Hpk.
      destruct (Rlt_dec _ _) in Hpk; discriminate.
    + exfalso. exact (coefA_sphere rad p v Hv A).
    + exfalso. exact (coefA_sphere rad p v Hv A).
  - destruct Hg as [Hr Hk]. rewrite hit_quadric in Hh by assumption. unfold by_roots in Hh.
    destruct (roots _ _ _) as [[d1 d2]|] eqn:E; [|discriminate]. apply (f_equal snd) in Hh; cbn [snd] in Hh; rename Hh into Hpk.
    assert (Q0 := proj2 (quad_whole (ShQuadric rad k) p v t0 (conj Hr Hk)) W0).
    destruct (roots_cases _ _ _ _ _ E) as [(t1 & t2 & -> & -> & _ & Q1 & Q2 & Q)
      |[(C & _ & _ & -> & ->)|[(_ & _ & -> & ->)|[(A & B & -> & Hd)|(A & Hd & ->)]]]].
    + apply (quadric_near rad k (on_line p v t) (on_line p v t0)); auto.
      apply abs_le_sq. cbn. cbn [pick_root xmul xadd xabs xltb] in Hpk.
      destruct (Q t0 Q0) as [-> | ->]; destruct (Rlt_dec _ _) as [L|L]; apply Fin_inj in Hpk; subst t;
      rewrite ?(Rmult_comm _ (cz v)); lra.
    + exfalso. cbn in Hpk. discriminate.
    + exfalso. cbn in Hpk. discriminate.
    + assert (t = t0) as ->; [|exact V0].
      destruct (pick_is (ShQuadric rad k) p v (Fin (- coefC (ShQuadric rad k) p v / coefB (ShQuadric rad k) p v)) d2) as [X|X];
      rewrite X in Hpk; [|exfalso; eapply Hd; eassumption].
      apply Fin_inj in Hpk. subst t. unfold quad in Q0. rewrite A in Q0.
      apply Rmult_eq_reg_l with (coefB (ShQuadric rad k) p v); [|lra].
      transitivity (- coefC (ShQuadric rad k) p v); [field; lra|lra].
    + destruct (pick_is (ShQuadric rad k) p v d1 NaN) as [X|X]; rewrite X in Hpk; [|discriminate].
      exfalso; eapply Hd; eassumption.
Qed.
