(** C38: field-angle projections. *)
From Coq Require Import Reals String List ZArith Bool Lra Psatz Lia.
From Verif Require Import Num NumR Vec Spec XRFacts Trig Optic Field FieldSpec.
Import ListNotations.
Open Scope R_scope.

Lemma radius_pos u v : 0 <= radius u v.
Proof. apply sqrt_pos. Qed.
Lemma radius_sq u v : radius u v * radius u v = u * u + v * v.
Proof. apply sqrt_sqrt. nra. Qed.
Lemma radius_0 u v : radius u v = 0 -> u = 0 /\ v = 0.
Proof. intros H. pose proof (radius_sq u v) as S. rewrite H in S. split; nra. Qed.
Lemma uv_nonneg u v : 0 <= u * u + v * v.
Proof. nra. Qed.
Lemma lift1 f x : -1 <= x <= 1 -> xlift1 f (Fin x) = Fin (f x).
Proof. intros H. unfold xlift1. destruct (Rle_dec (-1) x); [|lra]. destruct (Rle_dec x 1); [|lra]. reflexivity. Qed.
Lemma sin2cos2 x : sin x * sin x + cos x * cos x = 1.
Proof. pose proof (sin2_cos2 x) as H. unfold Rsqr in H. exact H. Qed.
(** Scaling (u, v) to the circle of radius s. *)
Lemma scaled_unit u v r s c : r <> 0 -> r * r = u * u + v * v -> s * s + c * c = 1 ->
  u / r * s * (u / r * s) + v / r * s * (v / r * s) + c * c = 1.
Proof.
  intros Hr Hq H. replace (u / r * s * (u / r * s) + v / r * s * (v / r * s)) with ((u * u + v * v) * (s * s) / (r * r)) by (field; exact Hr).
  rewrite <- Hq. replace (r * r * (s * s) / (r * r)) with (s * s) by (field; exact Hr). exact H.
Qed.

Lemma ok3 a b c a' b' c' : a = a' -> b = b' -> c = c' -> Ok (Fin a, Fin b, Fin c) = Ok (Fin a', Fin b', Fin c').
Proof. congruence. Qed.
Lemma ok2 a b a' b' : a = a' -> b = b' -> Ok (Fin a, Fin b) = Ok (Fin a', Fin b').
Proof. congruence. Qed.
Ltac field_open := unfold fieldToDirCos, dirCosToField, proj_name; cbn [String.eqb Ascii.eqb Bool.eqb].

(** Each projection forwards, in closed form. *)
Lemma fwd_zero p : p = Postel \/ p = Stereographic \/ p = Lambert ->
  fieldToDirCos (Fin 0) (Fin 0) (proj_name p) = Ok (Fin 0, Fin 0, Fin (-1)).
Proof.
  intros [-> | [-> | ->]]; field_open; unfold postelToDirCos, stereographicToDirCos, lambertToDirCos; xunf;
    replace (0 * 0 + 0 * 0) with 0 by ring; rewrite ?xsqrt_fin, ?sqrt_0 by lra; rewrite xeqb_t by reflexivity; reflexivity.
Qed.
Lemma fwd_postel u v : radius u v <> 0 ->
  fieldToDirCos (Fin u) (Fin v) "postel" =
  Ok (Fin (u / radius u v * sin (radius u v)), Fin (v / radius u v * sin (radius u v)), Fin (- cos (radius u v))).
Proof.
  intros Hr. field_open. unfold postelToDirCos. xunf. rewrite xsqrt_fin by apply uv_nonneg. fold (radius u v).
  rewrite xeqb_f by exact Hr. cbn [nsin ncos TrigXR xlift]. rewrite !xdiv_fin by exact Hr. reflexivity.
Qed.
Lemma fwd_stereographic u v : radius u v <> 0 -> let th := 2 * atan (radius u v / 2) in
  fieldToDirCos (Fin u) (Fin v) "stereographic" =
  Ok (Fin (u / radius u v * sin th), Fin (v / radius u v * sin th), Fin (- cos th)).
Proof.
  intros Hr th. field_open. unfold stereographicToDirCos. xunf. rewrite xsqrt_fin by apply uv_nonneg. fold (radius u v).
  rewrite xeqb_f by exact Hr. rewrite !xdiv_fin by (exact Hr || lra). cbn [nsin ncos natan TrigXR xlift xatan xmul]. reflexivity.
Qed.
Lemma fwd_lambert u v : radius u v <> 0 -> radius u v < 2 -> let g := (2 - (u * u + v * v)) / 2 in
  fieldToDirCos (Fin u) (Fin v) "lambert" =
  Ok (Fin (u / radius u v * sqrt (1 - g * g)), Fin (v / radius u v * sqrt (1 - g * g)), Fin (- g)).
Proof.
  intros Hr H2 g. field_open. unfold lambertToDirCos. xunf. pose proof (radius_pos u v) as Hp. pose proof (radius_sq u v) as Hs.
  rewrite xeqb_f by nra. rewrite (xsqrt_fin (u * u + v * v)) by apply uv_nonneg. fold (radius u v).
  rewrite (xdiv_fin (2 - (u * u + v * v)) 2) by lra. fold g. cbn [xmul].
  assert (Q : 0 <= u * u + v * v < 4) by nra.
  assert (G : 0 <= 1 - g * g) by (replace (1 - g * g) with ((u * u + v * v) * (4 - (u * u + v * v)) / 4) by (subst g; field); nra). rewrite (xsqrt_fin (1 - g * g)) by exact G. cbn [xmul].
  rewrite !xdiv_fin by exact Hr. cbn [xopp]. apply ok3; try field; try exact Hr; reflexivity.
Qed.
Lemma fwd_orthographic u v : radius u v <= 1 ->
  fieldToDirCos (Fin u) (Fin v) "orthographic" = Ok (Fin u, Fin v, Fin (- sqrt (1 - radius u v * radius u v))).
Proof.
  intros Hr. field_open. unfold orthographicToDirCos. xunf. rewrite xsqrt_fin by apply uv_nonneg. fold (radius u v).
  pose proof (radius_pos u v). cbn [nasin ncos TrigXR]. rewrite lift1 by lra. cbn [xlift xopp].
  rewrite cos_asin by lra. reflexivity.
Qed.
Lemma fwd_gnomonic u v : let g := / sqrt (1 + u * u + v * v) in
  fieldToDirCos (Fin u) (Fin v) "gnomonic" = Ok (Fin (u * g), Fin (v * g), Fin (- g)).
Proof.
  intros g. field_open. unfold gnomonicToDirCos. xunf. pose proof (uv_nonneg u v). rewrite xsqrt_fin by lra.
  assert (0 < sqrt (1 + u * u + v * v)) by (apply sqrt_lt_R0; lra).
  rewrite xdiv_fin by lra. cbn [xmul xopp]. unfold Rdiv. rewrite Rmult_1_l. reflexivity.
Qed.
Lemma fwd_zemax u v : let n := sqrt (1 + tan u * tan u + tan v * tan v) in
  fieldToDirCos (Fin u) (Fin v) "zemax" = Ok (Fin (tan u / n), Fin (tan v / n), Fin (- / n)).
Proof.
  intros n. field_open. unfold zemaxToDirCos. cbn [ntan TrigXR xlift]. xunf.
  pose proof (uv_nonneg (tan u) (tan v)). rewrite xsqrt_fin by lra. fold n.
  assert (0 < n) by (apply sqrt_lt_R0; lra). rewrite !xdiv_fin by lra. apply ok3; field; lra.
Qed.

(** Each projection backwards. *)
Lemma bwd_axis p a b : p = Postel \/ p = Stereographic \/ p = Lambert ->
  dirCosToField (Fin a) (Fin b) (Fin (-1)) (proj_name p) = Ok (Fin 0, Fin 0).
Proof.
  intros [-> | [-> | ->]]; field_open; unfold dirCosToPostel, dirCosToStereographic, dirCosToLambert; xunf;
    rewrite xeqb_t by reflexivity; reflexivity.
Qed.
Lemma bwd_postel a b th : 0 < th < PI ->
  dirCosToField (Fin a) (Fin b) (Fin (- cos th)) "postel" = Ok (Fin (a * th / sin th), Fin (b * th / sin th)).
Proof.
  intros H. field_open. unfold dirCosToPostel. xunf. assert (cos th <> 1).
  { intros E. rewrite <- cos_0 in E. apply cos_inj in E; lra. }
  rewrite xeqb_f by lra. cbn [nacos nsin TrigXR]. rewrite Ropp_involutive.
  pose proof (COS_bound th). rewrite lift1 by lra. rewrite acos_cos by lra. cbn [xlift xmul].
  assert (0 < sin th) by (apply sin_gt_0; lra). rewrite !xdiv_fin by lra. reflexivity.
Qed.
Lemma bwd_stereographic a b th : 0 < th < PI ->
  dirCosToField (Fin a) (Fin b) (Fin (- cos th)) "stereographic" =
  Ok (Fin (a * (2 * tan (th / 2)) / sin th), Fin (b * (2 * tan (th / 2)) / sin th)).
Proof.
  intros H. field_open. unfold dirCosToStereographic. xunf. assert (cos th <> 1).
  { intros E. rewrite <- cos_0 in E. apply cos_inj in E; lra. }
  rewrite xeqb_f by lra. cbn [nacos nsin ntan TrigXR]. rewrite Ropp_involutive.
  pose proof (COS_bound th). rewrite lift1 by lra. rewrite acos_cos by lra. cbn [xlift xmul].
  rewrite (xdiv_fin th 2) by lra. cbn [xlift xmul].
  assert (0 < sin th) by (apply sin_gt_0; lra). rewrite !xdiv_fin by lra. reflexivity.
Qed.
Lemma bwd_lambert a b g : -1 < g < 1 ->
  dirCosToField (Fin a) (Fin b) (Fin g) "lambert" =
  Ok (Fin (a * sqrt (2 + 2 * g) / sqrt (1 - g * g)), Fin (b * sqrt (2 + 2 * g) / sqrt (1 - g * g))).
Proof.
  intros H. field_open. unfold dirCosToLambert. xunf. rewrite xeqb_f by lra.
  assert (0 < sqrt (1 - g * g)) by (apply sqrt_lt_R0; nra).
  rewrite !xsqrt_fin by nra. cbn [xmul]. rewrite !xdiv_fin by lra. reflexivity.
Qed.
Lemma bwd_gnomonic a b g : g <> 0 ->
  dirCosToField (Fin a) (Fin b) (Fin g) "gnomonic" = Ok (Fin (- a / g), Fin (- b / g)).
Proof. intros H. field_open. unfold dirCosToGnomonic. xunf. rewrite !xdiv_fin by exact H. reflexivity. Qed.
Lemma bwd_zemax a b g : g <> 0 ->
  dirCosToField (Fin a) (Fin b) (Fin g) "zemax" = Ok (Fin (atan (- a / g)), Fin (atan (- b / g))).
Proof. intros H. field_open. unfold dirCosToZemax. xunf. rewrite !xdiv_fin by exact H. reflexivity. Qed.
Lemma bwd_orthographic a b g : dirCosToField (Fin a) (Fin b) (Fin g) "orthographic" = Ok (Fin a, Fin b).
Proof. reflexivity. Qed.

Lemma unit_axis : unit_dir 0 0 (-1).
Proof. unfold unit_dir. ring. Qed.
Lemma radius_00 : radius 0 0 = 0.
Proof. unfold radius. replace (0 * 0 + 0 * 0) with 0 by ring. apply sqrt_0. Qed.
Lemma stereo_angle r : 0 < r -> 0 < 2 * atan (r / 2) < PI /\ 2 * tan (2 * atan (r / 2) / 2) = r.
Proof.
  intros H. pose proof (atan_bound (r / 2)) as B. assert (0 < atan (r / 2)).
  { rewrite <- atan_0. apply atan_increasing. lra. }
  replace (2 * atan (r / 2) / 2) with (atan (r / 2)) by field. rewrite tan_atan. split; lra.
Qed.

Theorem round_trip : forall p u v, in_domain p u v -> exists a b g,
  fieldToDirCos (Fin u) (Fin v) (proj_name p) = Ok (Fin a, Fin b, Fin g) /\ unit_dir a b g /\
  (in_front p u v -> g < 0) /\
  dirCosToField (Fin a) (Fin b) (Fin g) (proj_name p) = Ok (Fin u, Fin v).
Proof.
  intros p u v Hd. pose proof (radius_pos u v) as Hp. pose proof (radius_sq u v) as Hs.
  assert (HZ : radius u v = 0 -> p = Postel \/ p = Stereographic \/ p = Lambert -> exists a b g,
    fieldToDirCos (Fin u) (Fin v) (proj_name p) = Ok (Fin a, Fin b, Fin g) /\ unit_dir a b g /\
    (in_front p u v -> g < 0) /\ dirCosToField (Fin a) (Fin b) (Fin g) (proj_name p) = Ok (Fin u, Fin v)).
  { intros E Hc. apply radius_0 in E. destruct E as [-> ->]. exists 0, 0, (-1). split; [apply fwd_zero, Hc|].
    split; [apply unit_axis|]. split; [intros; lra|]. apply bwd_axis, Hc. }
  destruct p; cbn [proj_name in_domain in_front] in *.
  - (* Postel *)
    destruct (Req_dec (radius u v) 0) as [E|E]; [apply HZ; auto|]. clear HZ.
    assert (Hpi : 0 < radius u v < PI) by lra. assert (0 < sin (radius u v)) by (apply sin_gt_0; lra).
    do 3 eexists. split; [apply fwd_postel, E|]. split; [|split].
    + unfold unit_dir. replace (- cos (radius u v) * - cos (radius u v)) with (cos (radius u v) * cos (radius u v)) by ring.
      apply scaled_unit; [exact E|exact Hs|apply sin2cos2].
    + intros Hf. assert (0 < cos (radius u v)) by (apply cos_gt_0; lra). lra.
    + rewrite bwd_postel by exact Hpi. apply ok2; field; lra.
  - (* Zemax *)
    destruct Hd as [Hu Hv]. set (n := sqrt (1 + tan u * tan u + tan v * tan v)).
    pose proof (uv_nonneg (tan u) (tan v)) as Hn. assert (Pn : 0 < n) by (apply sqrt_lt_R0; lra).
    assert (Sn : n * n = 1 + tan u * tan u + tan v * tan v) by (apply sqrt_sqrt; lra).
    do 3 eexists. split; [apply fwd_zemax|]. fold n. split; [|split].
    + unfold unit_dir. apply (Rmult_eq_reg_r (n * n)); [|nra].
      replace ((tan u / n * (tan u / n) + tan v / n * (tan v / n) + - / n * - / n) * (n * n)) with
        (1 + tan u * tan u + tan v * tan v) by (field; lra). lra.
    + intros _. pose proof (Rinv_0_lt_compat n Pn). lra.
    + rewrite bwd_zemax by (pose proof (Rinv_0_lt_compat n Pn); lra).
      replace (- (tan u / n) / - / n) with (tan u) by (field; lra). replace (- (tan v / n) / - / n) with (tan v) by (field; lra).
      rewrite !atan_tan by lra. reflexivity.
  - (* Gnomonic *)
    set (n := sqrt (1 + u * u + v * v)). pose proof (uv_nonneg u v) as Hn. assert (Pn : 0 < n) by (apply sqrt_lt_R0; lra).
    assert (Sn : n * n = 1 + u * u + v * v) by (apply sqrt_sqrt; lra).
    do 3 eexists. split; [apply fwd_gnomonic|]. fold n. split; [|split].
    + unfold unit_dir. apply (Rmult_eq_reg_r (n * n)); [|nra].
      replace ((u * / n * (u * / n) + v * / n * (v * / n) + - / n * - / n) * (n * n)) with (1 + u * u + v * v) by (field; lra). lra.
    + intros _. pose proof (Rinv_0_lt_compat n Pn). lra.
    + rewrite bwd_gnomonic by (pose proof (Rinv_0_lt_compat n Pn); lra). apply ok2; field; lra.
  - (* Stereographic *)
    destruct (Req_dec (radius u v) 0) as [E|E]; [apply HZ; auto|]. clear HZ.
    assert (Hr : 0 < radius u v) by lra. destruct (stereo_angle _ Hr) as [Ht Hl]. set (th := 2 * atan (radius u v / 2)) in *.
    assert (0 < sin th) by (apply sin_gt_0; lra).
    do 3 eexists. split; [apply fwd_stereographic, E|]. fold th. split; [|split].
    + unfold unit_dir. replace (- cos th * - cos th) with (cos th * cos th) by ring.
      apply scaled_unit; [exact E|exact Hs|apply sin2cos2].
    + intros Hf. assert (th < PI / 2).
      { assert (atan (radius u v / 2) < PI / 4); [|subst th; lra]. rewrite <- atan_1. apply atan_increasing. lra. }
      assert (0 < cos th) by (apply cos_gt_0; lra). lra.
    + rewrite bwd_stereographic by exact Ht. rewrite Hl. apply ok2; field; lra.
  - (* Lambert *)
    destruct (Req_dec (radius u v) 0) as [E|E]; [apply HZ; auto|]. clear HZ.
    set (g := (2 - (u * u + v * v)) / 2). assert (Hg : -1 < g < 1) by (subst g; nra).
    assert (G : 0 < sqrt (1 - g * g)) by (apply sqrt_lt_R0; nra).
    do 3 eexists. split; [apply fwd_lambert; assumption|]. fold g. split; [|split].
    + unfold unit_dir. replace (- g * - g) with (g * g) by ring. apply scaled_unit; [exact E|exact Hs|].
      rewrite sqrt_sqrt by nra. ring.
    + intros Hf. subst g. lra.
    + rewrite bwd_lambert by lra. replace (1 - - g * - g) with (1 - g * g) by ring.
      replace (2 + 2 * - g) with (radius u v * radius u v) by (rewrite Hs; subst g; field).
      rewrite sqrt_square by exact Hp. apply ok2; field; lra.
  - (* Orthographic *)
    do 3 eexists. split; [apply fwd_orthographic, Hd|]. split; [|split; [|apply bwd_orthographic]].
    + unfold unit_dir. rewrite Rmult_opp_opp, sqrt_sqrt by nra. rewrite Hs. ring.
    + intros Hf. assert (0 < sqrt (1 - radius u v * radius u v)) by (apply sqrt_lt_R0; nra). lra.
Qed.

(** The angle each azimuthal projection assigns. *)
Lemma lambert_angle r : 0 <= r < 2 -> let th := 2 * asin (r / 2) in
  0 <= th < PI /\ 2 * sin (th / 2) = r /\ cos th = (2 - r * r) / 2.
Proof.
  intros H th. pose proof (asin_bound (r / 2)) as B.
  assert (S : sin (asin (r / 2)) = r / 2) by (apply sin_asin; lra).
  assert (0 <= asin (r / 2)).
  { destruct (Rle_or_lt 0 (asin (r / 2))) as [L|L]; [exact L|]. exfalso.
    assert (sin (asin (r / 2)) < 0) by (apply sin_lt_0_var; lra). lra. }
  assert (asin (r / 2) <> PI / 2) by (intros E; rewrite E, sin_PI2 in S; lra).
  subst th. replace (2 * asin (r / 2) / 2) with (asin (r / 2)) by field. rewrite S. split; [lra|]. split; [lra|].
  rewrite cos_2a_sin, S. field.
Qed.
Theorem projection_law : forall p u v, p <> Zemax -> in_domain p u v -> exists theta a b g,
  fieldToDirCos (Fin u) (Fin v) (proj_name p) = Ok (Fin a, Fin b, Fin g) /\
  0 <= theta < PI /\ radius_law p theta = radius u v /\ towards theta u v a b g.
Proof.
  intros p u v Hz Hd. pose proof (radius_pos u v) as Hp. pose proof (radius_sq u v) as Hs.
  pose proof PI_RGT_0 as Hpi0.
  assert (HZ : radius u v = 0 -> p = Postel \/ p = Stereographic \/ p = Lambert -> exists theta a b g,
    fieldToDirCos (Fin u) (Fin v) (proj_name p) = Ok (Fin a, Fin b, Fin g) /\
    0 <= theta < PI /\ radius_law p theta = radius u v /\ towards theta u v a b g).
  { intros E Hc. exists 0. apply radius_0 in E as E'. destruct E' as [-> ->]. exists 0, 0, (-1). split; [apply fwd_zero, Hc|].
    split; [lra|]. unfold towards. rewrite E, sin_0, cos_0. split; [|lra].
    destruct Hc as [-> | [-> | ->]]; cbn [radius_law]; replace (0 / 2) with 0 by field; rewrite ?tan_0, ?sin_0; ring. }
  unfold towards. destruct p; cbn [proj_name in_domain radius_law] in *; try congruence.
  - destruct (Req_dec (radius u v) 0) as [E|E]; [apply HZ; auto|]. exists (radius u v).
    do 3 eexists. split; [apply fwd_postel, E|]. split; [lra|]. split; [reflexivity|]. repeat split; field; exact E.
  - exists (atan (radius u v)). do 3 eexists. split; [apply fwd_gnomonic|]. pose proof (atan_bound (radius u v)).
    assert (0 <= atan (radius u v)).
    { destruct (Req_dec (radius u v) 0) as [E|E]; [rewrite E, atan_0; lra|].
      apply Rlt_le. rewrite <- atan_0. apply atan_increasing. lra. }
    split; [lra|]. rewrite tan_atan, sin_atan, cos_atan. unfold Rsqr. rewrite Hs.
    replace (1 + (u * u + v * v)) with (1 + u * u + v * v) by ring.
    assert (0 < sqrt (1 + u * u + v * v)) by (apply sqrt_lt_R0; pose proof (uv_nonneg u v); lra).
    repeat split; field; lra.
  - destruct (Req_dec (radius u v) 0) as [E|E]; [apply HZ; auto|]. exists (2 * atan (radius u v / 2)).
    destruct (stereo_angle (radius u v) ltac:(lra)) as [Ht Hl].
    do 3 eexists. split; [apply fwd_stereographic, E|]. split; [lra|]. split; [exact Hl|]. repeat split; field; exact E.
  - destruct (Req_dec (radius u v) 0) as [E|E]; [apply HZ; auto|].
    destruct (lambert_angle (radius u v) ltac:(lra)) as (Ht & Hl & Hc). exists (2 * asin (radius u v / 2)).
    do 3 eexists. split; [apply fwd_lambert; assumption|]. split; [exact Ht|]. split; [exact Hl|].
    rewrite Hc, Hs. split; [|split; [|ring]].
    + assert (HS : sin (2 * asin (radius u v / 2)) = sqrt (1 - (2 - (u * u + v * v)) / 2 * ((2 - (u * u + v * v)) / 2))).
      { rewrite <- Hs, <- Hc. replace (1 - cos (2 * asin (radius u v / 2)) * cos (2 * asin (radius u v / 2))) with
          (sin (2 * asin (radius u v / 2)) * sin (2 * asin (radius u v / 2))).
        - symmetry. apply sqrt_square. apply sin_ge_0; lra.
        - pose proof (sin2cos2 (2 * asin (radius u v / 2))). lra. }
      rewrite HS. field. exact E.
    + assert (HS : sin (2 * asin (radius u v / 2)) = sqrt (1 - (2 - (u * u + v * v)) / 2 * ((2 - (u * u + v * v)) / 2))).
      { rewrite <- Hs, <- Hc. replace (1 - cos (2 * asin (radius u v / 2)) * cos (2 * asin (radius u v / 2))) with
          (sin (2 * asin (radius u v / 2)) * sin (2 * asin (radius u v / 2))).
        - symmetry. apply sqrt_square. apply sin_ge_0; lra.
        - pose proof (sin2cos2 (2 * asin (radius u v / 2))). lra. }
      rewrite HS. field. exact E.
  - exists (asin (radius u v)). do 3 eexists. split; [apply fwd_orthographic, Hd|].
    pose proof (asin_bound (radius u v)). assert (S : sin (asin (radius u v)) = radius u v) by (apply sin_asin; lra).
    assert (0 <= asin (radius u v)).
    { destruct (Rle_or_lt 0 (asin (radius u v))) as [L|L]; [exact L|]. exfalso.
      assert (sin (asin (radius u v)) < 0) by (apply sin_lt_0_var; lra). lra. }
    split; [lra|]. split; [exact S|]. rewrite S, cos_asin by lra. unfold Rsqr. repeat split; ring.
Qed.
(** Zemax field angles are the tangents in the two coordinate planes. *)
Theorem zemax_law : forall u v, in_domain Zemax u v -> exists a b g,
  fieldToDirCos (Fin u) (Fin v) "zemax" = Ok (Fin a, Fin b, Fin g) /\ a = - g * tan u /\ b = - g * tan v.
Proof.
  intros u v _. do 3 eexists. split; [apply fwd_zemax|].
  pose proof (uv_nonneg (tan u) (tan v)). assert (0 < sqrt (1 + tan u * tan u + tan v * tan v)) by (apply sqrt_lt_R0; lra).
  split; field; lra.
Qed.
Theorem axis_down : forall p, fieldToDirCos (Fin 0) (Fin 0) (proj_name p) = Ok (Fin 0, Fin 0, Fin (-1)).
Proof.
  intros p. assert (E : p = Postel \/ p = Stereographic \/ p = Lambert \/ p = Zemax \/ p = Gnomonic \/ p = Orthographic).
  { destruct p; tauto. }
  destruct E as [-> | [-> | [-> | [-> | [-> | ->]]]]]; try (apply fwd_zero; tauto); cbn [proj_name].
  - rewrite fwd_zemax. rewrite tan_0. replace (1 + 0 * 0 + 0 * 0) with 1 by ring. rewrite sqrt_1. apply ok3; field.
  - rewrite fwd_gnomonic. replace (1 + 0 * 0 + 0 * 0) with 1 by ring. rewrite sqrt_1. apply ok3; field.
  - rewrite fwd_orthographic; rewrite radius_00; [|lra]. replace (1 - 0 * 0) with 1 by ring. rewrite sqrt_1. apply ok3; ring.
Qed.
Theorem unknown_projection : forall T (NT : Num T) (TT : Trig T) (name : string) (a b g : T),
  (forall p, name <> proj_name p) ->
  fieldToDirCos a b name = Err ValueError /\ dirCosToField a b g name = Err ValueError.
Proof.
  intros T NT TT name a b g H. unfold fieldToDirCos, dirCosToField.
  rewrite (proj2 (String.eqb_neq name "postel") (H Postel)), (proj2 (String.eqb_neq name "zemax") (H Zemax)),
    (proj2 (String.eqb_neq name "gnomonic") (H Gnomonic)), (proj2 (String.eqb_neq name "stereographic") (H Stereographic)),
    (proj2 (String.eqb_neq name "lambert") (H Lambert)), (proj2 (String.eqb_neq name "orthographic") (H Orthographic)).
  split; reflexivity.
Qed.

(** From a direction to a field angle and back. *)
Theorem round_trip_back : forall p a b g, unit_dir a b g -> g < 0 -> exists u v,
  dirCosToField (Fin a) (Fin b) (Fin g) (proj_name p) = Ok (Fin u, Fin v) /\
  in_domain p u v /\ in_front p u v /\
  fieldToDirCos (Fin u) (Fin v) (proj_name p) = Ok (Fin a, Fin b, Fin g).
Proof.
  intros p a b g Hu Hg. unfold unit_dir in Hu. assert (Hg1 : -1 <= g) by nra. pose proof PI_RGT_0 as HP.
  assert (HA : g = -1 -> p = Postel \/ p = Stereographic \/ p = Lambert -> exists u v,
    dirCosToField (Fin a) (Fin b) (Fin g) (proj_name p) = Ok (Fin u, Fin v) /\
    in_domain p u v /\ in_front p u v /\ fieldToDirCos (Fin u) (Fin v) (proj_name p) = Ok (Fin a, Fin b, Fin g)).
  { intros E Hc. assert (Ha0 : a = 0) by nra. assert (Hb0 : b = 0) by nra. subst a b g. exists 0, 0.
    split; [apply bwd_axis, Hc|]. rewrite (fwd_zero p Hc).
    destruct Hc as [-> | [-> | ->]]; cbn [in_domain in_front]; rewrite ?radius_00; repeat split; lra. }
  (* the angle off axis, when it is not 0 *)
  assert (HT : g <> -1 -> exists th, 0 < th < PI / 2 /\ g = - cos th /\ a * a + b * b = sin th * sin th /\ 0 < sin th /\ 0 < cos th).
  { intros E. exists (acos (- g)). assert (C : cos (acos (- g)) = - g) by (apply cos_acos; lra).
    pose proof (acos_bound (- g)) as B. assert (acos (- g) <> 0) by (intros Z; rewrite Z, cos_0 in C; lra).
    assert (acos (- g) < PI / 2).
    { destruct (Rlt_or_le (acos (- g)) (PI / 2)) as [L|L]; [exact L|]. exfalso.
      assert (cos (acos (- g)) <= 0) by (apply cos_le_0; lra). lra. }
    pose proof (sin2cos2 (acos (- g))) as S. rewrite C in S.
    split; [lra|]. rewrite C. split; [lra|]. split; [nra|]. split; [apply sin_gt_0; lra|lra]. }
  assert (HR : forall th k, 0 < sin th -> 0 < k -> a * a + b * b = sin th * sin th ->
             radius (a * k / sin th) (b * k / sin th) = k).
  { intros th k Hs Hk E. unfold radius.
    replace (a * k / sin th * (a * k / sin th) + b * k / sin th * (b * k / sin th)) with ((a * a + b * b) * (k * k) / (sin th * sin th)) by (field; lra).
    rewrite E. replace (sin th * sin th * (k * k) / (sin th * sin th)) with (k * k) by (field; lra). apply sqrt_square; lra. }
  destruct p; cbn [proj_name in_domain in_front] in *.
  - destruct (Req_dec g (-1)) as [E|E]; [apply HA; auto|]. destruct (HT E) as (th & Ht & -> & Hab & Hs & Hc).
    do 2 eexists. split; [apply bwd_postel; lra|]. pose proof (HR th th Hs ltac:(lra) Hab) as Hr. rewrite Hr.
    split; [lra|]. split; [lra|]. rewrite fwd_postel; rewrite Hr; [|lra]. apply ok3; try reflexivity; field; lra.
  - assert (HAt : forall x, - (PI / 2) < atan x < PI / 2) by (intros x; pose proof (atan_bound x); lra).
    do 2 eexists. split; [apply bwd_zemax; lra|]. split; [split; apply HAt|]. split; [exact I|].
    rewrite fwd_zemax. rewrite !tan_atan.
    replace (1 + - a / g * (- a / g) + - b / g * (- b / g)) with ((/ g) * (/ g) * (a * a + b * b + g * g)) by (field; lra).
    rewrite Hu, Rmult_1_r. replace (/ g * / g) with (/ - g * / - g) by (field; lra).
    rewrite sqrt_square by (apply Rlt_le, Rinv_0_lt_compat; lra). apply ok3; field; lra.
  - do 2 eexists. split; [apply bwd_gnomonic; lra|]. split; [exact I|]. split; [exact I|].
    rewrite fwd_gnomonic.
    replace (1 + - a / g * (- a / g) + - b / g * (- b / g)) with ((/ g) * (/ g) * (a * a + b * b + g * g)) by (field; lra).
    rewrite Hu, Rmult_1_r. replace (/ g * / g) with (/ - g * / - g) by (field; lra).
    rewrite sqrt_square by (apply Rlt_le, Rinv_0_lt_compat; lra). apply ok3; field; lra.
  - destruct (Req_dec g (-1)) as [E|E]; [apply HA; auto|]. destruct (HT E) as (th & Ht & -> & Hab & Hs & Hc).
    assert (Htan : 0 < tan (th / 2)) by (apply tan_gt_0; lra).
    do 2 eexists. split; [apply bwd_stereographic; lra|].
    pose proof (HR th (2 * tan (th / 2)) Hs ltac:(lra) Hab) as Hr. rewrite Hr. split; [exact I|].
    assert (tan (th / 2) < 1) by (rewrite <- tan_PI4; apply tan_increasing; lra). split; [lra|].
    assert (HA2 : 2 * atan (2 * tan (th / 2) / 2) = th).
    { replace (2 * tan (th / 2) / 2) with (tan (th / 2)) by field. rewrite atan_tan by lra. field. }
    rewrite fwd_stereographic; rewrite Hr; [|lra]. rewrite HA2. apply ok3; try reflexivity; field; lra.
  - destruct (Req_dec g (-1)) as [E|E]; [apply HA; auto|]. destruct (HT E) as (th & Ht & -> & Hab & Hs & Hc).
    pose proof (COS_bound th) as CB. pose proof (sin2cos2 th) as SC.
    do 2 eexists. split; [apply bwd_lambert; lra|].
    replace (1 - - cos th * - cos th) with (sin th * sin th) by lra. rewrite (sqrt_square (sin th)) by lra.
    set (k := sqrt (2 + 2 * - cos th)). assert (Hk : 0 < k) by (apply sqrt_lt_R0; lra).
    assert (Hkk : k * k = 2 - 2 * cos th) by (subst k; rewrite sqrt_sqrt; lra).
    pose proof (HR th k Hs Hk Hab) as Hr. pose proof (radius_sq (a * k / sin th) (b * k / sin th)) as Hq. rewrite Hr in Hq.
    rewrite Hr. split; [nra|]. split; [lra|]. rewrite fwd_lambert; rewrite Hr; [|lra|nra].
    rewrite <- Hq, Hkk. replace ((2 - (2 - 2 * cos th)) / 2) with (cos th) by field.
    replace (1 - cos th * cos th) with (sin th * sin th) by lra. rewrite sqrt_square by lra.
    apply ok3; try reflexivity; field; lra.
  - assert (Hr : radius a b * radius a b = 1 - g * g) by (rewrite radius_sq; lra). pose proof (radius_pos a b).
    do 2 eexists. split; [apply bwd_orthographic|]. split; [nra|]. split; [nra|].
    rewrite fwd_orthographic by nra. apply ok3; try reflexivity. rewrite Hr.
    replace (1 - (1 - g * g)) with ((- g) * (- g)) by ring. rewrite sqrt_square by lra. ring.
Qed.
