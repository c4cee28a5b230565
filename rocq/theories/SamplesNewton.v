(** A slanting ray and a saddle; a ray along the axis and an asphere. *)
From Coq Require Import Reals List ZArith Bool Lra Lia.
From Verif Require Import Num NumR Vec CoordSys Surface Ray Spec SurfSpec XRFacts SlopeProofs SurfMore SamplesSurf NewtonSpec NewtonProofs.
Import ListNotations.
Open Scope R_scope.

Definition nw_saddle : surface R := Poly saddle saddle_x saddle_y 0 0 3 3.
Definition nw_p : vR := V3 1 0 (161/100).
Definition nw_v : vR := V3 1 0 (-4).
Definition nw_gap (t : R) : R := (1 + t) * (1 + t) - 161/100 + 4 * t.
Lemma nw_smooth : smooth nw_saddle.
Proof. split; [reflexivity|]. split; [lia|exact saddle_arrays]. Qed.
Lemma nw_along : gap_along nw_saddle nw_p nw_v (1/10) (1/5) nw_gap (fun t => 2 * (1 + t) + 4).
Proof.
  intros t _. split; [exact I|]. split.
  - cbn. f_equal. unfold nw_gap. ring.
  - intros e He. exists (mkposreal e He). intros h H0 H. unfold nw_gap.
    match goal with |- Rabs ?x < _ => replace x with h by (field; exact H0) end. exact H.
Qed.
Lemma nw_bounds : gap_bounds (1/10) (1/5) (fun t => 2 * (1 + t) + 4) (29/5) 2.
Proof.
  split; [lra|]. split.
  - intros t T. apply Rabs_def2 in T. rewrite Rabs_pos_eq by lra. lra.
  - intros t u _ _. replace (2 * (1 + t) + 4 - (2 * (1 + u) + 4)) with (2 * (t - u)) by ring. rewrite Rabs_mult, (Rabs_pos_eq 2) by lra. lra.
Qed.
Lemma nw_root : nw_gap (1/10) = 0.
Proof. unfold nw_gap. lra. Qed.
Lemma nw_speed t : Rabs (t - 1/10) < 1/5 -> Rabs (2 * (1 + t) + 4) <= 7.
Proof. intros T. apply Rabs_def2 in T. rewrite Rabs_pos_eq by lra. lra. Qed.
Lemma nw_start : Rabs (0 - 1/10) = 1/10.
Proof. rewrite Rabs_left by lra. lra. Qed.
Lemma nw_enough : 7 * (Rabs (0 - 1/10) * (2 / (29/5) * Rabs (0 - 1/10)) ^ (2 ^ 5 - 1)) < 1 / 1000000000000.
Proof.
  rewrite nw_start. replace (2 / (29/5) * (1/10)) with (1/29) by field.
  change (2 ^ 5 - 1)%nat with (10 + 21)%nat. rewrite pow_add.
  assert (A : (1/29) ^ 10 <= 1 / 100000000000000) by (cbn [pow]; lra).
  assert (A0 : 0 <= (1/29) ^ 10) by (apply pow_le; lra).
  assert (B : (1/29) ^ 21 <= 1) by (rewrite <- (pow1 21); apply pow_incr; lra).
  assert (B0 : 0 <= (1/29) ^ 21) by (apply pow_le; lra).
  assert (C : (1/29) ^ 10 * (1/29) ^ 21 <= 1 / 100000000000000 * 1) by (apply Rmult_le_compat; assumption). lra.
Qed.

(** An asphere on a sphere of radius 5 and a ray along its axis, at a distance of 3. *)
Definition nw_asphere : surface R := Asphere 5 0 [1/8].
Definition nw_q : vR := V3 3 0 5.
Definition nw_w : vR := V3 0 0 (-1).
Lemma nw_asphere_height : sag (Fsurf nw_asphere) (Fin 3) (Fin 0) = Fin (1 + 9/8).
Proof.
  rewrite (asphere_formula 5 0 [1/8] 1 (Fsurf nw_asphere) 3 0); [|lra|lia|lra|reflexivity]. f_equal.
  cbn [length sumn nth]. unfold conicR. replace (3 * 3 + 0 * 0) with (3 * 3) by ring. rewrite sqrt_square by lra.
  replace (1 - (1 + 0) * (3 * 3) / (5 * 5)) with (4/5 * (4/5)) by field. rewrite sqrt_square by lra. cbn. field.
Qed.
Lemma nw_asphere_start niter : starts nw_asphere niter nw_q nw_w 4.
Proof.
  cbn [starts nw_asphere]. unfold hit. cbn [tti F3 vmap nw_q nw_w cx cy cz]. unfold quadric_tti. cbv zeta. xunf.
  rewrite !xdiv_fin by lra. cbn [xadd xsub xmul xopp].
  match goal with |- context[roots (Fin ?a) (Fin ?b) (Fin ?c)] =>
    replace a with 1 by field; replace b with 0 by field; replace c with (-16) by field end.
  unfold roots. xunf. cbn [xadd xsub xmul xopp]. rewrite (xltb_f _ 0) by lra. rewrite (xltb_f 0 0) by lra.
  replace (0 * 0 - 4 * 1 * -16) with (8 * 8) by ring. rewrite xsqrt_fin by lra. rewrite sqrt_square by lra. cbn [xadd].
  rewrite xdiv_fin by lra. replace (2 * -16 / (- 0 + 8)) with (-4) by field. cbn [xmul]. rewrite xdiv_fin by lra.
  replace (-16 / (1 * -4)) with 4 by field. cbn [xmul xadd xabs]. rewrite xltb_f; [reflexivity|].
  rewrite !Rabs_pos_eq by lra. lra.
Qed.
Lemma nw_asphere_ok : smooth nw_asphere /\ regular nw_asphere 3 0.
Proof. split; [exact I|]. right. lra. Qed.
