(** A sample for the sky theorems (C93). *)
From Coq Require Import Reals ZArith Lra Psatz.
From Verif Require Import Num NumR Vec CoordSys Trig Spec Sky SkySpec SkyProofs.
Open Scope R_scope.

(** Sample: the equator seen from latitude -30. *)
Lemma rad_30 : rad (-30) = - (PI / 6).
Proof. unfold rad. field. Qed.
Lemma rad_0 : rad 0 = 0.
Proof. unfold rad. ring. Qed.
Lemma half_root : 0 < sqrt 3 / 2 < 1.
Proof. pose proof (sqrt_lt_1 3 4) as H. replace (sqrt 4) with 2 in H by (symmetry; replace 4 with (2 * 2) by ring; apply sqrt_square; lra). pose proof (sqrt_lt_R0 3). lra. Qed.
Lemma below_one c : Rabs (sqrt 3 / 2 * cos c) <> 1.
Proof. pose proof half_root. pose proof (COS_bound c). intros E. destruct (Rcase_abs (sqrt 3 / 2 * cos c)) in E; [rewrite Rabs_left in E|rewrite Rabs_right in E]; nra. Qed.
Lemma south_ok : cos (rad (-30)) <> 0.
Proof. rewrite rad_30, cos_neg, cos_PI6. pose proof half_root. lra. Qed.
Lemma equator_ok ra th : Rabs (dotR (star_dir ra 0) (up (-30) th)) <> 1.
Proof.
  destruct (comps ra 0 (-30) th) as (_ & _ & ->). rewrite rad_0, rad_30, sin_0, cos_0, cos_neg, cos_PI6.
  rewrite Rmult_0_l, Rplus_0_l, Rmult_1_l. apply below_one.
Qed.
Lemma level_ok az : Rabs (dotR (horizon_dir 0 az) (horizon_dir (-30) 0)) <> 1.
Proof.
  unfold dotR, horizon_dir; cbn [cx cy cz]. rewrite rad_0, rad_30, sin_0, cos_0, cos_neg, cos_PI6.
  replace (_ + _ + _) with (sqrt 3 / 2 * cos (rad az)) by ring. apply below_one.
Qed.
