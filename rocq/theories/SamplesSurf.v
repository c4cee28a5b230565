(** Concrete data for C15-C19. *)
From Coq Require Import Reals List ZArith Bool Lra Lia.
From Verif Require Import Num NumR Vec Surface Bicubic Spec XRFacts SurfSpec SlopeProofs BicubicProofs SurfMore.
Import ListNotations.
Open Scope R_scope.

(** x^2 - y^2 + x y as a 3 by 3 coefficient array, and its partial derivatives. *)
Definition saddle : list R := [0; 0; -1; 0; 1; 0; 1; 0; 0].
Definition saddle_x : list R := [0; 1; 2; 0].
Definition saddle_y : list R := [0; -2; 1; 0].
Lemma saddle_arrays : derivative_arrays 3 saddle saddle_x saddle_y.
Proof.
  unfold derivative_arrays, entry. split; [reflexivity|]. split; [reflexivity|]. split; [reflexivity|]. split.
  - intros i j Hi Hj. destruct i as [|[|i]]; destruct j as [|[|j]]; try (cbn in *; lia); cbn; lra.
  - intros i Hi. destruct i as [|[|[|i]]]; try lia; cbn; lra.
Qed.
Definition ex_surf : surface R := Sum [Sphere 5; Poly saddle saddle_x saddle_y 1 (-1) 3 3; Asphere 5 (-2) [1; 2]; Plane].
Lemma ex_surf_ok : smooth ex_surf /\ regular ex_surf 3 1.
Proof.
  split; cbn [smooth regular ex_surf fold_right].
  - split; [exact I|]. split; [|auto]. split; [reflexivity|]. split; [lia|apply saddle_arrays].
  - repeat split; right; lra.
Qed.
Lemma ex_surf_normal : exists n, normal (Fsurf ex_surf) (Fin 3) (Fin 1) = F3 n.
Proof. apply normals_exist; apply ex_surf_ok. Qed.
(** At (3,0) the sphere of radius 5 has normal (-3/5, 0, 4/5). *)
Lemma ex_sum_members : forall s, In s [Sphere (Fin 5); Plane] ->
  normal s (Fin 3) (Fin 0) = F3 (match s with Plane => V3 0 0 1 | _ => V3 (-3/5) 0 (4/5) end) /\
  cz (match s with Plane => V3 0 0 1 | _ => V3 (-3/5) 0 (4/5) end) <> 0.
Proof.
  intros s [<-|[<-|[]]]; (split; [|cbn; lra]); cbn [normal]; [|reflexivity].
  unfold sphere_normal, sphere_dzdr. xunf. rewrite (xeqb_f 5 0) by lra. rewrite xeqb_f by lra. cbn [orb].
  replace (3 * 3 + 0 * 0) with (3 * 3) by ring. rewrite (xsqrt_fin (3 * 3)) by lra. rewrite sqrt_square by lra.
  rewrite !(xdiv_fin _ 5) by lra. cbn [xmul xsub].
  replace (1 - 3 * (1 / 5) * (3 * (1 / 5))) with (4 / 5 * (4 / 5)) by field.
  rewrite xsqrt_fin by lra. rewrite sqrt_square by lra. rewrite !xdiv_fin by lra. cbn [xmul xadd].
  replace (1 + 3 * (1 / 5) / (4 / 5) * (3 * (1 / 5) / (4 / 5))) with (5 / 4 * (5 / 4)) by field.
  rewrite xsqrt_fin by lra. rewrite sqrt_square by lra. rewrite !xdiv_fin by lra. cbn [xmul]. f_equal; f_equal; field.
Qed.
Lemma ex_poly_value : poly2 3 saddle (3 - 1) (2 - -1) = 1.
Proof. unfold poly2, saddle, entry. cbn. lra. Qed.
Lemma ex_asphere_value : aspheric 1 (-1) [1; 2] 2 2 0 = 146.
Proof.
  unfold aspheric, conicR. replace (2 * 2 + 0 * 0) with (2 * 2) by ring. rewrite sqrt_square by lra.
  replace (1 - (1 + -1) * (2 * 2) / (1 * 1)) with 1 by field. rewrite sqrt_1. cbn. lra.
Qed.
(** A 3 by 3 table with all four arrays filled. *)
Definition ex_table : table R :=
  Tab (-1) 2 (1/2) 3 3 3 [1; 2; 3; 4; 5; 6; 7; 8; 9] [1; 0; 2; 0; 3; 0; 4; 0; 5] [0; 1; 0; 2; 0; 3; 0; 4; 0] [1; 1; 0; 0; 1; 1; 0; 0; 1] true.
Lemma ex_table_ok : good_table ex_table /\ within_grid ex_table (- (1/2)) 5 /\ ~ in_grid ex_table 0 5.
Proof.
  split; [|split].
  - unfold good_table; cbn. repeat split; lra.
  - unfold within_grid, gu, gv; cbn. lra.
  - unfold in_grid, gu, gv; cbn. lra.
Qed.
