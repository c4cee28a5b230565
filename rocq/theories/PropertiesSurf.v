(** C15-C19: surface shapes. *)
From Coq Require Import Reals List ZArith Bool Permutation.
From Verif Require Import Num NumR Vec Surface Bicubic Spec SurfSpec SlopeProofs BicubicProofs SurfMore SamplesSurf.
Import ListNotations.
Open Scope R_scope.

(** C15 *)
Theorem C15_normals : forall s x y n, smooth s -> normal (Fsurf s) (Fin x) (Fin y) = F3 n ->
  dotR n n = 1 /\ 0 < cz n /\
  forall ex ey, exists d, sag_slope (Fsurf s) x y ex ey d /\ dotR n (V3 ex ey d) = 0.
Proof. exact normals_right. Qed.
Print Assumptions C15_normals.
Theorem C15_perpendicular : forall s x y n ex ey d, smooth s -> normal (Fsurf s) (Fin x) (Fin y) = F3 n ->
  sag_slope (Fsurf s) x y ex ey d -> dotR n (V3 ex ey d) = 0.
Proof. exact normals_perpendicular. Qed.
Print Assumptions C15_perpendicular.
Theorem C15_curve : forall s n (X Y Z : R -> R) dx dy dz delta, smooth s -> normal (Fsurf s) (Fin (X 0)) (Fin (Y 0)) = F3 n ->
  0 < delta -> (forall t, Rabs t < delta -> sag (Fsurf s) (Fin (X t)) (Fin (Y t)) = Fin (Z t)) ->
  derivable_pt_lim X 0 dx -> derivable_pt_lim Y 0 dy -> derivable_pt_lim Z 0 dz ->
  dotR n (V3 dx dy dz) = 0.
Proof. exact normals_curve. Qed.
Print Assumptions C15_curve.
Theorem C15_exist : forall s x y, smooth s -> regular s x y -> exists n, normal (Fsurf s) (Fin x) (Fin y) = F3 n.
Proof. exact normals_exist. Qed.
Print Assumptions C15_exist.
Example C15_example : smooth ex_surf /\ regular ex_surf 3 1.
Proof. exact ex_surf_ok. Qed.
Example C15_example_normal : exists n, normal (Fsurf ex_surf) (Fin 3) (Fin 1) = F3 n.
Proof. exact ex_surf_normal. Qed.
Theorem C15_tilted_refuted : exists tx ty n d,
  normal (Fsurf (Tilted tx ty)) (Fin 0) (Fin 0) = F3 n /\
  sag_slope (Fsurf (Tilted tx ty)) 0 0 1 0 d /\ dotR n (V3 1 0 d) <> 0.
Proof. exact tilted_wrong. Qed.
Print Assumptions C15_tilted_refuted.
Theorem C15_tilted_nan_refuted : exists tx ty, forall x y,
  (exists d, sag_slope (Fsurf (Tilted tx ty)) x y 1 0 d) /\
  forall n, normal (Fsurf (Tilted tx ty)) (Fin x) (Fin y) <> F3 n.
Proof. exact tilted_nan. Qed.
Print Assumptions C15_tilted_nan_refuted.

(** C16 *)
Theorem C16_sags_add : forall l x y (z : surface XR -> R), (forall s, In s l -> sag s x y = Fin (z s)) ->
  sag (Sum l) x y = Fin (sumR (map z l)).
Proof. exact sum_sags. Qed.
Print Assumptions C16_sags_add.
Theorem C16_slopes_add : forall l x y (m : surface XR -> vR),
  (forall s, In s l -> normal s x y = F3 (m s) /\ cz (m s) <> 0) ->
  exists n, normal (Sum l) x y = F3 n /\ dotR n n = 1 /\ 0 < cz n /\
    cx n / cz n = sumR (map (fun s => cx (m s) / cz (m s)) l) /\
    cy n / cz n = sumR (map (fun s => cy (m s) / cz (m s)) l).
Proof. exact sum_normals. Qed.
Print Assumptions C16_slopes_add.
Theorem C16_order : forall (l l' : list (surface XR)) x y, Permutation l l' ->
  sag (Sum l) x y = sag (Sum l') x y /\ normal (Sum l) x y = normal (Sum l') x y.
Proof. exact sum_order. Qed.
Print Assumptions C16_order.
Theorem C16_plane_adds_nothing : forall (l : list (surface XR)) x y,
  sag (Sum (Plane :: l)) x y = sag (Sum l) x y /\ normal (Sum (Plane :: l)) x y = normal (Sum l) x y.
Proof. exact sum_plane. Qed.
Print Assumptions C16_plane_adds_nothing.
Example C16_example : forall s, In s [Sphere (Fin 5); Plane] ->
  normal s (Fin 3) (Fin 0) = F3 (match s with Plane => V3 0 0 1 | _ => V3 (-3/5) 0 (4/5) end) /\
  cz (match s with Plane => V3 0 0 1 | _ => V3 (-3/5) 0 (4/5) end) <> 0.
Proof. exact ex_sum_members. Qed.

(** C17 *)
Theorem C17_sag : forall a gx gy x0 y0 n x y, length a = (n * n)%nat ->
  sag (Fsurf (Poly a gx gy x0 y0 n n)) (Fin x) (Fin y) = Fin (poly2 n a (x - x0) (y - y0)).
Proof. exact poly_sag_F. Qed.
Print Assumptions C17_sag.
(** For an array that is not square the first size counts the columns. *)
Theorem C17_rectangle : forall a gx gy x0 y0 xs ys x y, length a = (ys * xs)%nat ->
  sag (Fsurf (Poly a gx gy x0 y0 xs ys)) (Fin x) (Fin y) =
  Fin (sumn ys (fun i => sumn xs (fun j => entry xs a i j * (x - x0) ^ i * (y - y0) ^ j))).
Proof. exact poly_rect. Qed.
Print Assumptions C17_rectangle.
Theorem C17_normal : forall a gx gy x0 y0 n x y, (0 < n)%nat -> derivative_arrays n a gx gy ->
  exists m, normal (Fsurf (Poly a gx gy x0 y0 n n)) (Fin x) (Fin y) = F3 m /\ dotR m m = 1 /\ 0 < cz m /\
    forall ex ey d, derivable_pt_lim (fun t => poly2 n a (x + t * ex - x0) (y + t * ey - y0)) 0 d ->
      dotR m (V3 ex ey d) = 0.
Proof. exact poly_normals. Qed.
Print Assumptions C17_normal.
Example C17_example : derivative_arrays 3 saddle saddle_x saddle_y.
Proof. exact saddle_arrays. Qed.
Example C17_example_value : poly2 3 saddle (3 - 1) (2 - -1) = 1.
Proof. exact ex_poly_value. Qed.

(** C18 *)
Theorem C18_sag : forall rad k coefs imin s x y, rad <> 0 -> (1 <= imin)%nat ->
  (1 + k) * (x * x + y * y) <= rad * rad ->
  mkAsphere (Fin rad) (Fin k) (map Fin coefs) (Z.of_nat imin) = Some s ->
  sag s (Fin x) (Fin y) = Fin (aspheric rad k coefs imin x y).
Proof. exact asphere_formula. Qed.
Print Assumptions C18_sag.
Theorem C18_normal : forall rad k coefs imin s x y, rad <> 0 -> (1 <= imin)%nat ->
  (1 + k) * (x * x + y * y) < rad * rad ->
  mkAsphere (Fin rad) (Fin k) (map Fin coefs) (Z.of_nat imin) = Some s ->
  exists n, normal s (Fin x) (Fin y) = F3 n /\ dotR n n = 1 /\ 0 < cz n /\
    forall ex ey, exists d,
      derivable_pt_lim (fun t => aspheric rad k coefs imin (x + t * ex) (y + t * ey)) 0 d /\
      dotR n (V3 ex ey d) = 0.
Proof. exact asphere_normals. Qed.
Print Assumptions C18_normal.
Example C18_example : (1 + -1) * (2 * 2 + 0 * 0) < 1 * 1 /\
  exists s, mkAsphere (Fin 1) (Fin (-1)) (map Fin [1; 2]) (Z.of_nat 2) = Some s.
Proof. split; [Lra.lra|eexists; reflexivity]. Qed.
Example C18_example_value : aspheric 1 (-1) [1; 2] 2 2 0 = 146.
Proof. exact ex_asphere_value. Qed.

(** C19 *)
Theorem C19_nodes : forall tb i j, good_table tb -> (S i < tb_nx tb)%nat -> (S j < tb_ny tb)%nat ->
  let x := tb_x0 tb + INR i * tb_dx tb in let y := tb_y0 tb + INR j * tb_dy tb in
  sag (Fsurf (Bicubic tb)) (Fin x) (Fin y) = Fin (tabat tb (tb_z tb) i j) /\
  exists n, normal (Fsurf (Bicubic tb)) (Fin x) (Fin y) = F3 n /\ 0 < cz n /\
    - cx n / cz n = tabat tb (tb_dzdx tb) i j /\ - cy n / cz n = tabat tb (tb_dzdy tb) i j.
Proof. exact bicubic_node. Qed.
Print Assumptions C19_nodes.
Theorem C19_smooth : forall tb, good_table tb ->
  exists z zx zy : R -> R -> R,
    (forall x y, in_grid tb x y ->
       sag (Fsurf (Bicubic tb)) (Fin x) (Fin y) = Fin (z x y) /\
       exists n, normal (Fsurf (Bicubic tb)) (Fin x) (Fin y) = F3 n /\ dotR n n = 1 /\ 0 < cz n /\
         dotR n (V3 1 0 (zx x y)) = 0 /\ dotR n (V3 0 1 (zy x y)) = 0) /\
    (forall x y, within_grid tb x y ->
       (forall ex ey, derivable_pt_lim (fun t => z (x + t * ex) (y + t * ey)) 0 (zx x y * ex + zy x y * ey)) /\
       cont2 z x y /\ cont2 zx x y /\ cont2 zy x y).
Proof. exact bicubic_smooth. Qed.
Print Assumptions C19_smooth.
Theorem C19_hermite : forall tb x y, good_table tb -> in_grid tb x y ->
  sag (Fsurf (Bicubic tb)) (Fin x) (Fin y) = Fin (interp tb x y).
Proof. exact (fun tb x y Hg Hi => proj1 (bicubic_eval tb x y Hg Hi)). Qed.
Print Assumptions C19_hermite.
Theorem C19_outside : forall tb x y, tb_dx tb <> 0 -> tb_dy tb <> 0 ->
  (1 <= tb_nx tb)%nat -> (1 <= tb_ny tb)%nat -> ~ in_grid tb x y ->
  sag (Fsurf (Bicubic tb)) (Fin x) (Fin y) = (if tb_use_nan tb then NaN else Fin 0) /\
  normal (Fsurf (Bicubic tb)) (Fin x) (Fin y) = (if tb_use_nan tb then V3 NaN NaN NaN else F3 (V3 0 0 1)).
Proof. exact bicubic_outside. Qed.
Print Assumptions C19_outside.
Theorem C19_default_slopes : forall a b c e x0 y0 h k nx ny nan x y,
  (2 <= nx)%nat -> (2 <= ny)%nat -> h <> 0 -> k <> 0 ->
  0 <= (x - x0) / h < INR nx - 1 -> 0 <= (y - y0) / k < INR ny - 1 ->
  let p x y := a + b * x + c * y + e * x * y in
  sag (mkBicubic (map Fin (spaced x0 h nx)) (map Fin (spaced y0 k ny))
        (map Fin (samples p (spaced x0 h nx) (spaced y0 k ny))) None None None nan) (Fin x) (Fin y)
  = Fin (p x y).
Proof. exact bicubic_default. Qed.
Print Assumptions C19_default_slopes.
Example C19_example : good_table ex_table /\ within_grid ex_table (- (1/2)) 5 /\ ~ in_grid ex_table 0 5.
Proof. exact ex_table_ok. Qed.
Theorem C19_last_node_refuted : exists tb i j, good_table tb /\ (i < tb_nx tb)%nat /\ (j < tb_ny tb)%nat /\
  sag (Fsurf (Bicubic tb)) (Fin (tb_x0 tb + INR i * tb_dx tb)) (Fin (tb_y0 tb + INR j * tb_dy tb))
  <> Fin (tabat tb (tb_z tb) i j).
Proof. exact bicubic_last_node. Qed.
Print Assumptions C19_last_node_refuted.
