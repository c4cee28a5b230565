(** C34-C37: obscurations. *)
From Coq Require Import Reals List ZArith Bool.
From Verif Require Import Num NumR NumF Trig Obscuration Grid Spec ObscSpec ObscProofs GridProofs SamplesObsc.
Import ListNotations.
Open Scope R_scope.

(** C34 *)
Theorem C34_boolean_ops : forall {T} {NT : Num T} (o : obsc T) (l : list (obsc T)) x y,
  contains (ObscNegation o) x y = negb (contains o x y) /\
  (contains (ObscUnion l) x y = true <-> exists a, In a l /\ contains a x y = true) /\
  (contains (ObscIntersection l) x y = true <-> forall a, In a l -> contains a x y = true).
Proof. exact @boolean_ops. Qed.
Print Assumptions C34_boolean_ops.
Theorem C34_double_negation : forall {T} {NT : Num T} (o : obsc T) x y,
  contains (ObscNegation (ObscNegation o)) x y = contains o x y.
Proof. exact @double_negation. Qed.
Print Assumptions C34_double_negation.
Theorem C34_de_morgan : forall {T} {NT : Num T} (l : list (obsc T)) x y,
  contains (ObscNegation (ObscUnion l)) x y = contains (ObscIntersection (map ObscNegation l)) x y /\
  contains (ObscNegation (ObscIntersection l)) x y = contains (ObscUnion (map ObscNegation l)) x y.
Proof. exact @de_morgan. Qed.
Print Assumptions C34_de_morgan.
Theorem C34_only_the_members_matter : forall {T} {NT : Num T} (l l' : list (obsc T)) x y,
  (forall o, In o l <-> In o l') ->
  contains (ObscUnion l) x y = contains (ObscUnion l') x y /\
  contains (ObscIntersection l) x y = contains (ObscIntersection l') x y.
Proof. exact @same_members. Qed.
Print Assumptions C34_only_the_members_matter.
Example C34_example :
  let a := ObscCircle (n1 : F64) n0 n0 in let b := ObscAnnulus (n1 : F64) (nofZ 3) n0 n0 in
  (forall o, In o [a; b] <-> In o [b; a; a]) /\
  contains (ObscUnion [a; b]) (nofZ 2) n0 = true /\ contains (ObscIntersection [a; b]) (nofZ 2) n0 = false.
Proof. split; [cbn; tauto|split; vm_compute; reflexivity]. Qed.

(** C35 *)
Theorem C35_circle : forall rad x0 y0 x y,
  contains (ObscCircle (Fin rad) (Fin x0) (Fin y0)) (Fin x) (Fin y) = true <-> dist2 (x, y) (x0, y0) < rad.
Proof. exact circle_set. Qed.
Print Assumptions C35_circle.
Theorem C35_annulus : forall rin rout x0 y0 x y,
  contains (ObscAnnulus (Fin rin) (Fin rout) (Fin x0) (Fin y0)) (Fin x) (Fin y) = true <->
  rin <= dist2 (x, y) (x0, y0) < rout.
Proof. exact annulus_set. Qed.
Print Assumptions C35_annulus.
Theorem C35_rectangle : forall w h x0 y0 th x y,
  contains (mkObscRectangle (Fin w) (Fin h) (Fin x0) (Fin y0) (Fin th)) (Fin x) (Fin y) = true <->
  exists a b, - w / 2 < a < w / 2 /\ - h / 2 < b < h / 2 /\ (x, y) = turned (x0, y0) th a b.
Proof. exact rectangle_set. Qed.
Print Assumptions C35_rectangle.
Theorem C35_ray : forall w th x0 y0 x y,
  contains (mkObscRay (Fin w) (Fin th) (Fin x0) (Fin y0)) (Fin x) (Fin y) = true <->
  exists a b, 0 < a /\ - w / 2 < b < w / 2 /\ (x, y) = turned (x0, y0) th a b.
Proof. exact ray_set. Qed.
Print Assumptions C35_ray.
Example C35_example :
  contains (ObscCircle (Fin 2) (Fin 1) (Fin 1)) (Fin 2) (Fin 2) = true /\
  contains (ObscAnnulus (Fin 1) (Fin 2) (Fin 0) (Fin 0)) (Fin 1) (Fin 0) = true /\
  contains (ObscAnnulus (Fin 1) (Fin 2) (Fin 0) (Fin 0)) (Fin 2) (Fin 0) = false.
Proof. exact ex_disks. Qed.
Example C35_example_turned :
  (2, 7 / 2) = turned (2, 3) (PI / 2) (1 / 2) 0 /\ (- 2, 3) = turned (2, 3) (PI / 2) 0 4 /\
  contains (mkObscRectangle (Fin 3) (Fin 1) (Fin 2) (Fin 3) (Fin (PI / 2))) (Fin 2) (Fin (7 / 2)) = true /\
  contains (mkObscRectangle (Fin 3) (Fin 1) (Fin 2) (Fin 3) (Fin (PI / 2))) (Fin (- 2)) (Fin 3) = false.
Proof. exact ex_rectangle. Qed.

(** C36 *)
Theorem C36_crossing_parity : forall verts x y,
  contains (ObscPolygon (map Fpt verts)) (Fin x) (Fin y) = Nat.odd (crossing_number verts x y).
Proof. exact polygon_parity. Qed.
Print Assumptions C36_crossing_parity.
Theorem C36_start_and_direction : forall l m x y,
  contains (ObscPolygon (map Fpt (l ++ m))) (Fin x) (Fin y) = contains (ObscPolygon (map Fpt (m ++ l))) (Fin x) (Fin y) /\
  contains (ObscPolygon (map Fpt (rev l))) (Fin x) (Fin y) = contains (ObscPolygon (map Fpt l)) (Fin x) (Fin y).
Proof. exact polygon_start_direction. Qed.
Print Assumptions C36_start_and_direction.
Theorem C36_convex_polygon : forall verts x y, convex_polygon verts ->
  (inside verts (x, y) -> contains (ObscPolygon (map Fpt verts)) (Fin x) (Fin y) = true) /\
  (outside verts (x, y) -> contains (ObscPolygon (map Fpt verts)) (Fin x) (Fin y) = false).
Proof. exact convex_membership. Qed.
Print Assumptions C36_convex_polygon.
Theorem C36_rectangle : forall w h x0 y0 th a b x y,
  0 < w -> 0 < h -> (x, y) = turned (x0, y0) th a b ->
  a <> - w / 2 -> a <> w / 2 -> b <> - h / 2 -> b <> h / 2 ->
  contains (ObscPolygon (map Fpt (corners w h (x0, y0) th))) (Fin x) (Fin y) =
  contains (mkObscRectangle (Fin w) (Fin h) (Fin x0) (Fin y0) (Fin th)) (Fin x) (Fin y).
Proof. exact rectangle_polygon. Qed.
Print Assumptions C36_rectangle.
Example C36_example :
  convex_polygon pentagon /\ inside pentagon (2, 2) /\ outside pentagon (5, 0).
Proof. exact ex_polygon. Qed.

(** C37: true for vertex lists that repeat the first vertex at the end, grids with as
    many rows as columns, and at most one edge between neighbouring columns. *)
Theorem C37_grid_membership_partial : forall v l xs ys,
  length xs = length ys -> ascending xs ->
  (forall y, In y ys -> fine_row (v :: l) y 0 xs) ->
  containsGrid (map Fpt (closed_list v l)) (map Fin xs) (map Fin ys)
  = Some (flat_map (fun y => map (fun x =>
      Some (contains (ObscPolygon (map Fpt (closed_list v l))) (Fin x) (Fin y))) xs) ys).
Proof. exact grid_agrees. Qed.
Print Assumptions C37_grid_membership_partial.
Example C37_example : ascending [-1; 1/2; 9] /\
  (forall y, In y [1; 2; 3] -> fine_row ((0, 0) :: tri) y 0 [-1; 1/2; 9]) /\
  contains (ObscPolygon (map Fpt (closed_list (0, 0) tri))) (Fin (1/2)) (Fin 2) = true /\
  contains (ObscPolygon (map Fpt (closed_list (0, 0) tri))) (Fin 9) (Fin 2) = false.
Proof. exact ex_grid. Qed.
(** The edge from the last vertex to the first is not looked at. *)
Theorem C37_closing_edge_refuted : exists (verts : list (F64 * F64)) x y,
  containsGrid verts [x] [y] = Some [Some false] /\ contains (ObscPolygon verts) x y = true.
Proof. exact grid_closing_edge. Qed.
Print Assumptions C37_closing_edge_refuted.
(** More rows than columns: writes past the end of the result. *)
Theorem C37_out_of_bounds_refuted : exists (verts : list (F64 * F64)) xs ys,
  length ys = 3%nat /\ length xs = 1%nat /\ containsGrid verts xs ys = None.
Proof. exact grid_out_of_bounds. Qed.
Print Assumptions C37_out_of_bounds_refuted.
(** More columns than rows: cells never written. *)
Theorem C37_uninitialised_refuted : exists (verts : list (F64 * F64)) xs ys,
  length ys = 2%nat /\ length xs = 3%nat /\
  exists out, containsGrid verts xs ys = Some out /\ In None out.
Proof. exact grid_uninitialised. Qed.
Print Assumptions C37_uninitialised_refuted.
(** Two edges between neighbouring columns: a closed list and a square grid. *)
Theorem C37_coarse_grid_refuted : exists (verts : list (F64 * F64)) x1 x2 y,
  containsGrid verts [x1; x2] [y; y] <>
  Some [Some (contains (ObscPolygon verts) x1 y); Some (contains (ObscPolygon verts) x2 y);
        Some (contains (ObscPolygon verts) x1 y); Some (contains (ObscPolygon verts) x2 y)].
Proof. exact grid_coarse. Qed.
Print Assumptions C37_coarse_grid_refuted.
