(** C38, C39, C43, C50, C51: projections, ray patterns, lattices and closest approach. *)
From Coq Require Import Reals String List ZArith Bool Lra Lia.
From Verif Require Import Num NumR Vec Ray Spec XRFacts Trig Optic Field FieldSpec FieldProofs PatternSpec PatternProofs.
Import ListNotations.
Open Scope R_scope.

(** C38 *)
Theorem C38_round_trip : forall p u v, in_domain p u v -> exists a b g,
  fieldToDirCos (Fin u) (Fin v) (proj_name p) = Ok (Fin a, Fin b, Fin g) /\ unit_dir a b g /\
  (in_front p u v -> g < 0) /\
  dirCosToField (Fin a) (Fin b) (Fin g) (proj_name p) = Ok (Fin u, Fin v).
Proof. exact round_trip. Qed.
Print Assumptions C38_round_trip.
Theorem C38_round_trip_back : forall p a b g, unit_dir a b g -> g < 0 -> exists u v,
  dirCosToField (Fin a) (Fin b) (Fin g) (proj_name p) = Ok (Fin u, Fin v) /\
  in_domain p u v /\ in_front p u v /\
  fieldToDirCos (Fin u) (Fin v) (proj_name p) = Ok (Fin a, Fin b, Fin g).
Proof. exact round_trip_back. Qed.
Print Assumptions C38_round_trip_back.
Theorem C38_projection_law : forall p u v, p <> Zemax -> in_domain p u v -> exists theta a b g,
  fieldToDirCos (Fin u) (Fin v) (proj_name p) = Ok (Fin a, Fin b, Fin g) /\
  0 <= theta < PI /\ radius_law p theta = radius u v /\ towards theta u v a b g.
Proof. exact projection_law. Qed.
Print Assumptions C38_projection_law.
Theorem C38_zemax_law : forall u v, in_domain Zemax u v -> exists a b g,
  fieldToDirCos (Fin u) (Fin v) "zemax" = Ok (Fin a, Fin b, Fin g) /\ a = - g * tan u /\ b = - g * tan v.
Proof. exact zemax_law. Qed.
Print Assumptions C38_zemax_law.
Theorem C38_axis : forall p, fieldToDirCos (Fin 0) (Fin 0) (proj_name p) = Ok (Fin 0, Fin 0, Fin (-1)).
Proof. exact axis_down. Qed.
Print Assumptions C38_axis.
Theorem C38_unknown : forall T (NT : Num T) (TT : Trig T) (name : string) (a b g : T),
  (forall p, name <> proj_name p) ->
  fieldToDirCos a b name = Err ValueError /\ dirCosToField a b g name = Err ValueError.
Proof. exact unknown_projection. Qed.
Print Assumptions C38_unknown.
Lemma radius_345 : radius (3/10) (4/10) = 1/2.
Proof. unfold radius. replace (3/10 * (3/10) + 4/10 * (4/10)) with (1/2 * (1/2)) by field. apply sqrt_square. lra. Qed.
Example C38_example : (forall p, in_domain p (3/10) (4/10)) /\ unit_dir (3/5) 0 (-4/5) /\ -4/5 < 0 /\
  (forall p, "Gnomonic"%string <> proj_name p).
Proof.
  pose proof PI2_3_2 as H. split; [|split; [unfold unit_dir; field|split; [lra|intros []; discriminate]]].
  intros []; cbn [in_domain]; rewrite ?radius_345; repeat split; lra.
Qed.

(** C39 *)
Theorem C39_hexapolar_rings : forall outer inner nrad naz kfold,
  0 < outer -> 0 <= inner -> (1 <= nrad)%nat -> (inner = 0 -> (2 <= nrad)%nat) -> (0 <= naz)%Z -> (1 <= kfold)%Z ->
  exists ns, List.length ns = nrad /\
    hexapolar_rth (Fin outer) (Fin inner) nrad naz kfold = Ok (map Fpair (rings outer inner ns)) /\
    hexapolar (Fin outer) (Fin inner) nrad naz kfold = Ok (map (fun p => Fpair (cartesian p)) (rings outer inner ns)) /\
    forall i n, nth_error ns i = Some n ->
      (inner = 0 /\ S i = nrad -> n = 1%nat) /\
      (~ (inner = 0 /\ S i = nrad) -> ring_size kfold (IZR naz * evenly outer inner nrad i / outer) n).
Proof. exact hexapolar_rings. Qed.
Print Assumptions C39_hexapolar_rings.
(** In every number type. *)
Theorem C39_ring_multiple : forall T (NT : Num T) (outer rho : T) naz kfold c,
  ring_count outer rho naz kfold = Some c ->
  (exists m, c = m * kfold)%Z /\ (kfold <> 0 -> c <> 0)%Z.
Proof. exact @ring_count_multiple. Qed.
Print Assumptions C39_ring_multiple.
(** Without the condition on a single ring the claim is false. *)
Theorem C39_one_ring_refuted : exists outer inner nrad naz kfold,
  0 < outer /\ inner = 0 /\ nrad = 1%nat /\ (0 <= naz)%Z /\ (1 <= kfold)%Z /\
  evenly outer inner nrad 0 = outer /\
  hexapolar_rth (Fin outer) (Fin inner) nrad naz kfold = Ok [(Fin 0, Fin 0)].
Proof. exact hexapolar_one_ring_refuted. Qed.
Print Assumptions C39_one_ring_refuted.
Example C39_example : 0 < 4 /\ 0 <= 1 /\ (1 <= 4)%nat /\ (1 = 0 -> (2 <= 4)%nat) /\ (0 <= 36)%Z /\ (1 <= 6)%Z /\
  rings 4 1 [6; 6; 6; 6]%nat <> [] /\ ring_size 6 (IZR 36 * evenly 4 1 4 2 / 4) 18.
Proof.
  repeat split; try lra; try lia; try discriminate.
  - exists 3%Z. lia.
  - left. unfold evenly. cbn. lra.
  - unfold evenly. cbn. lra.
Qed.

(** C43 *)
Theorem C43_coords : forall A Ns (arr : list A) (pv : list (list R)) l, square (List.length Ns) pv ->
  mkLattice Ns arr (map (map Fin) pv) = Ok l ->
  List.length (coords l) = fold_right Nat.mul 1%nat Ns /\
  forall idx, in_shape Ns idx ->
    nth_error (coords l) (row_major Ns idx) = Some (map (fun j => Fin (lattice_point Ns idx pv j)) (seq 0 (List.length Ns))).
Proof. exact @lattice_coords. Qed.
Print Assumptions C43_coords.
Theorem C43_origin : forall A Ns (arr : list A) (pv : list (list R)) l, square (List.length Ns) pv ->
  Forall (fun N => (1 <= N)%nat) Ns -> mkLattice Ns arr (map (map Fin) pv) = Ok l ->
  nth_error (coords l) (row_major Ns (map (fun N => (N / 2)%nat) Ns)) = Some (repeat (Fin 0) (List.length Ns)).
Proof. exact @lattice_origin. Qed.
Print Assumptions C43_origin.
Theorem C43_rejects : forall T A Ns (arr : list A) (pv : list (list T)),
  List.length Ns <> List.length pv \/ (exists a pv', pv = a :: pv' /\ List.length a <> List.length Ns) <->
  mkLattice Ns arr pv = Err ValueError.
Proof. exact @lattice_rejects. Qed.
Print Assumptions C43_rejects.
Definition skew : list (list R) := [[1; 0]; [1/2; 3]].
Example C43_example : square 2 skew /\ in_shape [3; 4]%nat [2; 1]%nat /\ row_major [3; 4]%nat [2; 1]%nat = 9%nat /\
  (exists l, mkLattice [3; 4]%nat (seq 0 12) (map (map Fin) skew) = Ok l) /\
  lattice_point [3; 4]%nat [2; 1]%nat skew 0 = 1/2 /\ lattice_point [3; 4]%nat [2; 1]%nat skew 1 = -3.
Proof.
  split; [split; [reflexivity|repeat constructor]|]. split; [repeat constructor|]. split; [reflexivity|].
  split; [eexists; reflexivity|]. split; cbn; lra.
Qed.

(** C50 *)
Theorem C50_reciprocal_partial : forall a1 a2 N, det2 a1 a2 <> 0 -> N <> 0 ->
  exists b1 b2, reciprocalLatticeVectors (Fpair a1) (Fpair a2) (Fin N) = (Fpair b1, Fpair b2) /\
    (dual a1 a2 b1 b2 N <-> snd a1 = 0 /\ fst a2 = 0).
Proof. exact reciprocal_vectors. Qed.
Print Assumptions C50_reciprocal_partial.
Theorem C50_reciprocal_refuted : exists a1 a2 N b1 b2, det2 a1 a2 <> 0 /\ 0 < N /\
  reciprocalLatticeVectors (Fpair a1) (Fpair a2) (Fin N) = (Fpair b1, Fpair b2) /\ ~ dual a1 a2 b1 b2 N.
Proof. exact reciprocal_refuted. Qed.
Print Assumptions C50_reciprocal_refuted.
Example C50_example : det2 (3, 0) (0, 2) <> 0 /\ 32 <> 0 /\ snd (3, 0) = 0 /\ fst (0, 2) = 0.
Proof. unfold det2; cbn. repeat split; lra. Qed.

(** C51 *)
Theorem C51_closest : forall P u Q v,
  dotR u u * dotR v v - dotR u v * dotR u v <> 0 ->
  exists s t, closestApproach (F3 P) (F3 u) (F3 Q) (F3 v) = Ok (F3 (on_line P u s)) /\
    (forall s' t', dist2 (on_line P u s) (on_line Q v t) <= dist2 (on_line P u s') (on_line Q v t')) /\
    (forall s' t', dist2 (on_line P u s') (on_line Q v t') <= dist2 (on_line P u s) (on_line Q v t) -> s' = s).
Proof. exact closest_approach. Qed.
Print Assumptions C51_closest.
Theorem C51_parallel : forall P u Q v,
  dotR u u * dotR v v - dotR u v * dotR u v = 0 <-> closestApproach (F3 P) (F3 u) (F3 Q) (F3 v) = Err ValueError.
Proof. exact closest_parallel. Qed.
Print Assumptions C51_parallel.
(** The condition of the two theorems in words: one direction is a multiple of the other. *)
Theorem C51_condition : forall u v, dotR u u * dotR v v - dotR u v * dotR u v = 0 <->
  v = V3 0 0 0 \/ exists k, u = timesR k v.
Proof. exact parallel_iff. Qed.
Print Assumptions C51_condition.
Example C51_example : dotR (V3 1 0 0) (V3 1 0 0) * dotR (V3 1 2 0) (V3 1 2 0) -
  dotR (V3 1 0 0) (V3 1 2 0) * dotR (V3 1 0 0) (V3 1 2 0) <> 0.
Proof. unfold dotR; cbn. lra. Qed.
