(** C95: changes of the unit of length. *)
From Coq Require Import Reals String List ZArith Bool Lra.
From Verif Require Import Num NumR Vec CoordSys Surface Medium Obscuration Ray Bundle Optic ImageSpec ImageTrace UnitsSpec UnitsProofs SamplesUnits.
Import ListNotations.
Open Scope R_scope.

(** Tracing in another unit of length gives the same results in that unit, for any values in the rays, if light meets every
    surface by a formula. *)
Theorem C95_trace : forall k, 0 < k -> forall niter o, closed_optic o -> forall reverse rv,
  trace niter (image_optic (convert k) o) reverse (image_rays (convert k) rv) = image_rays (convert k) (trace niter o reverse rv).
Proof. exact (fun k H niter o Ho => trace_mir _ _ _ _ (units_respects k H) niter o (closed_ok o Ho)). Qed.
Print Assumptions C95_trace.

(** The same along a path of named items ... *)
Theorem C95_path : forall k, 0 < k -> forall niter o path rv, closed_optic o ->
  trace_path niter (image_optic (convert k) o) path (image_rays (convert k) rv) = res_map (image_rays (convert k)) (trace_path niter o path rv).
Proof. exact (fun k H niter o path rv Ho => trace_path_mir _ _ _ _ (units_respects k H) niter o path rv (closed_ok o Ho)). Qed.
Print Assumptions C95_path.

(** ... for every entry of traceFull ... *)
Theorem C95_full : forall k, 0 < k -> forall niter o, closed_optic o -> forall reverse rv,
  traceFull niter (image_optic (convert k) o) reverse (image_rays (convert k) rv) =
  map (fun p => (fst p, image_entry (convert k) (snd p))) (traceFull niter o reverse rv).
Proof. exact (fun k H niter o Ho => traceFull_mir _ _ _ _ (units_respects k H) niter o (closed_ok o Ho)). Qed.
Print Assumptions C95_full.

(** ... and for the ghosts of traceSplit. *)
Theorem C95_split : forall k, 0 < k -> forall niter minFlux fuel o, closed_optic o -> forall reverse x,
  traceSplit niter minFlux fuel (image_optic (convert k) o) reverse (image_prv (convert k) x) =
  res_map (image_split (convert k)) (traceSplit niter minFlux fuel o reverse x).
Proof. exact (fun k H niter minFlux fuel o Ho => traceSplit_mir _ _ _ _ (units_respects k H) niter minFlux fuel o (closed_ok o Ho)). Qed.
Print Assumptions C95_split.

Example C95_example : 0 < 1000 /\ closed_optic m_optic.
Proof. split; [lra|exact m_closed]. Qed.

(** The height and the normal of every surface, iterative ones included, do not depend on the unit ... *)
Theorem C95_surface : forall k, 0 < k -> forall s x y,
  sag (conv_surface k s) (conv k 1 x) (conv k 1 y) = conv k 1 (sag s x y) /\
  normal (conv_surface k s) (conv k 1 x) (conv k 1 y) = normal s x y.
Proof. exact (fun k H s x y => conj (sag_units k H s x y) (normal_units k H s x y)). Qed.
Print Assumptions C95_surface.

(** ... nor does what an obscuration contains, edges of polygons included. *)
Theorem C95_contains : forall k, 0 < k -> forall o x y,
  contains (conv_obsc k o) (conv k 1 x) (conv k 1 y) = contains o x y.
Proof. exact contains_units. Qed.
Print Assumptions C95_contains.

(** Newton's iteration finds the same point in every unit ... *)
Theorem C95_iteration : forall k, 0 < k -> forall s niter p v, iterated s = true ->
  snd (hit (conv_surface k s) niter (conv_vec k p) v) = conv k 1 (snd (hit s niter p v)).
Proof. exact iterated_units. Qed.
Print Assumptions C95_iteration.

Example C95_example_iterated : iterated (bowl (1/2)) = true.
Proof. reflexivity. Qed.

(** ... but whether it has converged depends on the unit: a ray grazing a polynomial surface meets it when everything is in
    metres and fails when everything is in centimetres. *)
Theorem C95_iterative_refuted : exists k s p v, 0 < k /\
  fst (hit s 5 p v) = true /\ fst (hit (conv_surface k s) 5 (conv_vec k p) v) = false.
Proof. exists 100, (bowl (1/2)), grazing, along_x. split; [lra|]. split; [exact grazing_metres|exact grazing_centimetres]. Qed.
Print Assumptions C95_iterative_refuted.
