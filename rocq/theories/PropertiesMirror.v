(** C94: mirror images of optics and of light. *)
From Coq Require Import Reals String List ZArith Bool Lra.
From Verif Require Import Num NumR Vec CoordSys Surface Medium Obscuration Ray Bundle Optic ImageSpec ImageTrace MirrorSpec MirrorProofs MirrorTrace SamplesMirror.
Import ListNotations.
Open Scope R_scope.

(** Tracing mirrored rays through the mirrored optic gives the mirrored results, for any values in the rays,
    including those that miss, fail or hold NaN. *)
Theorem C94_trace : forall bx by_ niter o, mirrorable_optic o -> forall reverse rv,
  trace niter (image_optic (mirror bx by_) o) reverse (image_rays (mirror bx by_) rv) = image_rays (mirror bx by_) (trace niter o reverse rv).
Proof. exact (fun bx by_ => trace_mir _ _ _ _ (mirror_respects bx by_)). Qed.
Print Assumptions C94_trace.

(** The same along a path of named items ... *)
Theorem C94_path : forall bx by_ niter o path rv, mirrorable_optic o ->
  trace_path niter (image_optic (mirror bx by_) o) path (image_rays (mirror bx by_) rv) = res_map (image_rays (mirror bx by_)) (trace_path niter o path rv).
Proof. exact (fun bx by_ => trace_path_mir _ _ _ _ (mirror_respects bx by_)). Qed.
Print Assumptions C94_path.

(** ... for every entry of traceFull ... *)
Theorem C94_full : forall bx by_ niter o, mirrorable_optic o -> forall reverse rv,
  traceFull niter (image_optic (mirror bx by_) o) reverse (image_rays (mirror bx by_) rv) =
  map (fun p => (fst p, image_entry (mirror bx by_) (snd p))) (traceFull niter o reverse rv).
Proof. exact (fun bx by_ => traceFull_mir _ _ _ _ (mirror_respects bx by_)). Qed.
Print Assumptions C94_full.

(** ... and for the ghosts of traceSplit, whether it succeeds or raises. *)
Theorem C94_split : forall bx by_ niter minFlux fuel o, mirrorable_optic o -> forall reverse x,
  traceSplit niter minFlux fuel (image_optic (mirror bx by_) o) reverse (image_prv (mirror bx by_) x) =
  res_map (image_split (mirror bx by_)) (traceSplit niter minFlux fuel o reverse x).
Proof. exact (fun bx by_ => traceSplit_mir _ _ _ _ (mirror_respects bx by_)). Qed.
Print Assumptions C94_split.

Example C94_example : mirrorable_optic off_optic.
Proof. exact off_good. Qed.

(** An optic that is its own mirror image treats mirrored rays alike ... *)
Theorem C94_symmetric : forall bx by_ niter o reverse rv, mirrorable_optic o -> image_optic (mirror bx by_) o = o ->
  trace niter o reverse (image_rays (mirror bx by_) rv) = image_rays (mirror bx by_) (trace niter o reverse rv).
Proof. exact (fun bx by_ => symmetric_mir _ _ _ _ (mirror_respects bx by_)). Qed.
Print Assumptions C94_symmetric.

(** ... and light in its plane of symmetry stays there. *)
Theorem C94_plane : forall niter o reverse rv, mirrorable_optic o -> image_optic (mirror false true) o = o ->
  mir_frame false true (rvcs rv) = rvcs rv ->
  (forall r, In r (rays rv) -> cy (pos r) = Fin 0 /\ cy (vel r) = Fin 0) ->
  forall r y, In r (rays (trace niter o reverse rv)) ->
    (cy (pos r) = Fin y -> y = 0) /\ (cy (vel r) = Fin y -> y = 0).
Proof. exact plane_kept. Qed.
Print Assumptions C94_plane.

Example C94_example_symmetric : mirrorable_optic off_optic /\ image_optic (mirror false true) off_optic = off_optic /\
  mir_frame false true off_frame = off_frame.
Proof. split; [exact off_good|]. split; [exact off_symmetric|]. cbv -[Ropp Rdiv IZR Rinv Rmult]. rewrite !Ropp_0. reflexivity. Qed.

(** A polygon contains one of two opposite edges and not the other, so its mirror image does not contain the mirror
    images of its points. *)
Theorem C94_polygon_refuted : exists verts x y,
  contains (ObscPolygon verts) x y = true /\
  contains (ObscPolygon (map (fun p => (fst p, nopp (snd p))) verts)) x (nopp y) = false.
Proof. exists [(Fin 0, Fin 0); (Fin 1, Fin 0); (Fin 1, Fin 1); (Fin 0, Fin 1)], (Fin (1/2)), (Fin 1). exact square_edges. Qed.
Print Assumptions C94_polygon_refuted.

(** A bicubic surface has its first row and column of nodes but not the last, so one with symmetric nodes and heights is
    not symmetric. *)
Theorem C94_bicubic_refuted : exists tb : table XR,
  tb_x0 tb = Fin (-1) /\ tb_dx tb = Fin 2 /\ tb_nx tb = 2%nat /\ tb_y0 tb = Fin (-1) /\ tb_dy tb = Fin 2 /\ tb_ny tb = 2%nat /\
  tb_z tb = repeat (Fin 0) 4 /\ sag (Bicubic tb) (Fin (-1)) (Fin 0) = Fin 0 /\ sag (Bicubic tb) (Fin 1) (Fin 0) = NaN.
Proof. exists flat_table. repeat (split; [reflexivity|]). exact table_edges. Qed.
Print Assumptions C94_bicubic_refuted.
