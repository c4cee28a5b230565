(** C73, C74: optics that are symmetric about an axis. *)
From Coq Require Import Reals List Bool Lra.
From Verif Require Import Num NumR Vec CoordSys Surface Ray Bundle Optic Spec TreeSpec AxialSpec AxialProofs AxialTrace SamplesAxial.
Import ListNotations.
Open Scope R_scope.

(** ** C73: turning the ray about the axis turns what comes out *)
Theorem C73_turned : forall niter o reverse Q A B r r1, axial_optic o -> axial_turn Q -> good_frame A -> good_frame B ->
  gets_through niter o reverse A (Fray r) B r1 <-> gets_through niter o reverse A (Fray (turned Q A r)) B (turned Q B r1).
Proof. exact trace_turned_iff. Qed.
Print Assumptions C73_turned.
Theorem C73_meridional : forall niter o reverse A B r r1 a b, axial_optic o -> good_frame A -> a * a + b * b <> 0 ->
  gets_through niter o reverse A (Fray r) B r1 -> meridional a b A r -> meridional a b B r1.
Proof. exact trace_meridional. Qed.
Print Assumptions C73_meridional.
(** A ray that gets through was real to begin with, so the two theorems above speak of every such ray. *)
Theorem C73_real : forall niter o reverse A x B r1, axial_optic o -> good_frame A -> gets_through niter o reverse A x B r1 ->
  exists r, x = Fray r /\ failed r = false /\ good_frame B.
Proof. exact trace_good. Qed.
Print Assumptions C73_real.
Example C73_example : axial_optic ax_optic /\ axial_turn half_turn /\ axial_frame global_frame /\ axial_frame ax_frame /\
  (forall niter, exists r1, gets_through niter ax_optic false global_frame (Fray ax_ray) ax_frame r1 /\ vel r1 <> zeroR) /\
  axial_optic (Iface ax_glass) /\
  (forall niter, exists r1, gets_through niter (Iface ax_glass) false global_frame (Fray (ax_start 0)) global_frame r1 /\ meridional 0 1 global_frame (ax_start 0)).
Proof.
  split; [exact ax_axial|]. split; [exact half_turn_ok|]. split; [apply ax_frames|]. split; [apply ax_frames|]. split; [exact ax_through|].
  split; [|exact ax_plane]. intros i H. cbn in H. destruct H as [<-|[]]. apply ax_round.
Qed.

(** ** C74: skewness is conserved *)
Theorem C74_skewness : forall niter o reverse A B r r1, axial_optic o -> good_frame A ->
  gets_through niter o reverse A (Fray r) B r1 -> vel r1 <> zeroR -> skewness A r = skewness B r1.
Proof. exact trace_skew. Qed.
Print Assumptions C74_skewness.
Example C74_example : axial_optic ax_optic /\ good_frame global_frame /\ skewness global_frame ax_ray = - (4/5) /\
  forall niter, exists r1, gets_through niter ax_optic false global_frame (Fray ax_ray) ax_frame r1 /\ vel r1 <> zeroR.
Proof. split; [exact ax_axial|]. split; [apply ax_frames|]. split; [exact ax_skew|exact ax_through]. Qed.
