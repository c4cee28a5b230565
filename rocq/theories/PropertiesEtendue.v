(** C90: invariants of bundles of rays. *)
From Coq Require Import Reals String List ZArith Bool Lra.
From Verif Require Import Num NumR Vec CoordSys Surface Ray Bundle Optic Spec OpticsSpec TreeSpec CoordFacts SamplesJac MalusSpec
  EtendueSpec EtendueProofs SamplesEtendue.
Import ListNotations.
Open Scope R_scope.

(** The area that two parameters of a bundle span in the space of positions and momenta is the same before and after the optic. *)
Theorem C90_etendue : forall niter (o : optic XR) b A rs B rs1, good_frame A ->
  near (fun v => carries niter b o A (fun u => rs u v) B (fun u => rs1 u v)) -> near (fun u => carries niter b o A (fun v => rs u v) B (fun v => rs1 u v)) ->
  twice_smooth A rs -> twice_smooth B rs1 -> forall e, etendue A rs e <-> etendue B rs1 e.
Proof. exact etendue_conserved. Qed.
Print Assumptions C90_etendue.

Example C90_example_etendue : forall niter, good_frame global_frame /\
  near (fun v => carries niter false (Iface e_mirror) global_frame (fun u => t_in u v) global_frame (fun u => t_out u v)) /\
  near (fun u => carries niter false (Iface e_mirror) global_frame (fun v => t_in u v) global_frame (fun v => t_out u v)) /\
  twice_smooth global_frame t_in /\ twice_smooth global_frame t_out /\ etendue global_frame t_in 1.
Proof.
  intros. split; [exact global_good|]. split; [|split; [|split; [exact (proj1 t_smooth)|split; [exact (proj2 t_smooth)|exact t_etendue]]]].
  - apply near_in. intros v _. exact (e_carries (fun _ => v) (fun t => t) 0 1 (SlopeProofs.dl_const _ _) dl_id0 ltac:(lra) niter).
  - apply near_in. intros u Hu. apply t_carries_v, Hu.
Qed.

(** The optical length measured along the positions of the rays changes by the difference of the times;
    around a loop of rays it is the same before and after the optic. *)
Theorem C90_paths : forall niter (o : optic XR) b A rs B rs1 W W1 lo hi, good_frame A ->
  (forall s, lo < s < hi -> carries niter b o A (from s rs) B (from s rs1) /\ measures A rs W s /\ measures B rs1 W1 s) ->
  forall s1 s2, lo < s1 < hi -> lo < s2 < hi ->
  (W1 s2 - W1 s1) - (W s2 - W s1) = (time (rs1 s2) - time (rs1 s1)) - (time (rs s2) - time (rs s1)).
Proof. exact paths_agree. Qed.
Print Assumptions C90_paths.

(** A loop. *)
Theorem C90_loop : forall niter (o : optic XR) b A rs B rs1 W W1 lo hi, good_frame A ->
  (forall s, lo < s < hi -> carries niter b o A (from s rs) B (from s rs1) /\ measures A rs W s /\ measures B rs1 W1 s) ->
  forall s1 s2, lo < s1 < hi -> lo < s2 < hi -> rs s1 = rs s2 -> rs1 s1 = rs1 s2 /\ W1 s2 - W1 s1 = W s2 - W s1.
Proof. exact loop_conserved. Qed.
Print Assumptions C90_loop.

Example C90_example_loop : forall niter, good_frame global_frame /\
  (forall s, -10 < s < 10 -> carries niter false (Iface e_mirror) global_frame (from s l_in) global_frame (from s l_out) /\
     measures global_frame l_in l_path s /\ measures global_frame l_out l_path1 s) /\
  l_in 0 = l_in (2 * PI) /\ l_path (2 * PI) - l_path 0 = - (PI / 2).
Proof. intros. split; [exact global_good|]. split; [intros; apply loop_ok|exact loop_closed]. Qed.

(** An optic that makes a sharp image of every point O(v) near O(0) with the rays u between lo and hi:
    the component of the momentum along dO before the optic and along dI after it differ by the same amount for all the rays. *)
Theorem C90_cosine : forall niter (o : optic XR) b A rs B rs1 O I dO dI T0 tau lo hi, good_frame A ->
  near (fun v => forall u, lo < u < hi ->
    carries niter b o A (from u (fun x => rs x v)) B (from u (fun x => rs1 x v)) /\
    ray_global_pos A (rs u v) = O v /\ time (rs u v) = T0 v /\ later B (rs1 u v) (tau u v) = I v) ->
  (forall u, lo < u < hi -> carries niter b o A (fun v => rs u v) B (fun v => rs1 u v)) ->
  changes O dO -> changes I dI -> forall u1 u2, lo < u1 < hi -> lo < u2 < hi ->
  dotR (momentum B (rs1 u1 0)) dI - dotR (momentum A (rs u1 0)) dO = dotR (momentum B (rs1 u2 0)) dI - dotR (momentum A (rs u2 0)) dO.
Proof. exact cosine_theorem. Qed.
Print Assumptions C90_cosine.

Example C90_example_cosine : forall niter, good_frame global_frame /\
  near (fun v => forall u, -1 < u < 1 ->
    carries niter false (Iface e_mirror) global_frame (from u (fun x => t_in x v)) global_frame (from u (fun x => t_out x v)) /\
    ray_global_pos global_frame (t_in u v) = t_object v /\ time (t_in u v) = 0 /\ later global_frame (t_out u v) (t_tau u v) = t_image v) /\
  (forall u, -1 < u < 1 -> carries niter false (Iface e_mirror) global_frame (fun v => t_in u v) global_frame (fun v => t_out u v)) /\
  changes t_object (V3 1 0 0) /\ changes t_image (V3 1 0 0).
Proof. intros. split; [exact global_good|]. apply t_images. Qed.
