(** C59: sending light back through a whole optic. *)
From Coq Require Import Reals List Bool.
From Verif Require Import Num NumR Vec CoordSys Surface Medium Ray Bundle Optic Spec OpticsSpec TreeSpec
  RevSpec RevProofs SamplesRev.
Import ListNotations.
Open Scope R_scope.

(** C59 *)
Theorem C59_optic_reversible : forall niter (o : optic XR) A r sts,
  journey niter (leaves o) A r sts -> good_frame A -> failed r = false ->
  let '(Z, rz) := last sts (A, r) in let '(B, r1) := hd (A, r) sts in
  trace niter o false (Frv (RV [r] A)) = Frv (RV [rz] Z) /\
  forall r2, turned rz r2 -> exists r3,
    trace niter o true (Frv (RV [r2] Z)) = Frv (RV [r3] B) /\ runs_back A r B r3 /\
    pos r3 = pos r1 /\ time r3 = time r2 + (time rz - time r1).
Proof. exact optic_reversible. Qed.
Print Assumptions C59_optic_reversible.
Example C59_optic_example :
  journey 5 (leaves corner) global_frame jray0 [(global_frame, jray1); (mirror_frame, jray2)] /\
  good_frame global_frame /\ failed jray0 = false.
Proof. exact ex_journey. Qed.
