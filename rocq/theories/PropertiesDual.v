(** C49: host and device copies of ray data. *)
From Coq Require Import Reals List Bool Lra.
From Verif Require Import Num NumR Vec CoordSys Surface Medium Obscuration Ray Bundle Optic Trig Wave DualView DualSpec DualProofs.
Import ListNotations.

(** Without GPU support: any sequence of constructions, kernels, probes, reads, writes (also through arrays kept from
    earlier), copies, splits and comparisons shows exactly what one memory would show. *)
Theorem C49_cpu : forall {T} {NT : Num T} {TT : Trig T} niter (l : list (act T)),
  outputs (steps false niter l []) = outputs (ref_steps niter l []).
Proof. intros T NT TT niter l. apply dual_outputs. discriminate. Qed.
Print Assumptions C49_cpu.

(** With GPU support: the same when arrays kept from earlier are not used, wavelength is not written and rSplit meets
    only un-failed rays that hit the surface. *)
Theorem C49_gpu : forall {T} {NT : Num T} {TT : Trig T} niter (l : list (act T)), safe niter l [] ->
  outputs (steps true niter l []) = outputs (ref_steps niter l []).
Proof. intros T NT TT niter l H. apply dual_outputs. intros _. exact H. Qed.
Print Assumptions C49_gpu.

Section Sample.
  Local Open Scope R_scope.
  Definition rr (x : R) (bad : bool) : ray XR :=
    Ray (V3 (Fin x) (Fin 0) (Fin (-1))) (V3 (Fin 0) (Fin 0) (Fin 1)) (Fin 0) (Fin x) (Fin 1) false bad.
  Definition k0 : coordsys XR := CS (V3 (Fin 0) (Fin 0) (Fin 0)) (M3 (Fin 1) (Fin 0) (Fin 0) (Fin 0) (Fin 1) (Fin 0) (Fin 0) (Fin 0) (Fin 1)).
  Definition new1 (bad : bool) : act XR := ANew (RV [rr 3 bad] k0) (fun _ => rr 8 true).
  Definition session : list (act XR) :=
    [new1 false; AKern 0 (KPropagate (Fin 5)); ARead 0 FZ; AWrite 0 FX 0 (inl (Fin 9)); AKern 0 (KObscure (ObscCircle (Fin 1) (Fin 0) (Fin 0)));
     ARead 0 FV; ACopy 0 None (fun _ => rr 8 true); AEqual 0 1].
  (** wavelength written between a kernel that uses it and a copy *)
  Definition lost_write : list (act XR) := [new1 false; AProbe 0 (PPhase (V3 (Fin 0) (Fin 0) (Fin 0)) (Fin 0)); AWrite 0 FW 0 (inl (Fin 4)); ACopy 0 None (fun _ => rr 8 true); ARead 0 FW].
  Definition held_read : list (act XR) := [new1 false; ARead 0 FV; AKern 0 (KObscure (ObscNegation (ObscUnion []))); AReadHeld 0 FV].
  Definition split_failed : list (act XR) :=
    [new1 true; ASplit 0 Plane (ConstM (Fin 1)) (ConstM (Fin 1)) (SimpleCoating (Fin 1) (Fin 0)) None (fun _ => rr 8 true); ARead 1 FX].
End Sample.
Example C49_example : safe 5 session [] /\ exists xs, outputs (ref_steps 5 session []) = Ok xs /\ List.length xs = 8%nat.
Proof.
  split.
  - unfold session. repeat (split; [exact I || discriminate|intros ? ? _]). exact I.
  - eexists. split; reflexivity.
Qed.

(** GPU builds: a write to wavelength is lost. *)
Theorem C49_wavelength_refuted : exists l : list (act XR), forall niter, outputs (steps true niter l []) <> outputs (ref_steps niter l []).
Proof. exists lost_write. intros niter H. cbn in H. injection H as H. lra. Qed.
Print Assumptions C49_wavelength_refuted.
(** GPU builds: an array obtained before a kernel ran shows old values. *)
Theorem C49_held_refuted : exists l : list (act XR), forall niter, outputs (steps true niter l []) <> outputs (ref_steps niter l []).
Proof. exists held_read. intros niter H. cbn in H. discriminate. Qed.
Print Assumptions C49_held_refuted.
(** GPU builds: rSplit of a failed ray returns uninitialised memory as its reflection. *)
Theorem C49_split_refuted : exists l : list (act XR), forall niter, outputs (steps true niter l []) <> outputs (ref_steps niter l []).
Proof. exists split_failed. intros niter H. cbn in H. injection H as H. lra. Qed.
Print Assumptions C49_split_refuted.
