(** C28: splitting traces.  Every theorem is closed by a lemma proved elsewhere. *)
From Coq Require Import Reals List Bool String Lra.
From Verif Require Import Num NumR Vec CoordSys Surface Medium Obscuration Ray Bundle Optic SplitSpec SplitProofs SamplesSplit.
Import ListNotations.
Open Scope R_scope.

(** Every ray returned by the traceSplit of a compound is unvignetted and carries at least minFlux, whatever the numbers. *)
Theorem C28_live : forall {T} {NT : Num T} (niter : nat) (minFlux : T) fuel a items reverse x f r,
  traceSplit niter minFlux fuel (Compound a items) reverse x = Ok (Lists f r) ->
  Forall (fun q => vignetted q = false /\ nleb minFlux (flux q) = true) (all_rays f ++ all_rays r).
Proof. exact @split_live. Qed.
Print Assumptions C28_live.

(** No light is created: rays that go on in the direction of travel are no brighter than the brightest input, those
    sent back carry at most the fraction rho of that, and the total flux returned is at most the flux put in. *)
Theorem C28_flux : forall rho niter minFlux fuel o reverse x b f r,
  0 <= rho <= 1 -> passive_optic rho o -> 0 <= b -> Forall (sound b) (rays (p_rv x)) ->
  traceSplit niter minFlux fuel o reverse x = Ok (Lists f r) ->
  Forall (sound b) (all_rays (if reverse then r else f)) /\
  Forall (sound (rho * b)) (all_rays (if reverse then f else r)) /\
  live_flux (all_rays f) + live_flux (all_rays r) <= live_flux (rays (p_rv x)).
Proof. intros rho niter mf fuel o reverse x b f r H1 H2 H3 H4 H5. exact (optic_tame rho niter mf fuel o H1 H2 reverse x b f r H3 H4 H5). Qed.
Print Assumptions C28_flux.

(** When every face reflects less than the fraction rho < 1 and minFlux is positive, the loops end. *)
Theorem C28_terminates : forall rho m niter o, 0 <= rho < 1 -> 0 < m -> passive_optic rho o ->
  forall reverse x b, 0 <= b -> Forall (sound b) (rays (p_rv x)) -> settles (fun fuel => traceSplit niter (Fin m) fuel o reverse x).
Proof. exact split_settles. Qed.
Print Assumptions C28_terminates.

Example C28_example : passive_optic (1/10) (plate (1/10) (9/10)) /\ Forall (sound 1) (rays (p_rv (one_ray false))) /\
  live_flux (rays (p_rv (one_ray false))) = 1.
Proof. split; [apply plate_passive; lra|split; [exact one_ray_sound|unfold live_flux; cbn; lra]]. Qed.

(** With minFlux = 0 the loop between two half-silvered faces never ends. *)
Theorem C28_unlimited_refuted : exists o x, passive_optic (1/2) o /\ Forall (sound 1) (rays (p_rv x)) /\
  forall niter fuel, traceSplit niter (Fin 0) fuel o false x = Err OutOfFuel.
Proof. exists (plate (1/2) (1/2)), (one_ray false). split; [apply plate_passive; lra|]. split; [exact one_ray_sound|]. exact unlimited_spins. Qed.
Print Assumptions C28_unlimited_refuted.

(** A ray flagged failed but not vignetted is copied to both sides of every face, so the loop never ends even when
    the faces reflect nothing. *)
Theorem C28_failed_refuted : exists o x, passive_optic 0 o /\
  forall niter fuel, traceSplit niter (Fin (1/1000)) fuel o false x = Err OutOfFuel.
Proof. exists (plate 0 1), (one_ray true). split; [apply plate_passive; lra|]. exact failed_spins. Qed.
Print Assumptions C28_failed_refuted.

(** A skipped item inside a compound is not passed over but raises TypeError. *)
Theorem C28_skip_refuted : exists o x, Forall (sound 1) (rays (p_rv x)) /\
  forall niter fuel, traceSplit niter (Fin (1/1000)) (S fuel) o false x = Err TypeError.
Proof. exists plate_skip, (one_ray false). split; [exact one_ray_sound|]. exact skipped_item. Qed.
Print Assumptions C28_skip_refuted.
