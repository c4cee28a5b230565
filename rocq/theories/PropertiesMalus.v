(** C86, C87: rays and wavefronts. *)
From Coq Require Import Reals String List ZArith Bool Lra Lia.
From Verif Require Import Num NumR Vec CoordSys Surface Medium Ray Bundle Optic Spec OpticsSpec SurfSpec TreeSpec
  MalusSpec MalusProofs MalusFocus SamplesJac SamplesMalus.
Import ListNotations.
Open Scope R_scope.

(** An optic changes nothing about how far a family of rays is from being perpendicular to its
    wavefronts; in particular rays perpendicular to their wavefronts stay so. *)
Theorem C86_malus : forall niter (o : optic XR) b A rs B rs1, sweeps niter b (visit b o) A rs B rs1 -> good_frame A -> smooth_rays rs -> one_light rs ->
  near (fun t => trace niter o b (Frv (RV [rs t] A)) = Frv (RV [rs1 t] B)) /\
  (forall m, lag A rs m <-> lag B rs1 m) /\ (wavefront_at A rs <-> wavefront_at B rs1).
Proof. exact malus. Qed.
Print Assumptions C86_malus.

(** Plane waves and point sources are perpendicular to their wavefronts. *)
Theorem C86_plane_wave : forall A rs, good_frame A -> smooth_rays rs -> plane_wave rs -> wavefront_at A rs.
Proof. exact plane_wave_front. Qed.
Print Assumptions C86_plane_wave.

(** The rays of a point source. *)
Theorem C86_point_source : forall A rs, good_frame A -> point_source rs -> wavefront_at A rs.
Proof. exact point_source_front. Qed.
Print Assumptions C86_point_source.

Example C86_example : forall niter s, good_frame global_frame /\ smooth_rays (fun t => m_in (-1) 1 (s + t)) /\ one_light (fun t => m_in (-1) 1 (s + t)) /\
  plane_wave (fun t => m_in (-1) 1 (s + t)) /\
  sweeps niter false (visit false m_optic) global_frame (fun t => m_in (-1) 1 (s + t)) m_frame (fun t => m_out (s + t)) /\
  time (m_out 0) <> time (m_out 1).
Proof.
  intros. split; [exact global_good|]. split; [apply in_smooth|]. split; [apply in_light; lra|]. split; [apply in_plane|]. split; [apply m_sweeps|]. cbn. lra.
Qed.

(** An OPD screen met from behind bends the light against its own delay. *)
Theorem C86_screen_side_refuted : exists i rs rs1, i_kind i = KScreen tilt /\ i_surf i = Plane /\
  (forall niter b t, iface_trace niter i b (Frv (RV [rs t] global_frame)) = Frv (RV [rs1 t] global_frame)) /\
  (forall t, dotR (vel (rs t)) (vel (rs t)) = 1 /\ failed (rs1 t) = false) /\
  smooth_rays rs /\ one_light rs /\ plane_wave rs /\ smooth_rays rs1 /\ one_light rs1 /\
  wavefront_at global_frame rs /\ lag global_frame rs1 (6/5) /\ ~ wavefront_at global_frame rs1.
Proof. exact screen_bad. Qed.
Print Assumptions C86_screen_side_refuted.

(** An OPD screen inside a medium bends the light too much. *)
Theorem C86_screen_medium_refuted : exists i rs rs1, i_kind i = KScreen tilt /\ i_surf i = Plane /\
  (forall niter b t, iface_trace niter i b (Frv (RV [rs t] global_frame)) = Frv (RV [rs1 t] global_frame)) /\
  (forall t, cz (vel (rs t)) < 0 /\ dotR (vel (rs t)) (vel (rs t)) = 1/4 /\ failed (rs1 t) = false) /\
  smooth_rays rs /\ one_light rs /\ plane_wave rs /\ smooth_rays rs1 /\ one_light rs1 /\
  wavefront_at global_frame rs /\ lag global_frame rs1 (-3/5) /\ ~ wavefront_at global_frame rs1.
Proof. exact screen_medium. Qed.
Print Assumptions C86_screen_medium_refuted.

(** Rays of one wavefront that an optic sends through one point arrive there at the same time. *)
Theorem C87_one_time : forall niter (o : optic XR) b A rs B rs1 tau c lo hi, good_frame A ->
  (forall s, lo < s < hi -> smooth_rays (from s rs) /\ one_light (from s rs) /\ wavefront_at A (from s rs) /\
     sweeps niter b (visit b o) A (from s rs) B (from s rs1) /\ later B (rs1 s) (tau s) = c) ->
  forall s1 s2, lo < s1 < hi -> lo < s2 < hi -> time (rs1 s1) + tau s1 = time (rs1 s2) + tau s2.
Proof. exact focus_equal_times. Qed.
Print Assumptions C87_one_time.

Example C87_example : forall niter, good_frame global_frame /\
  forall s, -2 < s < 2 -> smooth_rays (from s p_in) /\ one_light (from s p_in) /\ wavefront_at global_frame (from s p_in) /\
    sweeps niter false (visit false (Iface p_mirror)) global_frame (from s p_in) global_frame (from s p_out) /\
    later global_frame (p_out s) ((1 + s * s) / 2) = V3 0 0 (1/2).
Proof.
  intros. split; [exact global_good|]. intros s _. split; [apply pin_smooth|]. split; [apply pin_light|]. split; [apply pin_front|]. split; [apply p_sweeps|apply p_focus].
Qed.

(** How far a ray misses the centre of the reference sphere is the slope of the wavefront along the sphere. *)
Theorem C87_aberration : forall A rs c eps tau dp dt, good_frame A -> vel (rs 0) <> zeroR -> wavefront_at A rs -> on_sphere A rs c ->
  changes (fun t => ray_global_pos A (rs t)) dp -> derivable_pt_lim (fun t => time (rs t)) 0 dt ->
  later A (rs 0) tau = plusR c eps ->
  dt * (tau * dotR (vel (rs 0)) (vel (rs 0))) = dotR eps dp.
Proof. exact transverse_aberration. Qed.
Print Assumptions C87_aberration.

Example C87_example_aberration : good_frame global_frame /\ vel (s_tilted 0) <> zeroR /\ wavefront_at global_frame s_tilted /\ on_sphere global_frame s_tilted zeroR /\
  changes (fun t => ray_global_pos global_frame (s_tilted t)) (V3 1 0 0) /\ derivable_pt_lim (fun t => time (s_tilted t)) 0 (3/5) /\
  later global_frame (s_tilted 0) (5/4) = plusR zeroR (V3 (3/4) 0 0).
Proof. exact (conj global_good s_aberrated). Qed.

(** Where the wavefront is flat in two directions the ray goes through the centre of the reference sphere. *)
Theorem C87_flat : forall A rs rs' c dp dp', good_frame A -> rs' 0 = rs 0 -> vel (rs 0) <> zeroR ->
  wavefront_at A rs -> wavefront_at A rs' -> on_sphere A rs c -> on_sphere A rs' c ->
  changes (fun t => ray_global_pos A (rs t)) dp -> changes (fun t => ray_global_pos A (rs' t)) dp' -> crossR dp dp' <> zeroR ->
  derivable_pt_lim (fun t => time (rs t)) 0 0 -> derivable_pt_lim (fun t => time (rs' t)) 0 0 ->
  exists tau, later A (rs 0) tau = c.
Proof. exact flat_front_focus. Qed.
Print Assumptions C87_flat.

Example C87_example_flat : good_frame global_frame /\ s_flat2 0 = s_flat1 0 /\ vel (s_flat1 0) <> zeroR /\ wavefront_at global_frame s_flat1 /\ wavefront_at global_frame s_flat2 /\
  on_sphere global_frame s_flat1 zeroR /\ on_sphere global_frame s_flat2 zeroR /\
  changes (fun t => ray_global_pos global_frame (s_flat1 t)) (V3 1 0 0) /\ changes (fun t => ray_global_pos global_frame (s_flat2 t)) (V3 0 1 0) /\
  crossR (V3 1 0 0) (V3 0 1 0) <> zeroR /\
  derivable_pt_lim (fun t => time (s_flat1 t)) 0 0 /\ derivable_pt_lim (fun t => time (s_flat2 t)) 0 0.
Proof. exact (conj global_good s_flat). Qed.
