(** C31-C33, C52, C53: moving whole optics, keeping attributes, skip and coatings. *)
From Coq Require Import Reals String List Bool.
From Verif Require Import Num NumR NumF Vec CoordSys Surface Medium Obscuration Ray Bundle Optic Ops
  TreeSpec Spec MoveSpec TreeProofs MoveProofs CovProofs SamplesTree SamplesMove.
Import ListNotations.

(** C31 *)
Theorem C31_shifts_add : forall (d1 d2 : vec3 XR) (o : optic XR),
  withGlobalShift d2 (withGlobalShift d1 o) = withGlobalShift (vadd d1 d2) o.
Proof. exact shift_shift. Qed.
Print Assumptions C31_shifts_add.
Theorem C31_local_shifts_add : forall (d1 d2 : vR) (o : optic XR), real_frame (o_cs o) ->
  withLocalShift (F3 d2) (withLocalShift (F3 d1) o) = withLocalShift (F3 (plusR d1 d2)) o.
Proof. exact local_shift_shift. Qed.
Print Assumptions C31_local_shifts_add.
Theorem C31_shift_undone : forall (d : vR) (o : optic XR), Forall real_frame (frames o) ->
  frames (withGlobalShift (F3 (negR d)) (withGlobalShift (F3 d) o)) = frames o /\
  (built o -> withGlobalShift (F3 (negR d)) (withGlobalShift (F3 d) o) = o).
Proof. exact shift_undo. Qed.
Print Assumptions C31_shift_undone.
Theorem C31_local_shift_undone : forall (d : vR) (o : optic XR), Forall real_frame (frames o) ->
  frames (withLocalShift (F3 (negR d)) (withLocalShift (F3 d) o)) = frames o /\
  (built o -> withLocalShift (F3 (negR d)) (withLocalShift (F3 d) o) = o).
Proof. exact local_shift_undo. Qed.
Print Assumptions C31_local_shift_undone.
Theorem C31_rotations_compose : forall (r1 r2 : mR) (p : vR) (k : frame) (o : optic XR),
  Forall real_frame (frames o) ->
  withGlobalRotation (FM r2) (F3 p) (Fcs k) (withGlobalRotation (FM r1) (F3 p) (Fcs k) o)
  = withGlobalRotation (FM (afterR r2 r1)) (F3 p) (Fcs k) o.
Proof. exact rotation_rotation. Qed.
Print Assumptions C31_rotations_compose.
Theorem C31_rotation_undone : forall (r : mR) (p : vR) (k : frame) (o : optic XR),
  orthonormal r -> Forall real_frame (frames o) ->
  frames (withGlobalRotation (FM (transR r)) (F3 p) (Fcs k) (withGlobalRotation (FM r) (F3 p) (Fcs k) o))
    = frames o /\
  (built o ->
   withGlobalRotation (FM (transR r)) (F3 p) (Fcs k) (withGlobalRotation (FM r) (F3 p) (Fcs k) o) = o).
Proof. exact rotation_undo. Qed.
Print Assumptions C31_rotation_undone.
Theorem C31_local_rotation_undone : forall (r : mR) (p : vR) (k : option frame) (o : optic XR),
  orthonormal r -> Forall real_frame (frames o) -> good_real_frame (o_cs o) ->
  let k := option_map Fcs k in
  frames (withLocalRotation (FM (transR r)) (F3 p) k (withLocalRotation (FM r) (F3 p) k o)) = frames o /\
  (built o -> withLocalRotation (FM (transR r)) (F3 p) k (withLocalRotation (FM r) (F3 p) k o) = o).
Proof. exact local_rotation_undo. Qed.
Print Assumptions C31_local_rotation_undone.
Example C31_example : orthonormal quarter /\ Forall real_frame (frames (T:=XR) tel) /\
  good_real_frame (o_cs (T:=XR) tel) /\ built (T:=XR) tel.
Proof. exact ex_c31. Qed.

(** C32: rays carried along with their frame (any rays, even failed or non-finite). *)
Theorem C32_trace_covariant : forall (niter : nat) (ms : list motion) (o : optic XR) (reverse : bool)
    (l : list (ray XR)) (A A' : frame),
  unskipped o -> Forall real_frame (frames o) -> Forall rigid ms -> carried ms A A' ->
  rays (trace niter (move_optic ms o) reverse (RV l (Fcs A')))
    = rays (trace niter o reverse (RV l (Fcs A))) /\
  exists B B', rvcs (trace niter o reverse (RV l (Fcs A))) = Fcs B /\
               rvcs (trace niter (move_optic ms o) reverse (RV l (Fcs A'))) = Fcs B' /\
               carried ms B B'.
Proof. exact covariance. Qed.
Print Assumptions C32_trace_covariant.
(** C32: rays moved in space, described in the same frame A as before. *)
Theorem C32_moved_rays : forall (niter : nat) (ms : list motion) (o : optic XR) (reverse : bool)
    (l : list (ray R)) (A : frame) (k : nat) (r : ray R),
  unskipped o -> Forall real_frame (frames o) -> leaves o <> [] -> good_frame A ->
  Forall rigid ms -> ms <> [] -> nth_error l k = Some r -> (failed r = true -> vignetted r = true) ->
  exists q q',
    nth_error (rays (trace niter o reverse (Frv (RV l A)))) k = Some q /\
    nth_error (rays (trace niter (move_optic ms o) reverse (Frv (RV (map (moved_ray ms A) l) A)))) k
      = Some q' /\
    agree q q'.
Proof. exact covariance_rays. Qed.
Print Assumptions C32_moved_rays.
Example C32_example : unskipped (T:=XR) tel /\ Forall real_frame (frames (T:=XR) tel) /\
  leaves (T:=XR) tel <> [] /\ Forall rigid sway /\ sway <> [] /\
  carried sway global_frame (CS (V3 4 5 3) quarter)%R /\ good_frame global_frame.
Proof. exact ex_c32. Qed.

(** C33: for every arithmetic.  Everything but coatings and skip flags is kept by
    every optic; everything at all is kept by an optic as constructed. *)
Theorem C33_global_shift_keeps_rest : forall (T : Type) (NT : Num T) (d : vec3 T) (o : optic T),
  bare (withGlobalShift d o) = reframe (fun c => shiftGlobal c d) (bare o) /\
  (built o -> withGlobalShift d o = reframe (fun c => shiftGlobal c d) o).
Proof. exact @keeps_shift. Qed.
Print Assumptions C33_global_shift_keeps_rest.
Theorem C33_local_shift_keeps_rest : forall (T : Type) (NT : Num T) (d : vec3 T) (o : optic T),
  let f c := shiftGlobal c (mv (rot (o_cs o)) d) in
  bare (withLocalShift d o) = reframe f (bare o) /\ (built o -> withLocalShift d o = reframe f o).
Proof. exact @keeps_local_shift. Qed.
Print Assumptions C33_local_shift_keeps_rest.
Theorem C33_global_rotation_keeps_rest : forall (T : Type) (NT : Num T) (r : mat3 T) (p : vec3 T)
    (k : coordsys T) (o : optic T),
  bare (withGlobalRotation r p k o) = reframe (fun c => rotateGlobal c r p (Some k)) (bare o) /\
  (built o -> withGlobalRotation r p k o = reframe (fun c => rotateGlobal c r p (Some k)) o).
Proof. exact @keeps_rotation. Qed.
Print Assumptions C33_global_rotation_keeps_rest.
Theorem C33_local_rotation_keeps_rest : forall (T : Type) (NT : Num T) (r : mat3 T) (p : vec3 T)
    (k : option (coordsys T)) (o : optic T),
  exists f, bare (withLocalRotation r p k o) = reframe f (bare o) /\
            (built o -> withLocalRotation r p k o = reframe f o).
Proof. exact @keeps_local_rotation. Qed.
Print Assumptions C33_local_rotation_keeps_rest.
Theorem C33_surface_keeps_rest : forall (T : Type) (NT : Num T) (s : surface T) (i : iface T),
  i_bare (i_withSurface s i)
    = i_bare (IF (i_kind i) s (i_name i) (i_cs i) (i_obsc i) (i_in i) (i_out i) (i_fwd i) (i_rev i) (i_skip i)) /\
  (i_built i -> i_withSurface s i
    = IF (i_kind i) s (i_name i) (i_cs i) (i_obsc i) (i_in i) (i_out i) (i_fwd i) (i_rev i) (i_skip i)).
Proof. exact @keeps_surface. Qed.
Print Assumptions C33_surface_keeps_rest.
Theorem C33_coating_refuted : exists (i : iface F64) (d : vec3 F64),
  i_fwd (i_withGlobalShift d i) <> i_fwd i.
Proof. exact coating_lost. Qed.
Print Assumptions C33_coating_refuted.
Theorem C33_skip_refuted : exists (i : iface F64) (d : vec3 F64),
  i_skip (i_withGlobalShift d i) <> i_skip i.
Proof. exact skip_lost. Qed.
Print Assumptions C33_skip_refuted.
Theorem C33_surface_coating_refuted : exists (i : iface F64) (s : surface F64),
  i_fwd (i_withSurface s i) <> i_fwd i.
Proof. exact surface_coating_lost. Qed.
Print Assumptions C33_surface_coating_refuted.
Example C33_example : built (T:=F64) tel.
Proof. exact tel_built. Qed.

(** C52: an item whose skip attribute is set is left out; the constructor argument
    does not set it. *)
Theorem C52_attribute_skips_partial : forall (T : Type) (NT : Num T) (niter : nat) (a : cattr T)
    (l1 : list (optic T)) (it : optic T) (l2 : list (optic T)) (reverse : bool) (rv : rayvec T),
  o_skip it = true ->
  trace niter (Compound a (l1 ++ it :: l2)) reverse rv = trace niter (Compound a (l1 ++ l2)) reverse rv.
Proof. exact @trace_skip. Qed.
Print Assumptions C52_attribute_skips_partial.
Theorem C52_interface_refuted : exists (a : cattr F64) (i : iface F64) rv,
  i = mkIface KMirror Plane "M" (at_z 0) None air1 air1 None None true /\
  trace 5 (Compound a [Iface i]) false rv <> trace 5 (Compound a []) false rv.
Proof. exact skip_ignored. Qed.
Print Assumptions C52_interface_refuted.
Theorem C52_compound_refuted : exists (a b : cattr F64) items o rv,
  c_skip b = true /\ mkCompound b items = Ok o /\
  trace 5 (Compound a [o]) false rv <> trace 5 (Compound a []) false rv.
Proof. exact compound_skip_ignored. Qed.
Print Assumptions C52_compound_refuted.
Example C52_example : o_skip (Iface (T:=F64) marked) = true.
Proof. exact ex_skip. Qed.

(** C53 *)
Theorem C53_same_coatings_partial : forall (T : Type) (NT : Num T) (niter : nat) (i : iface T)
    (c : coating T) (rv : rayvec T),
  i_kind i = KRefractive -> i_fwd i = Some c -> i_rev i = Some c ->
  forall reverse : bool, rSplit niter i reverse rv
   = (let '(t, r) := rv_rsplit niter (i_surf i) (if reverse then i_out i else i_in i)
                       (if reverse then i_in i else i_out i) c (Some (i_cs i)) rv in Ok (Some t, Some r)).
Proof. exact @same_coating. Qed.
Print Assumptions C53_same_coatings_partial.
Theorem C53_detector_forward : forall (T : Type) (NT : Num T) (niter : nat) (i : iface T)
    (c : coating T) (rv : rayvec T),
  i_kind i = KDetector -> i_fwd i = Some c ->
  rSplit niter i false rv
   = (let '(t, r) := rv_rsplit niter (i_surf i) (i_in i) (i_out i) c (Some (i_cs i)) rv in Ok (Some t, Some r)).
Proof. exact @detector_coating. Qed.
Print Assumptions C53_detector_forward.
Theorem C53_forward_refuted : exists (i : iface F64) c rv,
  i_kind i = KRefractive /\ i_fwd i = Some c /\
  rSplit 5 i false rv <> (let '(t, r) := rv_rsplit 5 (i_surf i) (i_in i) (i_out i) c (Some (i_cs i)) rv in
                          Ok (Some t, Some r)).
Proof. exact coating_swapped. Qed.
Print Assumptions C53_forward_refuted.
Theorem C53_reverse_refuted : exists (i : iface F64) c rv,
  i_kind i = KRefractive /\ i_rev i = Some c /\
  rSplit 5 i true rv <> (let '(t, r) := rv_rsplit 5 (i_surf i) (i_out i) (i_in i) c (Some (i_cs i)) rv in
                         Ok (Some t, Some r)).
Proof. exact coating_swapped_rev. Qed.
Print Assumptions C53_reverse_refuted.
Example C53_example : i_kind (T:=F64) (mkI KRefractive Plane "W" 0 None) = KRefractive /\
  i_fwd (T:=F64) (mkI KRefractive Plane "W" 0 None) = Some (SimpleCoating n0 n1) /\
  i_rev (T:=F64) (mkI KRefractive Plane "W" 0 None) = Some (SimpleCoating n0 n1).
Proof. exact ex_c53. Qed.
