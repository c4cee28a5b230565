(** C06, C44-C46, C54, C61: bundles as arrays and plane waves. *)
From Coq Require Import Reals String List ZArith Bool SpecFloat.
From Verif Require Import Num NumR NumF Vec CoordSys Surface Medium Obscuration Ray Bundle Optic Spec TreeSpec
  Trig Arrays ArraySpec ArrayProofs VertexProofs Wave WaveSpec WaveProofs SamplesTree SamplesFrames SamplesBundle.
Import ListNotations.
Open Scope nat_scope.

(** C06 *)
Theorem C06_phase_law : forall (r : ray R) (p : vR) (t : R), has_wave r ->
  exists k w, ray_k (Fray r) = F3 k /\ ray_omega (Fray r) = Fin w /\
    k = wavevector r /\ w = frequency r /\
    ray_phase (F3 p) (Fin t) (Fray r) = Fin (dotR k (minusR p (pos r)) - w * (t - time r)).
Proof. exact phase_law. Qed.
Print Assumptions C06_phase_law.
Theorem C06_unchanged_by_propagation : forall (r : ray R) (p : vR) (t s : R), has_wave r ->
  ray_phase (F3 p) (Fin t) (ray_propagate (Fin s) (Fray r)) = ray_phase (F3 p) (Fin t) (Fray r).
Proof. exact phase_propagate. Qed.
Print Assumptions C06_unchanged_by_propagation.
Theorem C06_unchanged_by_frame : forall (A B : frame) (l : list (ray R)) (p : vR) (t : R),
  good_frame A -> good_frame B -> Forall has_wave l ->
  rv_phase (F3 (local_point B (global_point A p))) (Fin t) (rv_toCoordSys (Fcs B) (Frv (RV l A)))
  = rv_phase (F3 p) (Fin t) (Frv (RV l A)).
Proof. exact phase_frame. Qed.
Print Assumptions C06_unchanged_by_frame.
Theorem C06_zero_on_ray : forall (r : ray R) (t : R), has_wave r ->
  ray_phase (ray_positionAtTime (Fin t) (Fray r)) (Fin t) (Fray r) = Fin 0.
Proof. exact phase_on_ray. Qed.
Print Assumptions C06_zero_on_ray.
Example C06_example : has_wave wray /\ wave_phase wray (V3 1 2 2)%R 4 = (4 * PI)%R.
Proof. exact ex_wave. Qed.

(** C44 *)
Theorem C44_index : forall (T : Type) (rv : rayvec T) (k : nat) (r : ray T),
  nth_error (rays rv) k = Some r ->
  getitem_rv (to_arrays rv) (IInt (Z.of_nat k)) = Ok (to_arrays (RV [r] (rvcs rv))).
Proof. exact @getitem_at. Qed.
Print Assumptions C44_index.
(** The arrays of the one ray hold its own data. *)
Theorem C44_columns : forall (T : Type) (rv : rayvec T) (k : nat) (r : ray T),
  nth_error (rays rv) k = Some r ->
  exists a, getitem_rv (to_arrays rv) (IInt (Z.of_nat k)) = Ok a /\ a_cs a = rvcs rv /\
    a_x a = [cx (pos r)] /\ a_y a = [cy (pos r)] /\ a_z a = [cz (pos r)] /\
    a_vx a = [cx (vel r)] /\ a_vy a = [cy (vel r)] /\ a_vz a = [cz (vel r)] /\
    a_t a = [time r] /\ a_w a = [wavelength r] /\ a_flux a = [flux r] /\ a_vig a = [vignetted r] /\ a_fail a = [failed r].
Proof. intros T rv k r H. eexists. split; [exact (getitem_at rv k r H)|]. repeat split. Qed.
Print Assumptions C44_columns.
Theorem C44_last : forall (T : Type) (rv : rayvec T) (l : list (ray T)) (r : ray T),
  rays rv = l ++ [r] -> getitem_rv (to_arrays rv) (IInt (-1)) = Ok (to_arrays (RV [r] (rvcs rv))).
Proof. exact @getitem_last. Qed.
Print Assumptions C44_last.
Theorem C44_out_of_range : forall (T : Type) (rv : rayvec T) (i : Z),
  (i < - Z.of_nat (List.length (rays rv)) \/ Z.of_nat (List.length (rays rv)) <= i)%Z ->
  getitem_rv (to_arrays rv) (IInt i) = Err IndexError.
Proof. exact @getitem_out. Qed.
Print Assumptions C44_out_of_range.
Theorem C44_slice : forall (T : Type) (rv : rayvec T) (start stop : option Z),
  getitem_rv (to_arrays rv) (ISlice start stop) =
    Ok (to_arrays (RV (pick (filter (in_slice (List.length (rays rv)) start stop)
                                    (seq 0 (List.length (rays rv)))) (rays rv)) (rvcs rv))).
Proof. exact @getitem_slice. Qed.
Print Assumptions C44_slice.
Theorem C44_mask : forall (T : Type) (rv : rayvec T) (m : list bool),
  getitem_rv (to_arrays rv) (IMask m) =
    if Nat.eqb (List.length m) (List.length (rays rv))
    then Ok (to_arrays (RV (map snd (filter fst (combine m (rays rv)))) (rvcs rv)))
    else Err IndexError.
Proof. exact @getitem_mask. Qed.
Print Assumptions C44_mask.
(** What a negative index gives: all rays from that position to the end. *)
Theorem C44_negative_partial : forall (T : Type) (rv : rayvec T) (i : Z),
  (- Z.of_nat (List.length (rays rv)) <= i < 0)%Z ->
  getitem_rv (to_arrays rv) (IInt i) =
    Ok (to_arrays (RV (skipn (Z.to_nat (Z.of_nat (List.length (rays rv)) + i)) (rays rv)) (rvcs rv))).
Proof. exact @getitem_neg. Qed.
Print Assumptions C44_negative_partial.
Theorem C44_negative_refuted : exists (rv : rayvec F64) (i : Z) (a : arrays F64),
  (- Z.of_nat (List.length (rays rv)) <= i < 0)%Z /\
  getitem_rv (to_arrays rv) (IInt i) = Ok a /\ List.length (a_t a) = 2.
Proof. exact negative_wrong. Qed.
Print Assumptions C44_negative_refuted.
Example C44_example : nth_error (rays (T:=F64) rv0) 2 = Some dead /\
  rays (T:=F64) rv0 = [up; axis] ++ [dead] /\
  filter (in_slice 3 (Some (-2)%Z) None) (seq 0 3) = [1; 2].
Proof. exact ex_index. Qed.

(** C45 *)
Theorem C45_concatenate : forall (T : Type) (rvs : list (rayvec T)) (c : coordsys T),
  rvs <> [] -> Forall (fun rv => rvcs rv = c) rvs ->
  concatenateRayVectors (map to_arrays rvs) = Ok (to_arrays (RV (flat_map rays rvs) c)).
Proof. exact @concat_one_frame. Qed.
Print Assumptions C45_concatenate.
Theorem C45_copy : forall (T : Type) (a : arrays T), copy_rv a = a.
Proof. exact @copy_same. Qed.
Print Assumptions C45_copy.
Theorem C45_frames_refuted : exists (A B : frame) (r1 r2 : ray R),
  concatenateRayVectors [to_arrays (Frv (RV [r1] A)); to_arrays (Frv (RV [r2] B))]
    = Ok (to_arrays (Frv (RV [r1; r2] A))) /\
  global_point A (pos r2) <> global_point B (pos r2).
Proof. exact concat_moves. Qed.
Print Assumptions C45_frames_refuted.
Example C45_example : [RV [ray1] global_frame; RV [ray1; ray1] global_frame] <> [] /\
  Forall (fun rv => rvcs rv = global_frame) [RV [ray1] global_frame; RV [ray1; ray1] global_frame].
Proof. exact ex_concat. Qed.

(** C46 *)
Theorem C46_componentwise : forall (T : Type) (NT : Num T) (a b : rayvec T),
  List.length (rays a) = List.length (rays b) ->
  exists x, eq_rv (to_arrays a) (to_arrays b) = Some x /\ (x = true <-> Forall2 same_ray (rays a) (rays b)).
Proof. exact @eq_same_ray. Qed.
Print Assumptions C46_componentwise.
Theorem C46_identical_rays : forall a b : rayvec R,
  List.length (rays a) = List.length (rays b) ->
  exists x, eq_rv (to_arrays (Frv a)) (to_arrays (Frv b)) = Some x /\ (x = true <-> rays a = rays b).
Proof. exact eq_real. Qed.
Print Assumptions C46_identical_rays.
Theorem C46_symmetric_transitive : forall a b c : rayvec F64,
  List.length (rays a) = List.length (rays b) -> List.length (rays b) = List.length (rays c) ->
  eq_rv (to_arrays a) (to_arrays b) = eq_rv (to_arrays b) (to_arrays a) /\
  (eq_rv (to_arrays a) (to_arrays b) = Some true -> eq_rv (to_arrays b) (to_arrays c) = Some true ->
   eq_rv (to_arrays a) (to_arrays c) = Some true).
Proof. exact eq_sym_trans. Qed.
Print Assumptions C46_symmetric_transitive.
Theorem C46_equal_traces : forall a b : rayvec R,
  List.length (rays a) = List.length (rays b) -> rvcs a = rvcs b ->
  eq_rv (to_arrays (Frv a)) (to_arrays (Frv b)) = Some true ->
  forall niter o reverse, trace niter o reverse (Frv a) = trace niter o reverse (Frv b).
Proof. exact eq_trace. Qed.
Print Assumptions C46_equal_traces.
Theorem C46_lengths_refuted : exists a b : rayvec F64,
  eq_rv (to_arrays a) (to_arrays b) = Some true /\ eq_rv (to_arrays b) (to_arrays a) = None.
Proof. exact eq_lengths. Qed.
Print Assumptions C46_lengths_refuted.
Theorem C46_frames_refuted : exists (a b : rayvec F64) (o : optic F64),
  eq_rv (to_arrays a) (to_arrays b) = Some true /\
  eq_rv (to_arrays (trace 5 o false a)) (to_arrays (trace 5 o false b)) = Some false.
Proof. exact eq_frames. Qed.
Print Assumptions C46_frames_refuted.
Theorem C46_nan_refuted : exists a : rayvec F64, eq_rv (to_arrays a) (to_arrays a) = Some false.
Proof. exact eq_nan. Qed.
Print Assumptions C46_nan_refuted.
Example C46_example : eq_rv (to_arrays (T:=F64) rv0) (to_arrays rv0) = Some true.
Proof. exact ex_eq. Qed.

(** C54 *)
Theorem C54_vertices : forall (g : frame) (steps pre mid post : list step) (s1 s2 : step) (mid1 mid2 : list step),
  good_frame g -> Forall good_step steps -> NoDup (map s_name steps) ->
  steps = pre ++ mid ++ post -> mid = s1 :: mid1 -> mid = mid2 ++ [s2] ->
  exists len,
    getGlobalRays (map Fstep steps) (Some (s_name s1)) (Some (s_name s2)) (Fcs g) =
      Ok (map (map F3) (seen_from g (s_in s1) :: map (fun s => seen_from g (s_out s)) mid), len) /\
    List.length len = List.length (rays (s_in s1)) /\
    forall i, i < List.length len -> nth_error len i = Some (1 + times_visible i (map s_out mid)).
Proof. exact vertices_real. Qed.
Print Assumptions C54_vertices.
Theorem C54_defaults : forall (T : Type) (NT : Num T) (g : coordsys T) (tf : list (string * tf_entry T))
    n1 e1 n2 e2 tf1 tf2 start end_,
  tf = (n1, e1) :: tf1 -> tf = tf2 ++ [(n2, e2)] ->
  getGlobalRays tf start end_ g =
  getGlobalRays tf (Some match start with None => n1 | Some s => s end)
                   (Some match end_ with None => n2 | Some s => s end) g.
Proof. exact @global_defaults. Qed.
Print Assumptions C54_defaults.
Theorem C54_once_hidden_always_hidden : forall (T : Type) (NT : Num T) niter (o : optic T) reverse rv
    j k i n1 e1 n2 e2,
  o_skip o = false -> NoDup (map i_name (visit reverse o)) ->
  nth_error (traceFull niter o reverse rv) j = Some (n1, e1) ->
  nth_error (traceFull niter o reverse rv) k = Some (n2, e2) -> j <= k ->
  visible_at i (tf_out e2) = true -> visible_at i (tf_out e1) = true.
Proof. exact @visible_back. Qed.
Print Assumptions C54_once_hidden_always_hidden.
Theorem C54_unknown_name : forall (T : Type) (NT : Num T) (g : coordsys T) (tf : list (string * tf_entry T))
    start end_,
  tf <> [] ->
  ((exists s, start = Some s /\ ~ In s (map fst tf)) \/ (exists s, end_ = Some s /\ ~ In s (map fst tf))) ->
  getGlobalRays tf start end_ g = Err ValueError.
Proof. exact @global_unknown. Qed.
Print Assumptions C54_unknown_name.
Theorem C54_misordered_names : forall (T : Type) (NT : Num T) (g : coordsys T) (tf : list (string * tf_entry T))
    s1 s2 i j,
  NoDup (map fst tf) -> nth_error (map fst tf) i = Some s1 -> nth_error (map fst tf) j = Some s2 -> j < i ->
  getGlobalRays tf (Some s1) (Some s2) g = Err ValueError.
Proof. exact @global_misordered. Qed.
Print Assumptions C54_misordered_names.
Example C54_example : good_frame apart /\ Forall good_step seen_then_lost /\
  NoDup (map s_name seen_then_lost) /\ times_visible 0 (map s_out seen_then_lost) = 1.
Proof. exact ex_steps. Qed.

(** C61 *)
Theorem C61_concatenation_adds : forall (ign : bool) (l1 l2 : list (ray R)) (p : vR) (t : R) (c : frame),
  Forall has_wave (filter (counted ign) (l1 ++ l2)) ->
  let S l := sumAmplitude (F3 p) (Fin t) ign (Frv (RV l c)) in
  S (l1 ++ l2) = (nadd (fst (S l1)) (fst (S l2)), nadd (snd (S l1)) (snd (S l2))).
Proof. exact sum_concat. Qed.
Print Assumptions C61_concatenation_adds.
Theorem C61_dead_rays_ignored : forall (T : Type) (NT : Num T) (TT : Trig T) (p : vec3 T) (t : T)
    (ign : bool) (l : list (ray T)) (c c' : coordsys T),
  sumAmplitude p t ign (RV l c) = sumAmplitude p t ign (RV (filter (counted ign) l) c').
Proof. exact @sum_counted. Qed.
Print Assumptions C61_dead_rays_ignored.
Theorem C61_single_ray : forall (ign : bool) (r : ray R) (p : vR) (t : R) (c : frame),
  has_wave r -> counted ign r = true ->
  let a := ray_amplitude (F3 p) (Fin t) (Fray r) in
  sumAmplitude (F3 p) (Fin t) ign (Frv (RV [r] c)) = (nmul (Fin (flux r)) (fst a), nmul (Fin (flux r)) (snd a)).
Proof. exact sum_single. Qed.
Print Assumptions C61_single_ray.
Theorem C61_wave_sum : forall (ign : bool) (l : list (ray R)) (p : vR) (t : R) (c : frame),
  Forall has_wave (filter (counted ign) l) ->
  sumAmplitude (F3 p) (Fin t) ign (Frv (RV l c))
  = (Fin (fst (wave_sum ign l p t)), Fin (snd (wave_sum ign l p t))).
Proof. exact sum_F. Qed.
Print Assumptions C61_wave_sum.
Theorem C61_bounded_by_flux : forall (ign : bool) (l : list (ray R)) (p : vR) (t : R) (c : frame),
  Forall has_wave (filter (counted ign) l) -> Forall (fun r => (0 <= flux r)%R) (filter (counted ign) l) ->
  exists a b, sumAmplitude (F3 p) (Fin t) ign (Frv (RV l c)) = (Fin a, Fin b) /\
    (sqrt (a * a + b * b) <= sumR (map flux (filter (counted ign) l)))%R.
Proof. exact sum_modulus. Qed.
Print Assumptions C61_bounded_by_flux.
Example C61_example : Forall has_wave (filter (counted true) [wray; wbad]) /\
  Forall (fun r => (0 <= flux r)%R) (filter (counted true) [wray; wbad]) /\
  filter (counted true) [wray; wbad] = [wray].
Proof. exact ex_sum. Qed.
