(** C20-C23, C25-C27, C55: structure of tracing, for every arithmetic (in
    particular IEEE doubles with rounding, infinities and NaN). *)
From Coq Require Import Reals String List Bool.
From Verif Require Import Num NumR NumF Vec CoordSys Surface Medium Obscuration Ray Bundle Optic Ops
  TreeSpec StructProofs TreeProofs PathProofs StructXR SamplesTree.
Import ListNotations.

(** C20: flags are sticky, failed rays are left alone, by any call sequence. *)
Theorem C20_flags_sticky : forall (T : Type) (NT : Num T) (niter : nat) (ops : list (trace_op T))
    (l : list (ray T)) (cs : coordsys T) (i : nat) (r : ray T),
  nth_error l i = Some r ->
  exists r', nth_error (rays (run_ops niter ops (RV l cs))) i = Some r' /\
    (vignetted r = true -> vignetted r' = true) /\
    (failed r = true -> failed r' = true /\ pos r' = pos r /\ vel r' = vel r /\ time r' = time r /\
                        flux r' = flux r /\ wavelength r' = wavelength r).
Proof. exact @sticky_ops. Qed.
Print Assumptions C20_flags_sticky.
Example C20_example : exists r : ray F64,
  nth_error (rays (run_ops 5 [OTrace tel false] rv0)) 1 = Some r /\ vignetted r = true /\ failed r = false.
Proof. exact ex_sticky. Qed.

(** C21 *)
Theorem C21_failed_implies_vignetted : forall (T : Type) (NT : Num T) (niter : nat)
    (ops : list (trace_op T)) (l : list (ray T)) (cs : coordsys T),
  Forall (fun r => failed r = true -> vignetted r = true) l ->
  Forall (fun r => failed r = true -> vignetted r = true) (rays (run_ops niter ops (RV l cs))).
Proof. exact @fv_ops. Qed.
Print Assumptions C21_failed_implies_vignetted.
Example C21_example : Forall (fun r : ray F64 => failed r = true -> vignetted r = true) (rays rv0).
Proof. exact ex_fv. Qed.

(** C22 *)
Theorem C22_count_and_wavelengths : forall (T : Type) (NT : Num T) (niter : nat)
    (ops : list (trace_op T)) (l : list (ray T)) (cs : coordsys T),
  length (rays (run_ops niter ops (RV l cs))) = length l /\
  map wavelength (rays (run_ops niter ops (RV l cs))) = map wavelength l.
Proof. exact (fun T NT niter ops l cs => conj (length_ops niter ops l cs) (wl_ops niter ops l cs)). Qed.
Print Assumptions C22_count_and_wavelengths.
Theorem C22_flux_kept_without_coating : forall (T : Type) (NT : Num T) (niter : nat)
    (ops : list (trace_op T)) (l : list (ray T)) (cs : coordsys T),
  Forall uncoated ops -> map flux (rays (run_ops niter ops (RV l cs))) = map flux l.
Proof. exact @flux_ops. Qed.
Print Assumptions C22_flux_kept_without_coating.
Theorem C22_flux_never_grows : forall (niter : nat) (ops : list (trace_op XR)) (l : list (ray XR))
    (cs : coordsys XR) (i : nat) (r : ray XR) (f : R),
  Forall lossy ops -> nth_error l i = Some r -> flux r = Fin f -> (0 <= f)%R ->
  exists r' f', nth_error (rays (run_ops niter ops (RV l cs))) i = Some r' /\
                flux r' = Fin f' /\ (0 <= f' <= f)%R.
Proof. exact flux_le. Qed.
Print Assumptions C22_flux_never_grows.
Example C22_example_lossy : Forall lossy
  [OIntersect Plane None (Some (SimpleCoating (Fin (1/10)) (Fin (9/10)))); OTrace tel true;
   OSplitReflected Plane air1 air1 (SimpleCoating (Fin (1/2)) (Fin (1/2))) None].
Proof. exact ex_lossy. Qed.
Example C22_example_uncoated :
  Forall uncoated [@OTrace F64 tel false; OReflect Plane None None; OObscure (ObscCircle n1 n0 n0)].
Proof. exact ex_uncoated. Qed.

(** C23: concatenations; slices, single rays, masks and permutations. *)
Theorem C23_concatenation : forall (T : Type) (NT : Num T) (niter : nat) (ops : list (trace_op T))
    (l1 l2 : list (ray T)) (cs : coordsys T),
  run_ops niter ops (RV (l1 ++ l2) cs)
  = RV (rays (run_ops niter ops (RV l1 cs)) ++ rays (run_ops niter ops (RV l2 cs)))
       (rvcs (run_ops niter ops (RV l1 cs))).
Proof. exact @ops_app. Qed.
Print Assumptions C23_concatenation.
Theorem C23_selection : forall (T : Type) (NT : Num T) (niter : nat) (ops : list (trace_op T))
    (idx : list nat) (l : list (ray T)) (cs : coordsys T),
  run_ops niter ops (RV (pick idx l) cs)
  = RV (pick idx (rays (run_ops niter ops (RV l cs)))) (rvcs (run_ops niter ops (RV l cs))).
Proof. exact @ops_pick. Qed.
Print Assumptions C23_selection.
Theorem C23_frame_independent_of_rays : forall (T : Type) (NT : Num T) (niter : nat)
    (ops : list (trace_op T)) (l1 l2 : list (ray T)) (cs : coordsys T),
  rvcs (run_ops niter ops (RV l1 cs)) = rvcs (run_ops niter ops (RV l2 cs)).
Proof. exact @ops_frame. Qed.
Print Assumptions C23_frame_independent_of_rays.
Example C23_example : pick [2; 0]%nat (rays (T:=F64) rv0) = [dead; up].
Proof. exact ex_pick. Qed.

(** C25 *)
Theorem C25_trace_visits_interfaces_in_order : forall (T : Type) (NT : Num T) (niter : nat)
    (o : optic T) (reverse : bool) (rv : rayvec T),
  trace niter o reverse rv = in_turn niter reverse (visit reverse o) rv.
Proof. exact @trace_in_turn. Qed.
Print Assumptions C25_trace_visits_interfaces_in_order.
Theorem C25_regrouping : forall (T : Type) (NT : Num T) (niter : nat) (a b : cattr T)
    (l1 l2 l3 : list (optic T)) (reverse : bool) (rv : rayvec T),
  c_skip b = false ->
  trace niter (Compound a (l1 ++ Compound b l2 :: l3)) reverse rv
  = trace niter (Compound a (l1 ++ l2 ++ l3)) reverse rv.
Proof. exact @trace_regroup. Qed.
Print Assumptions C25_regrouping.
Theorem C25_skipped_item_is_absent : forall (T : Type) (NT : Num T) (niter : nat) (a : cattr T)
    (l1 : list (optic T)) (it : optic T) (l2 : list (optic T)) (reverse : bool) (rv : rayvec T),
  o_skip it = true ->
  trace niter (Compound a (l1 ++ it :: l2)) reverse rv = trace niter (Compound a (l1 ++ l2)) reverse rv.
Proof. exact @trace_skip. Qed.
Print Assumptions C25_skipped_item_is_absent.
Theorem C25_final_frame : forall (T : Type) (NT : Num T) (niter : nat) (o : optic T) (reverse : bool)
    (rv : rayvec T) (is : list (iface T)) (i : iface T),
  visit reverse o = is ++ [i] -> rvcs (trace niter o reverse rv) = i_cs i.
Proof. exact @trace_frame. Qed.
Print Assumptions C25_final_frame.
Example C25_example : map i_name (leaves (T:=F64) tel) = ["A"; "B"; "C"; "D"]%string.
Proof. exact ex_leaves. Qed.

(** C26: for distinct interface names and an optic that is not itself skipped. *)
Theorem C26_traceFull_is_trace_step_by_step : forall (T : Type) (NT : Num T) (niter : nat)
    (o : optic T) (reverse : bool) (rv : rayvec T),
  o_skip o = false -> NoDup (map i_name (visit reverse o)) ->
  let tf := traceFull niter o reverse rv in
  map fst tf = map i_name (visit reverse o) /\
  (forall k i, nth_error (visit reverse o) k = Some i ->
     exists e, nth_error tf k = Some (i_name i, e) /\ tf_name e = i_name i /\
               tf_out e = iface_trace niter i reverse (tf_in e)) /\
  (forall n e, nth_error tf 0 = Some (n, e) -> tf_in e = rv) /\
  (forall k n e n' e', nth_error tf k = Some (n, e) -> nth_error tf (S k) = Some (n', e') ->
     tf_in e' = tf_out e) /\
  (forall n e, visit reverse o <> [] -> last (map Some tf) None = Some (n, e) ->
     tf_out e = trace niter o reverse rv).
Proof. exact @traceFull_props. Qed.
Print Assumptions C26_traceFull_is_trace_step_by_step.
Example C26_example : o_skip (tel (T:=F64)) = false /\ NoDup (map i_name (visit true (tel (T:=F64)))).
Proof. exact ex_full. Qed.
(** Both hypotheses are needed: a name occurring twice in a sub-assembly makes the
    full trace go on from the wrong rays; an optic that is itself marked skip is
    traced by trace but gives an empty full trace. *)
Theorem C26_duplicate_names_refuted :
  exists (o : optic F64) (rv : rayvec F64) n e,
    o_skip o = false /\ lastf (traceFull 5 o false rv) = Some (n, e) /\ tf_out e <> trace 5 o false rv.
Proof. exact dup_names_break. Qed.
Print Assumptions C26_duplicate_names_refuted.
Theorem C26_own_skip_refuted :
  exists (o : optic F64) (rv : rayvec F64),
    NoDup (map i_name (visit false o)) /\ traceFull 5 o false rv = [] /\ trace 5 o false rv <> rv.
Proof. exact own_skip_breaks. Qed.
Print Assumptions C26_own_skip_refuted.

(** C27 *)
Theorem C27_path_visits_in_order : forall (T : Type) (NT : Num T) (niter : nat) (o : optic T)
    (path : list string) (rv rv' : rayvec T),
  trace_path niter o path rv = Ok rv' ->
  exists its, Forall2 (fun n it => getitem o n = Ok it) path its /\ visits niter its rv rv'.
Proof. exact (fun T NT niter o path => path_visits niter o (nominalOrder path) path Forward). Qed.
Print Assumptions C27_path_visits_in_order.
Theorem C27_natural_path_is_trace : forall (T : Type) (NT : Num T) (niter : nat) (o : optic T)
    (rv : rayvec T),
  NoDup (map i_name (leaves o)) -> (2 <= length (leaves o))%nat ->
  (forall i, In i (leaves o) -> getitem o (i_name i) = Ok (Iface i)) ->
  trace_path niter o (map i_name (leaves o)) rv = Ok (trace niter o false rv).
Proof. exact @path_natural. Qed.
Print Assumptions C27_natural_path_is_trace.
Theorem C27_full_path_agrees : forall (T : Type) (NT : Num T) (niter : nat) (o : optic T)
    (path : list string) (rv rv' : rayvec T),
  trace_path niter o path rv = Ok rv' ->
  exists tf, traceFull_path niter o path rv = Ok tf /\ length tf = length path /\
    fold_left (fun _ e => tf_out (snd e)) tf rv = rv' /\
    Forall2 (fun n e => exists it, getitem o n = Ok it /\ tf_name (snd e) = o_name it) path tf.
Proof. exact @traceFull_path_agrees. Qed.
Print Assumptions C27_full_path_agrees.
Theorem C27_full_path_chain : forall (T : Type) (NT : Num T) (niter : nat) (o : optic T)
    (path : list string) (rv : rayvec T) tf k x y,
  traceFull_path niter o path rv = Ok tf ->
  nth_error tf k = Some x -> nth_error tf (S k) = Some y -> tf_in (snd y) = tf_out (snd x).
Proof. exact @traceFull_path_chain. Qed.
Print Assumptions C27_full_path_chain.
Example C27_example_natural :
  NoDup (map i_name (leaves (T:=F64) tel)) /\ (2 <= length (leaves (T:=F64) tel))%nat /\
  (forall i, In i (leaves tel) -> getitem (T:=F64) tel (i_name i) = Ok (Iface i)).
Proof. exact ex_path. Qed.
Example C27_example_ghost :
  exists rv, trace_path 5 (T:=F64) tel ["A"; "B"; "A"; "B"; "C"; "D"]%string rv0 = Ok rv.
Proof. exact ex_ghost. Qed.
(** With a single interface the natural path reflects off it instead. *)
Theorem C27_single_interface_refuted :
  exists (o : optic F64) (rv rv' : rayvec F64) i,
    leaves o = [i] /\ getitem o (i_name i) = Ok (Iface i) /\
    trace_path 5 o (map i_name (leaves o)) rv = Ok rv' /\ rv' <> trace 5 o false rv.
Proof. exact single_path_reflects. Qed.
Print Assumptions C27_single_interface_refuted.

(** C55 *)
Theorem C55_vignetting_exact : forall (T : Type) (NT : Num T) (niter : nat) (i : iface T)
    (reverse : bool) (l : list (ray T)) (cs : coordsys T) (k : nat) (r : ray T),
  (failed r = true -> vignetted r = true) -> nth_error l k = Some r ->
  exists r', nth_error (rays (iface_trace niter i reverse (RV l cs))) k = Some r' /\
    vignetted r' =
      (vignetted r || failed r' ||
       match i_obsc i with
       | Some o => negb (failed r') && contains o (cx (pos r')) (cy (pos r'))
       | None => false
       end).
Proof. exact @vignetting_exact. Qed.
Print Assumptions C55_vignetting_exact.
Example C55_example : Forall (fun r : ray F64 => failed r = true -> vignetted r = true) (rays rv0).
Proof. exact ex_fv. Qed.
