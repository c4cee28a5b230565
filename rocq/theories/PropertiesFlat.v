(** C101: flat mirrors form perfect images, and stacks of parallel plates keep directions. *)
From Coq Require Import Reals List Lra.
From Verif Require Import Num NumR Vec CoordSys Surface Medium Ray Bundle Optic Spec OpticsSpec StigSpec XRFacts CoordFacts FlatSpec FlatProofs SamplesStig SamplesFlat.
Import ListNotations.
Open Scope R_scope.

(** ** C101 Flat mirrors and plates *)
Theorem C101_mirrors : forall niter reverse ss A r C r2,
  (forall s, In s ss -> flat_mirror s) -> good_frame A -> through niter reverse A r (map s_iface ss) C r2 ->
  (forall t g, passes A r t g -> passes C r2 t (images ss g)) /\ global_dir C (vel r2) = images_dir ss (global_dir A (vel r)).
Proof. intros niter b ss A r C r2 H G T. exact (proj2 (mirrors niter b ss H A r C r2 G T)). Qed.
Print Assumptions C101_mirrors.
Theorem C101_corner : forall niter reverse s1 s2 s3 A r C r2 P,
  flat_mirror s1 -> flat_mirror s2 -> flat_mirror s3 -> good_frame A ->
  dotR (axis_dir (s_frame s1)) (axis_dir (s_frame s2)) = 0 -> dotR (axis_dir (s_frame s1)) (axis_dir (s_frame s3)) = 0 ->
  dotR (axis_dir (s_frame s2)) (axis_dir (s_frame s3)) = 0 ->
  in_plane (s_frame s1) P -> in_plane (s_frame s2) P -> in_plane (s_frame s3) P ->
  through niter reverse A r (map s_iface [s1; s2; s3]) C r2 ->
  global_dir C (vel r2) = timesR (-1) (global_dir A (vel r)) /\ forall t g, passes A r t g -> passes C r2 t (opposite P g).
Proof. exact corner. Qed.
Print Assumptions C101_corner.
Theorem C101_two_mirrors : forall niter reverse s1 s2 A r C r2,
  flat_mirror s1 -> flat_mirror s2 -> good_frame A -> through niter reverse A r (map s_iface [s1; s2]) C r2 ->
  let n1 := axis_dir (s_frame s1) in let n2 := axis_dir (s_frame s2) in
  let v := global_dir A (vel r) in let v2 := global_dir C (vel r2) in
  dotR v2 (crossR n1 n2) = dotR v (crossR n1 n2) /\
  (dotR v (crossR n1 n2) = 0 -> dotR v v2 = (2 * (dotR n1 n2 * dotR n1 n2) - 1) * dotR v v).
Proof. exact two_flats. Qed.
Print Assumptions C101_two_mirrors.
Theorem C101_periscope : forall niter reverse s1 s2 A r C r2,
  flat_mirror s1 -> flat_mirror s2 -> good_frame A ->
  (axis_dir (s_frame s2) = axis_dir (s_frame s1) \/ axis_dir (s_frame s2) = timesR (-1) (axis_dir (s_frame s1))) ->
  through niter reverse A r (map s_iface [s1; s2]) C r2 ->
  let n := axis_dir (s_frame s1) in
  global_dir C (vel r2) = global_dir A (vel r) /\
  forall t g, passes A r t g -> passes C r2 t (plusR g (timesR (2 * dotR (minusR (origin (s_frame s2)) (origin (s_frame s1))) n) n)).
Proof. exact periscope. Qed.
Print Assumptions C101_periscope.
Example C101_corner_example : (forall s, In s [fl_mirror fl_x; fl_mirror fl_y; fl_mirror global_frame] -> flat_mirror s) /\
  dotR (axis_dir fl_x) (axis_dir fl_y) = 0 /\ in_plane fl_x zeroR /\ in_plane fl_y zeroR /\ in_plane global_frame zeroR /\
  passes global_frame fl_ray 0 (V3 1 2 3) /\
  forall niter, exists r2, through niter false global_frame fl_ray (map s_iface [fl_mirror fl_x; fl_mirror fl_y; fl_mirror global_frame]) global_frame r2 /\
    global_dir global_frame (vel r2) = V3 (2/3) (1/3) (2/3) /\ passes global_frame r2 0 (V3 (-1) (-2) (-3)).
Proof.
  assert (M1 := fl_mirror_ok _ fl_x_good). assert (M2 := fl_mirror_ok _ fl_y_good). assert (M3 := fl_mirror_ok _ global_good).
  assert (O : dotR (axis_dir fl_x) (axis_dir fl_y) = 0) by (rewrite fl_x_axis, fl_y_axis; unfold dotR; cbn; ring).
  assert (I1 : in_plane fl_x zeroR) by (unfold in_plane; rewrite fl_x_axis; unfold dotR; cbn; ring).
  assert (I2 : in_plane fl_y zeroR) by (unfold in_plane; rewrite fl_y_axis; unfold dotR; cbn; ring).
  assert (I3 : in_plane global_frame zeroR) by (unfold in_plane; rewrite fl_z_axis; unfold dotR; cbn; ring).
  assert (P0 : passes global_frame fl_ray 0 (V3 1 2 3)). { unfold passes; apply vec3_eq; cbn; lra. }
  split; [intros s [<-|[<-|[<-|[]]]]; assumption|]. split; [exact O|]. split; [exact I1|]. split; [exact I2|]. split; [exact I3|]. split; [exact P0|].
  intros niter. destruct (fl_corner niter) as (r2 & T). exists r2. split; [exact T|].
  assert (O2 : dotR (axis_dir fl_x) (axis_dir global_frame) = 0) by (rewrite fl_x_axis, fl_z_axis; unfold dotR; cbn; ring).
  assert (O3 : dotR (axis_dir fl_y) (axis_dir global_frame) = 0) by (rewrite fl_y_axis, fl_z_axis; unfold dotR; cbn; ring).
  destruct (C101_corner niter false _ _ _ _ _ _ _ zeroR M1 M2 M3 global_good O O2 O3 I1 I2 I3 T) as (D & Q).
  split; [rewrite D; apply vec3_eq; cbn; lra|]. replace (V3 (-1) (-2) (-3)) with (opposite zeroR (V3 1 2 3)) by (apply vec3_eq; cbn; ring). apply Q, P0.
Qed.

Theorem C101_layer : forall niter s reverse A r C r1 m,
  dotR m m = 1 -> layer reverse (wavelength r) m s -> good_frame A -> lands niter (s_iface s) reverse A r C r1 ->
  C = s_frame s /\ wavelength r1 = wavelength r /\ tangR (slowness C r1) m = tangR (slowness A r) m /\
  0 <= parity [s] * (dotR (global_dir A (vel r)) m * dotR (global_dir C (vel r1)) m) /\
  index_after reverse (wavelength r) s (index_of (vel r)) (index_of (vel r1)).
Proof. intros niter s b A r C r1 m U L G La. destruct (layer_bends niter s b A r C r1 m U L G La) as (a & c & d & _ & e & f). tauto. Qed.
Print Assumptions C101_layer.
Theorem C101_stack : forall niter reverse m ss A r C r2,
  dotR m m = 1 -> (forall s, In s ss -> layer reverse (wavelength r) m s) -> good_frame A ->
  through niter reverse A r (map s_iface ss) C r2 ->
  tangR (slowness C r2) m = tangR (slowness A r) m /\
  0 <= parity ss * (dotR (global_dir A (vel r)) m * dotR (global_dir C (vel r2)) m).
Proof. intros niter b m ss A r C r2 U L G T. exact (proj2 (layers niter b m ss U A r C r2 L G T)). Qed.
Print Assumptions C101_stack.
Theorem C101_window : forall niter reverse m ss A r C r2,
  dotR m m = 1 -> (forall s, In s ss -> layer reverse (wavelength r) m s) -> good_frame A -> vel r <> zeroR ->
  through niter reverse A r (map s_iface ss) C r2 -> index_of (vel r2) = index_of (vel r) ->
  (parity ss = 1 -> global_dir C (vel r2) = global_dir A (vel r)) /\
  (parity ss = -1 -> global_dir C (vel r2) = minusR (global_dir A (vel r)) (timesR (2 * dotR (global_dir A (vel r)) m) m)).
Proof. exact window. Qed.
Print Assumptions C101_window.
Theorem C101_lands : forall niter s reverse A r m,
  dotR m m = 1 -> layer reverse (wavelength r) m s -> good_frame A -> failed r = false -> dotR (global_dir A (vel r)) m <> 0 ->
  (forall n, i_kind (s_iface s) = KRefractive -> index_after reverse (wavelength r) s (index_of (vel r)) n ->
     dotR (tangR (slowness A r) m) (tangR (slowness A r) m) <= n * n) ->
  exists r1, lands niter (s_iface s) reverse A r (s_frame s) r1.
Proof. exact layer_lands. Qed.
Print Assumptions C101_lands.
(** Apparent depth: a point at height h above the surface is seen at the height h q1/q, where q and q1 are index times cosine of the
    angle of incidence before and behind the surface; for mirrors q1 = -q. *)
Theorem C101_depth : forall niter s reverse A r C r1 m,
  dotR m m = 1 -> layer reverse (wavelength r) m s -> good_frame A -> lands niter (s_iface s) reverse A r C r1 ->
  let q := dotR (slowness A r) m in let q1 := dotR (slowness C r1) m in let n := index_of (vel r) in let n1 := index_of (vel r1) in
  q <> 0 /\ q1 * q1 = n1 * n1 - n * n + q * q /\
  forall t g, passes A r t g -> let h := dotR (minusR g (origin (s_frame s))) m in
    passes C r1 (t + h * (n1 * n1 - n * n) / q) (plusR g (timesR (h * (q1 / q - 1)) m)).
Proof. exact depth. Qed.
Print Assumptions C101_depth.
(** A plate of thickness d and index n2 moves what is seen through it by d (1 - q/q1) along its normal. *)
Theorem C101_plate : forall niter reverse s1 s2 A r C r2 m n2 q1,
  dotR m m = 1 -> layer reverse (wavelength r) m s1 -> layer reverse (wavelength r) m s2 -> good_frame A ->
  parity [s1] = 1 -> parity [s2] = 1 -> through niter reverse A r (map s_iface [s1; s2]) C r2 ->
  let n := index_of (vel r) in let q := dotR (slowness A r) m in
  index_after reverse (wavelength r) s1 n n2 -> index_of (vel r2) = n -> 0 < q * q1 -> q1 * q1 = n2 * n2 - n * n + q * q ->
  let d := dotR (minusR (origin (s_frame s2)) (origin (s_frame s1))) m in
  forall t g, passes A r t g -> passes C r2 (t + d * (n2 * n2 - n * n) / q1) (plusR g (timesR (d * (1 - q / q1)) m)).
Proof. exact plate. Qed.
Print Assumptions C101_plate.
Example C101_plate_example : dotR (V3 0 0 1) (V3 0 0 1) = 1 /\ (forall s, In s fl_plate -> layer false (wavelength fl_light) (V3 0 0 1) s) /\
  forall niter, exists r2, through niter false global_frame fl_light (map s_iface fl_plate) global_frame r2 /\
    index_of (vel r2) = index_of (vel fl_light) /\ global_dir global_frame (vel r2) = V3 (3/5) 0 (-4/5) /\
    let q1 := - sqrt (189/100) in passes global_frame r2 (- (5/4) / q1) (V3 0 0 (5 - (1 + 4/5 / q1))).
Proof.
  assert (U : dotR (V3 0 0 1) (V3 0 0 1) = 1) by (unfold dotR; cbn; ring).
  split; [exact U|]. split; [apply fl_layers|]. intros niter. destruct (fl_through niter) as (r2 & T & X). exists r2. split; [exact T|]. split; [exact X|].
  assert (Nz : vel fl_light <> zeroR) by (intros E; pose proof (f_equal cx E) as H; cbn in H; lra).
  destruct (C101_window niter false _ _ _ _ _ _ U (fl_layers (wavelength fl_light)) global_good Nz T X) as (Y & _).
  split; [rewrite Y; [apply vec3_eq; cbn; lra|reflexivity]|]. intros q1.
  assert (S : sqrt (189/100) * sqrt (189/100) = 189/100) by (apply sqrt_sqrt; lra). assert (S0 : 0 < sqrt (189/100)) by (apply sqrt_lt_R0; lra).
  assert (I1 : index_of (vel fl_light) = 1) by (apply len_of; [lra|]; unfold dotR; cbn; lra).
  assert (Q : dotR (slowness global_frame fl_light) (V3 0 0 1) = -4/5) by (unfold slowness; rewrite I1; unfold dotR; cbn; lra).
  pose proof (C101_plate niter false _ _ _ _ _ _ (V3 0 0 1) (3/2) q1 U (fl_layers _ _ (or_introl eq_refl)) (fl_layers _ _ (or_intror (or_introl eq_refl))) global_good eq_refl eq_refl T) as P.
  cbv zeta in P. rewrite I1, Q in P. specialize (P eq_refl (eq_trans X I1)). assert (N : q1 <> 0) by (unfold q1; lra).
  specialize (P ltac:(unfold q1; nra) ltac:(unfold q1; lra) 0 (V3 0 0 5) ltac:(unfold passes; apply vec3_eq; cbn; lra)).
  clearbody q1. eapply (eq_ind _ (fun t => passes _ _ t _)); [eapply (eq_ind _ (fun g => passes _ _ _ g)); [exact P|]|].
  - apply vec3_eq; unfold dotR; cbn; field; exact N.
  - unfold dotR; cbn; field; exact N.
Qed.
