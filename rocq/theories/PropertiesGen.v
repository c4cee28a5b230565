(** C40-C42, C62, C64: ray generators. *)
From Coq Require Import Reals String List ZArith Bool Lra Psatz Lia.
From Verif Require Import Num NumR Vec CoordSys Surface Medium Ray Bundle Spec OpticsSpec XRFacts Trig Optic Arrays Field FieldSpec
  PatternSpec RayGen GenSpec GenProofs GenMore GenLast GenQuad Heap HeapSpec HeapProofs.
Import ListNotations.
Open Scope R_scope.

(** C40 *)
Theorem C40_grid : forall g b nx ny dx dy lx lx' ly f n m sx sy,
  describes false g b -> length_from g nx dx lx lx' -> asks nx ny dx dy lx' ly n m sx sy ->
  proper b (grid_points n m sx sy) ->
  exists rv, asGrid g nx ny dx dy lx ly (Fin f) None = Ok rv /\
             plane_wave b (repeat f (List.length (grid_points n m sx sy))) (grid_points n m sx sy) rv.
Proof. exact asGrid_grid. Qed.
Print Assumptions C40_grid.

Theorem C40_chief : forall n m (sx sy : R), (1 <= n)%nat -> (1 <= m)%nat ->
  nth_error (grid_points n m sx sy) (m / 2 * n + n / 2) = Some (0, 0) /\ List.length (grid_points n m sx sy) = (m * n)%nat.
Proof. exact grid_chief. Qed.
Print Assumptions C40_chief.

Theorem C40_chief_odd : forall n (sx sy : R), Nat.odd n = true ->
  nth_error (grid_points n n sx sy) ((n * n - 1) / 2) = Some (0, 0).
Proof. exact grid_chief_odd. Qed.
Print Assumptions C40_chief_odd.

Theorem C40_random : forall g b n ny a ly c f uv,
  describes false g b -> given ly (Sc (Fin a)) (Sc (Fin c)) ->
  Forall (fun p => - (1/2) <= fst p <= 1/2 /\ - (1/2) <= snd p <= 1/2) uv ->
  proper b (map (fun p => (a * fst p, c * snd p)) uv) ->
  exists rv, asGrid g (Some n) ny None None (Some (Sc (Fin a))) ly (Fin f) (Some (map Fxy uv)) = Ok rv /\
    plane_wave b (repeat f (List.length uv)) (map (fun p => (a * fst p, c * snd p)) uv) rv /\
    Forall (fun p => Rabs (fst p) <= Rabs a / 2 /\ Rabs (snd p) <= Rabs c / 2) (map (fun p => (a * fst p, c * snd p)) uv).
Proof. exact asGrid_random. Qed.
Print Assumptions C40_random.

Theorem C40_vectors_partial : forall g b n ny m a1 a2 c1 c2 f,
  describes false g b -> given ny (Z.of_nat n) (Z.of_nat m) -> (1 <= n)%nat -> (1 <= m)%nat ->
  proper b (lattice_points n m (spacing_of n a1, spacing_of n c1) (spacing_of m a2, spacing_of m c2)) ->
  exists rv, asGrid g (Some (Z.of_nat n)) ny None None (Some (Ve (Fin a1) (Fin a2))) (Some (Ve (Fin c1) (Fin c2))) (Fin f) None = Ok rv /\
    plane_wave b (repeat f (List.length (lattice_points n m (spacing_of n a1, spacing_of n c1) (spacing_of m a2, spacing_of m c2))))
      (lattice_points n m (spacing_of n a1, spacing_of n c1) (spacing_of m a2, spacing_of m c2)) rv.
Proof. exact asGrid_vectors. Qed.
Print Assumptions C40_vectors_partial.

Theorem C40_turned : forall g b n ny m a1 a2 f,
  describes false g b -> given ny (Z.of_nat n) (Z.of_nat m) -> (1 <= n)%nat -> (1 <= m)%nat ->
  proper b (lattice_points n m (spacing_of n a1, spacing_of n (- a2)) (spacing_of m a2, spacing_of m a1)) ->
  exists rv, asGrid g (Some (Z.of_nat n)) ny None None (Some (Ve (Fin a1) (Fin a2))) None (Fin f) None = Ok rv /\
    plane_wave b (repeat f (List.length (lattice_points n m (spacing_of n a1, spacing_of n (- a2)) (spacing_of m a2, spacing_of m a1))))
      (lattice_points n m (spacing_of n a1, spacing_of n (- a2)) (spacing_of m a2, spacing_of m a1)) rv.
Proof. exact asGrid_turned. Qed.
Print Assumptions C40_turned.

Theorem C40_vectors_refuted : exists g b n lx ly rv i p r,
  describes false g b /\ proper b (lattice_points n n (spacing_of n (fst lx), spacing_of n (snd lx)) (spacing_of n (fst ly), spacing_of n (snd ly))) /\
  asGrid g (Some (Z.of_nat n)) None None None (Some (Ve (Fin (fst lx)) (Fin (snd lx)))) (Some (Ve (Fin (fst ly)) (Fin (snd ly)))) (Fin 1) None = Ok (Frv rv) /\
  nth_error (lattice_points n n (spacing_of n (fst lx), spacing_of n (snd lx)) (spacing_of n (fst ly), spacing_of n (snd ly))) i = Some p /\
  nth_error (rays rv) i = Some r /\ ~ aimed b (fst p) (snd p) r.
Proof. exact asGrid_vectors_refuted. Qed.
Print Assumptions C40_vectors_refuted.

Theorem C40_dx_vector_refuted : exists g n d rv i j r1 r2,
  asGrid g (Some (Z.of_nat n)) None (Some (Ve (Fin (fst d)) (Fin (snd d)))) None None None (Fin 1) None = Ok (Frv rv) /\
  (2 < n)%nat /\ d <> (0, 0) /\ i <> j /\ nth_error (rays rv) i = Some r1 /\ nth_error (rays rv) j = Some r2 /\ pos r1 = pos r2.
Proof. exact asGrid_dx_vector_refuted. Qed.
Print Assumptions C40_dx_vector_refuted.

Theorem C40_two_refuted : exists g d rv r1 r2,
  asGrid g (Some 2%Z) None (Some (Sc (Fin d))) None None None (Fin 1) None = Ok (Frv rv) /\ 0 < d /\
  nth_error (rays rv) 0 = Some r1 /\ nth_error (rays rv) 1 = Some r2 /\ pos r1 = pos r2.
Proof. exact asGrid_two_refuted. Qed.
Print Assumptions C40_two_refuted.

Theorem C40_two_sizes : forall (T : Type) (NT : Num T) (TT : Trig T) (g : gen T) nx ny dx dy lx ly f random,
  g_optic g = None ->
  ~ (nx <> None /\ dx <> None /\ lx = None \/ nx <> None /\ dx = None /\ lx <> None \/ nx = None /\ dx <> None /\ lx <> None) ->
  exists e, asGrid g nx ny dx dy lx ly f random = Err e.
Proof. exact @asGrid_over_under. Qed.
Print Assumptions C40_two_sizes.

Theorem C40_fan : forall g b n m a ly c f,
  describes false g b -> (1 < n)%nat -> (1 < m)%nat -> given ly (Sc (Fin a)) (Sc (Fin c)) ->
  proper b (grid_points n 1 (spacing_of n a) c ++ grid_points 1 m a (spacing_of m c)) ->
  exists rv, asFan g (Z.of_nat n) (Z.of_nat m) None None (Some (Sc (Fin a))) ly (Fin f) = Ok (to_arrays rv) /\
    plane_wave b (repeat f (n + m)) (grid_points n 1 (spacing_of n a) c ++ grid_points 1 m a (spacing_of m c)) rv.
Proof. exact asFan_cross. Qed.
Print Assumptions C40_fan.

Theorem C40_fan_arms : forall g b n m k a ly c f,
  describes false g b -> (1 < n)%nat -> (1 < m)%nat -> (k <= 1)%Z -> given ly (Sc (Fin a)) (Sc (Fin c)) ->
  (proper b (grid_points n 1 (spacing_of n a) c) -> exists rv, asFan g (Z.of_nat n) k None None (Some (Sc (Fin a))) ly (Fin f) = Ok (to_arrays rv) /\
    plane_wave b (repeat f n) (grid_points n 1 (spacing_of n a) c) rv) /\
  (proper b (grid_points 1 m a (spacing_of m c)) -> exists rv, asFan g k (Z.of_nat m) None None (Some (Sc (Fin a))) ly (Fin f) = Ok (to_arrays rv) /\
    plane_wave b (repeat f m) (grid_points 1 m a (spacing_of m c)) rv).
Proof. exact asFan_arms. Qed.
Print Assumptions C40_fan_arms.

Theorem C40_fan_none : forall (T : Type) (NT : Num T) (TT : Trig T) (g : gen T) nx ny dx dy lx ly f, (nx <= 1)%Z -> (ny <= 1)%Z ->
  asFan g nx ny dx dy lx ly f = Err ValueError.
Proof. exact @asFan_none. Qed.
Print Assumptions C40_fan_none.

Example C40_example : exists rv,
  asGrid (plain 1) (Some 4%Z) None (Some (Sc (Fin (1/2)))) None None None (Fin 1) None = Ok rv /\
  plane_wave (plain_beam 1) (repeat 1 16) (grid_points 4 4 (1/2) (1/2)) rv /\
  nth_error (grid_points 4 4 (1/2) (1/2)) 10 = Some (0, 0).
Proof.
  destruct (C40_grid (plain 1) (plain_beam 1) (Some 4%Z) None (Some (Sc (Fin (1/2)))) None None None None 1 4 4 (1/2) (1/2)) as (rv & E & W).
  - apply plain_describes.
  - right. left. repeat split. left. reflexivity.
  - apply by_number_and_spacing; try reflexivity; try lia; right; split; reflexivity.
  - apply plain_proper.
  - exists rv. split; [exact E|]. split; [exact W|]. cbn. do 2 f_equal; ring.
Qed.

(** C41 *)
Theorem C41_fromStop : forall g b f xys, describes true g b -> proper b xys ->
  exists rv, fromStop g (Fin f) (map Fxy xys) = Ok rv /\ plane_wave b (repeat f (List.length xys)) xys rv.
Proof. exact fromStop_plane_wave. Qed.
Print Assumptions C41_fromStop.

Theorem C41_asPolar : forall g b outer inner ro ri nrad naz kfold f,
  describes true g b -> radii_from g outer inner ro ri -> proper_disc b ro ->
  0 < ro -> 0 <= ri <= ro -> (1 <= nrad)%nat -> (ri = 0 -> (2 <= nrad)%nat) -> (0 <= naz)%Z -> (1 <= kfold)%Z ->
  exists ns rv, asPolar g outer inner nrad naz kfold (Fin f) None = Ok rv /\
    plane_wave b (repeat f (List.length (rings ro ri ns))) (map cartesian (rings ro ri ns)) rv /\
    List.length ns = nrad /\
    forall i n, nth_error ns i = Some n ->
      (ri = 0 /\ S i = nrad -> n = 1%nat) /\
      (~ (ri = 0 /\ S i = nrad) -> ring_size kfold (IZR naz * evenly ro ri nrad i / ro) n).
Proof. exact asPolar_rings. Qed.
Print Assumptions C41_asPolar.

Theorem C41_asPolar_random : forall g b outer inner ro ri nrad naz kfold f rt,
  describes true g b -> radii_from g outer inner ro ri -> proper_disc b ro -> 0 <= ri <= ro ->
  Forall (fun p => ri * ri <= fst p <= ro * ro) rt ->
  exists rv, asPolar g outer inner nrad naz kfold (Fin f) (Some (map Fxy rt)) = Ok rv /\
    plane_wave b (repeat f (List.length rt)) (map (fun p => cartesian (sqrt (fst p), snd p)) rt) rv /\
    Forall (fun p => ri * ri <= fst p * fst p + snd p * snd p <= ro * ro) (map (fun p => cartesian (sqrt (fst p), snd p)) rt).
Proof. exact asPolar_random. Qed.
Print Assumptions C41_asPolar_random.

Theorem C41_asSpokes_uniform : forall lg g b outer ro ri n m f,
  describes true g b -> outer_from g outer ro ->
  let radii := map (evenly ri ro n) (seq 0 n) in
  let angles := map (fun j => 2 * PI * (INR j / INR m)) (seq 0 m) in
  proper b (spoke_points radii angles) ->
  exists rv, asSpokes lg g outer (Fin ri) (Some (CInt m)) (CInt n) "uniform" (Fin f) = Ok rv /\
    plane_wave b (repeat f (m * n)) (spoke_points radii angles) rv.
Proof. exact asSpokes_uniform. Qed.
Print Assumptions C41_asSpokes_uniform.

Theorem C41_asSpokes_lists : forall lg g b outer oo ri (radii angles : list R) spacing f,
  describes true g b -> from_optic outer (g_optic g) (fun o => option_map (fun p => (p / n2)%num) (oa_pupil o)) = Ok oo ->
  proper b (spoke_points radii angles) ->
  exists rv, asSpokes lg g outer (Fin ri) (Some (CList (map Fin angles))) (CList (map Fin radii)) spacing (Fin f) = Ok rv /\
    plane_wave b (repeat f (List.length angles * List.length radii)) (spoke_points radii angles) rv.
Proof. exact asSpokes_lists. Qed.
Print Assumptions C41_asSpokes_lists.

Theorem C41_wavelength : forall (T : Type) (NT : Num T) (TT : Trig T) (g : gen T), g_wavelength g = None ->
  (forall nx ny dx dy lx ly f random, exists e, asGrid g nx ny dx dy lx ly f random = Err e) /\
  (forall outer inner nrad naz kfold f random, exists e, asPolar g outer inner nrad naz kfold f random = Err e) /\
  (forall lg outer inner spokes rings spacing f, exists e, asSpokes lg g outer inner spokes rings spacing f = Err e) /\
  (forall f xy, exists e, fromStop g f xy = Err e).
Proof. exact @no_wavelength. Qed.
Print Assumptions C41_wavelength.

(** A tilted beam in glass, aimed at a paraboloid in a shifted frame. *)
Definition sample_gen : gen XR :=
  Gen None (Some (Fin 10)) (Some (ConstM (Fin (3/2)))) (Some (Paraboloid (Fin 2), Fcs (CS (V3 1 2 3) eyeR)))
      None (Some (Fin 1)) (DirCos (F3 (V3 3 4 (-12)))).
Definition sample_beam : beam := Beam 10 (V3 3 4 (-12)) (CS (V3 0 0 0) eyeR) (3/2) 1 (Paraboloid (Fin 2)) (CS (V3 1 2 3) eyeR).
Lemma sample_describes : describes true sample_gen sample_beam.
Proof.
  repeat split.
  - apply by_argument; reflexivity.
  - exists (ConstM (Fin (3/2))). split; [apply by_argument; reflexivity|reflexivity].
  - left. apply by_argument; reflexivity.
  - apply by_default; reflexivity.
Qed.
Lemma sample_proper : proper_disc sample_beam 5.
Proof.
  split; [|intros x y _; unfold sample_beam; cbn [b_surf sag]; unfold paraboloid_sag; xunf; rewrite !xdiv_fin by lra; cbn [xeqb]; destruct (Req_EM_T 2 0); [lra|]; eexists; reflexivity].
  refine (conj good_eye (conj good_eye (conj _ (conj _ _)))); cbn; [lra|right; lra|constructor].
Qed.
Example C41_example : exists rv, fromStop sample_gen (Fin 1) (map Fxy [(1, 2); (0, -3)]) = Ok rv /\
  plane_wave sample_beam [1; 1] [(1, 2); (0, -3)] rv.
Proof.
  apply (C41_fromStop sample_gen sample_beam 1 [(1, 2); (0, -3)] sample_describes).
  apply (proper_disc_list _ 5 _ sample_proper). intros p [<-|[<-|[]]]; cbn; lra.
Qed.

(** C42 *)
Theorem C42_rays : forall optic bd l md m st s F wl w n pr thetas ds x y z f,
  chosen bd (match optic with None => None | Some o => Some (oa_backDist o) end) (Fin 40) (Fin l) ->
  chosen md (match optic with None => None | Some o => Some (Some (oa_in o)) end) (ConstM (Fin 1)) m ->
  chosen st (match optic with None => None | Some o => Some (oa_stop o) end) (Plane, Fcs (CS (V3 0 0 0) eyeR)) (s, Fcs F) ->
  wl = Some (Fin w) -> getN m (Fin w) = Fin n -> n <> 0 -> sag s (Fin x) (Fin y) = Fin z ->
  Forall2 (fun t d => fieldToDirCos (Fin (fst t)) (Fin (snd t)) pr = Ok (Fin (cx d), Fin (cy d), Fin (cz d))) thetas ds ->
  exists rs, fromFieldAngles optic bd md st wl (map Fxy thetas) pr (Fin x) (Fin y) (Fin f) = Ok (Frv (RV rs F)) /\
    Forall2 (fun d r => arriving d n l w f (V3 x y z) r) ds rs.
Proof. exact fromFieldAngles_rays. Qed.
Print Assumptions C42_rays.

Example C42_example : exists rs,
  fromFieldAngles None (Some (Fin 10)) (Some (ConstM (Fin 2))) None (Some (Fin 1)) (map Fxy [(0, 0)]) "postel" (Fin 1) (Fin 2) (Fin 3)
    = Ok (Frv (RV rs (CS (V3 0 0 0) eyeR))) /\
  Forall2 (fun d r => arriving d 2 10 1 3 (V3 1 2 0) r) [V3 0 0 (-1)] rs.
Proof.
  eapply (C42_rays None (Some (Fin 10)) 10 (Some (ConstM (Fin 2))) (ConstM (Fin 2)) None Plane).
  - apply by_argument; reflexivity.
  - apply by_argument; reflexivity.
  - apply by_default; reflexivity.
  - reflexivity.
  - reflexivity.
  - lra.
  - reflexivity.
  - constructor; [|constructor]. exact (FieldProofs.axis_down Postel).
Qed.

(** C62 *)
Theorem C62_constructor : (forall (T : Type) (h : heap T) args h' rs, Forall (valid h) args -> init_mem h args = Ok (h', rs) ->
  NoDup rs /\ (forall i x, nth_error args i = Some x -> exists r, nth_error rs i = Some r /\
     read h' r = broadcast (fold_right Nat.max 1 (map (arg_length h) args)) (values h x)) /\
  forall h'' b, writes rs h' h'' -> b < List.length h -> read h'' b = read h b)%nat.
Proof. exact @init_copies. Qed.
Print Assumptions C62_constructor.

Theorem C62_fromStop_partial : (forall (T : Type) (NT : Num T) (TT : Trig T) (h : heap T) g x y f,
  valid h x -> valid h y -> List.length (values h x) = List.length (values h y) -> (forall a, ~ (x = Array true a /\ y = Array true a)) ->
  match fromStop g f (combine (values h x) (values h y)) with
  | Err e => fromStop_mem h g x y = Err e
  | Ok rv => exists h' a b c, fromStop_mem h g x y = Ok (h', (a, b, c)) /\
      zip3 (read h' a) (read h' b) (read h' c) = map pos (rays rv) /\
      (forall k, x = Array true k -> a = k) /\ (forall k, y = Array true k -> b = k) /\
      forall k, k < List.length h -> x <> Array true k -> y <> Array true k -> read h' k = read h k
  end)%nat.
Proof. exact @fromStop_mem_pure. Qed.
Print Assumptions C62_fromStop_partial.

Theorem C62_fromFieldAngles_partial : (forall (T : Type) (NT : Num T) (TT : Trig T) (h : heap T) optic bd md st wl u v pr x y f,
  u < List.length h -> v < List.length h -> List.length (read h u) = List.length (read h v) -> (pr = "orthographic"%string -> u <> v) ->
  match fromFieldAngles optic bd md st wl (combine (read h u) (read h v)) pr x y f with
  | Err e => fromFieldAngles_mem h optic bd md st wl u v pr x y f = Err e
  | Ok rv => exists h', fromFieldAngles_mem h optic bd md st wl u v pr x y f = Ok (h', rv) /\
      forall b, b < List.length h -> pr <> "orthographic"%string \/ b <> u /\ b <> v -> read h' b = read h b
  end)%nat.
Proof. exact @fromFieldAngles_mem_pure. Qed.
Print Assumptions C62_fromFieldAngles_partial.

Theorem C62_vacuum : forall (h : heap XR) optic bd md st w u v pr x y f h' rv,
  (forall m, from_optic md optic (fun o => Some (oa_in o)) = Ok m -> getN (or_else m default_medium) w = Fin 1) ->
  fromFieldAngles_mem h optic bd md st (Some w) u v pr x y f = Ok (h', rv) ->
  forall b, (b < List.length h)%nat -> Forall (fun z => exists r, z = Fin r) (read h b) -> read h' b = read h b.
Proof. exact fromFieldAngles_vacuum. Qed.
Print Assumptions C62_vacuum.

Theorem C62_fromStop_refuted : exists (h : heap XR) g a b h' r, (a < List.length h)%nat /\ (b < List.length h)%nat /\ a <> b /\
  List.length (read h a) = List.length (read h b) /\
  fromStop_mem h g (Array true a) (Array true b) = Ok (h', r) /\ read h' a <> read h a.
Proof. exact fromStop_writes_refuted. Qed.
Print Assumptions C62_fromStop_refuted.

Theorem C62_same_array_refuted : exists (h : heap XR) g a h' r rv, (a < List.length h)%nat /\
  fromStop g (Fin 1) (combine (read h a) (read h a)) = Ok rv /\
  fromStop_mem h g (Array true a) (Array true a) = Ok (h', r) /\
  zip3 (read h' (fst (fst r))) (read h' (snd (fst r))) (read h' (snd r)) <> map pos (rays rv).
Proof. exact fromStop_same_refuted. Qed.
Print Assumptions C62_same_array_refuted.

Theorem C62_fromFieldAngles_refuted : exists (h : heap XR) med a b h' rv, (a < List.length h)%nat /\ (b < List.length h)%nat /\ a <> b /\
  fromFieldAngles_mem h None None (Some med) None (Some (Fin 1)) a b "orthographic" (Fin 0) (Fin 0) (Fin 1) = Ok (h', rv) /\ read h' a <> read h a.
Proof. exact fromFieldAngles_writes_refuted. Qed.
Print Assumptions C62_fromFieldAngles_refuted.

Example C62_example : exists h' a b c,
  fromStop_mem [[Fin 1]; [Fin 7]] shifted (Array false 0) (Scalar (Fin 0)) = Ok (h', (a, b, c)) /\
  zip3 (read h' a) (read h' b) (read h' c) = [F3 (V3 (1 - 1) 0 40)] /\ read h' 0 = [Fin 1] /\ read h' 1 = [Fin 7].
Proof.
  destruct (shifted_ray 1 0) as (rv & E & Hp).
  pose proof (C62_fromStop_partial XR _ _ [[Fin 1]; [Fin 7]] shifted (Array false 0) (Scalar (Fin 0)) (Fin 1)) as H.
  cbn [values read nth combine] in H. rewrite E in H.
  destruct H as (h' & a & b & c & Hm & Hz & _ & _ & Ho); [cbn; lia|exact I|reflexivity|intros k (K & _); discriminate|].
  exists h', a, b, c. split; [exact Hm|]. split; [rewrite Hz; exact Hp|].
  split; apply Ho; try (cbn; lia); discriminate.
Qed.

(** C64 *)
Theorem C64_moments : forall lg g b outer ro ri n m f N (rule : list (R * R)) spokes,
  describes true g b -> outer_from g outer ro -> lg n = map Fxy rule ->
  Forall (fun lw => -1 <= fst lw <= 1) rule -> exact_rule N rule -> 0 <= ri < ro -> (1 <= m)%nat ->
  spokes = Some (CInt m) \/ spokes = None /\ m = (2 * n + 1)%nat ->
  proper_disc b ro ->
  exists fl pol rv, asSpokes lg g outer (Fin ri) spokes (CInt n) "GQ" (Fin f) = Ok rv /\
    plane_wave b fl (map (fun p => cartesian (ro * fst p, snd p)) pol) rv /\
    (forall k, (k < N)%nat ->
       weighted fl pol (fun r th => r ^ (2 * k)) = PI * (1 - (ri / ro) ^ (2 * k + 2)) / INR (k + 1)) /\
    (forall k q, (0 < q < m)%nat ->
       weighted fl pol (fun r th => r ^ k * cos (INR q * th)) = 0 /\ weighted fl pol (fun r th => r ^ k * sin (INR q * th)) = 0).
Proof. exact asSpokes_moments. Qed.
Print Assumptions C64_moments.

Theorem C64_int_refuted : exists lg g n radii rs, (1 < n)%nat /\ (1 <= List.length radii)%nat /\
  asSpokes lg g None (Fin 0) (Some (CInt n)) (CList (map Fin radii)) "uniform" (Fin 1) = Ok (Frv rs) /\
  List.length (rays rs) = List.length radii.
Proof. exact asSpokes_int_refuted. Qed.
Print Assumptions C64_int_refuted.

Theorem C64_spacing_refuted : exists lg g n m spacing rs, spacing <> "uniform"%string /\ spacing <> "GQ"%string /\ (1 < n)%nat /\ (1 < m)%nat /\
  asSpokes lg g (Some (Fin 1)) (Fin 0) (Some (CInt m)) (CInt n) spacing (Fin 1) = Ok (Frv rs) /\
  List.length (rays rs) = m /\ exists r, hd_error (rays rs) = Some r /\ cx (pos r) = INR n /\ 1 < INR n.
Proof. exact asSpokes_spacing_refuted. Qed.
Print Assumptions C64_spacing_refuted.

(** The midpoint rule integrates linear functions exactly. *)
Lemma midpoint_exact : exact_rule 2 [(0, 2)].
Proof.
  intros p P (c & HL & Hc) HP. cbn [map sumR fold_right fst snd].
  assert (E : forall x, p x = nth 0 c 0 + x * nth 1 c 0).
  { intros x. rewrite Hc. destruct c as [|c0 [|c1 [|]]]; cbn in HL; try lia; cbn; ring. }
  revert E. generalize (nth 0 c 0) (nth 1 c 0). intros u v E. clear Hc HL c.
  set (Q := fun x => P x - (u * x + v / 2 * (x * x))).
  destruct (MVT_cor2 Q (fun _ => 0) (-1) 1) as (xi & HQ & _); [lra| |].
  - intros x _. unfold Q. replace 0 with (p x - (u * 1 + v / 2 * (1 * x + x * 1))) by (rewrite E; field).
    apply (derivable_pt_lim_minus P (fun x => u * x + v / 2 * (x * x))); [apply HP|].
    apply (derivable_pt_lim_plus (fun x => u * x) (fun x => v / 2 * (x * x))).
    + apply (derivable_pt_lim_scal id). apply derivable_pt_lim_id.
    + apply (derivable_pt_lim_scal (fun x => x * x)). apply (derivable_pt_lim_mult id id); apply derivable_pt_lim_id.
  - unfold Q in HQ. rewrite E. lra.
Qed.
Example C64_example : exists fl pol rv,
  asSpokes (fun _ => [(Fin 0, Fin 2)]) (plain 1) (Some (Fin 4)) (Fin 2) None (CInt 1) "GQ" (Fin 1) = Ok rv /\
  plane_wave (plain_beam 1) fl (map (fun p => cartesian (4 * fst p, snd p)) pol) rv /\
  weighted fl pol (fun r th => r ^ 2) = PI * (1 - (2 / 4) ^ 4) / 2.
Proof.
  destruct (C64_moments (fun _ => [(Fin 0, Fin 2)]) (plain 1) (plain_beam 1) (Some (Fin 4)) 4 2 1 3 1 2 [(0, 2)] None) as (fl & pol & rv & E & W & M & _).
  - apply plain_describes.
  - left. reflexivity.
  - reflexivity.
  - constructor; [cbn; lra|constructor].
  - exact midpoint_exact.
  - lra.
  - lia.
  - right. split; reflexivity.
  - split; [apply plain_proper|]. intros x y _. exists 0. reflexivity.
  - exists fl, pol, rv. split; [exact E|]. split; [exact W|]. exact (M 1%nat ltac:(lia)).
Qed.
