(** C58, C65, C66, C67: equality, hashing, pickling and item order of the Python objects.
    Every theorem is closed by a lemma proved elsewhere. *)
From Coq Require Import Reals String List ZArith Bool Permutation Floats.SpecFloat.
From Verif Require Import Num NumR NumF Vec CoordSys Surface Medium Obscuration Trig Ray Bundle Optic PyObj PySpec PyProofs SamplesPy.
Import ListNotations.
Local Open Scope list_scope.

(** ** C58: equal objects have equal hashes, for every comparison of numbers and every
    hash that respects it. *)
Theorem C58_surface : forall {V} (veq : V -> V -> bool) (H : hasher V), respects veq H ->
  forall a b, one_spelling (policies a) (policies b) ->
  surf_eq veq a b = true -> surf_hash H a = surf_hash H b.
Proof. exact @surf_hash_eq. Qed.
Print Assumptions C58_surface.

Theorem C58_medium : forall {V} (veq : V -> V -> bool) (H : hasher V), respects veq H ->
  forall a b, medium_eq veq a b = true -> medium_hash H a = medium_hash H b.
Proof. exact @medium_hash_eq. Qed.
Print Assumptions C58_medium.

Theorem C58_frame : forall {V} (veq : V -> V -> bool) (H : hasher V), respects veq H ->
  (forall a b, cs_eq veq a b = true -> cs_hash H a = cs_hash H b) /\
  (forall a b, ct_eq veq a b = true -> ct_hash H a = ct_hash H b).
Proof. intros V veq H HR. exact (conj (cs_hash_eq veq H HR) (ct_hash_eq veq H HR)). Qed.
Print Assumptions C58_frame.

Theorem C58_coating_lattice : forall {V} (veq : V -> V -> bool) (H : hasher V), respects veq H ->
  (forall a b, coating_eq veq a b = true -> coating_hash H a = coating_hash H b) /\
  (forall a b, lattice_eq veq a b = true -> lattice_hash H a = lattice_hash H b).
Proof. intros V veq H HR. exact (conj (coating_hash_eq veq H HR) (lattice_hash_eq veq H HR)). Qed.
Print Assumptions C58_coating_lattice.

Theorem C58_obscuration : forall {V} (veq : V -> V -> bool) (H : hasher V), respects veq H ->
  forall a b, polygons_ok a -> polygons_ok b ->
  obsc_eq veq a b = Ok true -> obsc_hash H a = obsc_hash H b.
Proof. exact @obsc_hash_eq. Qed.
Print Assumptions C58_obscuration.

Theorem C58_optic : forall {V} (veq : V -> V -> bool) (H : hasher V), respects veq H ->
  forall a b, one_spelling (optic_policies a) (optic_policies b) -> optic_polygons a -> optic_polygons b ->
  optic_eq veq a b = Ok true -> optic_hash H a = optic_hash H b.
Proof. exact @optic_hash_eq. Qed.
Print Assumptions C58_optic.

(** Doubles, with 0.0 = -0.0 inside a lens made of sums, tables, unions and polygons. *)
Example C58_example :
  respects SFeqb hash64 /\
  lens64 (f_ofZ 0) (f_ofZ 0) <> lens64 (S754_zero true) (f_ofZ 0) /\
  one_spelling (optic_policies (lens64 (f_ofZ 0) (f_ofZ 0))) (optic_policies (lens64 (S754_zero true) (f_ofZ 0))) /\
  optic_polygons (lens64 (f_ofZ 0) (f_ofZ 0)) /\ optic_polygons (lens64 (S754_zero true) (f_ofZ 0)) /\
  optic_eq SFeqb (lens64 (f_ofZ 0) (f_ofZ 0)) (lens64 (S754_zero true) (f_ofZ 0)) = Ok true.
Proof.
  split; [exact hash64_respects|]. split; [discriminate|]. split.
  - intros p q Hp Hq _. cbn in Hp, Hq. intuition congruence.
  - split; [cbn; auto 20 with arith|]. split; [cbn; auto 20 with arith|]. vm_compute. reflexivity.
Qed.

(** Two Bicubic surfaces equal up to the spelling of nanpolicy have different hashes. *)
Theorem C58_bicubic_refuted : exists (H : hasher F64) (a b : psurf F64),
  respects SFeqb H /\ surf_eq SFeqb a b = true /\ surf_hash H a <> surf_hash H b.
Proof.
  exists hash64, (tab64 "nan"), (tab64 "NaN").
  split; [exact hash64_respects|]. split; [vm_compute; reflexivity|vm_compute; discriminate].
Qed.
Print Assumptions C58_bicubic_refuted.

(** A polygon of one vertex equals the polygon that lists it twice, with another hash. *)
Theorem C58_polygon_refuted : exists (H : hasher F64) (a b : pobsc F64),
  respects SFeqb H /\ obsc_eq SFeqb a b = Ok true /\ obsc_hash H a <> obsc_hash H b.
Proof.
  exists hash64, (poly64 1), (poly64 2).
  split; [exact hash64_respects|]. split; [vm_compute; reflexivity|vm_compute; discriminate].
Qed.
Print Assumptions C58_polygon_refuted.

(** ** C65: equality is an equivalence relation, and equal objects behave alike. *)
Theorem C65_surface_equivalence : forall {V} (veq : V -> V -> bool),
  ((forall v, veq v v = true) -> forall a, surf_eq veq a a = true) /\
  ((forall a b, veq a b = veq b a) -> forall a b, surf_eq veq a b = surf_eq veq b a) /\
  ((forall a b c, veq a b = true -> veq b c = true -> veq a c = true) ->
   forall a b c, surf_eq veq a b = true -> surf_eq veq b c = true -> surf_eq veq a c = true).
Proof. intros V veq. exact (conj (surf_eq_refl veq) (conj (surf_eq_sym veq) (surf_eq_trans veq))). Qed.
Print Assumptions C65_surface_equivalence.

Theorem C65_obscuration_equivalence : forall {V} (veq : V -> V -> bool),
  ((forall v, veq v v = true) -> forall a, obsc_eq veq a a = Ok true) /\
  ((forall a b, veq a b = veq b a) -> forall a b, obsc_eq veq a b = obsc_eq veq b a) /\
  ((forall a b c, veq a b = true -> veq b c = true -> veq a c = true) ->
   forall a b c, polygons_ok a -> polygons_ok b -> polygons_ok c ->
   obsc_eq veq a b = Ok true -> obsc_eq veq b c = Ok true -> obsc_eq veq a c = Ok true).
Proof. intros V veq. exact (conj (obsc_eq_refl veq) (conj (obsc_eq_sym veq) (obsc_eq_trans veq))). Qed.
Print Assumptions C65_obscuration_equivalence.

(** Equal surfaces have the same sag, normal and intersections everywhere; equal media
    the same index; equal obscurations the same points; equal frames are the same. *)
Theorem C65_surface_alike : forall (galsim : list XR -> XR -> XR -> list XR * list XR * list XR * nat * nat) a b s t,
  surf_eq neqb a b = true -> build_surf galsim a = Some s -> build_surf galsim b = Some t ->
  (forall x y, sag s x y = sag t x y /\ normal s x y = normal t x y) /\
  (forall x y z vx vy vz dt n, tti s x y z vx vy vz dt n = tti t x y z vx vy vz dt n).
Proof. exact surf_alike. Qed.
Print Assumptions C65_surface_alike.

Theorem C65_medium_alike : forall a b m n w,
  medium_eq (neqb (T:=XR)) a b = true -> build_medium a = Some m -> build_medium b = Some n -> getN m w = getN n w.
Proof. exact medium_alike. Qed.
Print Assumptions C65_medium_alike.

Theorem C65_obscuration_alike : forall a b x y, polygons_ok a -> polygons_ok b ->
  obsc_eq (neqb (T:=XR)) a b = Ok true -> contains (build_obsc a) x y = contains (build_obsc b) x y.
Proof. exact obsc_alike. Qed.
Print Assumptions C65_obscuration_alike.

Theorem C65_frame_alike : forall a b : coordsys XR, cs_eq neqb a b = true -> a = b.
Proof. exact cs_alike. Qed.
Print Assumptions C65_frame_alike.

Example C65_example : forall galsim,
  surf_eq (neqb (T:=XR)) (PySum [PySphere (Fin 1%R); PyTilted (Fin 2%R) (Fin 3%R)]) (PySum [PySphere (Fin 1%R); PyTilted (Fin 2%R) (Fin 3%R)]) = true /\
  build_surf galsim (PySum [PySphere (Fin 1%R); PyTilted (Fin 2%R) (Fin 3%R)]) = Some (Sum [Sphere (Fin 1%R); Tilted (Fin 2%R) (Fin 3%R)]) /\
  obsc_eq (neqb (T:=XR)) (PyPolygon [Fin 0%R; Fin 1%R] [Fin 2%R; Fin 3%R]) (PyPolygon [Fin 0%R; Fin 1%R] [Fin 2%R; Fin 3%R]) = Ok true.
Proof. exact alike_example. Qed.

(** Equality of polygons is not transitive when one has a single vertex. *)
Theorem C65_transitive_refuted : exists a b c : pobsc F64,
  obsc_eq SFeqb a b = Ok true /\ obsc_eq SFeqb b c = Ok true /\ obsc_eq SFeqb a c = Err ValueError.
Proof. exists (poly64 2), (poly64 1), (poly64 3). vm_compute. auto. Qed.
Print Assumptions C65_transitive_refuted.

(** Interfaces with different coatings are equal but split light differently. *)
Theorem C65_interface_refuted : forall (TT : Trig F64), exists a b : pface F64,
  face_eq SFeqb a b = Ok true /\
  sent_back (build_face no_galsim a) = Some [f_ofZ 1] /\ sent_back (build_face no_galsim b) = Some [f_ofZ 0].
Proof. intros TT. exists (pane64 (f_ofZ 1)), (pane64 (f_ofZ 0)). vm_compute. auto. Qed.
Print Assumptions C65_interface_refuted.

(** ** C66: pickling.  Restoring a saved surface or obscuration gives it back. *)
Theorem C66_surface : forall {V} (s : psurf V),
  match s with PyAsphere _ _ _ i => (0 < i)%Z | _ => True end ->
  surf_unstate s (surf_state s) = Some s.
Proof. exact @surf_pickle. Qed.
Print Assumptions C66_surface.
Theorem C66_obscuration : forall {V} (rep : pobsc V -> string) (o : pobsc V),
  in_order rep o -> obsc_unstate rep o (obsc_state o) = Some o.
Proof. exact @obsc_pickle. Qed.
Print Assumptions C66_obscuration.
Theorem C66_order : forall {V} (rep : pobsc V -> string) (l : list (pobsc V)),
  Forall (in_order rep) l -> in_order rep (mk_union rep l) /\ in_order rep (mk_intersection rep l).
Proof. exact @mk_in_order. Qed.
Print Assumptions C66_order.
Example C66_example : in_order pn_repr
  (mk_union pn_repr [PyRay (PyInt 1) (PyInt 2) (PyInt 0) (PyInt 0); PyCircle (PyInt 1) (PyInt 2) (PyInt 3)]) /\
  mk_union pn_repr [PyRay (PyInt 1) (PyInt 2) (PyInt 0) (PyInt 0); PyCircle (PyInt 1) (PyInt 2) (PyInt 3)]
  = PyUnion [PyCircle (PyInt 1) (PyInt 2) (PyInt 3); PyRay (PyInt 1) (PyInt 2) (PyInt 0) (PyInt 0)].
Proof. vm_compute. auto. Qed.

(** ** C67: the order of the items of unions and intersections. *)
Theorem C67_equal : forall {V} (veq : V -> V -> bool) rep (l m : list (pobsc V)),
  Permutation l m ->
  (forall a b, In a l -> In b l -> rep a = rep b -> obsc_eq veq a b = Ok true) ->
  obsc_eq veq (mk_union rep l) (mk_union rep m) = Ok true /\
  obsc_eq veq (mk_intersection rep l) (mk_intersection rep m) = Ok true.
Proof. exact @union_order. Qed.
Print Assumptions C67_equal.
Theorem C67_points : forall {T} {NT : Num T} {TT : Trig T} rep (l m : list (pobsc T)) x y,
  Permutation l m ->
  contains (build_obsc (mk_union rep l)) x y = existsb (fun o => contains (build_obsc o) x y) m /\
  contains (build_obsc (mk_intersection rep l)) x y = forallb (fun o => contains (build_obsc o) x y) m.
Proof. exact @union_points. Qed.
Print Assumptions C67_points.
Example C67_example :
  let a := PyCircle (PyInt 1) (PyInt 2) (PyInt 3) in let b := PyAnnulus (PyInt 1) (PyInt 2) (PyInt 0) (PyInt 0) in
  Permutation [a; b] [b; a] /\
  (forall x y, In x [a; b] -> In y [a; b] -> pn_repr x = pn_repr y -> obsc_eq pn_eq x y = Ok true).
Proof.
  intros a b. split; [apply perm_swap|]. intros x y [<-|[<-|[]]] [<-|[<-|[]]]; vm_compute; intros E; try discriminate; reflexivity.
Qed.
(** Equal items printed differently (1 and 1.0) are sorted differently: the unions of
    pairwise equal items differ. *)
Theorem C67_spelling_refuted : exists a a' b : pobsc pynum,
  obsc_eq pn_eq a a' = Ok true /\ obsc_eq pn_eq b b = Ok true /\
  obsc_eq pn_eq (mk_union pn_repr [a; b]) (mk_union pn_repr [a'; b]) = Ok false.
Proof.
  exists (PyCircle (PyInt 1) (PyInt 0) (PyInt 0)), (PyCircle (PyFloat 1) (PyInt 0) (PyInt 0)), (PyCircle (PyInt 1) (PyInt 2) (PyInt 3)).
  vm_compute. auto.
Qed.
Print Assumptions C67_spelling_refuted.
