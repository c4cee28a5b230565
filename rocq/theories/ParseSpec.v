(** Specification vocabulary for descriptions: what a dictionary says, as relations on the
    keys it has.  Nothing here follows the order in which parse.py reads them. *)
From Coq Require Import Reals String Ascii List ZArith Bool.
From Verif Require Import Num NumR Vec CoordSys Surface Medium Obscuration Trig Optic PyObj Parse Spec.
Import ListNotations.
Local Open Scope list_scope.
Local Open Scope string_scope.

(** The eight shapes. *)
Definition shapes : list string :=
  ["Circle"; "Annulus"; "Ray"; "Rectangle"; "Polygon"; "Negation"; "Union"; "Intersection"].
Definition optic_types : list string :=
  ["Mirror"; "RefractiveInterface"; "OPDScreen"; "Baffle"; "Detector"; "Lens"; "CompoundOptic"; "Interface"].

Section Says.
  Context {T : Type} {NT : Num T} {TT : Trig T}.
  Context (rep : pobsc T -> string)
          (galsim : list T -> T -> T -> list T * list T * list T * nat * nat).

  Definition typed (l : dict T) (t : string) : Prop := lookup "type" l = Some (YStr t).
  (** Nothing but these keys. *)
  Definition keys (l : dict T) (ks : list string) : Prop := forall kv, In kv l -> In (fst kv) ks.
  (** The same dictionary with another type. *)
  Definition retype (t : string) (l : dict T) : dict T :=
    map (fun kv => if (fst kv =? "type")%string then ("type", YStr t) else kv) l.
  Inductive number : yaml T -> T -> Prop :=
  | number_float v : number (YNum v) v
  | number_int z : number (YInt z) (nofZ z).
  (** A number at key k; a number at key k or, without the key, the default; a list of
      numbers at key k. *)
  Definition arg (l : dict T) (k : string) (v : T) : Prop := exists c, lookup k l = Some c /\ number c v.
  Definition opt (l : dict T) (k : string) (d v : T) : Prop := arg l k v \/ (lookup k l = None /\ v = d).
  Definition args (l : dict T) (k : string) (vs : list T) : Prop :=
    exists cs, lookup k l = Some (YSeq cs) /\ Forall2 number cs vs.

  (** Obscurations. *)
  Inductive plain_obsc (l : dict T) : string -> pobsc T -> Prop :=
  | po_circle r x y : keys l ["type"; "radius"; "x"; "y"] ->
      arg l "radius" r -> opt l "x" n0 x -> opt l "y" n0 y -> plain_obsc l "ObscCircle" (PyCircle r x y)
  | po_annulus i o x y : keys l ["type"; "inner"; "outer"; "x"; "y"] ->
      arg l "inner" i -> arg l "outer" o -> opt l "x" n0 x -> opt l "y" n0 y ->
      plain_obsc l "ObscAnnulus" (PyAnnulus i o x y)
  | po_ray w th x y : keys l ["type"; "width"; "theta"; "x"; "y"] ->
      arg l "width" w -> arg l "theta" th -> opt l "x" n0 x -> opt l "y" n0 y ->
      plain_obsc l "ObscRay" (PyRay w th x y)
  | po_rectangle w h x y th : keys l ["type"; "width"; "height"; "x"; "y"; "theta"] ->
      arg l "width" w -> arg l "height" h -> opt l "x" n0 x -> opt l "y" n0 y -> opt l "theta" n0 th ->
      plain_obsc l "ObscRectangle" (PyRectangle w h x y th)
  | po_polygon xs ys : keys l ["type"; "xs"; "ys"] ->
      args l "xs" xs -> args l "ys" ys -> plain_obsc l "ObscPolygon" (PyPolygon xs ys).
  Inductive obsc_says : dict T -> pobsc T -> Prop :=
  | os_plain l t o : typed l t -> plain_obsc l t o -> obsc_says l o
  | os_negation l d o : typed l "ObscNegation" -> lookup "original" l = Some (YMap d) -> obsc_says d o ->
      obsc_says l (PyNegation o)
  | os_union l ds os : typed l "ObscUnion" -> lookup "items" l = Some (YSeq ds) -> obscs_say ds os ->
      obsc_says l (mk_union rep os)
  | os_intersection l ds os : typed l "ObscIntersection" -> lookup "items" l = Some (YSeq ds) ->
      obscs_say ds os -> obsc_says l (mk_intersection rep os)
  | os_clear l X o : typed l ("Clear" ++ X) -> In X shapes -> obsc_says (retype ("Obsc" ++ X) l) o ->
      obsc_says l (PyNegation o)
  with obscs_say : list (yaml T) -> list (pobsc T) -> Prop :=
  | os_nil : obscs_say [] []
  | os_cons d ds o os : obsc_says d o -> obscs_say ds os -> obscs_say (YMap d :: ds) (o :: os).

  (** Surfaces. *)
  Inductive plain_surf (l : dict T) : string -> psurf T -> Prop :=
  | ps_plane : keys l ["type"] -> plain_surf l "Plane" PyPlane
  | ps_tilted x y : keys l ["type"; "tanx"; "tany"] -> arg l "tanx" x -> arg l "tany" y ->
      plain_surf l "Tilted" (PyTilted x y)
  | ps_paraboloid r : keys l ["type"; "R"] -> arg l "R" r -> plain_surf l "Paraboloid" (PyParaboloid r)
  | ps_sphere r : keys l ["type"; "R"] -> arg l "R" r -> plain_surf l "Sphere" (PySphere r)
  | ps_quadric r k : keys l ["type"; "R"; "conic"] -> arg l "R" r -> arg l "conic" k ->
      plain_surf l "Quadric" (PyQuadric r k)
  | ps_asphere r k cs i : keys l ["type"; "R"; "conic"; "coefs"; "imin"] ->
      arg l "R" r -> arg l "conic" k -> args l "coefs" cs ->
      lookup "imin" l = Some (YInt i) \/ (lookup "imin" l = None /\ i = 2%Z) -> (0 < i)%Z ->
      plain_surf l "Asphere" (PyAsphere r k cs i)
  | ps_zernike cs ro ri x y : keys l ["type"; "coef"; "R_outer"; "R_inner"; "x_origin"; "y_origin"] ->
      args l "coef" cs -> opt l "R_outer" n1 ro -> opt l "R_inner" n0 ri ->
      opt l "x_origin" n0 x -> opt l "y_origin" n0 y ->
      plain_surf l "Zernike" (PyZernike cs ro ri x y).
  Inductive surf_says : dict T -> psurf T -> Prop :=
  | ss_plain l t s : typed l t -> plain_surf l t s -> surf_says l s
  | ss_sum l ds ss : typed l "Sum" -> lookup "items" l = Some (YSeq ds) -> surfs_say ds ss ->
      surf_says l (PySum ss)
  with surfs_say : list (yaml T) -> list (psurf T) -> Prop :=
  | ss_nil : surfs_say [] []
  | ss_cons d ds s ss : surf_says d s -> surfs_say ds ss -> surfs_say (YMap d :: ds) (s :: ss).

  (** Media; a number is a constant refractive index. *)
  Inductive medium_says : yaml T -> medium T -> Prop :=
  | ms_number c n : number c n -> medium_says c (ConstM n)
  | ms_const l n : typed l "ConstMedium" -> keys l ["type"; "n"] -> arg l "n" n -> medium_says (YMap l) (ConstM n)
  | ms_table l w n : typed l "TableMedium" -> keys l ["type"; "wavelengths"; "ns"] ->
      args l "wavelengths" w -> args l "ns" n -> medium_says (YMap l) (TableM w n)
  | ms_sellmeier l a b c d e f : typed l "SellmeierMedium" ->
      arg l "B1" a -> arg l "B2" b -> arg l "B3" c -> arg l "C1" d -> arg l "C2" e -> arg l "C3" f ->
      medium_says (YMap l) (SellmeierM a b c d e f)
  | ms_sumita l a b c d e f : typed l "SumitaMedium" ->
      arg l "A0" a -> arg l "A1" b -> arg l "A2" c -> arg l "A3" d -> arg l "A4" e -> arg l "A5" f ->
      medium_says (YMap l) (SumitaM a b c d e f)
  | ms_air l p t h : typed l "Air" -> keys l ["type"; "pressure"; "temperature"; "h2o_pressure"] ->
      opt l "pressure" (nfrac 69328 1000) p -> opt l "temperature" (nfrac 29315 100) t ->
      opt l "h2o_pressure" (nfrac 1067 1000) h -> medium_says (YMap l) (AirM p t h).

  (** Parts of an optic. *)
  Definition surface_says (l : dict T) (k : string) (s : surface T) : Prop :=
    exists d p, lookup k l = Some (YMap d) /\ surf_says d p /\ build_surf galsim p = Some s.
  Definition mask_says (l : dict T) (m : option (obsc T)) : Prop :=
    (lookup "obscuration" l = None /\ m = None) \/
    (exists d p, lookup "obscuration" l = Some (YMap d) /\ obsc_says d p /\ m = Some (build_obsc p)).
  (** A bad obscuration is an error even where obscurations are not used. *)
  Definition mask_read (l : dict T) : Prop := exists m, mask_says l m.
  Definition name_says (l : dict T) (s : string) : Prop :=
    (lookup "name" l = None /\ s = "") \/ lookup "name" l = Some (YStr s).
  (** The frame, given that of the enclosing optic; see [placed] below for the meaning. *)
  Definition frame_says (l : dict T) (parent c : coordsys T) : Prop :=
    (lookup "coordSys" l = None /\ c = parent) \/
    (exists d, lookup "coordSys" l = Some (YMap d) /\ parse_coordSys d parent = Ok c).
  (** The media: listed, else inherited; the outer one is the inner one when there is
      nothing to inherit. *)
  Definition in_says (l : dict T) (inherited m : medium T) : Prop :=
    (lookup "inMedium" l = None /\ m = inherited) \/
    (exists c, lookup "inMedium" l = Some c /\ medium_says c m).
  Definition out_says (l : dict T) (inherited : option (medium T)) (inner m : medium T) : Prop :=
    (exists c, lookup "outMedium" l = Some c /\ medium_says c m) \/
    (lookup "outMedium" l = Some YNull /\ m = inner) \/
    (lookup "outMedium" l = None /\ m = match inherited with Some o => o | None => inner end).
  Inductive kind_says (l : dict T) : string -> ikind T -> Prop :=
  | k_mirror : kind_says l "Mirror" KMirror
  | k_refractive : kind_says l "RefractiveInterface" KRefractive
  | k_screen s : surface_says l "screen" s -> kind_says l "OPDScreen" (KScreen s)
  | k_baffle : kind_says l "Baffle" KBaffle
  | k_detector : kind_says l "Detector" KDetector.

  (** [optic_says l cs i o x]: description l, inside frame cs and with media i and o to
      inherit, says optic x. *)
  Inductive optic_says : dict T -> coordsys T -> medium T -> option (medium T) -> optic T -> Prop :=
  | says_face l cs i o t k s n c m i' o' st :
      typed l t -> kind_says l t k -> surface_says l "surface" s -> name_says l n -> frame_says l cs c ->
      mask_says l m -> in_says l i i' -> out_says l o i' o' -> stop_says l st ->
      (t = "OPDScreen" -> med_eq i' o' = true) ->
      optic_says l cs i o (Iface (mkIface k s n c m i' o' None None false))
  | says_interface l cs i o s n c i' o' st :
      typed l "Interface" -> surface_says l "surface" s -> name_says l n -> frame_says l cs c ->
      mask_read l -> in_says l i i' -> out_says l o i' o' -> stop_says l st ->
      optic_says l cs i o (Iface (mkIface KInterface s n c None vacuum vacuum None None false))
  | says_lens l cs i o n c i' o' st g m d0 d1 ds x0 x1 :
      typed l "Lens" -> name_says l n -> frame_says l cs c -> mask_read l -> in_says l i i' ->
      out_says l o i' o' -> stop_says l st ->
      lookup "medium" l = Some g -> medium_says g m ->
      lookup "items" l = Some (YSeq (YMap d0 :: YMap d1 :: ds)) ->
      optic_says d0 c i' (Some m) x0 -> optic_says d1 c m (Some o') x1 ->
      med_eq (o_out x0) (o_in x1) = true ->
      optic_says l cs i o (Compound (CA true n c i' o' false st) [x0; x1])
  | says_compound l cs i o n c i' o' st ds xs :
      typed l "CompoundOptic" -> name_says l n -> frame_says l cs c -> mask_read l -> in_says l i i' ->
      out_says l o i' o' -> stop_says l st ->
      lookup "items" l = Some (YSeq ds) -> optics_say ds c i' o' xs ->
      optic_says l cs i o (Compound (CA false n c i' o' false st) xs)
  with optics_say : list (yaml T) -> coordsys T -> medium T -> medium T -> list (optic T) -> Prop :=
  | says_nil c i o : optics_say [] c i o []
  | says_cons d ds c i o x xs : optic_says d c i (Some o) x -> optics_say ds c i o xs ->
      optics_say (YMap d :: ds) c i o (x :: xs)
  with stop_says : dict T -> option (iface T) -> Prop :=
  | stop_none l : lookup "stopSurface" l = None -> stop_says l None
  | stop_some l d f : lookup "stopSurface" l = Some (YMap d) ->
      optic_says d cs_default vacuum None (Iface f) -> stop_says l (Some f).
End Says.

(** Descriptions with real numbers, and the same for the model. *)
Fixpoint ymap {A B} (f : A -> B) (c : yaml A) : yaml B :=
  match c with
  | YNum v => YNum (f v) | YInt z => YInt z | YStr s => YStr s | YNull => YNull
  | YSeq l => YSeq (map (ymap f) l)
  | YMap l => YMap (map (fun kv => (fst kv, ymap f (snd kv))) l)
  end.
Definition Fdict (l : dict R) : dict XR := map (fun kv => (fst kv, ymap Fin (snd kv))) l.

Local Open Scope R_scope.
Definition real (c : yaml R) : R := match c with YNum v => v | YInt z => IZR z | _ => 0 end.
(** Where a point goes under one entry of a coordSys description: moved along an axis, or
    turned about one. *)
Definition moved_by (kv : string * yaml R) (p : vR) : vR :=
  let a := real (snd kv) in
  let on k := (fst kv =? k)%string in
  if on "x" then V3 (cx p + a) (cy p) (cz p)
  else if on "y" then V3 (cx p) (cy p + a) (cz p)
  else if on "z" then V3 (cx p) (cy p) (cz p + a)
  else if on "shift" then
    match snd kv with YSeq [a; b; c] => plusR p (V3 (real a) (real b) (real c)) | _ => p end
  else if on "rotX" then V3 (cx p) (cy p * cos a - cz p * sin a) (cy p * sin a + cz p * cos a)
  else if on "rotY" then V3 (cz p * sin a + cx p * cos a) (cy p) (cz p * cos a - cx p * sin a)
  else if on "rotZ" then V3 (cx p * cos a - cy p * sin a) (cx p * sin a + cy p * cos a) (cz p)
  else p.
(** The last entry acts first. *)
Definition moved_by_all (l : dict R) (p : vR) : vR := fold_right moved_by p l.
Definition moved_in (l : dict R) (p : vR) : vR :=
  match lookup "coordSys" l with Some (YMap d) => moved_by_all d p | _ => p end.
(** The frame is a right-handed one and puts its local points where [f] puts them. *)
Definition puts (f : vR -> vR) (c : coordsys XR) : Prop :=
  exists D, c = Fcs D /\ rotation (rot D) /\ forall p, global_point D p = f p.
Definition o_frame {T} (o : optic T) : coordsys T := match o with Iface i => i_cs i | Compound a _ => c_cs a end.
(** Every optic of the tree is where the descriptions from the top down to it say. *)
Inductive placed (f : vR -> vR) : dict R -> optic XR -> Prop :=
| placed_face l i : puts (fun p => f (moved_in l p)) (i_cs i) -> placed f l (Iface i)
| placed_group l a xs ds : puts (fun p => f (moved_in l p)) (c_cs a) ->
    lookup "items" l = Some (YSeq ds) ->
    all_placed (fun p => f (moved_in l p)) (if c_lens a then firstn 2 ds else ds) xs ->
    placed f l (Compound a xs)
with all_placed (f : vR -> vR) : list (yaml R) -> list (optic XR) -> Prop :=
| all_placed_nil : all_placed f [] []
| all_placed_cons d ds x xs : placed f d x -> all_placed f ds xs -> all_placed f (YMap d :: ds) (x :: xs).
