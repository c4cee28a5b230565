(** C56: parsed descriptions mean what they say.  Every theorem is closed by a lemma proved
    elsewhere. *)
From Coq Require Import Reals String List ZArith Bool.
From Verif Require Import Num NumR NumF Vec CoordSys Surface Medium Obscuration Trig Optic PyObj Spec Parse ParseSpec
  ParseProofs ParseTree ParseLast SamplesParse.
Import ListNotations.
Local Open Scope list_scope.
Local Open Scope string_scope.

(** ** A description is accepted exactly when it says something, and gives what it says.
    The relations are in ParseSpec.v; [rep] is repr of an obscuration and [galsim] the
    polynomial conversion of GalSim, any functions. *)
Theorem C56_obscuration : forall {T} {NT : Num T} (rep : pobsc T -> string) (l : dict T) (o : pobsc T),
  parse_obscuration rep l = Ok o <-> obsc_says rep l o.
Proof. exact @parse_obscuration_says. Qed.
Print Assumptions C56_obscuration.

Theorem C56_surface : forall {T} {NT : Num T} (l : dict T) (s : psurf T),
  parse_surface l = Ok s <-> surf_says l s.
Proof. exact @parse_surface_says. Qed.
Print Assumptions C56_surface.

Theorem C56_medium : forall {T} {NT : Num T} (c : yaml T),
  (forall m, parse_medium c = Ok (Some m) <-> medium_says c m) /\ (parse_medium c = Ok None <-> c = YNull).
Proof. intros T NT c. exact (conj (parse_medium_ok c) (parse_medium_none c)). Qed.
Print Assumptions C56_medium.

Theorem C56_optic : forall {T} {NT : Num T} {TT : Trig T} (rep : pobsc T -> string) galsim
    (l : dict T) cs i o x,
  parse_optic rep galsim l cs i o = Ok x <-> optic_says rep galsim l cs i o x.
Proof. exact @parse_optic_says. Qed.
Print Assumptions C56_optic.

(** Doubles: a nested mask and a lens, accepted. *)
Example C56_example : forall (TT : Trig F64) galsim,
  (exists o, parse_obscuration (fun _ => "") mask_d = Ok o /\
             contains (build_obsc o) (f_ofZ 0) (f_ofZ 4) = false /\
             contains (build_obsc o) (f_ofZ 0) (f_ofZ 1) = true) /\
  (exists s, parse_surface (T := F64) sum_d = Ok s) /\
  (exists a x0 x1, parse_optic (fun _ => "") galsim lens_d cs_default (ConstM (f_ofZ 1)) None
     = Ok (Compound a [Iface x0; Iface x1]) /\
     i_name x1 = "L1_exit" /\ cz (origin (i_cs x1)) = f_ofZ 4 /\ i_surf x1 = Paraboloid (f_ofZ 3) /\
     i_in x0 = ConstM (f_ofZ 1) /\ i_out x0 = ConstM (f_ofZ 2) /\ i_in x1 = ConstM (f_ofZ 2) /\ i_out x1 = ConstM (f_ofZ 1)).
Proof.
  intros TT galsim. split; [|split].
  - eexists. split; [vm_compute; reflexivity|]. split; vm_compute; reflexivity.
  - eexists. vm_compute. reflexivity.
  - do 3 eexists. split; [vm_compute; reflexivity|]. vm_compute. repeat split.
Qed.

(** Reading always ends: the bound on the depth of nesting in the model is never met. *)
Theorem C56_total : forall {T} {NT : Num T} {TT : Trig T} (rep : pobsc T -> string) galsim (l : dict T) cs i o,
  parse_obscuration rep l <> Err OutOfFuel /\ parse_surface l <> Err OutOfFuel /\
  parse_optic rep galsim l cs i o <> Err OutOfFuel.
Proof. exact @parse_total. Qed.
Print Assumptions C56_total.

(** ** "ClearX" is the complement of "ObscX" *)
Theorem C56_clear : forall {T} {NT : Num T} {TT : Trig T} (rep : pobsc T -> string) (l : dict T) X o p,
  typed l ("Clear" ++ X) -> In X shapes ->
  parse_obscuration rep l = Ok o -> parse_obscuration rep (retype ("Obsc" ++ X) l) = Ok p ->
  forall x y, contains (build_obsc o) x y = negb (contains (build_obsc p) x y).
Proof. exact @clear_points. Qed.
Print Assumptions C56_clear.
(** One is accepted exactly when the other is. *)
Theorem C56_clear_accepted : forall {T} {NT : Num T} (rep : pobsc T -> string) (l : dict T) X o,
  typed l ("Clear" ++ X) -> In X shapes ->
  (parse_obscuration rep l = Ok o <->
   exists p, o = PyNegation p /\ parse_obscuration rep (retype ("Obsc" ++ X) l) = Ok p).
Proof. exact @clear_says. Qed.
Print Assumptions C56_clear_accepted.
Example C56_clear_example :
  typed (T := F64) (ring_d "ClearAnnulus") ("Clear" ++ "Annulus") /\ In "Annulus" shapes /\
  retype ("Obsc" ++ "Annulus") (ring_d "ClearAnnulus") = (ring_d "ObscAnnulus" : dict F64) /\
  parse_obscuration (T := F64) (fun _ => "") (ring_d "ClearAnnulus")
    = Ok (PyNegation (PyAnnulus (f_ofZ 2) (f_ofZ 4) n0 (f_ofZ 1))) /\
  parse_obscuration (T := F64) (fun _ => "") (ring_d "ObscAnnulus")
    = Ok (PyAnnulus (f_ofZ 2) (f_ofZ 4) n0 (f_ofZ 1)).
Proof. repeat split; try reflexivity. cbn. tauto. Qed.

(** ** Unknown types are rejected *)
Theorem C56_unknown_obscuration : forall {T} {NT : Num T} (rep : pobsc T -> string) (l : dict T) t,
  typed l t -> ~ In t (map (append "Obsc") shapes) -> ~ In t (map (append "Clear") shapes) ->
  parse_obscuration rep l = Err ValueError.
Proof. exact @obscuration_unknown. Qed.
Print Assumptions C56_unknown_obscuration.
Theorem C56_unknown_optic : forall {T} {NT : Num T} {TT : Trig T} (rep : pobsc T -> string) galsim (l : dict T) cs i o t,
  typed l t -> ~ In t optic_types ->
  (forall x, parse_optic rep galsim l cs i o <> Ok x) /\
  (forall m n c i' o', mask_says rep l m -> name_says l n -> frame_says l cs c -> in_says l i i' -> out_says l o i' o' ->
     lookup "stopSurface" l = None -> parse_optic rep galsim l cs i o = Err ValueError).
Proof.
  intros T NT TT rep galsim l cs i o t Ht N.
  exact (conj (fun x => optic_unknown rep galsim l cs i o t x Ht N)
              (fun m n c i' o' => optic_unknown_error rep galsim l cs i o t m n c i' o' Ht N)).
Qed.
Print Assumptions C56_unknown_optic.
(** A plain name that is not an attribute of the module. *)
Theorem C56_unknown_surface : forall {T} {NT : Num T} (l : dict T) t,
  typed l t -> unmodelled_name t = false ->
  parse_surface l = Err AttributeError /\ parse_medium (YMap l) = Err AttributeError.
Proof. intros T NT l t Ht N. exact (conj (surface_unknown l t Ht N) (medium_unknown l t Ht N)). Qed.
Print Assumptions C56_unknown_surface.
Example C56_unknown_example : forall (TT : Trig F64) galsim,
  parse_obscuration (T := F64) (fun _ => "") (ring_d "ClearHexagon") = Err ValueError /\
  parse_obscuration (T := F64) (fun _ => "") (ring_d "ClearClearAnnulus") = Err ValueError /\
  ~ In "ClearClearAnnulus" (map (append "Obsc") shapes) /\ ~ In "ClearClearAnnulus" (map (append "Clear") shapes) /\
  ~ In "Prism" optic_types /\
  parse_optic (T := F64) (fun _ => "") galsim (face_d "Prism" "P" 1 []) cs_default vacuum None = Err ValueError /\
  unmodelled_name "Toroid" = false.
Proof.
  intros TT galsim. split; [reflexivity|]. split; [reflexivity|].
  split; [intros H; cbn in H; intuition discriminate|]. split; [intros H; cbn in H; intuition discriminate|].
  split; [intros H; cbn in H; intuition discriminate|]. split; vm_compute; reflexivity.
Qed.

(** ** Frames: real descriptions in a right-handed frame *)
(** Local points go where the listed shifts and turns take them; the last entry acts first. *)
Theorem C56_frame : forall (l : dict R) (D : frame) (c : coordsys XR),
  rotation (rot D) -> parse_coordSys (Fdict l) (Fcs D) = Ok c ->
  puts (fun p => global_point D (moved_by_all l p)) c.
Proof. exact frame_all. Qed.
Print Assumptions C56_frame.
(** Every optic of a parsed tree is where the descriptions from the top down to it say. *)
Theorem C56_placed : forall rep galsim (l : dict R) (D : frame) i o x,
  rotation (rot D) -> parse_optic rep galsim (Fdict l) (Fcs D) i o = Ok x -> placed (global_point D) l x.
Proof. exact parse_optic_placed. Qed.
Print Assumptions C56_placed.
Example C56_placed_example : forall galsim,
  rotation (rot global_frame) /\
  (exists a x0 x1, parse_optic (fun _ => "") galsim (Fdict scope_d) (Fcs global_frame) (ConstM (Fin 1)) None
    = Ok (Compound a [Iface x0; Iface x1]) /\ i_name x0 = "M1" /\ i_name x1 = "D") /\
  (forall p, moved_in scope_d p = V3 (cx p * cos 1 - (cy p + 2) * sin 1 + 1)%R
                                     (cx p * sin 1 + (cy p + 2) * cos 1)%R (cz p)).
Proof.
  intros galsim. split; [apply CoordFacts.rotation_eye|]. split.
  - do 3 eexists. split; [lazy; reflexivity|]. split; reflexivity.
  - intros [x y z]. apply XRFacts.vec3_eq; cbn; ring.
Qed.

(** ** What descriptions do not say *)
(** An obscuration listed for an Interface, a Lens or a CompoundOptic is read and dropped. *)
Theorem C56_dropped_refuted : exists l : string -> dict F64, forall (TT : Trig F64) galsim,
  (forall t, exists d, lookup "obscuration" (l t) = Some (YMap d)) /\
  (exists i, parse_optic (fun _ => "") galsim (l "Interface") cs_default vacuum None = Ok (Iface i) /\ i_obsc i = None) /\
  (forall t, In t ["Lens"; "CompoundOptic"] -> exists a x y,
     parse_optic (fun _ => "") galsim (l t) cs_default vacuum None = Ok (Compound a [Iface x; Iface y]) /\
     i_obsc x = None /\ i_obsc y = None).
Proof.
  exists masked_d. intros TT galsim. split; [intros t; eexists; reflexivity|]. split.
  - eexists. split; vm_compute; reflexivity.
  - intros t [<- | [<- | []]]; do 3 eexists; (split; [vm_compute; reflexivity|]; split; reflexivity).
Qed.
Print Assumptions C56_dropped_refuted.
(** Reading a dictionary takes its type away, so it cannot be read twice. *)
Theorem C56_reuse_refuted : exists (l d : dict F64) v o,
  parse_obscuration (fun _ => "") l = Ok o /\ pop "type" l = Some (v, d) /\
  parse_obscuration (fun _ => "") d = Err KeyError.
Proof. exists (ring_d "ObscAnnulus"). do 3 eexists. split; [reflexivity|]. split; reflexivity. Qed.
Print Assumptions C56_reuse_refuted.
(** A misspelt entry of a coordSys is ignored. *)
Theorem C56_misspelt_refuted : exists l : dict F64, l <> [] /\
  forall (TT : Trig F64) (c : coordsys F64), parse_coordSys l c = Ok c.
Proof. exists [("rotx", YInt 1)]. split; [discriminate | reflexivity]. Qed.
Print Assumptions C56_misspelt_refuted.
(** The stop of an assembly is not placed relative to the assembly. *)
Theorem C56_stop_refuted : exists l : dict F64, forall (TT : Trig F64) galsim,
  exists a st x, parse_optic (fun _ => "") galsim l cs_default vacuum None = Ok (Compound a [x]) /\
    cz (origin (c_cs a)) = f_ofZ 4 /\ c_stop a = Some st /\ cz (origin (i_cs st)) = f_ofZ 7 /\
    cz (origin (o_frame x)) = f_ofZ 11.
Proof.
  exists [("type", YStr "CompoundOptic"); ("coordSys", YMap [("z", YInt 4)]);
          ("stopSurface", YMap (face_d "Interface" "stop" 7 [("type", YStr "Plane")]));
          ("items", YSeq [YMap (face_d "Interface" "stop" 7 [("type", YStr "Plane")])])].
  intros TT galsim. do 3 eexists. split; [vm_compute; reflexivity|]. split; [reflexivity|].
  split; [reflexivity|]. split; reflexivity.
Qed.
Print Assumptions C56_stop_refuted.
