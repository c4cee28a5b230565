(** The image of an optic and of light under a change of coordinates: a map of surfaces, of phase screens, of obscurations,
    of frames and of rays. *)
From Coq Require Import List Bool.
From Verif Require Import Num NumR Vec CoordSys Surface Medium Obscuration Ray Bundle Optic.
Import ListNotations.

Record change := Change {
  on_surface : surface XR -> surface XR; on_screen : surface XR -> surface XR; on_obsc : obsc XR -> obsc XR;
  on_frame : coordsys XR -> coordsys XR; on_ray : ray XR -> ray XR }.

Section Image.
  Context (c : change).
  Definition image_kind (k : ikind XR) : ikind XR :=
    match k with KScreen s => KScreen (on_screen c s) | k => k end.
  Definition image_iface (i : iface XR) : iface XR :=
    IF (image_kind (i_kind i)) (on_surface c (i_surf i)) (i_name i) (on_frame c (i_cs i))
       (option_map (on_obsc c) (i_obsc i)) (i_in i) (i_out i) (i_fwd i) (i_rev i) (i_skip i).
  Definition image_cattr (a : cattr XR) : cattr XR :=
    CA (c_lens a) (c_name a) (on_frame c (c_cs a)) (c_in a) (c_out a) (c_skip a) (option_map image_iface (c_stop a)).
  Fixpoint image_optic (o : optic XR) : optic XR :=
    match o with
    | Iface i => Iface (image_iface i)
    | Compound a items => Compound (image_cattr a) (map image_optic items)
    end.
  Definition image_rays (rv : rayvec XR) : rayvec XR := RV (map (on_ray c) (rays rv)) (on_frame c (rvcs rv)).
  Definition image_prv (x : prv XR) : prv XR := PRV (image_rays (p_rv x)) (p_path x).
  Definition image_split (s : split_out XR) : split_out XR :=
    match s with
    | Lists f r => Lists (map (option_map image_prv) f) (map (option_map image_prv) r)
    | Skipped f r => Skipped (option_map image_prv f) (option_map image_prv r)
    end.
  Definition image_entry (e : tf_entry XR) : tf_entry XR := TF (tf_name e) (image_rays (tf_in e)) (image_rays (tf_out e)).
End Image.
Definition res_map {A B} (f : A -> B) (r : res A) : res B := match r with Ok a => Ok (f a) | Err e => Err e end.

(** Every interface of an optic satisfies P. *)
Inductive all_ifaces (P : iface XR -> Prop) : optic XR -> Prop :=
| all_one i : P i -> all_ifaces P (Iface i)
| all_many a items : (forall it, In it items -> all_ifaces P it) -> all_ifaces P (Compound a items).
