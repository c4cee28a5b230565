(** Specification vocabulary for moving optics: the frames of a tree, trees that
    come out of the constructors, and rigid motions of space. *)
From Coq Require Import Reals String List Bool.
From Verif Require Import Num NumR Vec CoordSys Surface Medium Obscuration Ray Bundle Optic Spec.
Import ListNotations.
Open Scope R_scope.

(** ** Trees *)
Definition stop_list {T} (a : cattr T) : list (iface T) :=
  match c_stop a with Some i => [i] | None => [] end.
(** Every coordinate system in the tree. *)
Fixpoint frames {T} (o : optic T) : list (coordsys T) :=
  match o with
  | Iface i => [i_cs i]
  | Compound a items => c_cs a :: map i_cs (stop_list a) ++ flat_map frames items
  end.
(** The tree with every coordinate system replaced, and nothing else changed. *)
Definition i_reframe {T} (f : coordsys T -> coordsys T) (i : iface T) : iface T :=
  IF (i_kind i) (i_surf i) (i_name i) (f (i_cs i)) (i_obsc i) (i_in i) (i_out i)
     (i_fwd i) (i_rev i) (i_skip i).
Fixpoint reframe {T} (f : coordsys T -> coordsys T) (o : optic T) : optic T :=
  match o with
  | Iface i => Iface (i_reframe f i)
  | Compound a items =>
      Compound (CA (c_lens a) (c_name a) (f (c_cs a)) (c_in a) (c_out a) (c_skip a)
                   (option_map (i_reframe f) (c_stop a))) (map (reframe f) items)
  end.
(** The tree without its coatings and skip flags. *)
Definition i_bare {T} (i : iface T) : iface T :=
  IF (i_kind i) (i_surf i) (i_name i) (i_cs i) (i_obsc i) (i_in i) (i_out i) None None false.
Fixpoint bare {T} (o : optic T) : optic T :=
  match o with
  | Iface i => Iface (i_bare i)
  | Compound a items =>
      Compound (CA (c_lens a) (c_name a) (c_cs a) (c_in a) (c_out a) false
                   (option_map i_bare (c_stop a))) (map bare items)
  end.
(** What the constructors return, whatever arguments they get. *)
Definition i_built {T} {NT : Num T} (i : iface T) : Prop :=
  exists k s n cs ob mi mo f r sk, i = mkIface k s n cs ob mi mo f r sk.
Inductive built {T} {NT : Num T} : optic T -> Prop :=
| built_iface i : i_built i -> built (Iface i)
| built_compound a items o :
    (forall i, c_stop a = Some i -> i_built i) ->
    (forall it, In it items -> built it) -> mkCompound a items = Ok o -> built o.
(** No item anywhere in the tree is marked to be skipped. *)
Inductive unskipped {T} : optic T -> Prop :=
| unskipped_iface i : unskipped (Iface i)
| unskipped_compound a items :
    (forall it, In it items -> o_skip it = false) -> (forall it, In it items -> unskipped it) ->
    unskipped (Compound a items).

(** ** Rigid motions *)
Definition negR (d : vR) : vR := V3 (- cx d) (- cy d) (- cz d).
(** The map "first b, then a". *)
Definition afterR (a b : mR) : mR :=
  let c0 := applyR a (col0 b) in let c1 := applyR a (col1 b) in let c2 := applyR a (col2 b) in
  M3 (cx c0) (cx c1) (cx c2) (cy c0) (cy c1) (cy c2) (cz c0) (cz c1) (cz c2).
Definition real_frame (c : coordsys XR) : Prop := exists f, c = Fcs f.
Definition good_real_frame (c : coordsys XR) : Prop := exists f, c = Fcs f /\ good_frame f.
(** A shift, or a turn about a centre given in some frame. *)
Inductive motion := MShift (d : vR) | MTurn (r : mR) (center : vR) (k : frame).
Definition rigid (m : motion) : Prop := match m with MShift _ => True | MTurn r _ _ => orthonormal r end.
(** Its effect on a global point and on a global direction. *)
Definition move_point (m : motion) (p : vR) : vR :=
  match m with
  | MShift d => plusR p d
  | MTurn r c k => let g := global_point k c in plusR g (applyR r (minusR p g))
  end.
Definition move_dir (m : motion) (v : vR) : vR :=
  match m with MShift _ => v | MTurn r _ _ => applyR r v end.
Definition move_points (ms : list motion) (p : vR) : vR := fold_left (fun p m => move_point m p) ms p.
Definition move_dirs (ms : list motion) (v : vR) : vR := fold_left (fun v m => move_dir m v) ms v.
(** The calls that move a whole optic. *)
Definition move_optic (ms : list motion) (o : optic XR) : optic XR :=
  fold_left (fun o m => match m with
                        | MShift d => withGlobalShift (F3 d) o
                        | MTurn r c k => withGlobalRotation (FM r) (F3 c) (Fcs k) o
                        end) ms o.
(** Frame A' is frame A carried along: axes included, so every point rigidly
    attached to A is carried to the point with the same coordinates in A'. *)
Definition carried (ms : list motion) (A A' : frame) : Prop :=
  forall p, global_point A' p = move_points ms (global_point A p).
(** The same ray moved in space, in the coordinates of the unmoved frame A. *)
Definition moved_ray (ms : list motion) (A : frame) (r : ray R) : ray R :=
  Ray (local_point A (move_points ms (global_point A (pos r))))
      (local_dir A (move_dirs ms (global_dir A (vel r))))
      (time r) (wavelength r) (flux r) (vignetted r) (failed r).
(** Same ray unless it has failed (a failed ray keeps the coordinates it had). *)
Definition agree (r r' : ray XR) : Prop :=
  failed r' = failed r /\ vignetted r' = vignetted r /\ time r' = time r /\ flux r' = flux r /\
  wavelength r' = wavelength r /\ (failed r = false -> r' = r) /\ (failed r = true -> vignetted r = true).
