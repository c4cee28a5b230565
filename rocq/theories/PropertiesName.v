(** C29, C30, C63: finding, editing, inserting and removing items by name. *)
From Coq Require Import String List Bool.
From Verif Require Import Num NumF Vec CoordSys Surface Medium Obscuration Optic MoveSpec NameSpec
  NameProofs WithProofs InsertProofs SamplesTree SamplesName.
Import ListNotations.

(** C29 *)
Theorem C29_lookup : forall (T : Type) (a : cattr T) (items : list (optic T)),
  tidy (Compound a items) -> forall n : string,
  (forall x, getitem (Compound a items) n = Ok x <->
     exists p, at_path (Compound a items) p x /\ denotes (Compound a items) n p) /\
  (forall e, getitem (Compound a items) n = Err e -> e = ValueError).
Proof. exact @lookup. Qed.
Print Assumptions C29_lookup.
Theorem C29_full_name : forall (T : Type) (a : cattr T) (items : list (optic T)) p x,
  tidy (Compound a items) -> at_path (Compound a items) p x -> getitem (Compound a items) (join p) = Ok x.
Proof. exact @by_full_name. Qed.
Print Assumptions C29_full_name.
Example C29_example : tidy (T:=F64) tel /\ prefix_free (T:=F64) tel /\ plain (T:=F64) tel /\
  at_path (T:=F64) tel ["tel"; "sub"; "B"]%string (Iface iB) /\
  denotes (T:=F64) tel "tel.sub.B" ["tel"; "sub"; "B"]%string /\
  denotes (T:=F64) tel "B" ["tel"; "sub"; "B"]%string.
Proof. exact ex_names. Qed.

(** C30 *)
Theorem C30_global_shift : forall (T : Type) (NT : Num T) (a : cattr T) (items : list (optic T)),
  tidy (Compound a items) -> prefix_free (Compound a items) -> plain (Compound a items) ->
  forall n p x, at_path (Compound a items) p x -> denotes (Compound a items) n p -> forall d,
  exists o', withGloballyShiftedOptic (Compound a items) n d = Ok o' /\
             changed (withGlobalShift d) p (Compound a items) o'.
Proof. exact @edit_global_shift. Qed.
Print Assumptions C30_global_shift.
Theorem C30_local_shift : forall (T : Type) (NT : Num T) (a : cattr T) (items : list (optic T)),
  tidy (Compound a items) -> prefix_free (Compound a items) -> plain (Compound a items) ->
  forall n p x, at_path (Compound a items) p x -> denotes (Compound a items) n p -> forall d,
  exists o', withLocallyShiftedOptic (Compound a items) n d = Ok o' /\
             changed (withLocalShift d) p (Compound a items) o'.
Proof. exact @edit_local_shift. Qed.
Print Assumptions C30_local_shift.
Theorem C30_local_rotation : forall (T : Type) (NT : Num T) (a : cattr T) (items : list (optic T)),
  tidy (Compound a items) -> prefix_free (Compound a items) -> plain (Compound a items) ->
  forall n p x, at_path (Compound a items) p x -> denotes (Compound a items) n p -> forall r c k,
  exists o', withLocallyRotatedOptic (Compound a items) n r c k = Ok o' /\
             changed (withLocalRotation r c k) p (Compound a items) o'.
Proof. exact @edit_local_rotation. Qed.
Print Assumptions C30_local_rotation.
Theorem C30_surface : forall (T : Type) (NT : Num T) (a : cattr T) (items : list (optic T)) n p i s,
  tidy (Compound a items) -> prefix_free (Compound a items) -> plain (Compound a items) ->
  at_path (Compound a items) p (Iface i) -> denotes (Compound a items) n p ->
  exists o' f, withSurface (Compound a items) n s = Ok o' /\ changed f p (Compound a items) o' /\
    bare (f (Iface i)) = bare (Iface (with_shape s i)) /\
    (i_built i -> f (Iface i) = Iface (with_shape s i)).
Proof. exact @edit_shape. Qed.
Print Assumptions C30_surface.
Theorem C30_perturbed_surface : forall (T : Type) (NT : Num T) (a : cattr T) (items : list (optic T)) n p i s,
  tidy (Compound a items) -> prefix_free (Compound a items) -> plain (Compound a items) ->
  at_path (Compound a items) p (Iface i) -> denotes (Compound a items) n p ->
  exists o' f, withPerturbedSurface (Compound a items) n s = Ok o' /\ changed f p (Compound a items) o' /\
    bare (f (Iface i)) = bare (Iface (with_shape (Sum [i_surf i; s]) i)) /\
    (i_built i -> f (Iface i) = Iface (with_shape (Sum [i_surf i; s]) i)).
Proof. exact @edit_perturbation. Qed.
Print Assumptions C30_perturbed_surface.
Theorem C30_unknown_name : forall (T : Type) (NT : Num T) (a : cattr T) (items : list (optic T)),
  tidy (Compound a items) -> forall n,
  (forall p x, at_path (Compound a items) p x -> ~ denotes (Compound a items) n p) ->
  (forall d, withGloballyShiftedOptic (Compound a items) n d = Err ValueError) /\
  (forall d, withLocallyShiftedOptic (Compound a items) n d = Err ValueError) /\
  (forall r c k, withLocallyRotatedOptic (Compound a items) n r c k = Err ValueError) /\
  (forall s, withSurface (Compound a items) n s = Err ValueError) /\
  (forall s, withPerturbedSurface (Compound a items) n s = Err KeyError).
Proof. exact @edits_unknown. Qed.
Print Assumptions C30_unknown_name.
Theorem C30_prefix_refuted : exists (o : optic F64) p x d,
  tidy o /\ plain o /\ at_path o p x /\ getitem o (join p) = Ok x /\
  withGloballyShiftedOptic o (join p) d = Err AttributeError.
Proof. exact prefix_clash. Qed.
Print Assumptions C30_prefix_refuted.
Theorem C30_skip_refuted : exists (o o' : optic F64) d it it',
  tidy o /\ prefix_free o /\ withGloballyShiftedOptic o "B"%string d = Ok o' /\
  getitem o "sub"%string = Ok it /\ getitem o' "sub"%string = Ok it' /\ o_skip it = true /\ o_skip it' = false.
Proof. exact skip_cleared. Qed.
Print Assumptions C30_skip_refuted.
Example C30_example : tidy (T:=F64) tel /\ prefix_free (T:=F64) tel /\ plain (T:=F64) tel /\
  at_path (T:=F64) tel ["tel"; "sub"; "B"]%string (Iface iB) /\
  denotes (T:=F64) tel "tel.sub.B" ["tel"; "sub"; "B"]%string /\
  denotes (T:=F64) tel "B" ["tel"; "sub"; "B"]%string.
Proof. exact ex_names. Qed.

(** C63 *)
Theorem C63_insert : forall (T : Type) (a : cattr T) (items : list (optic T)),
  tidy (Compound a items) -> own_names a items ->
  forall l1 l2 it n, items = (l1 ++ it :: l2)%list -> denotes (Compound a items) n [c_name a; o_name it] ->
  c_skip a = false -> c_lens a = false ->
  forall new, withInsertedOptic (Compound a items) n new = Ok (Compound a (l1 ++ new :: it :: l2)).
Proof. exact @inserted. Qed.
Print Assumptions C63_insert.
Theorem C63_remove : forall (T : Type) (a : cattr T) (items : list (optic T)),
  tidy (Compound a items) -> own_names a items ->
  forall l1 l2 it n, items = (l1 ++ it :: l2)%list -> denotes (Compound a items) n [c_name a; o_name it] ->
  c_skip a = false -> c_lens a = false ->
  withRemovedOptic (Compound a items) n = Ok (Compound a (l1 ++ l2)).
Proof. exact @removed. Qed.
Print Assumptions C63_remove.
Theorem C63_unknown_name : forall (T : Type) (NT : Num T) a (items : list (optic T)) n new,
  tidy (Compound a items) ->
  (forall p x, at_path (Compound a items) p x -> ~ denotes (Compound a items) n p) ->
  withInsertedOptic (Compound a items) n new = Err ValueError /\
  withRemovedOptic (Compound a items) n = Err ValueError.
Proof. exact @insert_unknown. Qed.
Print Assumptions C63_unknown_name.
Theorem C63_nested_refuted : exists (o : optic F64) n x, tidy o /\ prefix_free o /\ plain o /\
  getitem o n = Ok x /\ o_name o <> n /\ withRemovedOptic o n = Ok o /\
  forall new, withInsertedOptic o n new = Ok o.
Proof. exact nested_kept. Qed.
Print Assumptions C63_nested_refuted.
Theorem C63_shared_name_refuted : exists (o : optic F64) n x, tidy o /\ prefix_free o /\ plain o /\
  getitem o n = Ok x /\ o_name o <> n /\ withRemovedOptic o n = Err KeyError.
Proof. exact twin_fails. Qed.
Print Assumptions C63_shared_name_refuted.
Example C63_example : tidy (T:=F64) tel /\
  own_names (T:=F64) (catt "tel" false) [Iface iA; Compound (catt "sub" false) [Iface iB; Iface iC]; Iface iD] /\
  denotes (T:=F64) tel "D"%string ["tel"; "D"]%string.
Proof. exact ex_insert. Qed.
