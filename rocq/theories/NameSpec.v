(** Specification vocabulary for names of items in an optic tree (C29, C30). *)
From Coq Require Import String Ascii List Bool.
From Verif Require Import Num CoordSys Surface Medium Optic.
Import ListNotations.
Open Scope string_scope.

(** A string without a dot. *)
Fixpoint dotless (s : string) : Prop :=
  match s with EmptyString => True | String c s => c <> "."%char /\ dotless s end.
(** Names are free of dots and siblings have different names. *)
Inductive tidy {T} : optic T -> Prop :=
| tidy_iface i : dotless (i_name i) -> tidy (Iface i)
| tidy_compound a items : dotless (c_name a) -> NoDup (map o_name items) ->
    (forall it, In it items -> tidy it) -> tidy (Compound a items).
(** No sibling's name is the beginning of another sibling's name. *)
Inductive prefix_free {T} : optic T -> Prop :=
| prefix_free_iface i : prefix_free (Iface i)
| prefix_free_compound a items :
    (forall x y s, In x items -> In y items -> o_name y = o_name x ++ s -> s = "") ->
    (forall it, In it items -> prefix_free it) -> prefix_free (Compound a items).

(** The item reached from the root by a list of names, root included. *)
Inductive at_path {T} : optic T -> list string -> optic T -> Prop :=
| at_root o : at_path o [o_name o] o
| at_below a items it p x : In it items -> at_path it p x ->
    at_path (Compound a items) (c_name a :: p) x.
(** The fully-qualified name. *)
Fixpoint join (p : list string) : string :=
  match p with
  | [] => ""
  | [a] => a
  | a :: p => a ++ "." ++ join p
  end.
(** [n] is a trailing part of the path [p]. *)
Definition trailing (n : string) (p : list string) : Prop :=
  exists p1 p2, p = (p1 ++ p2)%list /\ p2 <> [] /\ n = join p2.
(** The name under which a call should find [it] at path [p]: the fully-qualified
    name, or a trailing part that no other item shares and that is not itself the
    fully-qualified name of something. *)
Definition denotes {T} (o : optic T) (n : string) (p : list string) : Prop :=
  n = join p \/
  (trailing n p /\ (forall p' x, at_path o p' x -> trailing n p' -> p' = p) /\
   (forall p' x, at_path o p' x -> n <> join p')).

(** The tree with one element changed by [f] and everything else as it was. *)
Inductive changed {T} (f : optic T -> optic T) : list string -> optic T -> optic T -> Prop :=
| changed_here o : changed f [o_name o] o (f o)
| changed_below a l1 it it' l2 p : changed f p it it' ->
    changed f (c_name a :: p) (Compound a (l1 ++ it :: l2)) (Compound a (l1 ++ it' :: l2)).
(** No compound in the tree is marked to be skipped, and every Lens has two items:
    so it is with compounds as constructed. *)
Inductive plain {T} : optic T -> Prop :=
| plain_iface i : plain (Iface i)
| plain_compound a items : c_skip a = false -> (c_lens a = true -> List.length items = 2) ->
    (forall it, In it items -> plain it) -> plain (Compound a items).
(** An interface with its surface replaced and nothing else. *)
Definition with_shape {T} (s : surface T) (i : iface T) : iface T :=
  IF (i_kind i) s (i_name i) (i_cs i) (i_obsc i) (i_in i) (i_out i) (i_fwd i) (i_rev i) (i_skip i).
(** Every item directly inside can be called by its own name alone: nothing else in
    the tree shares that name. *)
Definition own_names {T} (a : cattr T) (items : list (optic T)) : Prop :=
  forall c p x, In c items -> at_path (Compound a items) p x -> trailing (o_name c) p ->
    p = [c_name a; o_name c].
