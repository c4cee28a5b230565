(** Specification vocabulary for memory. *)
From Coq Require Import List.
From Verif Require Import Num Heap.
Import ListNotations.
Local Open Scope nat_scope.
Section Spec.
  Context {T : Type} {NT : Num T}.
  Implicit Types (h : heap T) (l : list T) (a b c n : nat).
  (** The values of an argument; whether it is in memory; whether it may be written. *)
  Definition values h (x : arg T) : list T := match x with Scalar v => [v] | Array _ a => read h a end.
  Definition valid h (x : arg T) : Prop := match x with Scalar _ => True | Array _ a => a < List.length h end.
  (** A one-element array is repeated to length n. *)
  Definition broadcast n l : list T := match l with [v] => repeat v n | _ => l end.
  (** Later writes through the new arrays. *)
  Inductive writes (locs : list nat) : heap T -> heap T -> Prop :=
  | no_write h : writes locs h h
  | one_write h h' a l : writes locs h h' -> In a locs -> writes locs h (write h' a l).
End Spec.
