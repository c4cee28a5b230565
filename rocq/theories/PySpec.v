(** Vocabulary for statements about Python-level equality, hashing, pickling and the
    order of items. *)
From Coq Require Import String List ZArith Bool Permutation.
From Verif Require Import Num NumR Vec CoordSys Surface Medium Obscuration Optic PyObj.
Import ListNotations.
Local Open Scope list_scope.

(** What Python guarantees about hash on numbers: equal numbers have equal hashes. *)
Definition respects {V} (veq : V -> V -> bool) (H : hasher V) : Prop :=
  forall a b, veq a b = true -> h_num H a = h_num H b.

(** The nanpolicy strings inside a surface. *)
Fixpoint policies {V} (s : psurf V) : list string :=
  match s with
  | PyBicubic _ _ _ _ _ _ p => [p]
  | PySum l => concat (map policies l)
  | _ => []
  end.
(** The option nanpolicy is spelled the same wherever it means the same. *)
Definition one_spelling (l m : list string) : Prop :=
  forall p q, In p l -> In q m -> upper p = upper q -> p = q.

(** Every polygon inside has at least two x and two y coordinates. *)
Fixpoint polygons_ok {V} (o : pobsc V) : Prop :=
  match o with
  | PyPolygon xs ys => (2 <= List.length xs)%nat /\ (2 <= List.length ys)%nat
  | PyNegation o => polygons_ok o
  | PyUnion l | PyIntersection l =>
      (fix go l := match l with [] => True | o :: l => polygons_ok o /\ go l end) l
  | _ => True
  end.
(** The surfaces and obscurations inside an optic. *)
Definition face_policies {V} (f : pface V) : list string :=
  policies (pf_surf f) ++ match pf_class f with PyScreen s => policies s | _ => [] end.
Fixpoint optic_policies {V} (o : poptic V) : list string :=
  match o with
  | PyFace f => face_policies f
  | PyCompound _ _ _ _ _ l => concat (map optic_policies l)
  end.
Fixpoint optic_polygons {V} (o : poptic V) : Prop :=
  match o with
  | PyFace f => match pf_obsc f with Some o => polygons_ok o | None => True end
  | PyCompound _ _ _ _ _ l =>
      (fix go l := match l with [] => True | o :: l => optic_polygons o /\ go l end) l
  end.

(** The items of unions and intersections inside are in the order their constructors
    put them in. *)
Fixpoint in_order {V} (rep : pobsc V -> string) (o : pobsc V) : Prop :=
  match o with
  | PyNegation o => in_order rep o
  | PyUnion l | PyIntersection l =>
      sorted rep l = l /\
      (fix go l := match l with [] => True | o :: l => in_order rep o /\ go l end) l
  | _ => True
  end.

(** An equivalence relation given by a test that may raise. *)
Definition holds (r : res bool) : Prop := r = Ok true.
