(** Obscurations: src/obscuration.cpp. *)
From Coq Require Import List ZArith Bool Arith.
From Verif Require Import Num.
Import ListNotations.

(** The classes.  ObscRectangle and ObscRay carry the precomputed sine and
    cosine as the C++ members _sth, _cth (src/obscuration.cpp:112,150). *)
Inductive obsc (T : Type) :=
| ObscCircle (radius x0 y0 : T)
| ObscAnnulus (inner outer x0 y0 : T)
| ObscRectangle (width height x0 y0 sth cth : T)
| ObscRay (width x0 y0 sth cth : T)
| ObscPolygon (verts : list (T * T))
| ObscNegation (o : obsc T)
| ObscUnion (l : list (obsc T))
| ObscIntersection (l : list (obsc T)).
Arguments ObscCircle {T}. Arguments ObscAnnulus {T}. Arguments ObscRectangle {T}.
Arguments ObscRay {T}. Arguments ObscPolygon {T}. Arguments ObscNegation {T}.
Arguments ObscUnion {T}. Arguments ObscIntersection {T}.

Section Obsc.
  Context {T : Type} {NT : Num T}.
  Local Open Scope num_scope.

  (** One iteration of the edge loop of ObscPolygon::contains
      (src/obscuration.cpp:207-222); state (x1, y1, xinters, inside). *)
  Definition poly_step (x y : T) (st : T * T * T * bool) (v : T * T) : T * T * T * bool :=
    let '(x1, y1, xinters, inside) := st in
    let '(x2, y2) := v in
    if nmin y1 y2 <? y then
      if y <=? nmax y1 y2 then
        if x <=? nmax x1 x2 then
          let xinters := if negb (y1 =? y2) then (y - y1) * (x2 - x1) / (y2 - y1) + x1
                         else xinters in
          let inside := if (x1 =? x2) || (x <=? xinters) then negb inside else inside in
          (x2, y2, xinters, inside)
        else (x2, y2, xinters, inside)
      else (x2, y2, xinters, inside)
    else (x2, y2, xinters, inside).
  (** ObscPolygon::contains (src/obscuration.cpp:201-225): vertices 1..size-1
      and then vertex 0 again.  An empty polygon reads out of bounds in C++;
      [false] here. *)
  Definition poly_contains (verts : list (T * T)) (x y : T) : bool :=
    match verts with
    | [] => false
    | (xa, ya) :: rest =>
        snd (fold_left (poly_step x y) (rest ++ [(xa, ya)]) (xa, ya, n0, false))
    end.

  (** contains, dispatched: Circle 32-34, Annulus 80-83, Rectangle 117-121,
      Ray 155-159, Negation 320-322, Union 364-370, Intersection 415-421. *)
  Fixpoint contains (o : obsc T) (x y : T) {struct o} : bool :=
    match o with
    | ObscCircle radius x0 y0 => nhypot (x - x0) (y - y0) <? radius
    | ObscAnnulus inner outer x0 y0 =>
        let h := nhypot (x - x0) (y - y0) in (inner <=? h) && (h <? outer)
    | ObscRectangle w h x0 y0 sth cth =>
        let xp := (x - x0) * cth + (y - y0) * sth in
        let yp := - (x - x0) * sth + (y - y0) * cth in
        (- w / n2 <? xp) && (xp <? w / n2) && (- h / n2 <? yp) && (yp <? h / n2)
    | ObscRay w x0 y0 sth cth =>
        let xp := (x - x0) * cth + (y - y0) * sth in
        let yp := - (x - x0) * sth + (y - y0) * cth in
        (n0 <? xp) && (- w / n2 <? yp) && (yp <? w / n2)
    | ObscPolygon verts => poly_contains verts x y
    | ObscNegation o => negb (contains o x y)
    | ObscUnion l => fold_left (fun ret o => ret || contains o x y) l false
    | ObscIntersection l => fold_left (fun ret o => ret && contains o x y) l true
    end.
End Obsc.
