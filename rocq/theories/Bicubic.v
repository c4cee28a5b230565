(** The Bicubic constructor: batoid/surface.py:539-584.

    Arrays are row-major lists; xs and ys must have at least two entries (the code
    divides by len(xs)-1 and indexes column 1).  An uneven grid is not rejected by the
    code; only the end points of xs and ys are used. *)
From Coq Require Import List ZArith Bool.
From Verif Require Import Num Vec Surface.
Import ListNotations.

Section Ctor.
  Context {T : Type} {NT : Num T}.
  Local Open Scope num_scope.

  (** An ny by nx array given by its entry at row j, column i. *)
  Definition tabulate (nx ny : nat) (f : nat -> nat -> T) : list T :=
    concat (map (fun j => map (fun i => f j i) (seq 0 nx)) (seq 0 ny)).
  (** The difference quotient of lines 553-556 along one axis of n entries. *)
  Definition diff1 (n : nat) (h : T) (f : nat -> T) (i : nat) : T :=
    if (i =? n - 1)%nat then (f (n - 1)%nat - f (n - 2)%nat) / h
    else if (i =? 0)%nat then (f 1%nat - f 0%nat) / h
    else (f (S i) - f (i - 1)%nat) / (n2 * h).
  Definition ent (nx : nat) (l : list T) (j i : nat) : T := nth (nx * j + i)%nat l nnan.
  (** Lines 553-569: the derivatives used when the caller gives none. *)
  Definition default_dzdx nx ny h zs := tabulate nx ny (fun j i => diff1 nx h (fun i => ent nx zs j i) i).
  Definition default_dzdy nx ny h zs := tabulate nx ny (fun j i => diff1 ny h (fun j => ent nx zs j i) j).
  (** Lines 539-584. *)
  Definition mkBicubic (xs ys zs : list T) (dzdxs dzdys d2s : option (list T)) (nan : bool) : surface T :=
    let nx := length xs in let ny := length ys in
    let x0 := nth 0 xs nnan in let y0 := nth 0 ys nnan in
    let dx := (nth (nx - 1) xs nnan - x0) / nofZ (Z.of_nat (nx - 1)) in
    let dy := (nth (ny - 1) ys nnan - y0) / nofZ (Z.of_nat (ny - 1)) in
    let zx := match dzdxs with Some l => l | None => default_dzdx nx ny dx zs end in
    let zy := match dzdys with Some l => l | None => default_dzdy nx ny dy zs end in
    let zxy := match d2s with Some l => l | None => default_dzdx nx ny dx zy end in
    Bicubic (Tab x0 y0 dx dy nx ny zs zx zy zxy nan).
End Ctor.
