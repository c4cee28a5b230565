(** ObscPolygon.containsGrid: src/obscuration.cpp:233-287, batoid/obscuration.py:277-284;
    constructors that take an angle. *)
From Coq Require Import List ZArith Bool Arith.
From Verif Require Import Num Trig Obscuration.
Import ListNotations.

Section Grid.
  Context {T : Type} {NT : Num T}.
  Local Open Scope num_scope.

  (** ymin, ymax (src/obscuration.cpp:240-247). *)
  Definition y_extent (verts : list (T * T)) : T * T :=
    match verts with
    | [] => (n0, n0)
    | (_, ya) :: rest =>
        fold_left (fun (m : T * T) (v : T * T) =>
                     let '(lo, hi) := m in let y := snd v in
                     (if y <? lo then y else lo, if hi <? y then y else hi)) rest (ya, ya)
    end.
  (** Body of the loop over k (src/obscuration.cpp:265-272). *)
  Definition cross_step (y : T) (st : T * T * list T) (v : T * T) : T * T * list T :=
    let '(x1, y1, acc) := st in
    let '(x2, y2) := v in
    (x2, y2, if (nmin y1 y2 <? y) && (y <=? nmax y1 y2)
             then acc ++ [(y - y1) * (x2 - x1) / (y2 - y1) + x1] else acc).
  (** The loop over k = 0 .. size-1 (src/obscuration.cpp:262-272): vertices 0..size-1 in
      turn, starting from vertex 0. *)
  Definition crossings_at (verts : list (T * T)) (y : T) : list T :=
    match verts with
    | [] => []
    | (xa, ya) :: _ => snd (fold_left (cross_step y) verts (xa, ya, []))
    end.
  (** std::sort (src/obscuration.cpp:273).  Simplification: insertion sort. *)
  Fixpoint insert (a : T) (l : list T) : list T :=
    match l with
    | [] => [a]
    | b :: l' => if a <? b then a :: b :: l' else b :: insert a l'
    end.
  Definition sort (l : list T) : list T := fold_right insert [] l.
  (** The loop over i (src/obscuration.cpp:276-285): one value per grid column. *)
  Fixpoint row_scan (xs : list T) (cr : list T) (contained : bool) : list bool :=
    match xs with
    | [] => []
    | x :: xs =>
        match cr with
        | [] => contained :: row_scan xs [] contained
        | c :: cr' =>
            if c <? x then negb contained :: row_scan xs cr' (negb contained)
            else contained :: row_scan xs cr contained
        end
    end.
  (** Writing consecutive cells from an index of the output buffer; None is an
      out-of-bounds write. *)
  Definition put (buf : list (option bool)) (i : nat) (b : bool) : option (list (option bool)) :=
    if (i <? length buf)%nat then Some (firstn i buf ++ Some b :: skipn (S i) buf) else None.
  Fixpoint put_all (buf : list (option bool)) (i : nat) (bs : list bool) : option (list (option bool)) :=
    match bs with
    | [] => Some buf
    | b :: bs => match put buf i b with None => None | Some buf => put_all buf (S i) bs end
    end.
  (** The loop over rows j (src/obscuration.cpp:252-286): false rows are written at
      j*nx + i, the others at j*ny + i. *)
  Fixpoint grid_rows (verts : list (T * T)) (xs : list T) (ny : nat) (lo hi : T) (ys : list T) (j : nat)
      (buf : list (option bool)) : option (list (option bool)) :=
    match ys with
    | [] => Some buf
    | y :: ys =>
        let nx := length xs in
        let next := if (y <? lo) || (hi <? y) then put_all buf (j * nx) (repeat false nx)
                    else put_all buf (j * ny) (row_scan xs (sort (crossings_at verts y)) false) in
        match next with
        | None => None
        | Some buf => grid_rows verts xs ny lo hi ys (S j) buf
        end
    end.
  (** containsGrid: np.empty((ny, nx)), cells not written stay None. *)
  Definition containsGrid (verts : list (T * T)) (xs ys : list T) : option (list (option bool)) :=
    let '(lo, hi) := y_extent verts in
    grid_rows verts xs (length ys) lo hi ys 0 (repeat None (length ys * length xs)).

  (** ObscRectangle(width, height, x, y, theta), ObscRay(width, theta, x, y)
      (src/obscuration.cpp:108-114, 147-151). *)
  Context {TT : Trig T}.
  Definition mkObscRectangle (w h x0 y0 th : T) : obsc T := ObscRectangle w h x0 y0 (nsin th) (ncos th).
  Definition mkObscRay (w th x0 y0 : T) : obsc T := ObscRay w x0 y0 (nsin th) (ncos th).
End Grid.
