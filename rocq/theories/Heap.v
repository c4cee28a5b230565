(** Which arrays the RayVector constructors write: numpy arrays as memory cells.
    Arrays are one-dimensional and contiguous; contents are values of T. *)
From Coq Require Import List ZArith Bool String.
From Verif Require Import Num Vec CoordSys Surface Medium Ray Bundle Trig Optic Arrays Field RayGen.
Import ListNotations.

(** An array argument: a Python number, or an array (float or another dtype) in memory. *)
Inductive arg (T : Type) := Scalar (v : T) | Array (is_float : bool) (loc : nat).
Arguments Scalar {T}. Arguments Array {T}.

Section Heap.
  Context {T : Type} {NT : Num T} {TT : Trig T}.
  Definition heap := list (list T).
  Definition read (h : heap) (a : nat) : list T := nth a h [].
  Definition alloc (h : heap) (l : list T) : heap * nat := (h ++ [l], List.length h).
  Fixpoint write (h : heap) (a : nat) (l : list T) : heap :=
    match h, a with
    | [], _ => []
    | _ :: h, O => l :: h
    | c :: h, S a => c :: write h a l
    end.

  (** np.atleast_1d(x).astype(float, copy=False): no copy of a float array. *)
  Definition float_array (h : heap) (a : arg T) : heap * nat :=
    match a with
    | Scalar v => alloc h [v]
    | Array true a => (h, a)
    | Array false a => alloc h (read h a)
    end.
  Definition zip3 (xs ys zs : list T) : list (vec3 T) :=
    map (fun p => V3 (fst (fst p)) (snd (fst p)) (snd p)) (combine (combine xs ys) zs).
  (** The loops of applyForwardTransformArrays and finishParallel (src/batoid.cpp:12-68): element
      i of the three arrays is read, then written, x first.  Other elements are not touched, so
      writing the three arrays one after the other has the same effect. *)
  Definition inplace3 (f : vec3 T -> vec3 T) (h : heap) (x y z : nat) : heap :=
    let qs := map f (zip3 (read h x) (read h y) (read h z)) in
    write (write (write h x (map cx qs)) y (map cy qs)) z (map cz qs).
  (** fromStop (batoid/rayVector.py:963-982) and _finish (820-846), with the memory they use; the
      arrays x, y, z of the result.  The remaining arrays are new (w, vx, vy, vz, t, flux, ...).
      Arrays of different lengths are an error here: the code reads beyond the end of the shorter
      one. *)
  Definition fromStop_mem (h : heap) (g : gen T) (x y : arg T) : res (heap * (nat * nat * nat)) :=
    do s <- settle false g;
    let '(h, x) := float_array h x in
    let '(h, y) := float_array h y in
    if negb (List.length (read h x) =? List.length (read h y))%nat then Err IndexError
    else
      let '(h, z) := alloc h (map (fun p => sag (fst (s_stop s)) (fst p) (snd p)) (combine (read h x) (read h y))) in
      let ct := mkCT (snd (s_stop s)) (s_cs s) in
      let h := inplace3 (fwd_point (ct_dr ct) (ct_drot ct)) h x y z in
      let n := getN (s_medium s) (s_w s) in
      let vv := finish_vel (s_dir s) n in
      let '(dr, d) := finish_frame (s_backDist s) n vv in
      Ok (inplace3 (finishParallel dr d vv) h x y z, (x, y, z)).

  (** RayVector.__init__ for the nine float arrays (batoid/rayVector.py:14-21, 47-73): the common
      length, then a new array for every argument. *)
  Definition arg_length (h : heap) (a : arg T) : nat :=
    match a with Scalar _ => 1 | Array _ a => List.length (read h a) end.
  Definition copy_arg (h : heap) (n : nat) (a : arg T) : res (heap * nat) :=
    match a with
    | Scalar v => Ok (alloc h (repeat v n))
    | Array _ a =>
        match read h a with
        | [v] => Ok (alloc h (repeat v n))
        | l => if (List.length l =? n)%nat then Ok (alloc h l) else Err ValueError
        end
    end.
  Fixpoint copy_args (h : heap) (n : nat) (args : list (arg T)) : res (heap * list nat) :=
    match args with
    | [] => Ok (h, [])
    | a :: args => do (h, r) <- copy_arg h n a; do (h, rs) <- copy_args h n args; Ok (h, r :: rs)
    end.
  Definition init_mem (h : heap) (args : list (arg T)) : res (heap * list nat) :=
    copy_args h (fold_right Nat.max 1%nat (map (arg_length h) args)) args.

  (** fieldToDirCos on two float arrays: only the orthographic projection returns its arguments
      (batoid/utils.py:40-44, 92-109, 172-175, 224-241, 300-305, 352-369). *)
  Definition fieldToDirCos_mem (h : heap) (u v : nat) (projection : string) : res (heap * (nat * nat * nat)) :=
    do ds <- all_ok (fun t => fieldToDirCos (fst t) (snd t) projection) (combine (read h u) (read h v));
    let zs := map snd ds in
    if String.eqb projection "orthographic" then
      let '(h, c) := alloc h zs in Ok (h, (u, v, c))
    else
      let '(h, a) := alloc h (map (fun d => fst (fst d)) ds) in
      let '(h, b) := alloc h (map (fun d => snd (fst d)) ds) in
      let '(h, c) := alloc h zs in Ok (h, (a, b, c)).
  (** a /= n on an array. *)
  Definition divide_mem (n : T) (h : heap) (a : nat) : heap := write h a (map (fun v => (v / n)%num) (read h a)).
  (** fromFieldAngles (batoid/rayVector.py:1052-1081) with float arrays theta_x, theta_y of equal
      length: the memory and the rays (the constructor copies vx, vy, vz). *)
  Definition fromFieldAngles_mem (h : heap) (optic : option (oattr T)) (backDist : option T)
      (med : option (medium T)) (stop : option (surface T * coordsys T)) (w : option T)
      (u v : nat) (projection : string) (x y flux : T) : res (heap * rayvec T) :=
    do bd <- from_optic backDist optic oa_backDist;
    do m <- from_optic med optic (fun o => Some (oa_in o));
    do st <- from_optic stop optic oa_stop;
    let bd := or_else bd (nofZ 40) in
    let m := or_else m default_medium in
    let st := or_else st default_stop in
    match w with
    | None => Err ValueError
    | Some w =>
        do (h, (a, b, c)) <- fieldToDirCos_mem h u v projection;
        let n := getN m w in
        let h := divide_mem n (divide_mem n (divide_mem n h a) b) c in
        let rs := map (fun vel => Ray (V3 x y (sag (fst st) x y)) vel n0 w flux false false)
                      (zip3 (read h a) (read h b) (read h c)) in
        Ok (h, rv_propagate (- bd * n)%num (RV rs (snd st)))
    end.
End Heap.
Arguments heap T : clear implicits.
