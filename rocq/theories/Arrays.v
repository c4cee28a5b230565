(** RayVector as its eleven arrays: indexing, concatenation, copying, comparison,
    and the vertices of a full trace. *)
From Coq Require Import String List ZArith Bool.
From Verif Require Import Num Vec CoordSys Surface Medium Obscuration Ray Bundle Optic.
Import ListNotations.

(** The arrays _x ... _failed and coordSys (batoid/rayVector.py:64-77). *)
Record arrays (T : Type) := Arr {
  a_x : list T; a_y : list T; a_z : list T; a_vx : list T; a_vy : list T; a_vz : list T;
  a_t : list T; a_w : list T; a_flux : list T; a_vig : list bool; a_fail : list bool;
  a_cs : coordsys T }.
Arguments Arr {T}. Arguments a_x {T}. Arguments a_y {T}. Arguments a_z {T}.
Arguments a_vx {T}. Arguments a_vy {T}. Arguments a_vz {T}. Arguments a_t {T}.
Arguments a_w {T}. Arguments a_flux {T}. Arguments a_vig {T}. Arguments a_fail {T}.
Arguments a_cs {T}.

Section Arrays.
  Context {T : Type} {NT : Num T}.

  (** The same data as a list of rays with a frame (Bundle.v), and back. *)
  Definition to_arrays (rv : rayvec T) : arrays T :=
    Arr (map (fun r => cx (pos r)) (rays rv)) (map (fun r => cy (pos r)) (rays rv))
        (map (fun r => cz (pos r)) (rays rv)) (map (fun r => cx (vel r)) (rays rv))
        (map (fun r => cy (vel r)) (rays rv)) (map (fun r => cz (vel r)) (rays rv))
        (map time (rays rv)) (map wavelength (rays rv)) (map flux (rays rv))
        (map vignetted (rays rv)) (map failed (rays rv)) (rvcs rv).

  (** slice(start, stop) of an array of n elements with 0 <= start, as used in
      __getitem__ (numpy basic slicing: the bounds are clipped to the array). *)
  Definition np_slice {A} (start stop : Z) (l : list A) : list A :=
    let n := Z.of_nat (List.length l) in
    let lo := Z.min start n in
    let hi := Z.min stop n in
    firstn (Z.to_nat (hi - lo)) (skipn (Z.to_nat lo) l).
  (** slice(start, stop) with any integers or None and step 1: a negative bound
      counts from the end (PySlice_AdjustIndices). *)
  Definition py_bound (n i : Z) : Z := if (i <? 0)%Z then Z.max (i + n) 0 else Z.min i n.
  Definition py_slice {A} (start stop : option Z) (l : list A) : list A :=
    let n := Z.of_nat (List.length l) in
    let lo := match start with None => 0%Z | Some i => py_bound n i end in
    let hi := match stop with None => n | Some i => py_bound n i end in
    firstn (Z.to_nat (hi - lo)) (skipn (Z.to_nat lo) l).
  (** Boolean mask (numpy advanced indexing): a mask of another length is an
      IndexError. *)
  Fixpoint np_mask {A} (m : list bool) (l : list A) : list A :=
    match m, l with
    | b :: m, a :: l => if b then a :: np_mask m l else np_mask m l
    | _, _ => []
    end.
  (** The same index expression applied to each array, the frame kept
      (batoid/rayVector.py:1335-1349). *)
  Definition index_all (f : forall A, list A -> list A) (a : arrays T) : arrays T :=
    Arr (f T (a_x a)) (f T (a_y a)) (f T (a_z a)) (f T (a_vx a)) (f T (a_vy a)) (f T (a_vz a))
        (f T (a_t a)) (f T (a_w a)) (f T (a_flux a)) (f bool (a_vig a)) (f bool (a_fail a)) (a_cs a).
  Inductive index := IInt (i : Z) | ISlice (start stop : option Z) | IMask (m : list bool).
  (** RayVector.__getitem__ (batoid/rayVector.py:1320-1349).  Slices with a step and
      arrays of integers are left out. *)
  Definition getitem_rv (a : arrays T) (idx : index) : res (arrays T) :=
    let n := Z.of_nat (List.length (a_t a)) in
    match idx with
    | IInt i =>
        if (0 <=? i)%Z then
          if (n <=? i)%Z then Err IndexError
          else Ok (index_all (fun A => np_slice i (i + 1)) a)
        else
          if (i <? - n)%Z then Err IndexError
          else Ok (index_all (fun A => np_slice (n + i) (n - i + 1)) a)
    | ISlice start stop => Ok (index_all (fun A => py_slice start stop) a)
    | IMask m =>
        if Nat.eqb (List.length m) (List.length (a_t a))
        then Ok (index_all (fun A => np_mask m) a) else Err IndexError
    end.

  (** RayVector.copy (batoid/rayVector.py:1254-1270): np.copy of each array and a
      copy of the frame. *)
  Definition copy_rv (a : arrays T) : arrays T :=
    Arr (a_x a) (a_y a) (a_z a) (a_vx a) (a_vy a) (a_vz a) (a_t a) (a_w a) (a_flux a)
        (a_vig a) (a_fail a) (a_cs a).
  (** np.hstack of one array of every bundle. *)
  Definition hstack {A} (f : arrays T -> list A) (l : list (arrays T)) : list A :=
    flat_map f l.
  (** concatenateRayVectors (batoid/rayVector.py:1351-1365); np.hstack([]) raises
      ValueError. *)
  Definition concatenateRayVectors (l : list (arrays T)) : res (arrays T) :=
    match l with
    | [] => Err ValueError
    | a :: _ =>
        Ok (Arr (hstack a_x l) (hstack a_y l) (hstack a_z l)
                (hstack a_vx l) (hstack a_vy l) (hstack a_vz l)
                (hstack a_t l) (hstack a_w l) (hstack a_flux l)
                (hstack a_vig l) (hstack a_fail l) (a_cs a))
    end.

  (** DualView::operator== (src/dualView.cpp:44-67), host branch: result &= data[i]
      == rhs.data[i] for i below the left size.  None: rhs.data is read out of
      bounds, which is undefined behaviour. *)
  Fixpoint dv_eq {A} (eqb : A -> A -> bool) (l r : list A) : option bool :=
    match l, r with
    | [], _ => Some true
    | a :: l, b :: r =>
        match dv_eq eqb l r with Some x => Some (eqb a b && x) | None => None end
    | _ :: _, [] => None
    end.
  (** x && y of C++ with y evaluated only if x. *)
  Definition and_then (x : option bool) (y : option bool) : option bool :=
    match x with Some true => y | o => o end.
  (** RayVector::operator== (src/rayVector.cpp:224-238) and __eq__
      (batoid/rayVector.py:1292-1293): coordSys is not looked at. *)
  Definition eq_rv (a b : arrays T) : option bool :=
    and_then (dv_eq neqb (a_x a) (a_x b)) (and_then (dv_eq neqb (a_y a) (a_y b))
    (and_then (dv_eq neqb (a_z a) (a_z b)) (and_then (dv_eq neqb (a_vx a) (a_vx b))
    (and_then (dv_eq neqb (a_vy a) (a_vy b)) (and_then (dv_eq neqb (a_vz a) (a_vz b))
    (and_then (dv_eq neqb (a_t a) (a_t b)) (and_then (dv_eq neqb (a_w a) (a_w b))
    (and_then (dv_eq neqb (a_flux a) (a_flux b)) (and_then (dv_eq Bool.eqb (a_vig a) (a_vig b))
      (dv_eq Bool.eqb (a_fail a) (a_fail b))))))))))).

  (** names.index(n). *)
  Fixpoint index_of (n : string) (l : list string) : option nat :=
    match l with
    | [] => None
    | m :: l => if String.eqb m n then Some 0 else option_map S (index_of n l)
    end.
  (** xyz[:, :, k] for one bundle: transform.applyForwardArray on its positions. *)
  Definition global_column (globalSys : coordsys T) (rv : rayvec T) : list (vec3 T) :=
    map (fun r => applyForwardArray (mkCT (rvcs rv) globalSys) (pos r)) (rays rv).
  (** raylen[visible] += 1. *)
  Fixpoint bump (l : list (ray T)) (raylen : list nat) : list nat :=
    match l, raylen with
    | r :: l, k :: raylen => (if negb (vignetted r) then S k else k) :: bump l raylen
    | _, _ => raylen
    end.
  (** getGlobalRays (batoid/optic.py:1807-1867): the columns xyz[:, :, 0 ... nsurf]
      and raylen.  Simplification: xyz is a list of columns, so the check of numpy
      that all columns have the length nray is not made.  traceFull[name] cannot
      fail, the names are its keys; an empty dictionary makes names[0] fail. *)
  Definition getGlobalRays (tf : list (string * tf_entry T)) (start end_ : option string)
      (globalSys : coordsys T) : res (list (list (vec3 T)) * list nat) :=
    let names := map fst tf in
    match names with
    | [] => Err IndexError
    | n0 :: _ =>
        let start := match start with None => n0 | Some s => s end in
        let end_ := match end_ with None => last names n0 | Some s => s end in
        match index_of start names with
        | None => Err ValueError
        | Some istart =>
            match index_of end_ names with
            | None => Err ValueError
            | Some iend =>
                if Nat.ltb iend istart then Err ValueError else
                match dict_get start tf with
                | None => Err KeyError
                | Some e0 =>
                    let surfaces := firstn (iend - istart + 1) (skipn istart names) in
                    let outs := flat_map (fun n => match dict_get n tf with
                                                   | Some e => [tf_out e] | None => [] end) surfaces in
                    Ok (global_column globalSys (tf_in e0) :: map (global_column globalSys) outs,
                        fold_left (fun len rv => bump (rays rv) len) outs
                                  (repeat 1 (List.length (rays (tf_in e0)))))
                end
            end
        end
    end.
End Arrays.
