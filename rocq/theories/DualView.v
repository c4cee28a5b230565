(** The two copies of ray data: host memory, which python sees, and device memory, which the loops of
    src/batoid.cpp see in a GPU build (include/dualView.h, src/dualView.cpp).

    Simplification: the eleven DualViews of a RayVector are kept per ray, as a pair (host, device) of
    ray records together with one sync flag per column; a column operation touches that column of every
    pair.  In a build without GPU support ([gpu] = false) the pointer [data] is the host array for every
    purpose, the device half is never looked at. *)
From Coq Require Import List Bool PeanoNat.
From Verif Require Import Num Vec CoordSys Surface Medium Obscuration Ray Bundle Optic Trig Wave.
Import ListNotations.

(** The columns of include/rayVector.h:27-37. *)
Inductive fld := FX | FY | FZ | FVX | FVY | FVZ | FT | FW | FL | FV | FF.
Definition fld_eqb (a b : fld) : bool :=
  match a, b with
  | FX, FX | FY, FY | FZ, FZ | FVX, FVX | FVY, FVY | FVZ, FVZ | FT, FT | FW, FW | FL, FL | FV, FV | FF, FF => true
  | _, _ => false
  end.
Definition all_flds : list fld := [FX; FY; FZ; FVX; FVY; FVZ; FT; FW; FL; FV; FF].
Definition memf (f : fld) (l : list fld) : bool := existsb (fld_eqb f) l.

Section Dual.
  Context {T : Type} {NT : Num T} {TT : Trig T}.
  Variable gpu : bool.
  Variable niter : nat.

  (** One element of a column. *)
  Definition rget (f : fld) (r : ray T) : T + bool :=
    match f with
    | FX => inl (cx (pos r)) | FY => inl (cy (pos r)) | FZ => inl (cz (pos r))
    | FVX => inl (cx (vel r)) | FVY => inl (cy (vel r)) | FVZ => inl (cz (vel r))
    | FT => inl (time r) | FW => inl (wavelength r) | FL => inl (flux r)
    | FV => inr (vignetted r) | FF => inr (failed r)
    end.
  (** The columns in m from a, the others from b. *)
  Definition blend (m : fld -> bool) (a b : ray T) : ray T :=
    let c {A} f (g : ray T -> A) := if m f then g a else g b in
    Ray (V3 (c FX (fun r => cx (pos r))) (c FY (fun r => cy (pos r))) (c FZ (fun r => cz (pos r))))
        (V3 (c FVX (fun r => cx (vel r))) (c FVY (fun r => cy (vel r))) (c FVZ (fun r => cz (vel r))))
        (c FT time) (c FW wavelength) (c FL flux) (c FV vignetted) (c FF failed).

  (** A RayVector: per ray (host, device); syncState == device per column; .coordSys. *)
  Record obj := OBJ { cells : list (ray T * ray T); on_dev : fld -> bool; ocs : coordsys T }.
  Definition set_flag (o : obj) (f : fld) (b : bool) : fld -> bool := fun g => if fld_eqb f g then b else on_dev o g.

  (** DualView::syncToHost (src/dualView.cpp:28-36). *)
  Definition toHost (f : fld) (o : obj) : obj :=
    if on_dev o f then
      OBJ (if gpu then map (fun c => (blend (fld_eqb f) (snd c) (fst c), snd c)) (cells o) else cells o)
          (set_flag o f false) (ocs o)
    else o.
  (** DualView::syncToDevice (src/dualView.cpp:38-46). *)
  Definition toDevice (f : fld) (o : obj) : obj :=
    if on_dev o f then o
    else
      OBJ (if gpu then map (fun c => (fst c, blend (fld_eqb f) (fst c) (snd c))) (cells o) else cells o)
          (set_flag o f true) (ocs o).
  Definition toHosts (l : list fld) (o : obj) : obj := fold_left (fun o f => toHost f o) l o.
  Definition toDevices (l : list fld) (o : obj) : obj := fold_left (fun o f => toDevice f o) l o.

  (** A new RayVector: _rv points at host arrays, state host, device memory allocated but
      not filled (src/dualView.cpp:5-10; batoid/rayVector.py:1214-1223).  Simplification: _rv
      is created lazily there, at the first use. *)
  Definition fresh (rv : rayvec T) (junk : nat -> ray T) : obj :=
    OBJ (combine (rays rv) (map junk (seq 0 (List.length (rays rv))))) (fun _ => false) (rvcs rv).

  (** The memory the loops work on. *)
  Definition seen (c : ray T * ray T) : ray T := if gpu then snd c else fst c.
  (** One loop over the rays that writes the columns W. *)
  Definition launch (W : list fld) (body : ray T -> ray T) (o : obj) : obj :=
    let put r := blend (fun f => memf f W) (body r) r in
    OBJ (map (fun c => if gpu then (fst c, put (snd c)) else (put (fst c), snd c)) (cells o)) (on_dev o) (ocs o).

  (** The calls that run a loop in place. *)
  Inductive kern :=
  | KForward (ct : coordtransform T) | KReverse (ct : coordtransform T) | KToCoordSys (cs : coordsys T)
  | KObscure (o : obsc T)
  | KIntersect (s : surface T) (cs : option (coordsys T)) (c : option (coating T))
  | KReflect (s : surface T) (cs : option (coordsys T)) (c : option (coating T))
  | KRefract (s : surface T) (m1 m2 : medium T) (cs : option (coordsys T)) (c : option (coating T))
  | KScreen (s screen : surface T) (cs : option (coordsys T))
  | KPropagate (t : T).
  (** The syncToDevice calls at the head of each function. *)
  Definition syncs (k : kern) : list fld :=
    let base := [FX; FY; FZ; FVX; FVY; FVZ; FT; FV; FF] in
    match k with
    | KForward _ | KReverse _ | KToCoordSys _ => [FX; FY; FZ; FVX; FVY; FVZ]   (* src/batoid.cpp:72-77, 112-117 *)
    | KObscure _ => [FX; FY; FZ; FV]                                          (* 152-155 *)
    | KIntersect _ _ c | KReflect _ _ c =>                                    (* 183-195, 281-293 *)
        base ++ match c with None => [] | Some _ => [FW; FL] end
    | KRefract _ _ _ _ c => base ++ [FW] ++ match c with None => [] | Some _ => [FL] end  (* 390-402 *)
    | KScreen _ _ _ => base ++ [FW]                                           (* 685-694 *)
    | KPropagate _ => [FX; FY; FZ; FVX; FVY; FVZ; FT]                         (* src/rayVector.cpp:57-63 *)
    end.
  (** The columns each loop stores into. *)
  Definition stores (k : kern) : list fld :=
    let base := [FX; FY; FZ; FVX; FVY; FVZ; FT; FV; FF] in
    match k with
    | KForward _ | KReverse _ | KToCoordSys _ => [FX; FY; FZ; FVX; FVY; FVZ]
    | KObscure _ => [FV]
    | KIntersect _ _ c | KReflect _ _ c | KRefract _ _ _ _ c => base ++ match c with None => [] | Some _ => [FL] end
    | KScreen _ _ _ => base
    | KPropagate _ => [FX; FY; FZ; FT]
    end.
  Definition target (cs0 : coordsys T) (cs : option (coordsys T)) : coordsys T := match cs with None => cs0 | Some c => c end.
  Definition body (k : kern) (cs0 : coordsys T) : ray T -> ray T :=
    let in_frame g cs := let ct := mkCT cs0 (target cs0 cs) in g (ct_dr ct) (ct_drot ct) in
    match k with
    | KForward ct => ray_forward (ct_dr ct) (ct_drot ct)
    | KReverse ct => ray_reverse (ct_dr ct) (ct_drot ct)
    | KToCoordSys cs => in_frame ray_forward (Some cs)
    | KObscure o => ray_obscure o
    | KIntersect s cs c => in_frame (fun dr d => ray_intersect s dr d c niter) cs
    | KReflect s cs c => in_frame (fun dr d => ray_reflect s dr d c niter) cs
    | KRefract s _ m2 cs c => in_frame (fun dr d => ray_refract s dr d m2 c niter) cs
    | KScreen s screen cs => in_frame (fun dr d => ray_screen s screen dr d niter) cs
    | KPropagate t => ray_propagate t
    end.
  (** rv.coordSys = ... of batoid/trace.py. *)
  Definition next_cs (k : kern) (cs0 : coordsys T) : coordsys T :=
    match k with
    | KForward ct => toSys ct
    | KReverse ct => fromSys ct
    | KToCoordSys cs => cs
    | KObscure _ | KPropagate _ => cs0
    | KIntersect _ cs _ | KReflect _ cs _ | KRefract _ _ _ cs _ | KScreen _ _ cs => target cs0 cs
    end.
  Definition run_kern (k : kern) (o : obj) : obj :=
    let o := toDevices (syncs k) o in
    let o := launch (stores k) (body k (ocs o)) o in
    OBJ (cells o) (on_dev o) (next_cs k (ocs o)).

  (** The calls that only read: positionAtTime, phase, sumAmplitude (src/rayVector.cpp:26-221). *)
  Inductive probe := PPosition (t : T) | PPhase (p : vec3 T) (t : T) | PSum (p : vec3 T) (t : T) (ignoreVignetted : bool).
  Definition probe_syncs (p : probe) : list fld :=
    match p with
    | PPosition _ => [FX; FY; FZ; FVX; FVY; FVZ; FT]
    | PPhase _ _ => [FX; FY; FZ; FVX; FVY; FVZ; FT; FW]
    | PSum _ _ _ => [FX; FY; FZ; FVX; FVY; FVZ; FT; FW; FL; FV; FF]
    end.
  Inductive out :=
  | ONone | OColumn (l : list (T + bool)) | OEqual (b : bool)
  | OPoints (l : list (vec3 T)) | OPhases (l : list T) | OAmplitude (a : T * T).
  Definition probe_out (p : probe) (l : list (ray T)) : out :=
    match p with
    | PPosition t => OPoints (map (ray_positionAtTime t) l)
    | PPhase q t => OPhases (map (ray_phase q t) l)
    | PSum q t iv => OAmplitude (fold_left (add_amplitude q t iv) l (n0, n0))
    end.
  Definition run_probe (p : probe) (o : obj) : obj * out :=
    let o := toDevices (probe_syncs p) o in (o, probe_out p (map seen (cells o))).

  (** The properties x, y, ..., failed (batoid/rayVector.py:1091-1176); wavelength does not synchronise (1152-1156). *)
  Definition getter (f : fld) (o : obj) : obj := match f with FW => o | _ => toHost f o end.
  Definition host_column (f : fld) (o : obj) : list (T + bool) := map (fun c => rget f (fst c)) (cells o).
  (** a[j] = v on the host array of the column f. *)
  Definition rput (f : fld) (v : T + bool) (r : ray T) : ray T :=
    match v with
    | inl x => blend (fld_eqb f) (Ray (V3 x x x) (V3 x x x) x x x (vignetted r) (failed r)) r
    | inr b => blend (fld_eqb f) (Ray (pos r) (vel r) (time r) (wavelength r) (flux r) b b) r
    end.
  Fixpoint set_nth {A} (j : nat) (g : A -> A) (l : list A) : list A :=
    match l, j with
    | [], _ => []
    | a :: l, O => g a :: l
    | a :: l, S j => a :: set_nth j g l
    end.
  Definition host_write (f : fld) (j : nat) (v : T + bool) (o : obj) : obj :=
    OBJ (set_nth j (fun c => (rput f v (fst c), snd c)) (cells o)) (on_dev o) (ocs o).

  (** RayVector.copy (batoid/rayVector.py:1254-1270) and __getitem__ (1320-1349) for the rays picked by idx. *)
  Definition take_rays {A} (idx : option (list nat)) (l : list A) : list A :=
    match idx with
    | None => l
    | Some idx => flat_map (fun i => match nth_error l i with Some a => [a] | None => [] end) idx
    end.
  Definition dup (idx : option (list nat)) (junk : nat -> ray T) (o : obj) : obj * obj :=
    let o := toHosts all_flds o in
    (o, fresh (RV (take_rays idx (map fst (cells o))) (ocs o)) junk).

  (** The loop of rSplit (src/batoid.cpp:518-673) as it stores: into rv everything but the
      wavelength, into rvSplit everything when the surface is hit, only the two flags when it
      is missed, nothing for a failed ray. *)
  Definition split_cell (f : ray T -> ray T * ray T) (hits : ray T -> bool) (c s : ray T) : ray T * ray T :=
    if failed c then (c, s)
    else if hits c then f c
    else (mark_failed c, mark_failed s).
  Definition hits (s : surface T) (ct : coordtransform T) (r : ray T) : bool :=
    fst (hit s niter (fwd_point (ct_dr ct) (ct_drot ct) (pos r)) (fwd_vel (ct_drot ct) (vel r))).
  (** trace.rSplit (batoid/trace.py:119-136) on (rv, rvSplit = rv.copy()): rvSplit is declared
      to live on the device without being copied there (src/batoid.cpp:529-539). *)
  Definition run_split (s : surface T) (m1 m2 : medium T) (c : coating T) (cs : option (coordsys T)) (junk : nat -> ray T) (o : obj) : obj * obj :=
    let k := target (ocs o) cs in
    let ct := mkCT (ocs o) k in
    let '(o, o2) := dup None junk o in
    let o := toDevices [FX; FY; FZ; FVX; FVY; FVZ; FT; FW; FL; FV; FF] o in
    let step p := split_cell (ray_rsplit s (ct_dr ct) (ct_drot ct) m2 c niter) (hits s ct) (seen (fst p)) (seen (snd p)) in
    let both := combine (cells o) (cells o2) in
    let put (c : ray T * ray T) r := if gpu then (fst c, r) else (r, snd c) in
    (OBJ (map (fun p => put (fst p) (fst (step p))) both) (on_dev o) k,
     OBJ (map (fun p => put (snd p) (snd (step p))) both) (fun _ => true) k).

  (** DualView::operator== on one column (src/dualView.cpp:48-69), objects i and j of a store. *)
  Definition veqb (a b : T + bool) : bool :=
    match a, b with inl x, inl y => neqb x y | inr x, inr y => Bool.eqb x y | _, _ => false end.
  Definition on_obj (i : nat) (g : obj -> obj) (st : list obj) : list obj := set_nth i g st.
  Definition eq_column (f : fld) (i j : nat) (st : list obj) : res (list obj * bool) :=
    match nth_error st i, nth_error st j with
    | Some a, Some b =>
        let cmp g (a b : obj) := forallb (fun p => veqb (rget f (g (fst p))) (rget f (g (snd p)))) (combine (cells a) (cells b)) in
        if negb (on_dev a f) && negb (on_dev b f) then Ok (st, cmp fst a b)
        else
          let st := on_obj j (toDevice f) (on_obj i (toDevice f) st) in
          match nth_error st i, nth_error st j with
          | Some a, Some b => Ok (st, cmp seen a b)
          | _, _ => Err IndexError
          end
    | _, _ => Err IndexError
    end.
  (** RayVector::operator== (src/rayVector.cpp:225-239): the columns in order, && stops at the
      first difference. *)
  Fixpoint eq_columns (l : list fld) (i j : nat) (st : list obj) : res (list obj * bool) :=
    match l with
    | [] => Ok (st, true)
    | f :: l =>
        do (st, b) <- eq_column f i j st;
        if b then eq_columns l i j st else Ok (st, false)
    end.

  (** What a user can do with the RayVectors they hold. *)
  Inductive act :=
  | ANew (rv : rayvec T) (junk : nat -> ray T)
  | AKern (i : nat) (k : kern)
  | AProbe (i : nat) (p : probe)
  | ARead (i : nat) (f : fld)
  | AWrite (i : nat) (f : fld) (j : nat) (v : T + bool)   (* rv.f[j] = v *)
  | AReadHeld (i : nat) (f : fld)                          (* looking at an array obtained earlier *)
  | AWriteHeld (i : nat) (f : fld) (j : nat) (v : T + bool) (* writing to an array obtained earlier *)
  | ACopy (i : nat) (idx : option (list nat)) (junk : nat -> ray T)
  | ASplit (i : nat) (s : surface T) (m1 m2 : medium T) (c : coating T) (cs : option (coordsys T)) (junk : nat -> ray T)
  | AEqual (i j : nat).
  Definition step (a : act) (st : list obj) : res (list obj * out) :=
    let on i (g : obj -> res (list obj * out)) := match nth_error st i with None => Err IndexError | Some o => g o end in
    match a with
    | ANew rv junk => Ok (st ++ [fresh rv junk], ONone)
    | AKern i k => on i (fun _ => Ok (on_obj i (run_kern k) st, ONone))
    | AProbe i p => on i (fun o => Ok (on_obj i (fun o => fst (run_probe p o)) st, snd (run_probe p o)))
    | ARead i f => on i (fun o => Ok (on_obj i (getter f) st, OColumn (host_column f (getter f o))))
    | AWrite i f j v => on i (fun _ => Ok (on_obj i (fun o => host_write f j v (getter f o)) st, ONone))
    | AReadHeld i f => on i (fun o => Ok (st, OColumn (host_column f o)))
    | AWriteHeld i f j v => on i (fun _ => Ok (on_obj i (host_write f j v) st, ONone))
    | ACopy i idx junk => on i (fun o => Ok (on_obj i (fun o => fst (dup idx junk o)) st ++ [snd (dup idx junk o)], ONone))
    | ASplit i s m1 m2 c cs junk =>
        on i (fun o => Ok (on_obj i (fun o => fst (run_split s m1 m2 c cs junk o)) st ++ [snd (run_split s m1 m2 c cs junk o)], ONone))
    | AEqual i j =>
        on i (fun a => on j (fun b =>
          if Nat.ltb (List.length (cells b)) (List.length (cells a)) then Err IndexError
          else do (st, r) <- eq_columns all_flds i j st; Ok (st, OEqual r)))
    end.
  Fixpoint steps (l : list act) (st : list obj) : res (list obj * list out) :=
    match l with
    | [] => Ok (st, [])
    | a :: l => do (st, x) <- step a st; do (st, xs) <- steps l st; Ok (st, x :: xs)
    end.
End Dual.
Arguments obj T : clear implicits.
Arguments kern T : clear implicits.
Arguments probe T : clear implicits.
Arguments act T : clear implicits.
Arguments out T : clear implicits.
