(** The outlines of optics used for drawing (batoid/optic.py). *)
From Coq Require Import String List ZArith Bool.
From Verif Require Import Num Vec CoordSys Surface Medium Obscuration Trig Ray Bundle Optic Field.
Import ListNotations.
Local Open Scope list_scope.

Section Draw.
  Context {T : Type} {NT : Num T} {TT : Trig T}.
  Local Open Scope num_scope.

  (** The attributes of an Interface that drawing reads; [d_Rin], [d_Rout] are the cached properties R_inner
      and R_outer (functools.cached_property): None until they are first read. *)
  Record drawn := DF {
    d_name : string; d_surf : surface T; d_cs : coordsys T; d_obsc : option (obsc T);
    d_in : option T; d_out : option T; d_Rin : option (option T); d_Rout : option (option T) }.

  (** The bodies of R_outer and R_inner (batoid/optic.py:729-755). *)
  Definition bare (o : obsc T) : obsc T := match o with ObscNegation o => o | o => o end.
  Definition outer_of (o : option (obsc T)) : option T :=
    match o with
    | Some o => match bare o with ObscAnnulus _ outer _ _ => Some outer | ObscCircle radius _ _ => Some radius | _ => None end
    | None => None
    end.
  Definition inner_of (o : option (obsc T)) : option T :=
    match o with
    | Some o => match bare o with ObscAnnulus inner _ _ _ => Some inner | ObscCircle _ _ _ => Some n0 | _ => None end
    | None => None
    end.
  (** Reading the attributes: the value, and the object with the value kept. *)
  Definition R_outer (d : drawn) : option T * drawn :=
    match d_Rout d with
    | Some v => (v, d)
    | None => let v := outer_of (d_obsc d) in
        (v, DF (d_name d) (d_surf d) (d_cs d) (d_obsc d) (d_in d) (d_out d) (d_Rin d) (Some v))
    end.
  Definition R_inner (d : drawn) : option T * drawn :=
    match d_Rin d with
    | Some v => (v, d)
    | None => let v := inner_of (d_obsc d) in
        (v, DF (d_name d) (d_surf d) (d_cs d) (d_obsc d) (d_in d) (d_out d) (Some v) (d_Rout d))
    end.
  (** Interface.__init__ (batoid/optic.py:115-140); Optic.__init__ (38-46) puts all keyword arguments into
      the object, so that kept values of R_inner and R_outer may be among them. *)
  Definition init_drawn (name : string) (s : surface T) (cs : coordsys T) (o : option (obsc T)) (cin cout : option (option T)) : drawn :=
    let '(inR, d) := R_inner (DF name s cs o None None cin cout) in
    let '(inR, outR) :=
      match o with
      | Some (ObscNegation (ObscCircle radius _ _)) => (inR, Some radius)
      | Some (ObscNegation (ObscAnnulus inner outer _ _)) => (Some inner, Some outer)
      | Some (ObscCircle radius _ _) => (inR, Some radius)
      | Some (ObscAnnulus inner outer _ _) => (Some inner, Some outer)
      | _ => (inR, None)
      end in
    let '(inR, d) := match inR with None => R_inner d | Some _ => (inR, d) end in
    let '(outR, d) := match outR with None => R_outer d | Some _ => (outR, d) end in
    DF (d_name d) (d_surf d) (d_cs d) (d_obsc d) inR outR (d_Rin d) (d_Rout d).
  Definition new_drawn (name : string) (s : surface T) (cs : coordsys T) (o : option (obsc T)) : drawn :=
    init_drawn name s cs o None None.
  (** withGlobalShift, withLocalShift, withGlobalRotation, withLocalRotation (batoid/optic.py:571-692): the
      constructor with the old object's dictionary, which holds the kept values; [cs] is the new frame. *)
  Definition moved (cs : coordsys T) (d : drawn) : drawn :=
    init_drawn (d_name d) (d_surf d) cs (d_obsc d) (d_Rin d) (d_Rout d).
  (** Interface.clearObscuration (batoid/optic.py:537-539); [unless] is a tuple of names. *)
  Definition clear (unless : list string) (d : drawn) : drawn :=
    if existsb (String.eqb (d_name d)) unless then d
    else DF (d_name d) (d_surf d) (d_cs d) None (d_in d) (d_out d) (d_Rin d) (d_Rout d).

  (** z = self.surface.sag(x, y); transform.applyForwardArray(x, y, z) with
      transform = CoordTransform(self.coordSys, globalCoordSys). *)
  Definition lift (d : drawn) (xy : T * T) : vec3 T :=
    applyForwardArray (mkCT (d_cs d) cs_default) (V3 (fst xy) (snd xy) (sag (d_surf d) (fst xy) (snd xy))).
  (** th = np.linspace(0, 2*np.pi, 100); x = r*cos(th); y = r*sin(th). *)
  Definition circle (r : T) : list (T * T) := map (fun th => (r * ncos th, r * nsin th)) (linspace n0 (n2 * npi) 100 true).
  (** np.linspace(a, b): 50 points; the other coordinate is zero. *)
  Definition line_y (a b : T) : list (T * T) := map (fun y => (n0, y)) (linspace a b 50 true).
  Definition line_x (a b : T) : list (T * T) := map (fun x => (x, n0)) (linspace a b 50 true).
  (** The polylines of Interface.draw3d (batoid/optic.py:156-219); None: nothing is drawn.  The
      constructor leaves inRadius and outRadius both None or both set; TypeError: the arithmetic with None. *)
  Definition outlines (d : drawn) : res (option (list (list (vec3 T)))) :=
    match d_out d, d_in d with
    | None, _ => Ok None
    | Some _, None => Err TypeError
    | Some outR, Some inR =>
        Ok (Some (map (map (lift d))
          ((if inR =? n0 then [] else [circle inR]) ++
           [circle outR; line_y (- outR) (- inR); line_y inR outR; line_x (- outR) (- inR); line_x inR outR])))
    end.
  (** Interface.get3dmesh (batoid/optic.py:221-305): the same points, a NaN after each polyline. *)
  Definition mesh (d : drawn) : res (option (list (vec3 T))) :=
    do o <- outlines d; Ok (option_map (flat_map (fun l => l ++ [vnan])) o).

  (** CompoundOptic. *)
  Inductive dtree := DFace (d : drawn) | DItems (items : list dtree).
  (** Interface.draw3d, CompoundOptic.draw3d (batoid/optic.py:1278-1290). *)
  Fixpoint draw3d (t : dtree) : res (list (list (vec3 T))) :=
    match t with
    | DFace d => do o <- outlines d; Ok match o with None => [] | Some l => l end
    | DItems items => fold_right (fun t acc => do a <- draw3d t; do b <- acc; Ok (a ++ b)) (Ok []) items
    end.
  (** Interface.get3dmesh, CompoundOptic.get3dmesh (batoid/optic.py:1292-1301): an item that returns None
      cannot be unpacked (TypeError); np.hstack of an empty list raises ValueError. *)
  Fixpoint get3dmesh (t : dtree) : res (option (list (vec3 T))) :=
    match t with
    | DFace d => mesh d
    | DItems items =>
        do l <- fold_right (fun t acc => do a <- get3dmesh t; match a with None => Err TypeError | Some a => do b <- acc; Ok (a :: b) end) (Ok []) items;
        match l with [] => Err ValueError | _ => Ok (Some (List.concat l)) end
    end.

  (** Interface.getXZSlice (batoid/optic.py:307-376).  The warning printed for rotated surfaces is left out. *)
  Definition xz (p : vec3 T) : T * T := (cx p, cz p).
  Definition getXZSlice (nslice : Z) (d : drawn) : res (list (list (T * T))) :=
    match d_out d, d_in d with
    | None, _ => Ok []
    | Some _, None => Err TypeError
    | Some outR, Some inR =>
        let n := if (nslice <=? 0)%Z then match d_surf d with Plane => 2%nat | _ => 50%nat end else Z.to_nat nslice in
        let x := linspace (- outR) (- inR) n true in
        let neg := map (fun x => xz (lift d (x, n0))) x in
        let x := rev (map (fun x => x * nofZ (-1)) x) in
        let pos := map (fun x => xz (lift d (x, n0))) x in
        if inR =? n0 then
          match rev neg, pos with
          | a :: _, b :: rest =>
              if (fst a =? fst b) && (snd a =? snd b) then Ok [neg ++ rest] else Err AssertionError
          | _, _ => Err IndexError
          end
        else Ok [neg; pos]
    end.
  (** Lens.draw2d with only=Lens (batoid/optic.py:1776-1795): the polygons that are filled. *)
  Definition lens_polygons (front back : drawn) : res (list (list (T * T))) :=
    do s1 <- getXZSlice 0 front;
    do s2 <- getXZSlice 0 back;
    Ok (map (fun ab => fst ab ++ rev (snd ab) ++ firstn 1 (fst ab)) (combine s1 s2)).
End Draw.
Arguments DF {T}. Arguments d_name {T}. Arguments d_surf {T}. Arguments d_cs {T}. Arguments d_obsc {T}. Arguments d_in {T}. Arguments d_out {T}.
Arguments d_Rin {T}. Arguments d_Rout {T}. Arguments drawn : clear implicits. Arguments dtree : clear implicits. Arguments DFace {T}. Arguments DItems {T}.
