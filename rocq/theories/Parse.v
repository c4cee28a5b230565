(** batoid/parse.py: optics from descriptions (the tree yaml.safe_load returns).

    Simplifications.  A description is a value here; the code removes keys from the
    caller's dictionaries as it reads them (see [pop]).  The constructors' keyword
    matching is modelled; their conversion errors all become TypeError.  Attributes
    backDist, sphereRadius, pupilSize, pupilObscuration, R_outer and R_inner are not part
    of [optic].  [typ] is pasted into a string and evaluated for surfaces and media; only
    names of classes of the right kind are modelled, see [unmodelled_name].  Bicubic
    surfaces in a description, names that are not strings, inMedium: null and a
    stopSurface that is a CompoundOptic are left out (TypeError here). *)
From Coq Require Import String Ascii List ZArith Bool.
From Verif Require Import Num Vec CoordSys Surface Medium Obscuration Trig Optic PyObj.
Import ListNotations.
Local Open Scope list_scope.

Inductive yaml (T : Type) :=
| YNum (v : T) | YInt (z : Z) | YStr (s : string) | YNull
| YSeq (l : list (yaml T)) | YMap (l : list (string * yaml T)).
Arguments YNum {T}. Arguments YInt {T}. Arguments YStr {T}. Arguments YNull {T}.
Arguments YSeq {T}. Arguments YMap {T}.
Definition dict (T : Type) := list (string * yaml T).

Section Dict.
  Context {T : Type}.

  Fixpoint lookup (k : string) (l : dict T) : option (yaml T) :=
    match l with
    | [] => None
    | (k', v) :: l => if String.eqb k k' then Some v else lookup k l
    end.
  Fixpoint without (k : string) (l : dict T) : dict T :=
    match l with
    | [] => []
    | (k', v) :: l => if String.eqb k k' then without k l else (k', v) :: without k l
    end.
  (** config.pop(k): the value and the dictionary that remains. *)
  Definition pop (k : string) (l : dict T) : option (yaml T * dict T) :=
    match lookup k l with Some v => Some (v, without k l) | None => None end.
  (** config[k] = v for a key that is not there. *)
  Definition put (k : string) (v : yaml T) (l : dict T) : dict T := l ++ [(k, v)].

  Definition need {A} (e : exn) (o : option A) : res A := match o with Some a => Ok a | None => Err e end.
  Definition as_dict (c : yaml T) : res (dict T) := match c with YMap l => Ok l | _ => Err AttributeError end.
  Definition as_seq (c : yaml T) : res (list (yaml T)) := match c with YSeq l => Ok l | _ => Err TypeError end.
  Definition as_str (c : yaml T) : res string := match c with YStr s => Ok s | _ => Err TypeError end.
  Definition mapM {A B} (f : A -> res B) : list A -> res (list B) :=
    fix go (l : list A) := match l with
                | [] => Ok []
                | a :: l => do b <- f a; do m <- go l; Ok (b :: m)
                end.
  Fixpoint ysize (c : yaml T) : nat :=
    match c with
    | YSeq l => S (list_sum (map ysize l))
    | YMap l => S (list_sum (map (fun kv => ysize (snd kv)) l))
    | _ => 1
    end.

  (** typ.replace("Clear", "Obsc"); [skip] letters of a match are still to be dropped. *)
  Fixpoint replace_clear (skip : nat) (s : string) : string :=
    match s with
    | EmptyString => EmptyString
    | String c s' =>
        match skip with
        | S k => replace_clear k s'
        | O => if String.prefix "Clear" s then ("Obsc" ++ replace_clear 4 s')%string
               else String c (replace_clear 0 s')
        end
    end.
End Dict.

Section Parse.
  Context {T : Type} {NT : Num T} {TT : Trig T}.
  (** repr of obscurations (the sort key of unions) and galsim's polynomial conversion. *)
  Context (rep : pobsc T -> string)
          (galsim : list T -> T -> T -> list T * list T * list T * nat * nat).
  Local Open Scope string_scope.

  (** A number, a list of numbers. *)
  Definition num (c : yaml T) : res T :=
    match c with YNum v => Ok v | YInt z => Ok (nofZ z) | _ => Err TypeError end.
  Definition nums (c : yaml T) : res (list T) := do l <- as_seq c; mapM num l.
  Definition whole (c : yaml T) : res Z := match c with YInt z => Ok z | _ => Err TypeError end.

  (** f( **config ): the values of the parameters [sig] (name and default) in order.
      Unknown keywords and missing parameters are TypeErrors. *)
  Definition call (sig : list (string * option (yaml T))) (l : dict T) : res (list (yaml T)) :=
    if forallb (fun kv => existsb (fun p => String.eqb (fst kv) (fst p)) sig) l
    then mapM (fun p => match lookup (fst p) l with
                        | Some v => Ok v
                        | None => need TypeError (snd p)
                        end) sig
    else Err TypeError.
  Definition zero : option (yaml T) := Some (YNum n0).

  (** parse_obscuration (batoid/parse.py:6-27). *)
  Definition obsc_names : list string :=
    ["ObscCircle"; "ObscAnnulus"; "ObscRay"; "ObscRectangle"; "ObscPolygon"].
  (** batoid.{typ}( **config ) for the five names: signatures batoid/obscuration.py:58,
      103, 153, 209, 258. *)
  Definition simple_obsc (typ : string) (l : dict T) : res (pobsc T) :=
    if typ =? "ObscCircle" then
      do a <- call [("radius", None); ("x", zero); ("y", zero)] l;
      do v <- mapM num a;
      match v with [r; x; y] => Ok (PyCircle r x y) | _ => Err TypeError end
    else if typ =? "ObscAnnulus" then
      do a <- call [("inner", None); ("outer", None); ("x", zero); ("y", zero)] l;
      do v <- mapM num a;
      match v with [i; o; x; y] => Ok (PyAnnulus i o x y) | _ => Err TypeError end
    else if typ =? "ObscRay" then
      do a <- call [("width", None); ("theta", None); ("x", zero); ("y", zero)] l;
      do v <- mapM num a;
      match v with [w; th; x; y] => Ok (PyRay w th x y) | _ => Err TypeError end
    else if typ =? "ObscRectangle" then
      do a <- call [("width", None); ("height", None); ("x", zero); ("y", zero); ("theta", zero)] l;
      do v <- mapM num a;
      match v with [w; h; x; y; th] => Ok (PyRectangle w h x y th) | _ => Err TypeError end
    else
      do a <- call [("xs", None); ("ys", None)] l;
      do v <- mapM nums a;
      match v with [xs; ys] => Ok (PyPolygon xs ys) | _ => Err TypeError end.
  Definition known_in (typ : string) (l : list string) : bool := existsb (String.eqb typ) l.
  Fixpoint parse_obsc (fuel : nat) (l : dict T) : res (pobsc T) :=
    match fuel with
    | O => Err OutOfFuel
    | S fuel =>
        do tl <- need KeyError (pop "type" l);
        let '(t, l) := tl in
        do typ <- as_str t;
        if known_in typ obsc_names then simple_obsc typ l
        else if typ =? "ObscNegation" then
          do c <- need KeyError (lookup "original" l);
          do d <- as_dict c;
          do o <- parse_obsc fuel d;
          Ok (PyNegation o)
        else if known_in typ ["ObscUnion"; "ObscIntersection"] then
          do c <- need KeyError (lookup "items" l);
          do cs <- as_seq c;
          do items <- mapM (fun c => do d <- as_dict c; parse_obsc fuel d) cs;
          Ok (if typ =? "ObscUnion" then mk_union rep items else mk_intersection rep items)
        else if String.prefix "Clear" typ then
          do o <- parse_obsc fuel (put "type" (YStr (replace_clear 0 typ)) l);
          Ok (PyNegation o)
        else Err ValueError
    end.
  Definition parse_obscuration (l : dict T) : res (pobsc T) := parse_obsc (2 * ysize (YMap l)) l.

  (** parse_surface (batoid/parse.py:30-36).  Another attribute of the module (an
      obscuration, a medium, ...) would be constructed instead of a surface, and a type
      that is not an identifier would be evaluated as Python code. *)
  Definition surf_names : list string :=
    ["Plane"; "Tilted"; "Paraboloid"; "Sphere"; "Quadric"; "Asphere"; "Zernike"].
  (** Signatures: batoid/surface.py:171, 197, 237, 273, 319, 380, 463. *)
  Definition simple_surf (typ : string) (l : dict T) : res (psurf T) :=
    if typ =? "Plane" then
      do _ <- call [] l; Ok PyPlane
    else if typ =? "Tilted" then
      do a <- call [("tanx", None); ("tany", None)] l;
      do v <- mapM num a;
      match v with [x; y] => Ok (PyTilted x y) | _ => Err TypeError end
    else if typ =? "Paraboloid" then
      do a <- call [("R", None)] l;
      do v <- mapM num a;
      match v with [R] => Ok (PyParaboloid R) | _ => Err TypeError end
    else if typ =? "Sphere" then
      do a <- call [("R", None)] l;
      do v <- mapM num a;
      match v with [R] => Ok (PySphere R) | _ => Err TypeError end
    else if typ =? "Quadric" then
      do a <- call [("R", None); ("conic", None)] l;
      do v <- mapM num a;
      match v with [R; k] => Ok (PyQuadric R k) | _ => Err TypeError end
    else if typ =? "Asphere" then
      do a <- call [("R", None); ("conic", None); ("coefs", None); ("imin", Some (YInt 2))] l;
      match a with
      | [R; k; c; i] => do R <- num R; do k <- num k; do c <- nums c; do i <- whole i;
                        if (i <=? 0)%Z then Err ValueError else Ok (PyAsphere R k c i)
      | _ => Err TypeError
      end
    else
      do a <- call [("coef", None); ("R_outer", Some (YNum n1)); ("R_inner", zero);
                    ("x_origin", zero); ("y_origin", zero)] l;
      match a with
      | c :: v => do c <- nums c; do v <- mapM num v;
                  match v with [ro; ri; x; y] => Ok (PyZernike c ro ri x y) | _ => Err TypeError end
      | _ => Err TypeError
      end.
  (** Other attributes of the module (batoid/__init__.py) and anything that is not a
      plain name. *)
  Definition plain_char (c : ascii) : bool :=
    let n := nat_of_ascii c in
    ((48 <=? n) && (n <=? 57) || (65 <=? n) && (n <=? 90) || (97 <=? n) && (n <=? 122) || (n =? 95))%nat.
  Definition module_names : list string :=
    ["RayVector"; "concatenateRayVectors"; "CoordSys"; "RotX"; "RotY"; "RotZ"; "CoordTransform";
     "Surface"; "Plane"; "Paraboloid"; "Sphere"; "Quadric"; "Asphere"; "Bicubic"; "Sum"; "Tilted"; "Zernike";
     "intersect"; "applyForwardTransform"; "applyReverseTransform"; "obscure"; "reflect"; "refract"; "rSplit";
     "Medium"; "ConstMedium"; "TableMedium"; "SellmeierMedium"; "SumitaMedium"; "Air";
     "Obscuration"; "ObscCircle"; "ObscAnnulus"; "ObscRectangle"; "ObscRay"; "ObscPolygon";
     "ObscNegation"; "ObscUnion"; "ObscIntersection"; "Coating"; "SimpleCoating";
     "Optic"; "CompoundOptic"; "Lens"; "Interface"; "RefractiveInterface"; "Mirror"; "Detector"; "Baffle";
     "OPDScreen"; "drawTrace2d"; "drawTrace3d"; "Lattice"; "os"; "datadir"; "parse"; "utils";
     "globalCoordSys"; "vacuum"; "huygensPSF"; "fftPSF"; "wavefront"; "spot"; "zernike"; "zernikeGQ";
     "zernikeTA"; "zernikeXYAberrations"; "doubleZernike"; "drdth"; "dthdr"; "exitPupilPos";
     "plotUtils"; "global_vars"; "rayVector"; "coordSys"; "coordTransform"; "surface"; "trace"; "medium";
     "obscuration"; "coating"; "optic"; "lattice"; "constants"; "analysis"; "psf"].
  Definition unmodelled_name (typ : string) : bool :=
    known_in typ module_names || negb (forallb plain_char (list_ascii_of_string typ))
    || String.prefix "_" typ.
  Fixpoint parse_surf (fuel : nat) (l : dict T) : res (psurf T) :=
    match fuel with
    | O => Err OutOfFuel
    | S fuel =>
        do tl <- need KeyError (pop "type" l);
        let '(t, l) := tl in
        do typ <- as_str t;
        if typ =? "Sum" then
          do c <- need KeyError (lookup "items" l);
          do cs <- as_seq c;
          do items <- mapM (fun c => do d <- as_dict c; parse_surf fuel d) cs;
          Ok (PySum items)
        else if known_in typ surf_names then simple_surf typ l
        else if unmodelled_name typ then Err TypeError
        else Err AttributeError
    end.
  Definition parse_surface (l : dict T) : res (psurf T) := parse_surf (ysize (YMap l)) l.

  (** RotX, RotY, RotZ (batoid/coordSys.py:4-16). *)
  Definition rotX (th : T) : mat3 T :=
    let s := nsin th in let c := ncos th in M3 n1 n0 n0 n0 c (nopp s) n0 s c.
  Definition rotY (th : T) : mat3 T :=
    let s := nsin th in let c := ncos th in M3 c n0 s n0 n1 n0 (nopp s) n0 c.
  Definition rotZ (th : T) : mat3 T :=
    let s := nsin th in let c := ncos th in M3 c (nopp s) n0 s c n0 n0 n0 n1.
  (** parse_coordSys (batoid/parse.py:39-59); other keys are ignored. *)
  Definition cs_entry (c : coordsys T) (kv : string * yaml T) : res (coordsys T) :=
    let (k, v) := kv in
    let turn r := do th <- num v; Ok (rotateLocal c (r th) vzero None) in
    if k =? "x" then do v <- num v; Ok (shiftLocal c (V3 v n0 n0))
    else if k =? "y" then do v <- num v; Ok (shiftLocal c (V3 n0 v n0))
    else if k =? "z" then do v <- num v; Ok (shiftLocal c (V3 n0 n0 v))
    else if k =? "shift" then
      do v <- nums v;
      match v with [x; y; z] => Ok (shiftLocal c (V3 x y z)) | _ => Err ValueError end
    else if k =? "rotX" then turn rotX
    else if k =? "rotY" then turn rotY
    else if k =? "rotZ" then turn rotZ
    else Ok c.
  Fixpoint parse_coordSys (l : dict T) (c : coordsys T) : res (coordsys T) :=
    match l with
    | [] => Ok c
    | kv :: l => do c <- cs_entry c kv; parse_coordSys l c
    end.

  (** parse_medium (batoid/parse.py:201-215); signatures batoid/medium.py:37, 81, 136-146,
      186-196, 242. *)
  Definition coef6 (names : list string) (l : dict T) : res (list T) :=
    if (List.length l =? 0)%nat then Err ValueError
    else mapM (fun k => do v <- need KeyError (lookup k l); num v) names.
  Definition medium_names : list string :=
    ["ConstMedium"; "TableMedium"; "SellmeierMedium"; "SumitaMedium"; "Air"].
  Definition simple_medium (typ : string) (l : dict T) : res (pmedium T) :=
    if typ =? "ConstMedium" then
      do a <- call [("n", None)] l;
      do v <- mapM num a;
      match v with [n] => Ok (PyConstMedium n) | _ => Err TypeError end
    else if typ =? "TableMedium" then
      do a <- call [("wavelengths", None); ("ns", None)] l;
      do v <- mapM nums a;
      match v with [w; n] => Ok (PyTableMedium w n) | _ => Err TypeError end
    else if typ =? "SellmeierMedium" then
      do v <- coef6 ["B1"; "B2"; "B3"; "C1"; "C2"; "C3"] l; Ok (PySellmeier v)
    else if typ =? "SumitaMedium" then
      do v <- coef6 ["A0"; "A1"; "A2"; "A3"; "A4"; "A5"] l; Ok (PySumita v)
    else
      do a <- call [("pressure", Some (YNum (nfrac 69328 1000)));
                    ("temperature", Some (YNum (nfrac 29315 100)));
                    ("h2o_pressure", Some (YNum (nfrac 1067 1000)))] l;
      do v <- mapM num a;
      match v with [p; t; h] => Ok (PyAir p t h) | _ => Err TypeError end.
  (** None is the Python value None. *)
  Definition parse_medium (c : yaml T) : res (option (medium T)) :=
    match c with
    | YNull => Ok None
    | YNum n => Ok (Some (ConstM n))
    | YInt z => Ok (Some (ConstM (nofZ z)))
    | YStr _ | YSeq _ => Err TypeError
    | YMap l =>
        do tl <- need KeyError (pop "type" l);
        let '(t, l) := tl in
        do typ <- as_str t;
        if known_in typ medium_names then
          do m <- simple_medium typ l;
          do m <- need TypeError (build_medium m);
          Ok (Some m)
        else if unmodelled_name typ then Err TypeError
        else Err AttributeError
    end.

  (** Medium.__eq__ on media as C++ sees them (see [medium_eq] in PyObj.v). *)
  Definition med_eq (a b : medium T) : bool :=
    match a, b with
    | ConstM x, ConstM y => neqb x y
    | TableM w n, TableM w' n' => eq_seq neqb w w' && eq_seq neqb n n'
    | SellmeierM a1 a2 a3 a4 a5 a6, SellmeierM b1 b2 b3 b4 b5 b6 =>
        eq_seq neqb [a1; a2; a3; a4; a5; a6] [b1; b2; b3; b4; b5; b6]
    | SumitaM a1 a2 a3 a4 a5 a6, SumitaM b1 b2 b3 b4 b5 b6 =>
        eq_seq neqb [a1; a2; a3; a4; a5; a6] [b1; b2; b3; b4; b5; b6]
    | AirM a1 a2 a3, AirM b1 b2 b3 => eq_seq neqb [a1; a2; a3] [b1; b2; b3]
    | _, _ => false
    end.
  Definition o_in (o : optic T) : medium T := match o with Iface i => i_in i | Compound a _ => c_in a end.
  Definition o_out (o : optic T) : medium T := match o with Iface i => i_out i | Compound a _ => c_out a end.

  (** surface = parse_surface(config.pop(k)). *)
  Definition surface_at (k : string) (l : dict T) : res (surface T) :=
    do c <- need KeyError (lookup k l);
    do d <- as_dict c;
    do s <- parse_surface d;
    need ValueError (build_surf galsim s).
  (** The five classes whose constructor gets obscuration and media. *)
  Definition iface_names : list string := ["Mirror"; "RefractiveInterface"; "OPDScreen"; "Baffle"; "Detector"].
  Definition iface_kind (typ : string) (l : dict T) : res (ikind T) :=
    if typ =? "Mirror" then Ok KMirror
    else if typ =? "RefractiveInterface" then Ok KRefractive
    else if typ =? "OPDScreen" then do s <- surface_at "screen" l; Ok (KScreen s)
    else if typ =? "Baffle" then Ok KBaffle
    else Ok KDetector.
  (** The default media of the constructors, batoid/constants.py vacuum. *)
  Definition vacuum : medium T := ConstM n1.

  (** parse_optic (batoid/parse.py:89-198). *)
  Fixpoint parse_opt (fuel : nat) (l : dict T) (cs : coordsys T) (inM : medium T)
      (outM : option (medium T)) : res (optic T) :=
    match fuel with
    | O => Err OutOfFuel
    | S fuel =>
        do ob <- match lookup "obscuration" l with
                 | Some c => do d <- as_dict c; do o <- parse_obscuration d; Ok (Some (build_obsc o))
                 | None => Ok None
                 end;
        do name <- match lookup "name" l with Some c => as_str c | None => Ok "" end;
        do cs <- match lookup "coordSys" l with
                 | Some c => do d <- as_dict c; parse_coordSys d cs
                 | None => Ok cs
                 end;
        do inM <- match lookup "inMedium" l with
                  | Some c => do m <- parse_medium c; need TypeError m
                  | None => Ok inM
                  end;
        do outM <- match lookup "outMedium" l with Some c => parse_medium c | None => Ok outM end;
        let outM := match outM with Some m => m | None => inM end in
        do stop <- match lookup "stopSurface" l with
                   | Some c => do d <- as_dict c;
                               do o <- parse_opt fuel d cs_default vacuum None;
                               match o with Iface i => Ok (Some i) | Compound _ _ => Err TypeError end
                   | None => Ok None
                   end;
        do t <- need KeyError (lookup "type" l);
        do typ <- as_str t;
        let sub inM outM c := do d <- as_dict c; parse_opt fuel d cs inM (Some outM) in
        if known_in typ iface_names then
          do s <- surface_at "surface" l;
          do k <- iface_kind typ l;
          if (typ =? "OPDScreen") && negb (med_eq inM outM) then Err AssertionError
          else Ok (Iface (mkIface k s name cs ob inM outM None None false))
        else if typ =? "Lens" then
          do c <- need KeyError (lookup "medium" l);
          do m <- parse_medium c;
          do m <- need TypeError m;
          do c <- need KeyError (lookup "items" l);
          do items <- as_seq c;
          do c0 <- need IndexError (nth_error items 0);
          do i0 <- sub inM m c0;
          do c1 <- need IndexError (nth_error items 1);
          do i1 <- sub m outM c1;
          if med_eq (o_out i0) (o_in i1)
          then mkCompound (CA true name cs inM outM false stop) [i0; i1]
          else Err AssertionError
        else if typ =? "CompoundOptic" then
          do c <- need KeyError (lookup "items" l);
          do items <- as_seq c;
          do items <- mapM (sub inM outM) items;
          mkCompound (CA false name cs inM outM false stop) items
        else if typ =? "Interface" then
          do s <- surface_at "surface" l;
          Ok (Iface (mkIface KInterface s name cs None vacuum vacuum None None false))
        else Err ValueError
    end.
  Definition parse_optic (l : dict T) (cs : coordsys T) (inM : medium T) (outM : option (medium T))
    : res (optic T) := parse_opt (ysize (YMap l)) l cs inM outM.
End Parse.
