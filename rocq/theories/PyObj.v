(** The Python-level objects with their ==, hash, pickle state and the C++ object
    behind them: batoid/surface.py, medium.py, obscuration.py, coordSys.py,
    coordTransform.py, coating.py, lattice.py and the Interface and CompoundOptic
    classes of optic.py.

    Numbers are values of a type [V] compared with [veq], whatever that is (for
    floats the IEEE ==; Python ints and floats together also fit).  Subclasses written
    by users are left out, so [isinstance] and [type(...) == type(...)] agree.  The
    identity shortcut of Python's tuple and list comparison (an object is taken to be
    equal to itself even if it is a NaN) is left out. *)
From Coq Require Import List ZArith Bool String Ascii.
From Verif Require Import Num Vec CoordSys Surface Bicubic Medium Obscuration Trig Optic.
Import ListNotations.
Local Open Scope list_scope.

(** A numpy array: its shape and its entries in row-major order (.ravel()). *)
Record nd (V : Type) := ND { nd_shape : list nat; nd_data : list V }.
Arguments ND {V}. Arguments nd_shape {V}. Arguments nd_data {V}.

(** The attributes set by the constructors: Plane 171, Tilted 197-200, Paraboloid
    237-239, Sphere 273-275, Quadric 319-322, Asphere 380-384, Zernike 463-470,
    Bicubic 539-571 (xs and ys are one-dimensional), Sum 686-692
    (batoid/surface.py). *)
Inductive psurf (V : Type) :=
| PyPlane
| PyTilted (tanx tany : V)
| PyParaboloid (R : V)
| PySphere (R : V)
| PyQuadric (R conic : V)
| PyAsphere (R conic : V) (coefs : list V) (imin : Z)
| PyZernike (coef : list V) (R_outer R_inner x_origin y_origin : V)
| PyBicubic (xs ys : list V) (zs dzdxs dzdys d2zdxdys : nd V) (nanpolicy : string)
| PySum (surfaces : list (psurf V)).
Arguments PyPlane {V}. Arguments PyTilted {V}. Arguments PyParaboloid {V}. Arguments PySphere {V}.
Arguments PyQuadric {V}. Arguments PyAsphere {V}. Arguments PyZernike {V}. Arguments PyBicubic {V}.
Arguments PySum {V}.

(** batoid/medium.py: 38-39, 82-83, 137-151, 187-201, 243-246.  Sellmeier and Sumita
    keep their coefficients as a tuple. *)
Inductive pmedium (V : Type) :=
| PyConstMedium (n : V)
| PyTableMedium (wavelengths ns : list V)
| PySellmeier (coefs : list V)
| PySumita (coefs : list V)
| PyAir (pressure temperature h2o_pressure : V).
Arguments PyConstMedium {V}. Arguments PyTableMedium {V}. Arguments PySellmeier {V}.
Arguments PySumita {V}. Arguments PyAir {V}.

(** batoid/obscuration.py: 58-61, 103-107, 153-158, 209-213, 258-260, 313-314,
    366-386, 448-468.  The items of unions and intersections are stored sorted, see
    [mk_union]. *)
Inductive pobsc (V : Type) :=
| PyCircle (radius x y : V)
| PyAnnulus (inner outer x y : V)
| PyRectangle (width height x y theta : V)
| PyRay (width theta x y : V)
| PyPolygon (xs ys : list V)
| PyNegation (original : pobsc V)
| PyUnion (items : list (pobsc V))
| PyIntersection (items : list (pobsc V)).
Arguments PyCircle {V}. Arguments PyAnnulus {V}. Arguments PyRectangle {V}. Arguments PyRay {V}.
Arguments PyPolygon {V}. Arguments PyNegation {V}. Arguments PyUnion {V}. Arguments PyIntersection {V}.

(** batoid/optic.py: the classes with [Interface.__eq__], OPDScreen with its screen. *)
Inductive pclass (V : Type) :=
| PyInterface | PyRefractive | PyMirror | PyDetector | PyBaffle | PyScreen (screen : psurf V).
Arguments PyInterface {V}. Arguments PyRefractive {V}. Arguments PyMirror {V}.
Arguments PyDetector {V}. Arguments PyBaffle {V}. Arguments PyScreen {V}.
(** self.__class__.__name__ *)
Definition class_name {V} (c : pclass V) : string :=
  match c with
  | PyInterface => "Interface" | PyRefractive => "RefractiveInterface" | PyMirror => "Mirror"
  | PyDetector => "Detector" | PyBaffle => "Baffle" | PyScreen _ => "OPDScreen"
  end%string.

Record pface (V : Type) := PF {
  pf_class : pclass V; pf_surf : psurf V; pf_obsc : option (pobsc V); pf_name : string;
  pf_in : pmedium V; pf_out : pmedium V; pf_cs : coordsys V;
  pf_fwd : option (coating V); pf_rev : option (coating V); pf_skip : bool }.
Arguments PF {V}. Arguments pf_class {V}. Arguments pf_surf {V}. Arguments pf_obsc {V}.
Arguments pf_name {V}. Arguments pf_in {V}. Arguments pf_out {V}. Arguments pf_cs {V}.
Arguments pf_fwd {V}. Arguments pf_rev {V}. Arguments pf_skip {V}.

Inductive poptic (V : Type) :=
| PyFace (f : pface V)
| PyCompound (lens : bool) (name : string) (inM outM : pmedium V) (cs : coordsys V)
             (items : list (poptic V)).
Arguments PyFace {V}. Arguments PyCompound {V}.

(** str.upper() on ASCII letters. *)
Definition upper_ascii (c : ascii) : ascii :=
  let n := nat_of_ascii c in
  if (97 <=? n)%nat && (n <=? 122)%nat then ascii_of_nat (n - 32) else c.
Fixpoint upper (s : string) : string :=
  match s with EmptyString => EmptyString | String c s => String (upper_ascii c) (upper s) end.

Section Eq.
  Context {V : Type} (veq : V -> V -> bool).

  (** Elementwise comparison of two sequences of equal length. *)
  Definition eq_seq {A} (f : A -> A -> bool) : list A -> list A -> bool :=
    fix go l m :=
      match l, m with
      | [], [] => true
      | a :: l, b :: m => f a b && go l m
      | _, _ => false
      end.
  Definition shape_eq (a b : list nat) : bool := eq_seq Nat.eqb a b.
  (** np.array_equal: same shape and all entries ==. *)
  Definition array_equal (a b : nd V) : bool :=
    shape_eq (nd_shape a) (nd_shape b) && eq_seq veq (nd_data a) (nd_data b).
  (** np.array_equal of one-dimensional arrays or lists. *)
  Definition array_equal1 (l m : list V) : bool := eq_seq veq l m.

  (** Surface.__eq__: batoid/surface.py:183-184, 212-214, 250-252, 286-288, 333-336,
      416-422, 499-505, 644-654, 705-707. *)
  Fixpoint surf_eq (a b : psurf V) {struct a} : bool :=
    match a, b with
    | PyPlane, PyPlane => true
    | PyTilted a1 a2, PyTilted b1 b2 => veq a1 b1 && veq a2 b2
    | PyParaboloid a1, PyParaboloid b1 => veq a1 b1
    | PySphere a1, PySphere b1 => veq a1 b1
    | PyQuadric a1 a2, PyQuadric b1 b2 => veq a1 b1 && veq a2 b2
    | PyAsphere a1 a2 la ia, PyAsphere b1 b2 lb ib =>
        veq a1 b1 && veq a2 b2 && array_equal1 la lb && (ia =? ib)%Z
    | PyZernike la a1 a2 a3 a4, PyZernike lb b1 b2 b3 b4 =>
        array_equal1 la lb && veq a1 b1 && veq a2 b2 && veq a3 b3 && veq a4 b4
    | PyBicubic xa ya za dxa dya ca pa, PyBicubic xb yb zb dxb dyb cb pb =>
        array_equal1 xa xb && array_equal1 ya yb && array_equal za zb
        && array_equal dxa dxb && array_equal dya dyb && array_equal ca cb
        && String.eqb (upper pa) (upper pb)
    | PySum la, PySum lb => eq_seq surf_eq la lb
    | _, _ => false
    end.

  (** Medium.__eq__: batoid/medium.py:42-45, 101-107, 154-157, 204-207, 249-256. *)
  Definition medium_eq (a b : pmedium V) : bool :=
    match a, b with
    | PyConstMedium a1, PyConstMedium b1 => veq a1 b1
    | PyTableMedium wa na, PyTableMedium wb nb => array_equal1 wa wb && array_equal1 na nb
    | PySellmeier la, PySellmeier lb => eq_seq veq la lb
    | PySumita la, PySumita lb => eq_seq veq la lb
    | PyAir a1 a2 a3, PyAir b1 b2 b3 => veq a1 b1 && veq a2 b2 && veq a3 b3
    | _, _ => false
    end.

  (** CoordSys.__eq__: batoid/coordSys.py:186-191. *)
  Definition vec_list (v : vec3 V) : list V := [cx v; cy v; cz v].
  Definition mat_list (m : mat3 V) : list V :=
    [m00 m; m01 m; m02 m; m10 m; m11 m; m12 m; m20 m; m21 m; m22 m].
  Definition cs_eq (a b : coordsys V) : bool :=
    array_equal1 (vec_list (origin a)) (vec_list (origin b))
    && array_equal1 (mat_list (rot a)) (mat_list (rot b)).
  (** CoordTransform.__eq__: batoid/coordTransform.py:28-33; a transform is the pair
      (fromSys, toSys). *)
  Definition ct_eq (a b : coordsys V * coordsys V) : bool :=
    cs_eq (fst a) (fst b) && cs_eq (snd a) (snd b).
  (** SimpleCoating.__eq__: batoid/coating.py:88-93. *)
  Definition coating_eq (a b : coating V) : bool :=
    veq (reflectivity a) (reflectivity b) && veq (transmissivity a) (transmissivity b).
  (** Lattice.__eq__: batoid/lattice.py:65-70; a lattice is (array, primitiveVectors). *)
  Definition lattice_eq (a b : nd V * nd V) : bool :=
    array_equal (fst a) (fst b) && array_equal (snd a) (snd b).

  (** [a and b] where evaluating either may raise. *)
  Definition rand (a : res bool) (b : res bool) : res bool :=
    match a with Ok true => b | Ok false => Ok false | Err e => Err e end.
  (** Comparison of two Python sequences item by item, stopping at the first
      difference. *)
  Definition req_seq {A} (f : A -> A -> res bool) : list A -> list A -> res bool :=
    fix go l m :=
      match l, m with
      | [], [] => Ok true
      | a :: l, b :: m => rand (f a b) (go l m)
      | _, _ => Ok false
      end.
  (** Lists of different lengths differ without comparing items; tuples compare items
      first. *)
  Definition list_eq {A} (f : A -> A -> res bool) (l m : list A) : res bool :=
    if (List.length l =? List.length m)%nat then req_seq f l m else Ok false.

  (** np.all(l == m) of one-dimensional arrays: a length of 1 is stretched to the other
      length; otherwise different lengths raise ValueError (numpy 1.25 and later;
      earlier versions answer False). *)
  Definition all_eq (l m : list V) : res bool :=
    match l, m with
    | [a], _ => Ok (forallb (fun b => veq a b) m)
    | _, [b] => Ok (forallb (fun a => veq a b) l)
    | _, _ => if (List.length l =? List.length m)%nat then Ok (eq_seq veq l m) else Err ValueError
    end.

  (** Obscuration.__eq__: batoid/obscuration.py:64-71, 110-118, 162-171, 217-225,
      268-274, 317-320, 389-392, 471-474. *)
  Fixpoint obsc_eq (a b : pobsc V) {struct a} : res bool :=
    match a, b with
    | PyCircle a1 a2 a3, PyCircle b1 b2 b3 => Ok (veq a1 b1 && veq a2 b2 && veq a3 b3)
    | PyAnnulus a1 a2 a3 a4, PyAnnulus b1 b2 b3 b4 =>
        Ok (veq a1 b1 && veq a2 b2 && veq a3 b3 && veq a4 b4)
    | PyRectangle a1 a2 a3 a4 a5, PyRectangle b1 b2 b3 b4 b5 =>
        Ok (veq a1 b1 && veq a2 b2 && veq a3 b3 && veq a4 b4 && veq a5 b5)
    | PyRay a1 a2 a3 a4, PyRay b1 b2 b3 b4 =>
        Ok (veq a1 b1 && veq a2 b2 && veq a3 b3 && veq a4 b4)
    | PyPolygon xa ya, PyPolygon xb yb => rand (all_eq xa xb) (all_eq ya yb)
    | PyNegation oa, PyNegation ob => obsc_eq oa ob
    | PyUnion la, PyUnion lb => list_eq obsc_eq la lb
    | PyIntersection la, PyIntersection lb => list_eq obsc_eq la lb
    | _, _ => Ok false
    end.

  (** Interface.__eq__ (batoid/optic.py:548-558) and OPDScreen.__eq__ (908-911).
      Coatings and the skip flag are not compared. *)
  Definition oobsc_eq (a b : option (pobsc V)) : res bool :=
    match a, b with None, None => Ok true | Some a, Some b => obsc_eq a b | _, _ => Ok false end.
  Definition screen_eq (a b : pclass V) : bool :=
    match a, b with PyScreen sa, PyScreen sb => surf_eq sa sb | _, _ => true end.
  Definition face_eq (a b : pface V) : res bool :=
    if negb (String.eqb (class_name (pf_class a)) (class_name (pf_class b))) then Ok false else
    rand (Ok (surf_eq (pf_surf a) (pf_surf b)))
   (rand (oobsc_eq (pf_obsc a) (pf_obsc b))
   (rand (Ok (String.eqb (pf_name a) (pf_name b)))
   (rand (Ok (medium_eq (pf_in a) (pf_in b)))
   (rand (Ok (medium_eq (pf_out a) (pf_out b)))
   (rand (Ok (cs_eq (pf_cs a) (pf_cs b)))
         (Ok (screen_eq (pf_class a) (pf_class b)))))))).
  (** CompoundOptic.__eq__ (batoid/optic.py:1333-1340); items are a tuple. *)
  Fixpoint optic_eq (a b : poptic V) {struct a} : res bool :=
    match a, b with
    | PyFace fa, PyFace fb => face_eq fa fb
    | PyCompound ka na ia oa ca la, PyCompound kb nb ib ob cb lb =>
        if negb (Bool.eqb ka kb) then Ok false else
        rand (req_seq optic_eq la lb)
       (rand (Ok (String.eqb na nb))
       (rand (Ok (medium_eq ia ib))
       (rand (Ok (medium_eq oa ob))
             (Ok (cs_eq ca cb)))))
    | _, _ => Ok false
    end.
End Eq.

(** Python's hash on the values that occur inside the tuples: numbers, integers,
    strings, None, and tuples of things whose hashes are given. *)
Record hasher (V : Type) := Hasher {
  h_num : V -> Z; h_int : Z -> Z; h_str : string -> Z; h_none : Z; h_tup : list Z -> Z }.
Arguments Hasher {V}. Arguments h_num {V}. Arguments h_int {V}. Arguments h_str {V}.
Arguments h_none {V}. Arguments h_tup {V}.

Section Hash.
  Context {V : Type} (H : hasher V).
  Local Open Scope string_scope.

  (** hash of a tuple of numbers. *)
  Definition h_nums (l : list V) : Z := h_tup H (map (h_num H) l).

  (** batoid/surface.py:174-175, 202-203, 241-242, 277-278, 324-325, 401-408, 485-491,
      610-615, 696-697. *)
  Fixpoint surf_hash (s : psurf V) : Z :=
    match s with
    | PyPlane => h_str H "batoid.Plane"
    | PyTilted a b => h_tup H [h_str H "batoid.Tilted"; h_num H a; h_num H b]
    | PyParaboloid a => h_tup H [h_str H "batoid.Paraboloid"; h_num H a]
    | PySphere a => h_tup H [h_str H "batoid.Sphere"; h_num H a]
    | PyQuadric a b => h_tup H [h_str H "batoid.Quadric"; h_num H a; h_num H b]
    | PyAsphere a b l i =>
        h_tup H [h_str H "batoid.Asphere"; h_num H a; h_num H b; h_nums l; h_int H i]
    | PyZernike l a b c d =>
        h_tup H [h_str H "batoid.Zernike"; h_nums l; h_num H a; h_num H b; h_num H c; h_num H d]
    | PyBicubic xs ys zs zx zy zxy p =>
        h_tup H [h_str H "Bicubic"; h_nums xs; h_nums ys; h_nums (nd_data zs);
                 h_nums (nd_data zx); h_nums (nd_data zy); h_nums (nd_data zxy); h_str H p]
    | PySum l => h_tup H [h_str H "batoid.Sum"; h_tup H (map surf_hash l)]
    end.
  (** batoid/medium.py:54-55, 115-118, 166-167, 216-217, 267-270. *)
  Definition medium_hash (m : pmedium V) : Z :=
    match m with
    | PyConstMedium n => h_tup H [h_str H "batoid.ConstMedium"; h_num H n]
    | PyTableMedium w n => h_tup H [h_str H "batoid.TableMedium"; h_nums w; h_nums n]
    | PySellmeier l => h_tup H [h_str H "batoid.SellmeierMedium"; h_nums l]
    | PySumita l => h_tup H [h_str H "batoid.SumitaMedium"; h_nums l]
    | PyAir p t h => h_tup H [h_str H "batoid.Air"; h_num H p; h_num H t; h_num H h]
    end.
  (** batoid/coordSys.py:196-201. *)
  Definition cs_hash (c : coordsys V) : Z :=
    h_tup H [h_str H "batoid.CoordSys"; h_nums (vec_list (origin c)); h_nums (mat_list (rot c))].
  (** batoid/coordTransform.py:118-119. *)
  Definition ct_hash (c : coordsys V * coordsys V) : Z :=
    h_tup H [h_str H "CoordTransform"; cs_hash (fst c); cs_hash (snd c)].
  (** batoid/coating.py:101-102. *)
  Definition coating_hash (c : coating V) : Z :=
    h_tup H [h_str H "SimpleCoating"; h_num H (reflectivity c); h_num H (transmissivity c)].
  (** batoid/lattice.py:72-77. *)
  Definition lattice_hash (l : nd V * nd V) : Z :=
    h_tup H [h_str H "Lattice"; h_nums (nd_data (fst l)); h_nums (nd_data (snd l))].
  (** batoid/obscuration.py:80-81, 127-130, 180-184, 234-238, 282-287, 328-332, 400-404,
      482-486. *)
  Fixpoint obsc_hash (o : pobsc V) : Z :=
    match o with
    | PyCircle a b c => h_tup H [h_str H "batoid.ObscCircle"; h_num H a; h_num H b; h_num H c]
    | PyAnnulus a b c d =>
        h_tup H [h_str H "batoid.ObscAnnulus"; h_num H a; h_num H b; h_num H c; h_num H d]
    | PyRectangle a b c d e =>
        h_tup H [h_str H "batoid.ObscRectangle"; h_num H a; h_num H b; h_num H c; h_num H d; h_num H e]
    | PyRay a b c d =>
        h_tup H [h_str H "batoid.ObscRay"; h_num H a; h_num H b; h_num H c; h_num H d]
    | PyPolygon xs ys => h_tup H [h_str H "batoid.ObscPolygon"; h_nums xs; h_nums ys]
    | PyNegation o => h_tup H [h_str H "batoid.ObscNegation"; obsc_hash o]
    | PyUnion l => h_tup H [h_str H "batoid.ObscUnion"; h_tup H (map obsc_hash l)]
    | PyIntersection l => h_tup H [h_str H "batoid.ObscIntersection"; h_tup H (map obsc_hash l)]
    end.
  (** batoid/optic.py:142-144, 902-906, 1354-1356. *)
  Definition face_hash (f : pface V) : Z :=
    let h := h_tup H [h_str H (class_name (pf_class f)); surf_hash (pf_surf f);
                      match pf_obsc f with Some o => obsc_hash o | None => h_none H end;
                      h_str H (pf_name f); medium_hash (pf_in f); medium_hash (pf_out f);
                      cs_hash (pf_cs f)] in
    match pf_class f with PyScreen s => h_tup H [h_int H h; surf_hash s] | _ => h end.
  Fixpoint optic_hash (o : poptic V) : Z :=
    match o with
    | PyFace f => face_hash f
    | PyCompound k n i u c l =>
        h_tup H [h_str H (if k then "Lens" else "CompoundOptic"); h_tup H (map optic_hash l);
                 h_str H n; medium_hash i; medium_hash u; cs_hash c]
    end.
End Hash.

(** sorted(items, key=repr): a stable sort by the printed form (batoid/obscuration.py:
    385, 467).  [rep] is repr. *)
Section Sorting.
  Context {A : Type} (rep : A -> string).
  Fixpoint insert (a : A) (l : list A) : list A :=
    match l with
    | [] => [a]
    | b :: m => if String.leb (rep a) (rep b) then a :: l else b :: insert a m
    end.
  Fixpoint sorted (l : list A) : list A :=
    match l with [] => [] | a :: l => insert a (sorted l) end.
End Sorting.
(** ObscUnion(items), ObscIntersection(items) with a list or several arguments, all
    obscurations (batoid/obscuration.py:366-386, 448-468).  ObscUnion() with no argument
    raises ValueError; an empty list is accepted. *)
Definition mk_union {V} (rep : pobsc V -> string) (items : list (pobsc V)) : pobsc V :=
  PyUnion (sorted rep items).
Definition mk_intersection {V} (rep : pobsc V -> string) (items : list (pobsc V)) : pobsc V :=
  PyIntersection (sorted rep items).

(** Obscuration.__repr__: batoid/obscuration.py:83-88, 132-137, 186-193, 240-245,
    289-290, 334-335, 406-411, 488-493.  [str] prints a number, [arr] a numpy array,
    [zero] is the test == 0.  The repr of an empty union raises IndexError; here the
    list is printed empty. *)
Section Repr.
  Context {V : Type} (str : V -> string) (arr : list V -> string) (zero : V -> bool).
  Local Open Scope string_scope.
  Fixpoint obsc_repr (o : pobsc V) : string :=
    let xy x y := if negb (zero x) || negb (zero y) then ", " ++ str x ++ ", " ++ str y else "" in
    match o with
    | PyCircle r x y => "ObscCircle(" ++ str r ++ xy x y ++ ")"
    | PyAnnulus i u x y => "ObscAnnulus(" ++ str i ++ ", " ++ str u ++ xy x y ++ ")"
    | PyRectangle w h x y th =>
        "ObscRectangle(" ++ str w ++ ", " ++ str h ++ xy x y ++
        (if negb (zero th) then ", theta=" ++ str th else "") ++ ")"
    | PyRay w th x y => "ObscRay(" ++ str w ++ ", " ++ str th ++ xy x y ++ ")"
    | PyPolygon xs ys => "ObscPolygon(" ++ arr xs ++ ", " ++ arr ys ++ ")"
    | PyNegation o => "ObscNegation(" ++ obsc_repr o ++ ")"
    | PyUnion l => "ObscUnion(" ++ String.concat ", " (map obsc_repr l) ++ ")"
    | PyIntersection l => "ObscIntersection(" ++ String.concat ", " (map obsc_repr l) ++ ")"
    end.
End Repr.

(** The C++ object the constructor makes. *)
Section Build.
  Context {T : Type} {NT : Num T} {TT : Trig T}.
  (** galsim's conversion of annular Zernike coefficients to x-y polynomials (batoid/
      surface.py:471-483): coefficient arrays of the polynomial and its two derivatives
      and the sizes.  Not modelled: an arbitrary function. *)
  Context (galsim : list T -> T -> T -> list T * list T * list T * nat * nat).

  (** The lines that set self._surface.  None: Asphere rejects the index. *)
  Fixpoint build_surf (s : psurf T) : option (surface T) :=
    match s with
    | PyPlane => Some Plane
    | PyTilted a b => Some (Tilted a b)
    | PyParaboloid a => Some (Paraboloid a)
    | PySphere a => Some (Sphere a)
    | PyQuadric a b => Some (Quadric a b)
    | PyAsphere a b l i => mkAsphere a b l i
    | PyZernike l a b c d =>
        let '(p, px, py, nx, ny) := galsim l a b in Some (Poly p px py c d nx ny)
    | PyBicubic xs ys zs zx zy zxy p =>
        Some (mkBicubic xs ys (nd_data zs) (Some (nd_data zx)) (Some (nd_data zy))
                        (Some (nd_data zxy)) (String.eqb (upper p) "NAN"))
    | PySum l =>
        match (fix go l := match l with
                           | [] => Some []
                           | s :: l => match build_surf s, go l with
                                       | Some s, Some l => Some (s :: l) | _, _ => None end
                           end) l with
        | Some l => Some (Sum l) | None => None
        end
    end.
  (** The lines that set self._medium.  None: not six coefficients (TypeError). *)
  Definition build_medium (m : pmedium T) : option (medium T) :=
    match m with
    | PyConstMedium n => Some (ConstM n)
    | PyTableMedium w n => Some (TableM w n)
    | PySellmeier [a; b; c; d; e; f] => Some (SellmeierM a b c d e f)
    | PySellmeier _ => None
    | PySumita [a; b; c; d; e; f] => Some (SumitaM a b c d e f)
    | PySumita _ => None
    | PyAir p t h => Some (AirM p t h)
    end.
  (** The lines that set self._obsc; src/obscuration.cpp:112, 150 for the sine and
      cosine.  A polygon takes as many vertices as xs has entries. *)
  Fixpoint build_obsc (o : pobsc T) : obsc T :=
    match o with
    | PyCircle r x y => ObscCircle r x y
    | PyAnnulus i u x y => ObscAnnulus i u x y
    | PyRectangle w h x y th => ObscRectangle w h x y (nsin th) (ncos th)
    | PyRay w th x y => ObscRay w x y (nsin th) (ncos th)
    | PyPolygon xs ys => ObscPolygon (combine xs ys)
    | PyNegation o => ObscNegation (build_obsc o)
    | PyUnion l => ObscUnion (map build_obsc l)
    | PyIntersection l => ObscIntersection (map build_obsc l)
    end.
  (** An Interface as [Optic.v] sees it. *)
  Definition build_face (f : pface T) : option (iface T) :=
    match match pf_class f with
          | PyInterface => Some KInterface | PyRefractive => Some KRefractive
          | PyMirror => Some KMirror | PyDetector => Some KDetector | PyBaffle => Some KBaffle
          | PyScreen s => option_map KScreen (build_surf s)
          end, build_surf (pf_surf f), build_medium (pf_in f), build_medium (pf_out f) with
    | Some k, Some s, Some mi, Some mo =>
        Some (IF k s (pf_name f) (pf_cs f) (option_map build_obsc (pf_obsc f)) mi mo
                 (pf_fwd f) (pf_rev f) (pf_skip f))
    | _, _, _, _ => None
    end.
End Build.

(** Pickling: what __getstate__ returns and what __setstate__ makes of it. *)
Inductive pyval (V : Type) :=
| VNum (v : V) | VInt (z : Z) | VStr (s : string) | VArr (a : nd V)
| VSurf (s : psurf V) | VObsc (o : pobsc V) | VTup (l : list (pyval V)).
Arguments VNum {V}. Arguments VInt {V}. Arguments VStr {V}. Arguments VArr {V}.
Arguments VSurf {V}. Arguments VObsc {V}. Arguments VTup {V}.

Section Pickle.
  Context {V : Type}.
  Definition varr1 (l : list V) : pyval V := VArr (ND [List.length l] l).
  Definition num_of (v : pyval V) : option V := match v with VNum a => Some a | _ => None end.
  Definition nums_of (v : pyval V) : option (list V) :=
    match v with VArr a => Some (nd_data a) | _ => None end.
  Definition surfs_of (l : list (pyval V)) : option (list (psurf V)) :=
    fold_right (fun v acc => match v, acc with VSurf s, Some l => Some (s :: l) | _, _ => None end)
               (Some []) l.
  Definition obscs_of (l : list (pyval V)) : option (list (pobsc V)) :=
    fold_right (fun v acc => match v, acc with VObsc s, Some l => Some (s :: l) | _, _ => None end)
               (Some []) l.

  (** __getstate__: batoid/surface.py:180-181, 209-210, 247-248, 283-284, 330-331,
      413-414, 496-497, 638-642, 702-703. *)
  Definition surf_state (s : psurf V) : pyval V :=
    match s with
    | PyPlane => VTup []
    | PyTilted a b => VTup [VNum a; VNum b]
    | PyParaboloid a => VNum a
    | PySphere a => VNum a
    | PyQuadric a b => VTup [VNum a; VNum b]
    | PyAsphere a b l i => VTup [VNum a; VNum b; varr1 l; VInt i]
    | PyZernike l a b c d => VTup [varr1 l; VNum a; VNum b; VNum c; VNum d]
    | PyBicubic xs ys zs zx zy zxy p =>
        VTup [varr1 xs; varr1 ys; VArr zs; VArr zx; VArr zy; VArr zxy; VStr p]
    | PySum l => VTup (map VSurf l)
    end.
  (** __setstate__ of the class of [s] on a state: 177-178, 205-207, 244-245, 280-281,
      327-328, 410-411, 493-494, 617-636, 699-700.  Only the class of [s] is used.
      None: an exception. *)
  Definition surf_unstate (s : psurf V) (st : pyval V) : option (psurf V) :=
    match s, st with
    | PyPlane, _ => Some PyPlane
    | PyTilted _ _, VTup [VNum a; VNum b] => Some (PyTilted a b)
    | PyParaboloid _, VNum a => Some (PyParaboloid a)
    | PySphere _, VNum a => Some (PySphere a)
    | PyQuadric _ _, VTup [VNum a; VNum b] => Some (PyQuadric a b)
    | PyAsphere _ _ _ _, VTup [VNum a; VNum b; VArr l; VInt i] =>
        if (i <=? 0)%Z then None else Some (PyAsphere a b (nd_data l) i)
    | PyZernike _ _ _ _ _, VTup [VArr l; VNum a; VNum b; VNum c; VNum d] =>
        Some (PyZernike (nd_data l) a b c d)
    | PyBicubic _ _ _ _ _ _ _, VTup [VArr xs; VArr ys; VArr zs; VArr zx; VArr zy; VArr zxy; VStr p] =>
        Some (PyBicubic (nd_data xs) (nd_data ys) zs zx zy zxy p)
    | PySum _, VTup l => option_map PySum (surfs_of l)
    | _, _ => None
    end.

  (** batoid/obscuration.py:73-78, 120-125, 173-178, 227-232, 276-280, 322-326, 394-398,
      476-480. *)
  Definition obsc_state (o : pobsc V) : pyval V :=
    match o with
    | PyCircle a b c => VTup [VNum a; VNum b; VNum c]
    | PyAnnulus a b c d => VTup [VNum a; VNum b; VNum c; VNum d]
    | PyRectangle a b c d e => VTup [VNum a; VNum b; VNum c; VNum d; VNum e]
    | PyRay a b c d => VTup [VNum a; VNum b; VNum c; VNum d]
    | PyPolygon xs ys => VTup [varr1 xs; varr1 ys]
    | PyNegation o => VObsc o
    | PyUnion l => VTup (map VObsc l)
    | PyIntersection l => VTup (map VObsc l)
    end.
  Definition obsc_unstate (rep : pobsc V -> string) (o : pobsc V) (st : pyval V) : option (pobsc V) :=
    match o, st with
    | PyCircle _ _ _, VTup [VNum a; VNum b; VNum c] => Some (PyCircle a b c)
    | PyAnnulus _ _ _ _, VTup [VNum a; VNum b; VNum c; VNum d] => Some (PyAnnulus a b c d)
    | PyRectangle _ _ _ _ _, VTup [VNum a; VNum b; VNum c; VNum d; VNum e] =>
        Some (PyRectangle a b c d e)
    | PyRay _ _ _ _, VTup [VNum a; VNum b; VNum c; VNum d] => Some (PyRay a b c d)
    | PyPolygon _ _, VTup [VArr xs; VArr ys] => Some (PyPolygon (nd_data xs) (nd_data ys))
    | PyNegation _, VObsc o => Some (PyNegation o)
    | PyUnion _, VTup l => option_map (mk_union rep) (obscs_of l)
    | PyIntersection _, VTup l => option_map (mk_intersection rep) (obscs_of l)
    | _, _ => None
    end.
End Pickle.
