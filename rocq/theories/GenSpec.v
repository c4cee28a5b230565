(** Specification vocabulary for the ray generators. *)
From Coq Require Import Reals String List ZArith.
From Verif Require Import Num NumR Vec CoordSys Surface Medium Ray Bundle Spec OpticsSpec RayGen.
Import ListNotations.
Open Scope R_scope.

(** The value an argument takes: what the caller passed, else what the optic says (when an
    optic is passed), else the documented default. *)
Inductive chosen {A} (arg : option A) (optic_says : option (option A)) (default : A) : A -> Prop :=
| by_argument a : arg = Some a -> chosen arg optic_says default a
| by_optic a : arg = None -> optic_says = Some (Some a) -> chosen arg optic_says default a
| by_default : arg = None -> optic_says = None -> chosen arg optic_says default default.

(** What the generators share: distance backDist, direction d (not necessarily of length 1)
    and frame F of the rays, index n, wavelength w; stop surface s in the frame S. *)
Record beam := Beam {
  b_dist : R; b_dir : vR; b_frame : frame; b_n : R; b_w : R;
  b_surf : surface XR; b_sframe : frame }.

(** The ray r belongs to the plane wave of the beam and is aimed at the point (x, y) of the
    stop surface. *)
Definition aimed (b : beam) (x y : R) (r : ray R) : Prop :=
  timesR (b_n b) (vel r) = unitR (b_dir b) /\
  time r = 0 /\ wavelength r = b_w b /\ vignetted r = false /\ failed r = false /\
  dotR (pos r) (unitR (b_dir b)) = - b_dist b /\
  exists t z, sag (b_surf b) (Fin x) (Fin y) = Fin z /\
    global_point (b_frame b) (on_line (pos r) (vel r) t) = global_point (b_sframe b) (V3 x y z).

(** The bundle consists of one such ray per requested point, in order, with these fluxes. *)
Definition plane_wave (b : beam) (fluxes : list R) (xys : list (R * R)) (rv : rayvec XR) : Prop :=
  exists rs, rv = Frv (RV rs (b_frame b)) /\ length rs = length xys /\ map flux rs = fluxes /\
    forall i x y r, nth_error xys i = Some (x, y) -> nth_error rs i = Some r -> aimed b x y r.

(** Conditions on a beam: proper frames, positive index, a direction that is not along x, and a
    stop surface defined at every requested point. *)
Definition proper (b : beam) (xys : list (R * R)) : Prop :=
  good_frame (b_frame b) /\ good_frame (b_sframe b) /\ 0 < b_n b /\
  (cy (b_dir b) <> 0 \/ cz (b_dir b) <> 0) /\
  Forall (fun p => exists z, sag (b_surf b) (Fin (fst p)) (Fin (snd p)) = Fin z) xys.

(** The beam that the arguments describe.  [strict]: an optic without a stopSurface attribute
    is an error. *)
Definition says (g : gen XR) {A} (f : oattr XR -> option A) : option (option A) :=
  match g_optic g with None => None | Some o => Some (f o) end.
Definition direction_of (a : dirarg XR) (d : vR) : Prop :=
  match a with
  | DirCos v => v = F3 d
  | FieldAngle u v p => Field.fieldToDirCos u v p = Optic.Ok (Fin (cx d), Fin (cy d), Fin (cz d))
  end.
Definition describes (strict : bool) (g : gen XR) (b : beam) : Prop :=
  chosen (g_backDist g) (says g oa_backDist) (Fin 40) (Fin (b_dist b)) /\
  (exists m, chosen (g_medium g) (says g (fun o => Some (oa_in o))) (ConstM (Fin 1)) m /\
             getN m (Fin (b_w b)) = Fin (b_n b)) /\
  (chosen (g_stop g) (says g oa_stop) (Plane, Fcs (CS (V3 0 0 0) eyeR)) (b_surf b, Fcs (b_sframe b)) \/
   strict = false /\ g_stop g = None /\ says g oa_stop = Some None /\
   b_surf b = Plane /\ b_sframe b = CS (V3 0 0 0) eyeR) /\
  chosen (g_cs g) (says g (fun o => Some (oa_cs o))) (Fcs (CS (V3 0 0 0) eyeR)) (Fcs (b_frame b)) /\
  direction_of (g_dir g) (b_dir b) /\
  g_wavelength g = Some (Fin (b_w b)).

(** ** Grids *)
(** n by m points, n per row, spacing sx and sy, row-major, the point number (n div 2, m div 2)
    at the centre. *)
Definition grid_points (n m : nat) (sx sy : R) : list (R * R) :=
  flat_map (fun j => map (fun i => ((INR i - INR (n / 2)) * sx, (INR j - INR (m / 2)) * sy)) (seq 0 n))
           (seq 0 m).
(** The spacing of n points that span the length l: the last point is l/2 from the centre.  An
    even grid has one more point on the negative side. *)
Definition spacing_of (n : nat) (l : R) : R :=
  match n with
  | 0 | 1 | 2 => l / INR n
  | _ => l / INR (n - (if Nat.even n then 2 else 1))
  end.
(** An optional second argument that defaults to the first. *)
Definition given {A} (arg : option A) (first second : A) : Prop :=
  arg = Some second \/ arg = None /\ second = first.
(** n is the even number of points that fit the length l with spacing about d. *)
Definition fits (l d : R) (n : nat) : Prop :=
  exists k, n = (2 * k + 2)%nat /\ INR (2 * k) <= l / d + 1 / 10 < INR (2 * k) + 2.
(** What is asked for with scalar sizes, exactly two of nx, dx, lx: n by m points with
    spacings sx and sy. *)
Inductive asks (nx ny : option Z) (dx dy lx ly : option (size XR)) : nat -> nat -> R -> R -> Prop :=
| by_number_and_spacing n m d e :
    nx = Some (Z.of_nat n) -> given ny (Z.of_nat n) (Z.of_nat m) -> (1 <= n)%nat -> (1 <= m)%nat ->
    n <> 2%nat -> m <> 2%nat ->
    dx = Some (Sc (Fin d)) -> given dy (Sc (Fin d)) (Sc (Fin e)) -> lx = None ->
    asks nx ny dx dy lx ly n m d e
| by_number_and_length n m a b :
    nx = Some (Z.of_nat n) -> given ny (Z.of_nat n) (Z.of_nat m) -> (1 <= n)%nat -> (1 <= m)%nat ->
    dx = None -> lx = Some (Sc (Fin a)) -> given ly (Sc (Fin a)) (Sc (Fin b)) ->
    asks nx ny dx dy lx ly n m (spacing_of n a) (spacing_of m b)
| by_length_and_spacing n m a b d e :
    nx = None -> dx = Some (Sc (Fin d)) -> given dy (Sc (Fin d)) (Sc (Fin e)) ->
    lx = Some (Sc (Fin a)) -> given ly (Sc (Fin a)) (Sc (Fin b)) ->
    d <> 0 -> e <> 0 -> fits a d n -> fits b e m ->
    asks nx ny dx dy lx ly n m (spacing_of n a) (spacing_of m b).
(** lx as given, or the optic's pupil size unless nx and dx are both given. *)
Definition length_from (g : gen XR) (nx : option Z) (dx lx lx' : option (size XR)) : Prop :=
  lx <> None /\ lx' = lx \/
  lx = None /\ lx' = None /\ (g_optic g = None \/ nx <> None /\ dx <> None) \/
  lx = None /\ (nx = None \/ dx = None) /\
    exists o p, g_optic g = Some o /\ oa_pupil o = Some p /\ lx' = Some (Sc p).

(** The lattice spanned by two vectors. *)
Definition lattice_points (n m : nat) (v w : R * R) : list (R * R) :=
  flat_map (fun j => map (fun i =>
      ((INR i - INR (n / 2)) * fst v + (INR j - INR (m / 2)) * fst w,
       (INR i - INR (n / 2)) * snd v + (INR j - INR (m / 2)) * snd w)) (seq 0 n)) (seq 0 m).

(** Rings and spokes: all radii for the first azimuth, then for the next. *)
Definition spoke_points (radii angles : list R) : list (R * R) :=
  flat_map (fun th => map (fun r => (r * cos th, r * sin th)) radii) angles.

(** outer and inner radius of asPolar: as given; else half the optic's pupil size, and that
    times the optic's pupilObscuration if it has one; inner is 0 otherwise. *)
Definition radii_from (g : gen XR) (outer inner : option XR) (ro ri : R) : Prop :=
  (outer = Some (Fin ro) \/
   outer = None /\ exists o p, g_optic g = Some o /\ oa_pupil o = Some (Fin p) /\ ro = p / 2) /\
  (inner = Some (Fin ri) \/
   inner = None /\ ri = 0 /\ (g_optic g = None \/ exists o, g_optic g = Some o /\ oa_pobsc o = None) \/
   inner = None /\ exists o p e, g_optic g = Some o /\ oa_pupil o = Some (Fin p) /\ oa_pobsc o = Some (Fin e) /\
     ri = p * e / 2).
(** A beam whose stop surface is defined within the radius. *)
Definition proper_disc (b : beam) (radius : R) : Prop :=
  proper b [] /\ forall x y, x * x + y * y <= radius * radius -> exists z, sag (b_surf b) (Fin x) (Fin y) = Fin z.
(** outer of asSpokes. *)
Definition outer_from (g : gen XR) (outer : option XR) (ro : R) : Prop :=
  outer = Some (Fin ro) \/
  outer = None /\ exists o p, g_optic g = Some o /\ oa_pupil o = Some (Fin p) /\ ro = p / 2.

(** A ray in the direction d (of length 1) at the index n that is at the point q at time 0, seen
    at the moment when it is still the distance l away. *)
Definition arriving (d : vR) (n l w f : R) (q : vR) (r : ray R) : Prop :=
  timesR n (vel r) = d /\ wavelength r = w /\ flux r = f /\ vignetted r = false /\ failed r = false /\
  on_line (pos r) (vel r) (- time r) = q /\ time r = - l * n /\ minusR q (pos r) = timesR l d.

(** A polynomial function of degree below n. *)
Fixpoint poly (c : list R) (x : R) : R := match c with [] => 0 | a :: c => a + x * poly c x end.
Definition poly_below (n : nat) (p : R -> R) : Prop :=
  exists c, (length c <= n)%nat /\ forall x, p x = poly c x.
(** Nodes and weights that integrate every polynomial of degree below n over [-1, 1] exactly: the
    weighted sum is the difference of an antiderivative. *)
Definition sumR (l : list R) : R := fold_right Rplus 0 l.
Definition exact_rule (n : nat) (rule : list (R * R)) : Prop :=
  forall p P, poly_below n p -> (forall x, derivable_pt_lim P x (p x)) ->
    sumR (map (fun lw => snd lw * p (fst lw)) rule) = P 1 - P (-1).

(** The sum of flux times h(r, theta) over rays with the polar coordinates pol. *)
Definition weighted (fl : list R) (pol : list (R * R)) (h : R -> R -> R) : R :=
  sumR (map (fun fp => fst fp * h (fst (snd fp)) (snd (snd fp))) (combine fl pol)).
