(** Specification vocabulary for spots, wavefronts and point-spread functions. *)
From Coq Require Import Reals String List ZArith Bool.
From Verif Require Import Num NumR Vec CoordSys Ray Bundle Trig Optic Field RayGen Surface Spec OpticsSpec GenSpec WaveSpec MoveSpec Analysis.
Import ListNotations.
Open Scope R_scope.

(** The bundle of the analysis: an nx by nx grid over the pupil for this field angle and
    wavelength, traced through the optic. *)
Definition traced (niter : nat) (tel : telescope XR) (tx ty w : XR) (projection : string) (nx : nat)
    (rv : rayvec XR) : Prop :=
  exists a b c rv0, fieldToDirCos tx ty projection = Ok (a, b, c) /\
    asGrid (Gen (Some (tl_attr tel)) None None None None (Some w) (DirCos (V3 a b c)))
           (Some (Z.of_nat nx)) None None None None None (Fin 1) None = Ok rv0 /\
    rv = trace niter (tl_optic tel) false rv0.

(** The rays that are not vignetted are these real rays. *)
Definition lit_rays (rv : rayvec XR) (q : list (ray R)) : Prop :=
  filter (fun r => negb (vignetted r)) (rays rv) = map Fray q.

Definition averageR (l : list R) : R := sumR l / INR (length l).
Definition centroid (l : list vR) : vR :=
  V3 (averageR (map cx l)) (averageR (map cy l)) (averageR (map cz l)).
(** The number of the ray through the middle of the grid. *)
Definition central (nx : nat) : nat := (nx / 2 * nx + nx / 2)%nat.
(** The point that coordinates are measured from: the mean position of the rays that are not
    vignetted, or the position of the central ray. *)
Inductive referred (nx : nat) (rv : rayvec XR) (q : list (ray R)) : string -> vR -> Prop :=
| by_mean : q <> [] -> referred nx rv q "mean" (centroid (map pos q))
| by_chief ch : nth_error (rays rv) (central nx) = Some (Fray ch) -> referred nx rv q "chief" (pos ch).

(** The rays that matter: those that are not vignetted, and the central ray when it is the
    reference. *)
Definition concerned (nx : nat) (rv : rayvec XR) (q : list (ray R)) (reference : string) (r : ray R) : Prop :=
  In r q \/ reference = "chief"%string /\ nth_error (rays rv) (central nx) = Some (Fray r).

(** The ray r is at distance |radius| from the point P at time t: after its present time if it
    moves towards the side of P where z has the sign of the radius, before otherwise. *)
Definition crosses (P : vR) (radius : R) (r : ray R) (t : R) : Prop :=
  distR (on_line (pos r) (vel r) (t - time r)) P = Rabs radius /\
  (0 < cz (vel r) * radius -> time r < t) /\ (cz (vel r) * radius <= 0 -> t < time r).
(** A live ray inside the reference sphere. *)
Definition inside (P : vR) (radius : R) (r : ray R) : Prop :=
  failed r = false /\ vel r <> zeroR /\ distR (pos r) P < Rabs radius.
(** Entry of the wavefront for a traced ray, t0 being the reference time, in waves. *)
Definition wave_entry (P : vR) (radius lam t0 : R) (r : ray XR) (e : XR * bool) : Prop :=
  snd e = vignetted r /\
  (vignetted r = false -> exists q t, r = Fray q /\ crosses P radius q t /\ fst e = Fin ((t0 - t) / lam)).
(** The time that the wavefront is referred to: the mean of the crossing times, or that of the
    central ray. *)
Inductive timed (nx : nat) (rv : rayvec XR) (P : vR) (radius : R) (ts : list R) : string -> R -> Prop :=
| mean_time : timed nx rv P radius ts "mean" (averageR ts)
| chief_time ch t : nth_error (rays rv) (central nx) = Some (Fray ch) -> crosses P radius ch t ->
    timed nx rv P radius ts "chief" t.
(** The ray is at the point P at time T0, with speed s. *)
Definition focused (P : vR) (T0 s : R) (r : ray R) : Prop :=
  on_line (pos r) (vel r) (T0 - time r) = P /\ lenR (vel r) = s.

(** The squared modulus of the sum of the waves of the rays q at the point p and time t. *)
Definition intensity (q : list (ray R)) (p : vR) (t : R) : R :=
  fst (wave_sum true q p t) * fst (wave_sum true q p t) + snd (wave_sum true q p t) * snd (wave_sum true q p t).
(** A live ray with a wave of the wavelength lam. *)
Definition shines (lam : R) (r : ray R) : Prop :=
  failed r = false /\ vignetted r = false /\ has_wave r /\ wavelength r = lam.

(** The frame A shifted by p along its own axes. *)
Definition shifted (A : frame) (p : vR) : frame := CS (plusR (origin A) (applyR (rot A) p)) (rot A).
(** A paraboloidal mirror and a flat detector in its focal plane, nothing skipped or obscured. *)
Definition focal_pair (o : optic XR) (B : frame) (rad : R) : Prop :=
  exists a m d, o = Compound a [Iface m; Iface d] /\
    i_kind m = KMirror /\ i_surf m = Paraboloid (Fin rad) /\ i_cs m = Fcs B /\ i_obsc m = None /\ i_skip m = false /\
    i_kind d = KDetector /\ i_surf d = Plane /\ i_cs d = Fcs (shifted B (V3 0 0 (rad / 2))) /\ i_obsc d = None /\ i_skip d = false.
(** The point of the stop surface above (x, y) is less than |rad| away from the z axis of B. *)
Definition near_axis (b : beam) (B : frame) (rad x y : R) : Prop :=
  forall z, sag (b_surf b) (Fin x) (Fin y) = Fin z ->
    let p := local_point B (global_point (b_sframe b) (V3 x y z)) in cx p * cx p + cy p * cy p < rad * rad.
(** A parabolic telescope in a medium of constant or air index on its own axis: the light comes
    down the axis, and the nx by nx grid lies on the mirror. *)
Definition newtonian (tel : telescope XR) (lam : R) (nx : nat) : Prop :=
  exists b B rad D, focal_pair (tl_optic tel) B rad /\ rad <> 0 /\
    describes false (Gen (Some (tl_attr tel)) None None None None (Some (Fin lam)) (DirCos (F3 (V3 0 0 (-1))))) b /\
    b_frame b = B /\ b_w b = lam /\ b_dir b = V3 0 0 (-1) /\ oa_pupil (tl_attr tel) = Some (Fin D) /\
    proper b (grid_points nx nx (spacing_of nx D) (spacing_of nx D)) /\
    Forall (fun p => near_axis b B rad (fst p) (snd p)) (grid_points nx nx (spacing_of nx D) (spacing_of nx D)).

(** The values of a wavefront that are not masked, with row and column. *)
Definition unmasked (nx : nat) (arr : list (XR * bool)) : list (nat * nat * R) :=
  flat_map (fun a => flat_map (fun b =>
    match nth_error arr (a * nx + b) with Some (Fin v, false) => [(a, b, v)] | _ => [] end) (seq 0 nx)) (seq 0 nx).
(** Every value that is not masked is a number. *)
Definition finite_wf (arr : list (XR * bool)) : Prop := forall e, In e arr -> snd e = false -> exists v, fst e = Fin v.
(** The phase at spatial frequency (k, l)/n of a pupil point: row, column, phase in turns. *)
Definition phase2 (n : nat) (k l : R) (u : nat * nat * R) : R :=
  2 * PI * (snd u - (INR (fst (fst u)) * k + INR (snd (fst u)) * l) / INR n).
(** The squared modulus of the Fourier sum over these points. *)
Definition diffracted (n : nat) (k l : R) (U : list (nat * nat * R)) : R :=
  sumR (map (fun u => cos (phase2 n k l u)) U) * sumR (map (fun u => cos (phase2 n k l u)) U)
  + sumR (map (fun u => sin (phase2 n k l u)) U) * sumR (map (fun u => sin (phase2 n k l u)) U).

(** What the generators read off an optic: its own medium, stop and frame, and the attributes
    backDist, pupilSize, pupilObscuration and sphereRadius. *)
Definition stop_of {T} (o : optic T) : option (surface T * coordsys T) :=
  match o with Iface _ => None | Compound a _ => option_map (fun i => (i_surf i, i_cs i)) (c_stop a) end.
Definition telescope_of {T} (o : optic T) (backDist pupil pobsc radius : option T) : telescope T :=
  Tel o (OA backDist (match o with Iface i => i_in i | Compound a _ => c_in a end) (stop_of o) pupil pobsc (o_cs o)) radius.
(** An optic made of real frames, with a stop and no skipped item. *)
Definition movable (o : optic XR) : Prop := unskipped o /\ Forall real_frame (frames o) /\ stop_of o <> None.
(** The reference of the analysis is a real point, unless it is an unknown word. *)
Definition clear_reference (niter : nat) (tel : telescope XR) (tx ty w : XR) (projection : string) (nx : nat)
    (reference : string) : Prop :=
  reference <> "mean"%string /\ reference <> "chief"%string \/
  forall rv, traced niter tel tx ty w projection nx rv -> exists q P, lit_rays rv q /\ referred nx rv q reference P.
(** The radius in use is a real number, if there is one. *)
Definition clear_radius (sphereRadius : option XR) (tel : telescope XR) : Prop :=
  forall r, sphereRadius = Some r \/ sphereRadius = None /\ tl_radius tel = Some r -> exists x, r = Fin x.
(** The rays the Zernike quadrature uses all stay real, and some get through. *)
Definition clear_spokes (niter : nat) (leggauss : nat -> list (XR * XR)) (tel : telescope XR) (tx ty w : XR)
    (projection : string) (rings : nat) (spokes : option nat) (eps D : XR) : Prop :=
  forall d rv, fieldToDirCos tx ty projection = Ok d ->
    asSpokes leggauss (generator tel w d) None (ndiv (nmul eps D) n2) (option_map CInt spokes) (CInt rings) "GQ" n1 = Ok rv ->
    exists q, q <> [] /\ lit_rays (trace niter (tl_optic tel) false rv) q.
(** The steps of the lattice of huygensPSF when dx is given: along x and y if dx (and dy) are
    numbers, dy being dx unless given; two vectors otherwise. *)
Inductive given_steps : size XR -> option (size XR) -> R * R -> R * R -> Prop :=
| equal_steps a : given_steps (Sc (Fin a)) None (a, 0) (0, a)
| axis_steps a b : given_steps (Sc (Fin a)) (Some (Sc (Fin b))) (a, 0) (0, b)
| skew_steps a b c d : given_steps (Ve (Fin a) (Fin b)) (Some (Ve (Fin c) (Fin d))) (a, b) (c, d).
(** The radius of the reference sphere is the one given, else the one of the telescope. *)
Definition radius_used (given own : option XR) (radius : R) : Prop := given = Some (Fin radius) \/ given = None /\ own = Some (Fin radius).
