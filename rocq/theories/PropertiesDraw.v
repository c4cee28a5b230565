(** C92: the drawings of optics. *)
From Coq Require Import Reals String List ZArith Bool Lra Lia.
From Verif Require Import Num NumR NumF Vec CoordSys Surface Obscuration Trig Ray Optic Spec Draw DrawSpec DrawProofs SamplesDraw.
Import ListNotations.
Open Scope R_scope.

(** The radii used for drawing are those of the obscuration. *)
Theorem C92_radii : forall T (NT : Num T) name (s : surface T) cs o,
  d_in (new_drawn name s cs o) = inner_of o /\ d_out (new_drawn name s cs o) = outer_of o.
Proof. exact @radii. Qed.
Print Assumptions C92_radii.

Example C92_example_radii : d_out (new_drawn "m" dish cs_default (Some dish_aperture)) = Some (Fin 20).
Proof. reflexivity. Qed.

(** The curves that draw3d draws: the inner circle if there is a hole, the outer circle, and the four radii along the axes, as
    points of the surface in global coordinates. *)
Theorem C92_curves : forall name s A o i r, good_frame A -> round o i r -> 0 <= i <= r -> has_heights s i r ->
  exists ls, outlines (new_drawn name s (Fcs A) (Some o)) = Ok (Some ls) /\
    Forall2 (Forall2 (fun xy p => surface_point A s (fst xy) (snd xy) p))
            ((if Req_EM_T i 0 then [] else [ring i]) ++ wires i r) ls.
Proof. exact drawn_curves. Qed.
Print Assumptions C92_curves.

(** Every vertex of get3dmesh is the separator or a point of the surface between the inner and the outer radius;
    the ends of the four radii are among them. *)
Theorem C92_mesh : forall name s A o i r, good_frame A -> round o i r -> 0 <= i <= r -> has_heights s i r ->
  exists ls v, draw3d (DFace (new_drawn name s (Fcs A) (Some o))) = Ok ls /\ get3dmesh (DFace (new_drawn name s (Fcs A) (Some o))) = Ok (Some v) /\
    v = flat_map (fun l => l ++ [vnan]) ls /\
    (forall p, In p v -> p = vnan \/ exists x y, i * i <= x * x + y * y <= r * r /\ surface_point A s x y p) /\
    (forall x y, In (x, y) [(i, 0); (- i, 0); (0, i); (0, - i); (r, 0); (- r, 0); (0, r); (0, - r)] -> exists p, In p v /\ surface_point A s x y p).
Proof. exact mesh_vertices. Qed.
Print Assumptions C92_mesh.

Example C92_example_mesh : good_frame dish_frame /\ round dish_aperture 10 20 /\ 0 <= 10 <= 20 /\ has_heights dish 10 20.
Proof. split; [exact dish_good|]. split; [exact dish_round|]. split; [lra|apply dish_heights]. Qed.

(** The slices of getXZSlice. *)
Theorem C92_slice : forall name s A o i r nslice, good_frame A -> round o i r -> 0 <= i <= r -> has_heights s i r ->
  (2 <= slice_points nslice s)%nat ->
  let n := slice_points nslice s in
  exists slices, getXZSlice nslice (new_drawn name s (Fcs A) (Some o)) = Ok slices /\
    (i = 0 -> exists l, slices = [l] /\ views A s (- r) r (2 * n - 1) l) /\
    (i <> 0 -> exists l1 l2, slices = [l1; l2] /\ views A s (- r) (- i) n l1 /\ views A s i r n l2).
Proof. exact slice_shape. Qed.
Print Assumptions C92_slice.

Example C92_example_slice : good_frame dish_frame /\ round (ObscNegation (ObscCircle (Fin 20) (Fin 0) (Fin 0))) 0 20 /\ 0 <= 0 <= 20 /\
  has_heights dish 0 20 /\ slice_points 0 dish = 50%nat /\ slice_points 7 dish = 7%nat /\ slice_points 0 Plane = 2%nat.
Proof. split; [exact dish_good|]. split; [exact full_round|]. split; [lra|]. split; [apply dish_heights|]. split; [|split]; reflexivity. Qed.

(** nslice=1 without a hole: the two half slices do not meet and an assertion fails. *)
Theorem C92_slice_refuted : exists d : drawn F64, getXZSlice 1 d = Err AssertionError /\ exists l, getXZSlice 2 d = Ok l.
Proof. exists window_back. split; [vm_compute; reflexivity|eexists; vm_compute; reflexivity]. Qed.
Print Assumptions C92_slice_refuted.

(** The areas that Lens.draw2d fills; the last case is a defect: of a front with a hole only the half x <= 0 is used when the back has none. *)
Theorem C92_lens : forall n1 s1 A1 o1 i1 r1 n2 s2 A2 o2 i2 r2,
  good_frame A1 -> round o1 i1 r1 -> 0 <= i1 <= r1 -> has_heights s1 i1 r1 ->
  good_frame A2 -> round o2 i2 r2 -> 0 <= i2 <= r2 -> has_heights s2 i2 r2 ->
  let m1 := slice_points 0 s1 in let m2 := slice_points 0 s2 in
  let polygons := lens_polygons (new_drawn n1 s1 (Fcs A1) (Some o1)) (new_drawn n2 s2 (Fcs A2) (Some o2)) in
  let loop (a b : list (XR * XR)) := a ++ rev b ++ firstn 1 a in
  (i1 = 0 -> i2 = 0 -> exists a b, views A1 s1 (- r1) r1 (2 * m1 - 1) a /\ views A2 s2 (- r2) r2 (2 * m2 - 1) b /\ polygons = Ok [loop a b]) /\
  (i1 <> 0 -> i2 <> 0 -> exists a a' b b', views A1 s1 (- r1) (- i1) m1 a /\ views A1 s1 i1 r1 m1 a' /\
     views A2 s2 (- r2) (- i2) m2 b /\ views A2 s2 i2 r2 m2 b' /\ polygons = Ok [loop a b; loop a' b']) /\
  (i1 <> 0 -> i2 = 0 -> exists a b, views A1 s1 (- r1) (- i1) m1 a /\ views A2 s2 (- r2) r2 (2 * m2 - 1) b /\ polygons = Ok [loop a b]).
Proof. exact lens_fill. Qed.
Print Assumptions C92_lens.

Example C92_example_lens : good_frame dish_frame /\ round dish_aperture 10 20 /\ has_heights dish 10 20 /\ 10 <> 0.
Proof. split; [exact dish_good|]. split; [exact dish_round|]. split; [apply dish_heights|lra]. Qed.

Theorem C92_lens_refuted : exists (front back : drawn F64) a b b' area,
  getXZSlice 0 front = Ok [a; b] /\ getXZSlice 0 back = Ok [b'] /\ lens_polygons front back = Ok [area] /\
  In (fl 2, fl 0) b /\ forall z, In (fl 2, z) area -> z = fl 1.
Proof.
  exists window_front, window_back. do 4 eexists.
  split; [vm_compute; reflexivity|]. split; [vm_compute; reflexivity|]. split; [vm_compute; reflexivity|].
  split; [vm_compute; auto|].
  intros z H. vm_compute in H. 
  repeat (destruct H as [H|H]; [first [discriminate H|injection H as <-; reflexivity]|]). destruct H.
Qed.
Print Assumptions C92_lens_refuted.

(** The outlines ignore the centre of the obscuration: all of the outline may lie in the obscured region. *)
Theorem C92_centre_refuted : exists name r c, 0 < r /\
  exists v, get3dmesh (DFace (new_drawn name Plane (Fcs global_frame) (Some (ObscNegation (ObscCircle (Fin r) (Fin c) (Fin 0)))))) = Ok (Some v) /\
    (exists p, In p v /\ surface_point global_frame Plane r 0 p) /\
    forall p x y, In p v -> surface_point global_frame Plane x y p -> contains (ObscNegation (ObscCircle (Fin r) (Fin c) (Fin 0))) (Fin x) (Fin y) = true.
Proof. exists "d"%string, 1, 3. split; [lra|]. apply outline_elsewhere; lra. Qed.
Print Assumptions C92_centre_refuted.

(** Compound optics: the pictures of the items one after the other. *)
Theorem C92_compound : forall T (NT : Num T) (TT : Trig T) (items : list (dtree T)),
  (forall vs, Forall2 (fun t v => draw3d t = Ok v) items vs -> draw3d (DItems items) = Ok (List.concat vs)) /\
  (forall vs, items <> [] -> Forall2 (fun t v => get3dmesh t = Ok (Some v)) items vs -> get3dmesh (DItems items) = Ok (Some (List.concat vs))) /\
  (forall t v, In t items -> get3dmesh t = Ok None -> get3dmesh (DItems items) <> Ok v).
Proof. intros. split; [apply draw_compound|]. split; [apply mesh_compound|apply mesh_fails]. Qed.
Print Assumptions C92_compound.

Example C92_example_compound : exists a b, get3dmesh (DFace (new_drawn "m" dish cs_default (Some dish_aperture))) = Ok (Some a) /\
  draw3d (DFace (new_drawn "s" dish (@cs_default XR _) None)) = Ok b /\ get3dmesh (DFace (new_drawn "s" dish (@cs_default XR _) None)) = Ok None.
Proof. eexists. eexists. split; [reflexivity|]. split; reflexivity. Qed.

(** get3dmesh of an optic with an item without radii raises, although draw3d draws it. *)
Theorem C92_compound_refuted : exists (t : dtree XR) ls, draw3d t = Ok ls /\ ls <> [] /\ get3dmesh t = Err TypeError.
Proof.
  exists (DItems [DFace (new_drawn "m" dish cs_default (Some dish_aperture)); DFace (new_drawn "s" dish cs_default None)]). eexists.
  split; [reflexivity|]. split; [|reflexivity]. cbn [outlines d_out d_in new_drawn]. intros H. apply (f_equal (@List.length _)) in H.
  rewrite app_length, map_length, app_length in H. cbn in H. lia.
Qed.
Print Assumptions C92_compound_refuted.

(** clearObscuration leaves the drawings as they were, and R_inner. *)
Theorem C92_clear : forall T (NT : Num T) (TT : Trig T) unless (d : drawn T),
  (outlines (clear unless d) = outlines d /\ mesh (clear unless d) = mesh d /\
   (forall n, getXZSlice n (clear unless d) = getXZSlice n d) /\ d_in (clear unless d) = d_in d /\ d_out (clear unless d) = d_out d) /\
  (forall name (s : surface T) cs o, fst (R_inner (clear unless (new_drawn name s cs o))) = inner_of o).
Proof. intros. split; [apply clear_drawings|]. intros. apply clear_inner. Qed.
Print Assumptions C92_clear.

(** R_outer is kept when first read: what it is after clearObscuration depends on whether it was read before. *)
Theorem C92_R_outer : forall T (NT : Num T) name (s : surface T) cs o r, outer_of (Some o) = Some r ->
  fst (R_outer (clear [] (new_drawn name s cs (Some o)))) = None /\
  fst (R_outer (clear [] (snd (R_outer (new_drawn name s cs (Some o)))))) = Some r.
Proof. exact @clear_outer. Qed.
Print Assumptions C92_R_outer.

Example C92_example_clear : outer_of (Some dish_aperture) = Some (Fin 20).
Proof. reflexivity. Qed.

Theorem C92_clear_refuted : exists name (s : surface XR) cs o,
  fst (R_outer (clear [] (new_drawn name s cs o))) <> fst (R_outer (clear [] (snd (R_outer (new_drawn name s cs o))))).
Proof. exists "m"%string, dish, cs_default, (Some dish_aperture). cbn. discriminate. Qed.
Print Assumptions C92_clear_refuted.

(** A shifted or rotated optic is drawn as a new one in the new frame. *)
Theorem C92_moved : forall T (NT : Num T) (TT : Trig T) name (s : surface T) cs o cs',
  moved cs' (new_drawn name s cs o) = new_drawn name s cs' o /\
  outlines (moved cs' (snd (R_outer (new_drawn name s cs o)))) = outlines (new_drawn name s cs' o).
Proof. exact @moved_new. Qed.
Print Assumptions C92_moved.

(** Not after clearObscuration: then it is drawn exactly if R_outer had been read before. *)
Theorem C92_moved_cleared : forall T (NT : Num T) (TT : Trig T) name (s : surface T) cs o cs' r, outer_of (Some o) = Some r ->
  outlines (moved cs' (clear [] (new_drawn name s cs (Some o)))) = Ok None /\
  outlines (moved cs' (clear [] (snd (R_outer (new_drawn name s cs (Some o)))))) = outlines (new_drawn name s cs' (Some o)).
Proof. exact @moved_cleared. Qed.
Print Assumptions C92_moved_cleared.

Theorem C92_moved_refuted : exists name (s : surface XR) cs o cs' ls,
  outlines (clear [] (new_drawn name s cs o)) = Ok (Some ls) /\ outlines (moved cs' (clear [] (new_drawn name s cs o))) = Ok None.
Proof. exists "m"%string, dish, cs_default, (Some dish_aperture), cs_default. eexists. split; reflexivity. Qed.
Print Assumptions C92_moved_refuted.
