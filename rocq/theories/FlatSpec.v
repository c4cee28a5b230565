(** Specification vocabulary for flat mirrors and plates. *)
From Coq Require Import Reals List.
From Verif Require Import Num NumR Vec CoordSys Surface Medium Ray Bundle Optic Spec OpticsSpec StigSpec.
Import ListNotations.
Open Scope R_scope.

(** The z axis of a frame, and the mirror images of points and directions in its plane z = 0. *)
Definition axis_dir (B : frame) : vR := global_dir B (V3 0 0 1).
Definition image_point (B : frame) (p : vR) : vR := minusR p (timesR (2 * dotR (minusR p (origin B)) (axis_dir B)) (axis_dir B)).
Definition image_dir (B : frame) (v : vR) : vR := minusR v (timesR (2 * dotR v (axis_dir B)) (axis_dir B)).
(** An interface and its frame. *)
Record sheet := Sheet { s_iface : iface XR; s_frame : frame }.
Definition flat (s : sheet) : Prop := i_surf (s_iface s) = Plane /\ i_cs (s_iface s) = Fcs (s_frame s) /\ good_frame (s_frame s).
Definition flat_mirror (s : sheet) : Prop := flat s /\ i_kind (s_iface s) = KMirror.
(** The mirror images in a list of planes, one after another. *)
Definition images (ss : list sheet) (p : vR) : vR := fold_left (fun p s => image_point (s_frame s) p) ss p.
Definition images_dir (ss : list sheet) (v : vR) : vR := fold_left (fun v s => image_dir (s_frame s) v) ss v.
(** The point lies in the plane of the frame. *)
Definition in_plane (B : frame) (p : vR) : Prop := dotR (minusR p (origin B)) (axis_dir B) = 0.
(** The point on the other side of P, at the same distance. *)
Definition opposite (P p : vR) : vR := minusR (timesR 2 P) p.

(** A flat surface perpendicular to the unit vector m: mirror, boundary of a medium, or without effect on the light. *)
Definition layer (reverse : bool) (w : R) (m : vR) (s : sheet) : Prop :=
  flat s /\ (axis_dir (s_frame s) = m \/ axis_dir (s_frame s) = timesR (-1) m) /\
  match i_kind (s_iface s) with
  | KRefractive => exists n, getN (if reverse then i_in (s_iface s) else i_out (s_iface s)) (Fin w) = Fin n /\ 0 < n
  | KScreen _ => False
  | _ => True
  end.
(** The refractive index behind the surface. *)
Definition index_after (reverse : bool) (w : R) (s : sheet) (n n' : R) : Prop :=
  match i_kind (s_iface s) with
  | KRefractive => getN (if reverse then i_in (s_iface s) else i_out (s_iface s)) (Fin w) = Fin n'
  | _ => n' = n
  end.
(** Refractive index times direction cosines: the slowness of the wave. *)
Definition slowness (A : frame) (r : ray R) : vR := timesR (index_of (vel r) * index_of (vel r)) (global_dir A (vel r)).
(** -1 for an odd number of mirrors, else 1. *)
Fixpoint parity (ss : list sheet) : R :=
  match ss with [] => 1 | s :: ss => match i_kind (s_iface s) with KMirror => - parity ss | _ => parity ss end end.
