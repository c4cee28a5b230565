(** Specification vocabulary for projections, grids, lattices and lines. *)
From Coq Require Import Reals String List ZArith.
From Verif Require Import Num NumR Vec Spec.
Import ListNotations.
Open Scope R_scope.

Inductive projection := Postel | Zemax | Gnomonic | Stereographic | Lambert | Orthographic.
Definition proj_name (p : projection) : string :=
  match p with
  | Postel => "postel" | Zemax => "zemax" | Gnomonic => "gnomonic"
  | Stereographic => "stereographic" | Lambert => "lambert" | Orthographic => "orthographic"
  end.
Definition radius (u v : R) : R := sqrt (u * u + v * v).
(** Where the projection is one to one. *)
Definition in_domain (p : projection) (u v : R) : Prop :=
  match p with
  | Postel => radius u v < PI
  | Zemax => - (PI / 2) < u < PI / 2 /\ - (PI / 2) < v < PI / 2
  | Gnomonic | Stereographic => True
  | Lambert => radius u v < 2
  | Orthographic => radius u v <= 1
  end.
(** Field angles less than ninety degrees off axis. *)
Definition in_front (p : projection) (u v : R) : Prop :=
  match p with
  | Postel => radius u v < PI / 2
  | Zemax | Gnomonic => True
  | Stereographic => radius u v < 2
  | Lambert => u * u + v * v < 2
  | Orthographic => radius u v < 1
  end.
Definition unit_dir (a b g : R) : Prop := a * a + b * b + g * g = 1.
(** The radius at which each azimuthal projection draws the angle theta. *)
Definition radius_law (p : projection) (theta : R) : R :=
  match p with
  | Postel | Zemax => theta
  | Gnomonic => tan theta
  | Stereographic => 2 * tan (theta / 2)
  | Lambert => 2 * sin (theta / 2)
  | Orthographic => sin theta
  end.
(** The direction theta off the downward axis, towards (u, v). *)
Definition towards (theta u v a b g : R) : Prop :=
  a * radius u v = u * sin theta /\ b * radius u v = v * sin theta /\ g = - cos theta.
