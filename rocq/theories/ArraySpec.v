(** Specification vocabulary for bundles as arrays (C44-C46, C54). *)
From Coq Require Import Reals String List ZArith Bool.
From Verif Require Import Num NumR Vec CoordSys Ray Bundle Optic Spec.
Import ListNotations.

(** Python's meaning of a slice bound: a negative number counts from the end. *)
Definition meant (n i : Z) : Z := if (i <? 0)%Z then (n + i)%Z else i.
(** Position j of n belongs to the slice [start:stop]. *)
Definition in_slice (n : nat) (start stop : option Z) (j : nat) : bool :=
  match start with None => true | Some i => (meant (Z.of_nat n) i <=? Z.of_nat j)%Z end
  && match stop with None => true | Some i => (Z.of_nat j <? meant (Z.of_nat n) i)%Z end.

(** The same eleven numbers and flags, up to the arithmetic's ==. *)
Definition same_ray {T} {NT : Num T} (a b : ray T) : Prop :=
  neqb (cx (pos a)) (cx (pos b)) = true /\ neqb (cy (pos a)) (cy (pos b)) = true /\
  neqb (cz (pos a)) (cz (pos b)) = true /\ neqb (cx (vel a)) (cx (vel b)) = true /\
  neqb (cy (vel a)) (cy (vel b)) = true /\ neqb (cz (vel a)) (cz (vel b)) = true /\
  neqb (time a) (time b) = true /\ neqb (wavelength a) (wavelength b) = true /\
  neqb (flux a) (flux b) = true /\ vignetted a = vignetted b /\ failed a = failed b.

(** Steps of a full trace with real data. *)
Record step := Step { s_name : string; s_in : rayvec R; s_out : rayvec R }.
Definition Fstep (s : step) : string * tf_entry XR :=
  (s_name s, TF (s_name s) (Frv (s_in s)) (Frv (s_out s))).
Definition good_step (s : step) : Prop := good_frame (rvcs (s_in s)) /\ good_frame (rvcs (s_out s)).
(** Positions of the rays of a bundle as seen from a frame. *)
Definition seen_from (g : frame) (rv : rayvec R) : list vR :=
  map (fun r => pos_in (rvcs rv) g r) (rays rv).
(** The number of bundles in which ray i is not vignetted. *)
Definition visible_at {T} (i : nat) (rv : rayvec T) : bool :=
  match nth_error (rays rv) i with Some r => negb (vignetted r) | None => false end.
Definition times_visible {T} (i : nat) (l : list (rayvec T)) : nat :=
  List.length (filter (visible_at i) l).
