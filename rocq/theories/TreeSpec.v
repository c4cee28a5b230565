(** Specification vocabulary for optic trees: the interfaces a trace should visit. *)
From Coq Require Import Reals String List Bool.
From Verif Require Import Num NumR CoordSys Medium Ray Bundle Optic Ops.
Import ListNotations.

(** The interfaces of a tree in depth-first order, leaving out skipped items. *)
Fixpoint leaves {T} (o : optic T) : list (iface T) :=
  match o with
  | Iface i => [i]
  | Compound _ items => flat_map (fun it => if o_skip it then [] else leaves it) items
  end.
(** The order in which a trace should visit them. *)
Definition visit {T} (reverse : bool) (o : optic T) : list (iface T) :=
  if reverse then rev (leaves o) else leaves o.
(** One interface after the other. *)
Definition in_turn {T} {NT : Num T} (niter : nat) (reverse : bool) (is : list (iface T))
    (rv : rayvec T) : rayvec T :=
  fold_left (fun rv i => iface_trace niter i reverse rv) is rv.
(** One after the other, remembering what went in and what came out. *)
Fixpoint logged {T} {NT : Num T} (niter : nat) (reverse : bool) (is : list (iface T))
    (rv : rayvec T) : list (string * rayvec T * rayvec T) :=
  match is with
  | [] => []
  | i :: is => let out := iface_trace niter i reverse rv in
               (i_name i, rv, out) :: logged niter reverse is out
  end.

(** What visiting one item of a path may do: trace it forward or backward, or, when
    the light turns around there, reflect off its surface and apply its obscuration. *)
Definition one_visit {T} {NT : Num T} (niter : nat) (it : optic T) (rv rv' : rayvec T) : Prop :=
  rv' = trace niter it false rv \/ rv' = trace niter it true rv \/
  exists i, it = Iface i /\
    rv' = apply_obsc (i_obsc i) (rv_reflect niter (i_surf i) (Some (i_cs i)) None rv).
Inductive visits {T} {NT : Num T} (niter : nat) : list (optic T) -> rayvec T -> rayvec T -> Prop :=
| visits_nil rv : visits niter [] rv rv
| visits_cons it its rv rv1 rv2 :
    one_visit niter it rv rv1 -> visits niter its rv1 rv2 -> visits niter (it :: its) rv rv2.

(** ** Vocabulary for call sequences *)
(** Coatings whose two coefficients are real numbers in [0,1]. *)
Definition unit_coating (c : coating XR) : Prop :=
  exists a b : R, c = SimpleCoating (Fin a) (Fin b) /\ (0 <= a <= 1)%R /\ (0 <= b <= 1)%R.
Definition lossy (op : trace_op XR) : Prop :=
  match op with
  | OIntersect _ _ (Some c) | OReflect _ _ (Some c) | ORefract _ _ _ _ (Some c)
  | OSplitRefracted _ _ _ c _ | OSplitReflected _ _ _ c _ => unit_coating c
  | _ => True
  end.
(** Calls that involve no coating. *)
Definition uncoated {T} (op : trace_op T) : Prop :=
  match op with
  | OIntersect _ _ (Some _) | OReflect _ _ (Some _) | ORefract _ _ _ _ (Some _)
  | OSplitRefracted _ _ _ _ _ | OSplitReflected _ _ _ _ _ => False
  | _ => True
  end.
(** The elements of a list at given indices, in the given order: slices, single
    elements, masks and permutations are all of this form. *)
Definition pick {A} (idx : list nat) (l : list A) : list A :=
  flat_map (fun i => match nth_error l i with Some a => [a] | None => [] end) idx.
