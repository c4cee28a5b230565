(** Specification vocabulary for splitting traces. *)
From Coq Require Import Reals List Bool String.
From Verif Require Import Num NumR Vec CoordSys Surface Medium Obscuration Ray Bundle Optic TreeSpec.
Import ListNotations.
Open Scope R_scope.

(** A ray that is vignetted, or else not failed and of finite flux between 0 and b. *)
Definition sound (b : R) (r : ray XR) : Prop :=
  vignetted r = true \/ failed r = false /\ exists v, flux r = Fin v /\ 0 <= v <= b.
(** The flux of the rays that are not vignetted. *)
Definition live_flux (l : list (ray XR)) : R :=
  fold_right Rplus 0 (map (fun r => if vignetted r then 0 else match flux r with Fin v => v | _ => 0 end) l).

(** A coating that creates no light and reflects at most the fraction rho. *)
Definition passive (rho : R) (c : coating XR) : Prop :=
  exists a t, c = SimpleCoating (Fin a) (Fin t) /\ 0 <= a <= rho /\ 0 <= t /\ a + t <= 1.
Definition passive_coats (rho : R) (i : iface XR) : Prop :=
  (forall c, i_fwd i = Some c -> passive rho c) /\ (forall c, i_rev i = Some c -> passive rho c).
(** Every interface inside has such coatings. *)
Fixpoint passive_optic (rho : R) (o : optic XR) : Prop :=
  match o with
  | Iface i => passive_coats rho i
  | Compound _ items => fold_right and True (map (passive_optic rho) items)
  end.

(** All rays of the returned bundles. *)
Definition all_rays {T} (l : list (option (prv T))) : list (ray T) :=
  flat_map (fun o => match o with Some x => rays (p_rv x) | None => [] end) l.

(** A call whose loops are cut after a number of rounds: from some number on, the result is always the same and it is not "out of rounds". *)
Definition settles {A} (f : nat -> res A) : Prop := exists N r, r <> Err OutOfFuel /\ forall fuel, (N <= fuel)%nat -> f fuel = r.
