(** Specification vocabulary for parallel loops (C24). *)
From Coq Require Import List Arith Bool.
From Verif Require Import Num Vec CoordSys Surface Medium Obscuration Ray Trig Wave Sched.
Import ListNotations.
Local Open Scope nat_scope.

Section Spec.
  Context {T : Type}.
  Implicit Types (m : mem T) (P : rvptr) (n i a : nat) (k : kernel T).
  Definition same m m' : Prop := (forall a, nums m a = nums m' a) /\ (forall a, bools m a = bools m' a).
  (** The rays that a RayVector with data pointers P shows. *)
  Definition point_at m P i : vec3 T := V3 (nums m (xptr P + i)) (nums m (yptr P + i)) (nums m (zptr P + i)).
  Definition ray_at m P i : ray T :=
    Ray (point_at m P i) (V3 (nums m (vxptr P + i)) (nums m (vyptr P + i)) (nums m (vzptr P + i)))
        (nums m (tptr P + i)) (nums m (wptr P + i)) (nums m (fluxptr P + i))
        (bools m (vigptr P + i)) (bools m (failptr P + i)).
  Definition rays_at m P n : list (ray T) := map (ray_at m P) (seq 0 n).

  (** The arrays a loop works on: base address and number of elements. *)
  Definition rv_nums P n : list (nat * nat) :=
    [(xptr P, n); (yptr P, n); (zptr P, n); (vxptr P, n); (vyptr P, n); (vzptr P, n);
     (tptr P, n); (wptr P, n); (fluxptr P, n)].
  Definition rv_bools P n : list (nat * nat) := [(vigptr P, n); (failptr P, n)].
  Definition num_arrays k P n : list (nat * nat) :=
    match k with
    | KForwardArrays _ _ | KReverseArrays _ _ => [(xptr P, n); (yptr P, n); (zptr P, n)]
    | KSplit _ _ _ _ _ _ split => rv_nums P n ++ rv_nums split n
    | KPosition _ xo yo zo => rv_nums P n ++ [(xo, n); (yo, n); (zo, n)]
    | KPhase _ _ out => rv_nums P n ++ [(out, n)]
    | KAmplitude _ _ out => rv_nums P n ++ [(out, 2 * n)]
    | _ => rv_nums P n
    end.
  Definition bool_arrays k P n : list (nat * nat) :=
    match k with
    | KForwardArrays _ _ | KReverseArrays _ _ => []
    | KSplit _ _ _ _ _ _ split => rv_bools P n ++ rv_bools split n
    | _ => rv_bools P n
    end.
  Definition apart (a b : nat * nat) : Prop := fst a + snd a <= fst b \/ fst b + snd b <= fst a.
  (** No two of the arrays overlap. *)
  Definition separate k P n : Prop :=
    ForallOrdPairs apart (num_arrays k P n) /\ ForallOrdPairs apart (bool_arrays k P n).
  Definition inside a (arrays : list (nat * nat)) : Prop :=
    exists b, In b arrays /\ fst b <= a < fst b + snd b.
  (** Everything outside the arrays of the loop is as before. *)
  Definition elsewhere k P n m m' : Prop :=
    (forall a, ~ inside a (num_arrays k P n) -> nums m' a = nums m a) /\
    (forall a, ~ inside a (bool_arrays k P n) -> bools m' a = bools m a).

  (** What each loop leaves in its arrays. *)
  Context {NT : Num T} {TT : Trig T}.
  Definition leaves k P n m m' : Prop :=
    let rays := rays_at m P n in
    let rays' := rays_at m' P n in
    match k with
    | KForwardArrays dr d => map (point_at m' P) (seq 0 n) = map (fwd_point dr d) (map (point_at m P) (seq 0 n))
    | KReverseArrays dr d => map (point_at m' P) (seq 0 n) = map (rev_point dr d) (map (point_at m P) (seq 0 n))
    | KForward dr d => rays' = map (ray_forward dr d) rays
    | KReverse dr d => rays' = map (ray_reverse dr d) rays
    | KObscure o => rays' = map (ray_obscure o) rays
    | KIntersect s dr d c niter => rays' = map (ray_intersect s dr d c niter) rays
    | KReflect s dr d c niter => rays' = map (ray_reflect s dr d c niter) rays
    | KRefract s dr d m2 c niter => rays' = map (ray_refract s dr d m2 c niter) rays
    | KScreen s screen dr d niter => rays' = map (ray_screen s screen dr d niter) rays
    | KPropagate t => rays' = map (ray_propagate t) rays
    | KSplit s dr d m2 c niter split =>
        (* rvSplit = rv.copy() (batoid/trace.py:125) *)
        rays_at m split n = rays ->
        combine rays' (rays_at m' split n) = map (ray_rsplit s dr d m2 c niter) rays
    | KPosition t xo yo zo =>
        rays' = rays /\
        map (fun i => V3 (nums m' (xo + i)) (nums m' (yo + i)) (nums m' (zo + i))) (seq 0 n)
        = map (ray_positionAtTime t) rays
    | KPhase r t out => rays' = rays /\ map (fun i => nums m' (out + i)) (seq 0 n) = map (ray_phase r t) rays
    | KAmplitude r t out =>
        rays' = rays /\
        map (fun i => (nums m' (out + 2 * i), nums m' (out + (2 * i + 1)))) (seq 0 n) = map (ray_amplitude r t) rays
    end.
End Spec.

(** Data races: two threads about to access one cell, one of them to write it. *)
Inductive loc := NumAt (a : nat) | BoolAt (a : nat).
Definition touches {T A} (p : prog T A) : option (loc * bool) :=
  match p with
  | Done _ => None
  | LoadN a _ => Some (NumAt a, false)
  | LoadB a _ => Some (BoolAt a, false)
  | StoreN a _ _ => Some (NumAt a, true)
  | StoreB a _ _ => Some (BoolAt a, true)
  end.
Definition about_to {T A} (t : thread T A) (x : loc * bool) : Prop :=
  exists p ps, snd t = p :: ps /\ touches p = Some x.
Definition race {T A} (c : state T A) : Prop :=
  exists l1 t1 l2 t2 l3 l w1 w2, snd c = l1 ++ t1 :: l2 ++ t2 :: l3 /\
    about_to t1 (l, w1) /\ about_to t2 (l, w2) /\ (w1 = true \/ w2 = true).
