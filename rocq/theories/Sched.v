(** The parallel loops of src/batoid.cpp and src/rayVector.cpp: memory cells, the loads and stores
    of one iteration, threads, interleavings. *)
From Coq Require Import List Arith Bool Permutation.
From Verif Require Import Num Vec CoordSys Surface Medium Obscuration Ray Trig Wave.
Import ListNotations.
Local Open Scope nat_scope.

(** Memory: one cell per double and one per bool; an array is a base address, element i is at
    base + i.  Simplification: doubles and bools have separate address spaces. *)
Record mem (T : Type) := Mem { nums : nat -> T; bools : nat -> bool }.
Arguments Mem {T}. Arguments nums {T}. Arguments bools {T}.
Definition set_num {T} (m : mem T) (a : nat) (v : T) : mem T :=
  Mem (fun b => if a =? b then v else nums m b) (bools m).
Definition set_bool {T} (m : mem T) (a : nat) (v : bool) : mem T :=
  Mem (nums m) (fun b => if a =? b then v else bools m b).

(** A piece of straight code: loads and stores in program order; local variables, arguments and
    the const objects (surface, medium, coating, dr, drot) are values.  The value given back is
    what an iteration contributes to a reduction. *)
Inductive prog (T A : Type) :=
| Done (a : A)
| LoadN (a : nat) (k : T -> prog T A)
| LoadB (a : nat) (k : bool -> prog T A)
| StoreN (a : nat) (v : T) (k : prog T A)
| StoreB (a : nat) (v : bool) (k : prog T A).
Arguments Done {T A}. Arguments LoadN {T A}. Arguments LoadB {T A}.
Arguments StoreN {T A}. Arguments StoreB {T A}.

(** One memory access. *)
Definition act {T A} (p : prog T A) (m : mem T) : option (prog T A * mem T) :=
  match p with
  | Done _ => None
  | LoadN a k => Some (k (nums m a), m)
  | LoadB a k => Some (k (bools m a), m)
  | StoreN a v k => Some (k, set_num m a v)
  | StoreB a v k => Some (k, set_bool m a v)
  end.
(** Undisturbed execution. *)
Fixpoint run {T A} (p : prog T A) (m : mem T) : mem T * A :=
  match p with
  | Done a => (m, a)
  | LoadN a k => run (k (nums m a)) m
  | LoadB a k => run (k (bools m a)) m
  | StoreN a v k => run k (set_num m a v)
  | StoreB a v k => run k (set_bool m a v)
  end.

(** A thread: what its finished iterations gave back, and the iterations still to do, the first
    one possibly under way.  [omp parallel for num_threads(k)]: the iterations are dealt out to
    the threads, each thread takes its own in its own order. *)
Definition thread (T A : Type) : Type := list A * list (prog T A).
Definition state (T A : Type) : Type := mem T * list (thread T A).
Inductive thread_step {T A} : thread T A -> mem T -> thread T A -> mem T -> Prop :=
| access outs p ps m p' m' : act p m = Some (p', m') ->
    thread_step (outs, p :: ps) m (outs, p' :: ps) m'
| next outs a ps m : thread_step (outs, Done a :: ps) m (outs ++ [a], ps) m.
Inductive step {T A} : state T A -> state T A -> Prop :=
| one_thread m m' t t' before after : thread_step t m t' m' ->
    step (m, before ++ t :: after) (m', before ++ t' :: after).
Inductive steps {T A} : state T A -> state T A -> Prop :=
| no_steps c : steps c c
| more_steps c c' c'' : steps c c' -> step c' c'' -> steps c c''.
Definition start {T A} (body : nat -> prog T A) (deal : list (list nat)) (m : mem T) : state T A :=
  (m, map (fun its => ([], map body its)) deal).
Definition finished {T A} (c : state T A) : Prop := Forall (fun t : thread T A => snd t = []) (snd c).
(** for(int i=0; i<n; i++) without threads. *)
Definition loop {T A} (body : nat -> prog T A) (n : nat) (m : mem T) : mem T :=
  fold_left (fun m i => fst (run (body i) m)) (seq 0 n) m.

(** The data pointers of a RayVector (batoid/rayVector.py:1211-1224, src/batoid.cpp:197-207). *)
Record rvptr := RVP { xptr : nat; yptr : nat; zptr : nat; vxptr : nat; vyptr : nat; vzptr : nat;
                      tptr : nat; wptr : nat; fluxptr : nat; vigptr : nat; failptr : nat }.
(** Pointers to element i. *)
Definition elem (P : rvptr) (i : nat) : rvptr :=
  RVP (xptr P + i) (yptr P + i) (zptr P + i) (vxptr P + i) (vyptr P + i) (vzptr P + i)
      (tptr P + i) (wptr P + i) (fluxptr P + i) (vigptr P + i) (failptr P + i).

Declare Scope prog_scope.
Notation "x <- 'cell' a ; k" := (LoadN a (fun x => k))
  (at level 61, a at next level, right associativity) : prog_scope.
Notation "x <- 'bit' a ; k" := (LoadB a (fun x => k))
  (at level 61, a at next level, right associativity) : prog_scope.
Notation "'cell' a := v ; k" := (StoreN a v k)
  (at level 61, a at next level, v at next level, right associativity) : prog_scope.
Notation "'bit' a := v ; k" := (StoreB a v k)
  (at level 61, a at next level, v at next level, right associativity) : prog_scope.

Section Bodies.
  Context {T : Type} {NT : Num T}.
  Local Open Scope num_scope.
  Local Open Scope prog_scope.
  Implicit Types (E P : rvptr) (dr : vec3 T) (d : mat3 T).

  (** In the bodies below E points at the elements of iteration i. *)

  (** dx = xptr[i]-drptr[0]; ... z = ... (src/batoid.cpp:94-99 etc.). *)
  Definition load_point E (k : vec3 T -> prog T unit) : prog T unit :=
    x <- cell (xptr E); y <- cell (yptr E); z <- cell (zptr E); k (V3 x y z).
  (** vx = vxptr[i]*drotptr[0] + vyptr[i]*drotptr[3] + vzptr[i]*drotptr[6]; then vy, vz
      (src/batoid.cpp:101-103 etc.): every component is read three times. *)
  Definition load_vel d E (k : vec3 T -> prog T unit) : prog T unit :=
    a <- cell (vxptr E); b <- cell (vyptr E); c <- cell (vzptr E); let vx := cx (fwd_vel d (V3 a b c)) in
    a <- cell (vxptr E); b <- cell (vyptr E); c <- cell (vzptr E); let vy := cy (fwd_vel d (V3 a b c)) in
    a <- cell (vxptr E); b <- cell (vyptr E); c <- cell (vzptr E); let vz := cz (fwd_vel d (V3 a b c)) in
    k (V3 vx vy vz).
  Definition store3 (a b c : nat) (v : vec3 T) (k : prog T unit) : prog T unit :=
    cell a := cx v; cell b := cy v; cell c := cz v; k.

  (** applyForwardTransformArrays (src/batoid.cpp:13-22). *)
  Definition prog_forwardArrays dr d E : prog T unit :=
    load_point E (fun p => store3 (xptr E) (yptr E) (zptr E) (fwd_point dr d p) (Done tt)).
  (** xx = x[i]*drot[0] + y[i]*drot[1] + z[i]*drot[2] + dr[0]; ... (src/batoid.cpp:31-36). *)
  Definition load_rev (f : vec3 T -> vec3 T) (x y z : nat) (k : vec3 T -> prog T unit) : prog T unit :=
    a <- cell x; b <- cell y; c <- cell z; let xx := cx (f (V3 a b c)) in
    a <- cell x; b <- cell y; c <- cell z; let yy := cy (f (V3 a b c)) in
    a <- cell x; b <- cell y; c <- cell z; let zz := cz (f (V3 a b c)) in
    k (V3 xx yy zz).
  (** applyReverseTransformArrays (src/batoid.cpp:29-37). *)
  Definition prog_reverseArrays dr d E : prog T unit :=
    load_rev (rev_point dr d) (xptr E) (yptr E) (zptr E)
      (fun p => store3 (xptr E) (yptr E) (zptr E) p (Done tt)).
  (** applyForwardTransform (src/batoid.cpp:94-107). *)
  Definition prog_forward dr d E : prog T unit :=
    load_point E (fun p => store3 (xptr E) (yptr E) (zptr E) (fwd_point dr d p)
    (load_vel d E (fun v => store3 (vxptr E) (vyptr E) (vzptr E) v (Done tt)))).
  (** applyReverseTransform (src/batoid.cpp:134-147). *)
  Definition prog_reverse dr d E : prog T unit :=
    load_rev (rev_point dr d) (xptr E) (yptr E) (zptr E)
      (fun p => store3 (xptr E) (yptr E) (zptr E) p
      (load_rev (rev_vel d) (vxptr E) (vyptr E) (vzptr E)
      (fun v => store3 (vxptr E) (vyptr E) (vzptr E) v (Done tt)))).
  (** obscure (src/batoid.cpp:169-171). *)
  Definition prog_obscure (o : obsc T) E : prog T unit :=
    x <- cell (xptr E); y <- cell (yptr E); g <- bit (vigptr E);
    bit (vigptr E) := (g || contains o x y)%bool; Done tt.

  (** The common beginning of intersect, reflect, refract, rSplit, refractScreen
      (src/batoid.cpp:222-238): transform, read t and failed, find the surface; on success go on
      with the point, velocity and time on the surface. *)
  Definition approach (s : surface T) dr d (niter : nat) E
      (success : vec3 T -> vec3 T -> T -> prog T unit) (miss : prog T unit) : prog T unit :=
    load_point E (fun p0 => let p := fwd_point dr d p0 in
    load_vel d E (fun v =>
    t <- cell (tptr E); f <- bit (failptr E);
    if f then Done tt
    else let '(ok, dt) := hit s niter p v in
         if ok then success (advance p v dt) v (t + dt) else miss)).
  (** failptr[i] = true; vigptr[i] = true. *)
  Definition prog_fail E : prog T unit :=
    bit (failptr E) := true; bit (vigptr E) := true; Done tt.
  (** fluxptr[i] *= f(wptr[i]) (src/batoid.cpp:262 etc.). *)
  Definition scale_flux E (f : T -> T) : prog T unit :=
    w <- cell (wptr E); u <- cell (fluxptr E); cell (fluxptr E) := (u * f w); Done tt.

  (** intersect (src/batoid.cpp:223-269). *)
  Definition prog_intersect (s : surface T) dr d (c : option (coating T)) niter E : prog T unit :=
    approach s dr d niter E (fun p v t =>
      store3 (xptr E) (yptr E) (zptr E) p (store3 (vxptr E) (vyptr E) (vzptr E) v
      (cell (tptr E) := t;
      match c with
      | None => Done tt
      | Some c => scale_flux E (fun w =>
          getTransmit c w (dot3 v (normal s (cx p) (cy p)) * invspeed v))
      end))) (prog_fail E).
  (** reflect (src/batoid.cpp:321-377). *)
  Definition prog_reflect (s : surface T) dr d (c : option (coating T)) niter E : prog T unit :=
    approach s dr d niter E (fun p v t =>
      let n := normal s (cx p) (cy p) in
      let v' := reflect_vel v n in
      store3 (xptr E) (yptr E) (zptr E) p (store3 (vxptr E) (vyptr E) (vzptr E) v'
      (cell (tptr E) := t;
      match c with
      | None => Done tt
      | Some c => scale_flux E (fun w => getReflect c w (dot3 v n * invspeed v'))
      end))) (prog_fail E).
  (** vxptr[i] /= n2 (src/batoid.cpp:494-496). *)
  Definition divide (a : nat) (k : T) (q : prog T unit) : prog T unit :=
    x <- cell a; cell a := (x / k); q.
  (** The output of the refracted ray (src/batoid.cpp:476-497, 646-665), then q. *)
  Definition store_refracted E (p nv n : vec3 T) (t alpha n1_ n2_ : T) (q : prog T unit) : prog T unit :=
    let eta := n1_ / n2_ in
    let sinsqr := eta * eta * (n1 - alpha * alpha) in
    store3 (xptr E) (yptr E) (zptr E) p (cell (tptr E) := t;
    if n1 <? sinsqr then
      store3 (vxptr E) (vyptr E) (vzptr E) vnan
      (bit (failptr E) := true; bit (vigptr E) := true; q)
    else
      let nfactor := eta * alpha + nsqrt (n1 - sinsqr) in
      store3 (vxptr E) (vyptr E) (vzptr E)
        (V3 (eta * cx nv - nfactor * cx n) (eta * cy nv - nfactor * cy n) (eta * cz nv - nfactor * cz n))
      (divide (vxptr E) n2_ (divide (vyptr E) n2_ (divide (vzptr E) n2_ q)))).
  (** refract (src/batoid.cpp:431-505). *)
  Definition prog_refract (s : surface T) dr d (m2 : medium T) (c : option (coating T)) niter E
      : prog T unit :=
    approach s dr d niter E (fun p v t =>
      let n1_ := invspeed v in
      let nv := scale v n1_ in
      let '(n, alpha) := orient nv (normal s (cx p) (cy p)) in
      w <- cell (wptr E);
      store_refracted E p nv n t alpha n1_ (getN m2 w)
        match c with
        | None => Done tt
        | Some c => scale_flux E (fun w => getTransmit c w alpha)
        end) (prog_fail E).
  (** rSplit (src/batoid.cpp:581-673); E2 points into rvSplit. *)
  Definition prog_rsplit (s : surface T) dr d (m2 : medium T) (c : coating T) niter E E2
      : prog T unit :=
    approach s dr d niter E (fun p v t =>
      let n1_ := invspeed v in
      let nv := scale v n1_ in
      let '(n, alpha) := orient nv (normal s (cx p) (cy p)) in
      w <- cell (wptr E); let '(rf, tr) := getCoefs c w alpha in
      store3 (xptr E2) (yptr E2) (zptr E2) p
      (store3 (vxptr E2) (vyptr E2) (vzptr E2)
        (V3 (cx v - n2 * alpha * cx n / n1_)
            (cy v - n2 * alpha * cy n / n1_)
            (cz v - n2 * alpha * cz n / n1_))
      (cell (tptr E2) := t;
      w <- cell (wptr E); cell (wptr E2) := w;
      u <- cell (fluxptr E); cell (fluxptr E2) := (u * rf);
      g <- bit (vigptr E); bit (vigptr E2) := g;
      f <- bit (failptr E); bit (failptr E2) := f;
      w <- cell (wptr E);
      store_refracted E p nv n t alpha n1_ (getN m2 w)
        (u <- cell (fluxptr E); cell (fluxptr E) := (u * tr); Done tt))))
    (bit (vigptr E) := true; bit (failptr E) := true;
     bit (vigptr E2) := true; bit (failptr E2) := true; Done tt).
  (** refractScreen (src/batoid.cpp:720-844). *)
  Definition prog_screen (s screen : surface T) dr d niter E : prog T unit :=
    approach s dr d niter E (fun p v t =>
      store3 (vxptr E) (vyptr E) (vzptr E) (screen_vel s screen p v)
      (store3 (xptr E) (yptr E) (zptr E) p
      (cell (tptr E) := (t + sag screen (cx p) (cy p)); Done tt))) (prog_fail E).
  (** propagateInPlace (src/rayVector.cpp:76-81): every statement reads vx and t again. *)
  Definition prog_propagate (t : T) E : prog T unit :=
    x <- cell (xptr E); v <- cell (vxptr E); s <- cell (tptr E); cell (xptr E) := (x + v * (t - s));
    x <- cell (yptr E); v <- cell (vyptr E); s <- cell (tptr E); cell (yptr E) := (x + v * (t - s));
    x <- cell (zptr E); v <- cell (vzptr E); s <- cell (tptr E); cell (zptr E) := (x + v * (t - s));
    cell (tptr E) := t; Done tt.
  (** positionAtTime (src/rayVector.cpp:48-52); xo, yo, zo point at xout[i], yout[i], zout[i]. *)
  Definition prog_position (t : T) E (xo yo zo : nat) : prog T unit :=
    x <- cell (xptr E); v <- cell (vxptr E); s <- cell (tptr E); cell xo := (x + v * (t - s));
    x <- cell (yptr E); v <- cell (vyptr E); s <- cell (tptr E); cell yo := (x + v * (t - s));
    x <- cell (zptr E); v <- cell (vzptr E); s <- cell (tptr E); cell zo := (x + v * (t - s));
    Done tt.

  Context {TT : Trig T}.
  (** v2 = vx*vx + vy*vy + vz*vz with vxptr[i] etc. read twice (src/rayVector.cpp:116, 154, 206). *)
  Definition load_speed2 {A} E (k : T -> prog T A) : prog T A :=
    a <- cell (vxptr E); a' <- cell (vxptr E);
    b <- cell (vyptr E); b' <- cell (vyptr E);
    c <- cell (vzptr E); c' <- cell (vzptr E); k (a * a' + b * b' + c * c').
  (** phase (src/rayVector.cpp:116-122): out[i] is updated in place six times. *)
  Definition prog_phase (r : vec3 T) (t : T) E (o : nat) : prog T unit :=
    load_speed2 E (fun v2 =>
    x <- cell (xptr E); v <- cell (vxptr E); cell o := ((cx r - x) * v);
    x <- cell (yptr E); v <- cell (vyptr E); u <- cell o; cell o := (u + (cy r - x) * v);
    x <- cell (zptr E); v <- cell (vzptr E); u <- cell o; cell o := (u + (cz r - x) * v);
    u <- cell o; cell o := (u / v2);
    s <- cell (tptr E); u <- cell o; cell o := (u - (t - s));
    w <- cell (wptr E); u <- cell o; cell o := (u * (n2 * npi / w)); Done tt).
  (** The local phase of amplitude and sumAmplitude (src/rayVector.cpp:154-160, 206-212). *)
  Definition load_phase {A} (r : vec3 T) (t : T) E (k : T -> prog T A) : prog T A :=
    load_speed2 E (fun v2 =>
    x <- cell (xptr E); v <- cell (vxptr E); let ph := (cx r - x) * v in
    x <- cell (yptr E); v <- cell (vyptr E); let ph := ph + (cy r - x) * v in
    x <- cell (zptr E); v <- cell (vzptr E); let ph := ph + (cz r - x) * v in
    let ph := ph / v2 in
    s <- cell (tptr E); let ph := ph - (t - s) in
    w <- cell (wptr E); k (ph * (n2 * npi / w))).
  (** amplitude (src/rayVector.cpp:153-163); re, im point at outptr[2*i], outptr[2*i+1]. *)
  Definition prog_amplitude (r : vec3 T) (t : T) E (re im : nat) : prog T unit :=
    load_phase r t E (fun ph => cell re := (ncos ph); cell im := (nsin ph); Done tt).
  (** sumAmplitude (src/rayVector.cpp:205-218): what the iteration adds to (real, imag). *)
  Definition prog_sum (r : vec3 T) (t : T) (ign : bool) E : prog T (option (T * T)) :=
    load_phase r t E (fun ph =>
    f <- bit (failptr E);
    if f then Done None
    else if ign then g <- bit (vigptr E);
           if g then Done None
           else u <- cell (fluxptr E); u' <- cell (fluxptr E); Done (Some (ncos ph * u, nsin ph * u'))
    else u <- cell (fluxptr E); u' <- cell (fluxptr E); Done (Some (ncos ph * u, nsin ph * u'))).
End Bodies.

(** The loops, with their arguments and the further arrays they write. *)
Inductive kernel (T : Type) :=
| KForwardArrays (dr : vec3 T) (d : mat3 T)
| KReverseArrays (dr : vec3 T) (d : mat3 T)
| KForward (dr : vec3 T) (d : mat3 T)
| KReverse (dr : vec3 T) (d : mat3 T)
| KObscure (o : obsc T)
| KIntersect (s : surface T) (dr : vec3 T) (d : mat3 T) (c : option (coating T)) (niter : nat)
| KReflect (s : surface T) (dr : vec3 T) (d : mat3 T) (c : option (coating T)) (niter : nat)
| KRefract (s : surface T) (dr : vec3 T) (d : mat3 T) (m2 : medium T) (c : option (coating T)) (niter : nat)
| KScreen (s screen : surface T) (dr : vec3 T) (d : mat3 T) (niter : nat)
| KPropagate (t : T)
| KSplit (s : surface T) (dr : vec3 T) (d : mat3 T) (m2 : medium T) (c : coating T) (niter : nat) (split : rvptr)
| KPosition (t : T) (xo yo zo : nat)
| KPhase (r : vec3 T) (t : T) (out : nat)
| KAmplitude (r : vec3 T) (t : T) (out : nat).
Arguments KForwardArrays {T}. Arguments KReverseArrays {T}. Arguments KForward {T}. Arguments KReverse {T}.
Arguments KObscure {T}. Arguments KIntersect {T}. Arguments KReflect {T}. Arguments KRefract {T}.
Arguments KScreen {T}. Arguments KPropagate {T}. Arguments KSplit {T}. Arguments KPosition {T}.
Arguments KPhase {T}. Arguments KAmplitude {T}.

(** Iteration i of the loop. *)
Definition iteration {T} {NT : Num T} {TT : Trig T} (k : kernel T) (P : rvptr) (i : nat) : prog T unit :=
  let E := elem P i in
  match k with
  | KForwardArrays dr d => prog_forwardArrays dr d E
  | KReverseArrays dr d => prog_reverseArrays dr d E
  | KForward dr d => prog_forward dr d E
  | KReverse dr d => prog_reverse dr d E
  | KObscure o => prog_obscure o E
  | KIntersect s dr d c niter => prog_intersect s dr d c niter E
  | KReflect s dr d c niter => prog_reflect s dr d c niter E
  | KRefract s dr d m2 c niter => prog_refract s dr d m2 c niter E
  | KScreen s screen dr d niter => prog_screen s screen dr d niter E
  | KPropagate t => prog_propagate t E
  | KSplit s dr d m2 c niter split => prog_rsplit s dr d m2 c niter E (elem split i)
  | KPosition t xo yo zo => prog_position t E (xo + i) (yo + i) (zo + i)
  | KPhase r t out => prog_phase r t E (out + i)
  | KAmplitude r t out => prog_amplitude r t E (out + 2 * i) (out + (2 * i + 1))
  end.

(** reduction(+:real,imag) (src/rayVector.cpp:203): every thread adds up the contributions of its
    iterations from 0 (OpenMP's private copies); the private sums and the original value are
    then added together in any order and grouping. *)
Section Reduction.
  Context {T : Type} {NT : Num T}.
  Definition add_to (acc : T * T) (o : option (T * T)) : T * T :=
    match o with None => acc | Some (c, s) => (fst acc + c, snd acc + s)%num end.
  Definition private_sum (outs : list (option (T * T))) : T * T := fold_left add_to outs (n0, n0).
  Inductive combines : list T -> T -> Prop :=
  | combine_one v : combines [v] v
  | combine_two l l1 l2 a b : Permutation l (l1 ++ l2) -> combines l1 a -> combines l2 b ->
      combines l (a + b)%num.
  Definition reduces (c : state T (option (T * T))) (r : T * T) : Prop :=
    let sums := map (fun t => private_sum (fst t)) (snd c) in
    combines (n0 :: map fst sums) (fst r) /\ combines (n0 :: map snd sums) (snd r).
End Reduction.
