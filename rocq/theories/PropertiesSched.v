(** C24: the result does not depend on the number of threads or the schedule. *)
From Coq Require Import Reals List Arith ZArith Bool Permutation.
From Verif Require Import Num NumR NumF Vec CoordSys Surface Medium Obscuration Ray Bundle Spec Trig Wave WaveSpec
  Sched SchedSpec SchedProofs SchedKernels SchedLast SamplesSched.
Import ListNotations.
Local Open Scope nat_scope.

(** Any number of threads, any distribution of the iterations, any interleaving of their loads and stores. *)
Theorem C24_any_schedule : forall (T : Type) (NT : Num T) (TT : Trig T) (k : kernel T) (P : rvptr) (n : nat)
    (m : mem T) (deal : list (list nat)) (c : state T unit),
  separate k P n -> Permutation (concat deal) (seq 0 n) ->
  steps (start (iteration k P) deal m) c -> finished c -> same (fst c) (loop (iteration k P) n m).
Proof. exact @kernel_schedule. Qed.
Print Assumptions C24_any_schedule.
(** The arrays then hold what the per-ray functions of the other theorems say; nothing else changes. *)
Theorem C24_effect : forall (T : Type) (NT : Num T) (TT : Trig T) (k : kernel T) (P : rvptr) (n : nat)
    (m : mem T) (deal : list (list nat)) (c : state T unit),
  separate k P n -> Permutation (concat deal) (seq 0 n) ->
  steps (start (iteration k P) deal m) c -> finished c ->
  leaves k P n m (fst c) /\ elsewhere k P n m (fst c).
Proof. exact @kernel_effect. Qed.
Print Assumptions C24_effect.
(** No data race: the interleaving semantics is the C++ one. *)
Theorem C24_no_race : forall (T : Type) (NT : Num T) (TT : Trig T) (k : kernel T) (P : rvptr) (n : nat)
    (m : mem T) (deal : list (list nat)) (c : state T unit),
  separate k P n -> Permutation (concat deal) (seq 0 n) ->
  steps (start (iteration k P) deal m) c -> ~ race c.
Proof. exact @kernel_no_race. Qed.
Print Assumptions C24_no_race.
(** Every execution ends, and only when all the iterations are done. *)
Theorem C24_ends : forall (T A : Type) (body : nat -> prog T A) (deal : list (list nat)) (m : mem T) (c : state T A),
  steps (start body deal m) c ->
  Acc (fun c' c => step c c') c /\ (finished c \/ exists c', step c c') /\ exists c', steps c c' /\ finished c'.
Proof. exact @ends_well. Qed.
Print Assumptions C24_ends.
Example C24_example : forall (T : Type) (s : surface T) dr d m2 c niter (r : vec3 T) (t : T),
  separate (KSplit s dr d m2 c niter rv3') rv3 3 /\ separate (KAmplitude r t 27) rv3 3 /\
  Permutation (concat deal3) (seq 0 3).
Proof. intros. exact (conj (ex_split s dr d m2 c niter) (conj (ex_amplitude r t) ex_deal)). Qed.

(** sumAmplitude: the exact value is independent of the schedule and of the grouping of the partial sums. *)
Theorem C24_reduction : forall (ign : bool) (l : list (ray R)) (c0 : frame) (p : vR) (t : R) (P : rvptr)
    (m : mem XR) (deal : list (list nat)) (c : state XR (option (XR * XR))) (r : XR * XR),
  Forall has_wave (filter (counted ign) l) -> rays_at m P (length l) = map Fray l ->
  ForallOrdPairs apart (rv_nums P (length l)) -> ForallOrdPairs apart (rv_bools P (length l)) ->
  Permutation (concat deal) (seq 0 (length l)) ->
  steps (start (fun i => prog_sum (F3 p) (Fin t) ign (elem P i)) deal m) c -> finished c -> reduces c r ->
  same (fst c) m /\ r = sumAmplitude (F3 p) (Fin t) ign (Frv (RV l c0)).
Proof. exact sum_any_schedule. Qed.
Print Assumptions C24_reduction.
(** Rounded sums do depend on it: two threads instead of one. *)
Theorem C24_rounding_refuted : forall (TT : Trig F64), npi = pi64 -> ncos (f_ofZ 0) = f_ofZ 1 -> nsin (f_ofZ 0) = f_ofZ 0 ->
  exists c1 c2 r1 r2,
    steps (sum3 TT [[0; 1; 2]]) c1 /\ finished c1 /\ reduces c1 r1 /\
    steps (sum3 TT [[0]; [1; 2]]) c2 /\ finished c2 /\ reduces c2 r2 /\
    r1 = (f_ofZ 9007199254740992, f_ofZ 0) /\ r2 = (f_ofZ 9007199254740994, f_ofZ 0) /\ r1 <> r2.
Proof. exact rounding_differs. Qed.
Print Assumptions C24_rounding_refuted.
(** Overlapping arrays, which fromStop accepts, make the loops race and the result depend on the order. *)
Theorem C24_overlap_refuted : forall (TT : Trig F64),
  (exists c1 c2, steps (lap_start TT [[0; 1]]) c1 /\ finished c1 /\ steps (lap_start TT [[1; 0]]) c2 /\ finished c2 /\
    nums (fst c1) 0 = f_ofZ 2 /\ nums (fst c2) 0 = f_ofZ 3 /\ ~ same (fst c1) (fst c2)) /\
  (exists c, steps (lap_start TT [[0]; [1]]) c /\ race c).
Proof. exact (fun TT => conj (overlap_differs TT) (overlap_race TT)). Qed.
Print Assumptions C24_overlap_refuted.
