(** Memory layouts and schedules for the examples and refutations about parallel loops. *)
From Coq Require Import List Arith ZArith Bool Lia Permutation Floats.SpecFloat.
From Verif Require Import Num NumF Vec CoordSys Surface Medium Obscuration Ray Bundle Trig Wave
  Sched SchedSpec SchedProofs SchedKernels SchedEffect SchedLast.
Import ListNotations.
Local Open Scope nat_scope.

(** Three rays; every array directly after the one before. *)
Definition rv3 : rvptr := RVP 0 3 6 9 12 15 18 21 24 0 3.
Definition rv3' : rvptr := RVP 27 30 33 36 39 42 45 48 51 6 9.
(** Three threads, one without work. *)
Definition deal3 : list (list nat) := [[2; 0]; []; [1]].
Lemma rv3_nums : ForallOrdPairs apart (rv_nums rv3 3).
Proof. repeat constructor; unfold apart; cbn; lia. Qed.
Lemma rv3_bools : ForallOrdPairs apart (rv_bools rv3 3).
Proof. repeat constructor; unfold apart; cbn; lia. Qed.
Lemma ex_split {T} (s : surface T) dr d m2 c niter : separate (KSplit s dr d m2 c niter rv3') rv3 3.
Proof. split; repeat constructor; unfold apart; cbn; lia. Qed.
Lemma ex_amplitude {T} (r : vec3 T) t : separate (KAmplitude r t 27) rv3 3.
Proof. split; repeat constructor; unfold apart; cbn; lia. Qed.
Lemma ex_deal : Permutation (concat deal3) (seq 0 3).
Proof. cbn. apply perm_trans with [0; 2; 1]; [apply perm_swap|apply perm_skip, perm_swap]. Qed.

(** Rounding: three rays of flux 2^53, 1, 1 at the origin, in phase. *)
Definition pi64 : F64 := S754_finite false 7074237752028440 (-51).
Definition flux3 : list F64 := [f_ofZ 9007199254740992; f_ofZ 1; f_ofZ 1].
Definition mem3 : mem F64 :=
  Mem (fun a => nth a (repeat (f_ofZ 0) 15 ++ repeat (f_ofZ 1) 3 ++ repeat (f_ofZ 0) 3 ++ repeat (f_ofZ 1) 3 ++ flux3) (f_ofZ 0))
      (fun _ => false).
Definition zero64 : vec3 F64 := V3 (f_ofZ 0) (f_ofZ 0) (f_ofZ 0).
Definition frame64 : coordsys F64 :=
  CS zero64 (M3 (f_ofZ 1) (f_ofZ 0) (f_ofZ 0) (f_ofZ 0) (f_ofZ 1) (f_ofZ 0) (f_ofZ 0) (f_ofZ 0) (f_ofZ 1)).
Section Rounding.
  Context (TT : Trig F64) (Hpi : npi = pi64) (Hcos : ncos (f_ofZ 0) = f_ofZ 1) (Hsin : nsin (f_ofZ 0) = f_ofZ 0).
  Definition sum3 (deal : list (list nat)) : state F64 _ :=
    start (fun i => prog_sum zero64 (f_ofZ 0) true (elem rv3 i)) deal mem3.
  Definition amp3 (its : list nat) : F64 * F64 :=
    sumAmplitude zero64 (f_ofZ 0) true (RV (map (ray_at mem3 rv3) its) frame64).
  Lemma phase3 i : i < 3 -> ray_phase zero64 (f_ofZ 0) (ray_at mem3 rv3 i) = f_ofZ 0.
  Proof.
    intros Hi. unfold ray_phase. rewrite Hpi. clear Hpi Hcos Hsin TT.
    destruct i as [|[|[|]]]; try lia; vm_compute; reflexivity.
  Qed.
  Lemma add3 acc i : i < 3 -> add_amplitude zero64 (f_ofZ 0) true acc (ray_at mem3 rv3 i)
    = (nadd (fst acc) (nmul (f_ofZ 1) (nth i flux3 (f_ofZ 0))), nadd (snd acc) (nmul (f_ofZ 0) (nth i flux3 (f_ofZ 0)))).
  Proof.
    intros Hi. unfold add_amplitude. rewrite phase3 by exact Hi. rewrite Hcos, Hsin.
    destruct i as [|[|[|]]]; try lia; reflexivity.
  Qed.
  Lemma amp_one : amp3 [0; 1; 2] = (f_ofZ 9007199254740992, f_ofZ 0).
  Proof.
    unfold amp3, sumAmplitude. cbn [rays map fold_left]. rewrite !add3 by lia. clear Hpi Hcos Hsin TT. vm_compute. reflexivity.
  Qed.
  Lemma amp_a : amp3 [0] = (f_ofZ 9007199254740992, f_ofZ 0).
  Proof.
    unfold amp3, sumAmplitude. cbn [rays map fold_left]. rewrite !add3 by lia. clear Hpi Hcos Hsin TT. vm_compute. reflexivity.
  Qed.
  Lemma amp_b : amp3 [1; 2] = (f_ofZ 2, f_ofZ 0).
  Proof.
    unfold amp3, sumAmplitude. cbn [rays map fold_left]. rewrite !add3 by lia. clear Hpi Hcos Hsin TT. vm_compute. reflexivity.
  Qed.
  Lemma combine1 (a : F64) : combines [n0; a] (n0 + a)%num.
  Proof. apply (combine_two _ [n0] [a]); [apply Permutation_refl|apply combine_one|apply combine_one]. Qed.
  Lemma combine2 (a b : F64) : combines [n0; a; b] (n0 + a + b)%num.
  Proof. apply (combine_two _ [n0; a] [b]); [apply Permutation_refl|apply combine1|apply combine_one]. Qed.
  Lemma rounding_differs : exists c1 c2 r1 r2,
    steps (sum3 [[0; 1; 2]]) c1 /\ finished c1 /\ reduces c1 r1 /\
    steps (sum3 [[0]; [1; 2]]) c2 /\ finished c2 /\ reduces c2 r2 /\
    r1 = (f_ofZ 9007199254740992, f_ofZ 0) /\ r2 = (f_ofZ 9007199254740994, f_ofZ 0) /\ r1 <> r2.
  Proof.
    destruct (can_finish (sum3 [[0; 1; 2]])) as (c1 & S1 & E1).
    destruct (can_finish (sum3 [[0]; [1; 2]])) as (c2 & S2 & E2).
    exists c1, c2, (f_ofZ 9007199254740992, f_ofZ 0), (f_ofZ 9007199254740994, f_ofZ 0).
    destruct (sum_finish _ _ _ _ 3 _ [[0; 1; 2]] _ frame64 rv3_nums rv3_bools (Permutation_refl [0; 1; 2]) S1 E1) as [_ H1].
    destruct (sum_finish _ _ _ _ 3 _ [[0]; [1; 2]] _ frame64 rv3_nums rv3_bools (Permutation_refl [0; 1; 2]) S2 E2) as [_ H2].
    match type of H1 with ?l = _ => change (l = [amp3 [0; 1; 2]]) in H1 end.
    match type of H2 with ?l = _ => change (l = [amp3 [0]; amp3 [1; 2]]) in H2 end.
    rewrite amp_one in H1. rewrite amp_a, amp_b in H2.
    split; [exact S1|]. split; [exact E1|]. split.
    { unfold reduces. rewrite H1. cbn [map fst snd].
      split; [apply (combine1 (f_ofZ 9007199254740992))|apply (combine1 (f_ofZ 0))]. }
    split; [exact S2|]. split; [exact E2|]. split.
    { unfold reduces. rewrite H2. cbn [map fst snd].
      split; [exact (combine2 (f_ofZ 9007199254740992) (f_ofZ 2))|exact (combine2 (f_ofZ 0) (f_ofZ 0))]. }
    split; [reflexivity|]. split; [reflexivity|]. vm_compute. discriminate.
  Qed.
End Rounding.

(** Overlapping arrays: x = a[0:2], y = a[1:3], z elsewhere; a quarter turn about z. *)
Definition lap : rvptr := RVP 0 1 6 9 12 15 18 21 24 0 3.
Definition turn : mat3 F64 :=
  M3 (f_ofZ 0) (f_ofZ (-1)) (f_ofZ 0) (f_ofZ 1) (f_ofZ 0) (f_ofZ 0) (f_ofZ 0) (f_ofZ 0) (f_ofZ 1).
Definition lap_mem : mem F64 := Mem (fun a => nth a [f_ofZ 1; f_ofZ 2; f_ofZ 3] (f_ofZ 0)) (fun _ => false).
Section Overlap.
  Context (TT : Trig F64).
  Definition lap_start (deal : list (list nat)) : state F64 unit :=
    start (iteration (KForwardArrays zero64 turn) lap) deal lap_mem.
  (** The same iterations by one thread, in either order. *)
  Lemma lap_run its : exists c, steps (lap_start [its]) c /\ finished c /\
    fst c = fold_left (fun m i => fst (run (iteration (KForwardArrays zero64 turn) lap i) m)) its lap_mem.
  Proof.
    destruct (iterations (iteration (KForwardArrays zero64 turn) lap) its [] lap_mem) as [o H].
    eexists. split; [exact H|]. split; [repeat constructor|reflexivity].
  Qed.
  Lemma overlap_differs : exists c1 c2,
    steps (lap_start [[0; 1]]) c1 /\ finished c1 /\ steps (lap_start [[1; 0]]) c2 /\ finished c2 /\
    nums (fst c1) 0 = f_ofZ 2 /\ nums (fst c2) 0 = f_ofZ 3 /\ ~ same (fst c1) (fst c2).
  Proof.
    destruct (lap_run [0; 1]) as (c1 & S1 & E1 & M1). destruct (lap_run [1; 0]) as (c2 & S2 & E2 & M2).
    exists c1, c2.
    assert (H1 : nums (fst c1) 0 = f_ofZ 2) by (rewrite M1; vm_compute; reflexivity).
    assert (H2 : nums (fst c2) 0 = f_ofZ 3) by (rewrite M2; vm_compute; reflexivity).
    split; [exact S1|]. split; [exact E1|]. split; [exact S2|]. split; [exact E2|]. split; [exact H1|]. split; [exact H2|].
    intros [H _]. rewrite (H 0), H2 in H1. vm_compute in H1. discriminate.
  Qed.
  Lemma first_step {T A} outs (p p' : prog T A) ps m m' rest : act p m = Some (p', m') ->
    step (m, (outs, p :: ps) :: rest) (m', (outs, p' :: ps) :: rest).
  Proof. intros H. apply (one_thread m m' (outs, p :: ps) (outs, p' :: ps) [] rest). apply access, H. Qed.
  Lemma overlap_race : exists c, steps (lap_start [[0]; [1]]) c /\ race c.
  Proof.
    eexists. split.
    - eapply steps_first; [eapply first_step; reflexivity|].
      eapply steps_first; [eapply first_step; reflexivity|].
      eapply steps_first; [eapply first_step; reflexivity|].
      eapply steps_first; [eapply first_step; reflexivity|].
      apply no_steps.
    - exists []. eexists. exists []. eexists. exists [], (NumAt 1), true, false. split; [reflexivity|].
      split; [eexists; eexists; split; reflexivity|]. split; [eexists; eexists; split; reflexivity|]. left; reflexivity.
  Qed.
End Overlap.
