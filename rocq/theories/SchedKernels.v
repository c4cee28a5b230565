(** The footprints and effects of the loops. *)
From Coq Require Import List Arith Bool Lia Permutation.
From Verif Require Import Num Vec CoordSys Surface Medium Obscuration Ray Trig Wave Sched SchedSpec SchedProofs.
Import ListNotations.
Local Open Scope nat_scope.

Definition rv_cells (E : rvptr) : list loc :=
  [NumAt (xptr E); NumAt (yptr E); NumAt (zptr E); NumAt (vxptr E); NumAt (vyptr E); NumAt (vzptr E);
   NumAt (tptr E); NumAt (wptr E); NumAt (fluxptr E); BoolAt (vigptr E); BoolAt (failptr E)].
Definition cells {T} (k : kernel T) (P : rvptr) (i : nat) : list loc :=
  let E := elem P i in
  match k with
  | KForwardArrays _ _ | KReverseArrays _ _ => [NumAt (xptr E); NumAt (yptr E); NumAt (zptr E)]
  | KSplit _ _ _ _ _ _ split => rv_cells E ++ rv_cells (elem split i)
  | KPosition _ xo yo zo => rv_cells E ++ [NumAt (xo + i); NumAt (yo + i); NumAt (zo + i)]
  | KPhase _ _ out => rv_cells E ++ [NumAt (out + i)]
  | KAmplitude _ _ out => rv_cells E ++ [NumAt (out + 2 * i); NumAt (out + (2 * i + 1))]
  | _ => rv_cells E
  end.

Section Confined.
  Context {T : Type} {NT : Num T} {TT : Trig T}.
  Local Ltac conf :=
    repeat match goal with
    | |- _ /\ _ => split
    | |- forall _, _ => intro
    | |- True => exact I
    | |- In _ _ => cbn; tauto
    | |- confined _ (if ?b then _ else _) => destruct b
    | |- confined _ (let '(_, _) := ?x in _) => destruct x
    | |- confined _ (match ?x with None => _ | Some _ => _ end) => destruct x
    | |- confined _ _ => progress cbn [confined]
    end.
  Lemma iteration_confined (k : kernel T) P i : confined (cells k P i) (iteration k P i).
  Proof.
    destruct k; unfold iteration, cells, prog_forwardArrays, prog_reverseArrays, prog_forward, prog_reverse,
      prog_obscure, prog_intersect, prog_reflect, prog_refract, prog_rsplit, prog_screen, prog_propagate,
      prog_position, prog_phase, prog_amplitude, load_phase, load_speed2, approach, load_point, load_vel,
      load_rev, store_refracted, store3, divide, scale_flux, prog_fail; cbv zeta; conf.
  Qed.
  Lemma sum_confined (r : vec3 T) t ign P i : confined (rv_cells (elem P i)) (prog_sum r t ign (elem P i)).
  Proof. unfold prog_sum, load_phase, load_speed2; cbv zeta; conf. Qed.
End Confined.

(** Cells of different iterations are different. *)
Section Apart.
  Context {T : Type}.
  Implicit Types (k : kernel T) (P : rvptr).
  (** off is an offset of iteration i in an array of len elements. *)
  Definition offset (n i len off : nat) : Prop :=
    (len = n /\ off = i) \/ (len = 2 * n /\ (off = 2 * i \/ off = 2 * i + 1)).
  Definition from (n i : nat) (arrays : list (nat * nat)) (a : nat) : Prop :=
    exists b len off, In (b, len) arrays /\ a = b + off /\ offset n i len off.
  Lemma from_apart n arrays i j a : ForallOrdPairs apart arrays -> i < n -> j < n -> i <> j ->
    from n i arrays a -> ~ from n j arrays a.
  Proof.
    intros H Hi Hj N (b & len & off & I1 & -> & O1) (b' & len' & off' & I2 & E & O2). unfold offset in *.
    destruct (ForallOrdPairs_In H _ _ I1 I2) as [X|[X|X]]; unfold apart in X; cbn in X.
    - inversion X; subst. lia.
    - lia.
    - lia.
  Qed.
  Lemma rv_num P n i a : In (NumAt a) (rv_cells (elem P i)) -> exists b, In (b, n) (rv_nums P n) /\ a = b + i.
  Proof.
    unfold rv_cells, rv_nums, elem; cbn [xptr yptr zptr vxptr vyptr vzptr tptr wptr fluxptr vigptr failptr].
    intros H. destruct H as [H|[H|[H|[H|[H|[H|[H|[H|[H|[H|[H|[]]]]]]]]]]]]; try discriminate; inversion H;
      eexists; (split; [|reflexivity]); cbn; tauto.
  Qed.
  Lemma rv_bool P n i a : In (BoolAt a) (rv_cells (elem P i)) -> exists b, In (b, n) (rv_bools P n) /\ a = b + i.
  Proof.
    unfold rv_cells, rv_bools, elem; cbn [xptr yptr zptr vxptr vyptr vzptr tptr wptr fluxptr vigptr failptr].
    intros H. destruct H as [H|[H|[H|[H|[H|[H|[H|[H|[H|[H|[H|[]]]]]]]]]]]]; try discriminate; inversion H;
      eexists; (split; [|reflexivity]); cbn; tauto.
  Qed.
  Lemma from_rv P n i a l : In (NumAt a) (rv_cells (elem P i)) -> incl (rv_nums P n) l -> from n i l a.
  Proof. intros H I. apply (rv_num P n) in H. destruct H as (b & H & ->). exists b, n, i. unfold offset. auto. Qed.
  Lemma from_rvb P n i a l : In (BoolAt a) (rv_cells (elem P i)) -> incl (rv_bools P n) l -> from n i l a.
  Proof. intros H I. apply (rv_bool P n) in H. destruct H as (b & H & ->). exists b, n, i. unfold offset. auto. Qed.
  Lemma from_one b n i l : In (b, n) l -> from n i l (b + i).
  Proof. intros H. exists b, n, i. unfold offset. auto. Qed.
  Lemma cells_num k P n i a : In (NumAt a) (cells k P i) -> from n i (num_arrays k P n) a.
  Proof.
    destruct k; unfold cells, num_arrays; cbv zeta; try (intros H; apply (from_rv P); [exact H|apply incl_refl]).
    - intros [H|[H|[H|[]]]]; inversion H; cbn [elem xptr yptr zptr]; apply from_one; cbn; tauto.
    - intros [H|[H|[H|[]]]]; inversion H; cbn [elem xptr yptr zptr]; apply from_one; cbn; tauto.
    - intros H. apply in_app_iff in H. destruct H as [H|H].
      + apply (from_rv P); [exact H|apply incl_appl, incl_refl].
      + apply (from_rv split); [exact H|apply incl_appr, incl_refl].
    - intros H. apply in_app_iff in H. destruct H as [H|H].
      + apply (from_rv P); [exact H|apply incl_appl, incl_refl].
      + destruct H as [H|[H|[H|[]]]]; inversion H; apply from_one, in_app_iff; right; cbn; tauto.
    - intros H. apply in_app_iff in H. destruct H as [H|H].
      + apply (from_rv P); [exact H|apply incl_appl, incl_refl].
      + destruct H as [H|[]]; inversion H; apply from_one, in_app_iff; right; cbn; tauto.
    - intros H. apply in_app_iff in H. destruct H as [H|H].
      + apply (from_rv P); [exact H|apply incl_appl, incl_refl].
      + destruct H as [H|[H|[]]]; injection H as <-; (do 3 eexists); (split; [apply in_app_iff; right; left; reflexivity|]);
          (split; [reflexivity|]); unfold offset; lia.
  Qed.
  Lemma cells_bool k P n i a : In (BoolAt a) (cells k P i) -> from n i (bool_arrays k P n) a.
  Proof.
    destruct k; unfold cells, bool_arrays; cbv zeta; try (intros H; apply (from_rvb P); [exact H|apply incl_refl]).
    - intros [H|[H|[H|[]]]]; discriminate.
    - intros [H|[H|[H|[]]]]; discriminate.
    - intros H. apply in_app_iff in H. destruct H as [H|H].
      + apply (from_rvb P); [exact H|apply incl_appl, incl_refl].
      + apply (from_rvb split); [exact H|apply incl_appr, incl_refl].
    - intros H. apply in_app_iff in H. destruct H as [H|H].
      + apply (from_rvb P); [exact H|apply incl_refl].
      + destruct H as [H|[H|[H|[]]]]; discriminate.
    - intros H. apply in_app_iff in H. destruct H as [H|H].
      + apply (from_rvb P); [exact H|apply incl_refl].
      + destruct H as [H|[]]; discriminate.
    - intros H. apply in_app_iff in H. destruct H as [H|H].
      + apply (from_rvb P); [exact H|apply incl_refl].
      + destruct H as [H|[H|[]]]; discriminate.
  Qed.
  Lemma cells_disjoint k P n : separate k P n ->
    forall i j l, i < n -> j < n -> i <> j -> In l (cells k P i) -> ~ In l (cells k P j).
  Proof.
    intros [S1 S2] i j [a|a] Hi Hj N H1 H2.
    - apply (cells_num k P n) in H1, H2. exact (from_apart n _ i j a S1 Hi Hj N H1 H2).
    - apply (cells_bool k P n) in H1, H2. exact (from_apart n _ i j a S2 Hi Hj N H1 H2).
  Qed.
  Lemma from_inside n i l a : i < n -> from n i l a -> inside a l.
  Proof. intros Hi (b & len & off & H & -> & O). exists (b, len). split; [exact H|]. unfold offset in O. cbn. lia. Qed.
End Apart.

Section Schedules.
  Context {T : Type} {NT : Num T} {TT : Trig T}.
  Implicit Types (k : kernel T) (P : rvptr) (m : mem T).
  Lemma kernel_schedule k P n m deal c : separate k P n -> Permutation (concat deal) (seq 0 n) ->
    steps (start (iteration k P) deal m) c -> finished c -> same (fst c) (loop (iteration k P) n m).
  Proof.
    intros S G. apply (any_schedule _ (cells k P) n); [intros; apply iteration_confined|apply cells_disjoint, S|exact G].
  Qed.
  Lemma kernel_no_race k P n m deal c : separate k P n -> Permutation (concat deal) (seq 0 n) ->
    steps (start (iteration k P) deal m) c -> ~ race c.
  Proof.
    intros S G. apply (no_race _ (cells k P) n); [intros; apply iteration_confined|apply cells_disjoint, S|exact G].
  Qed.
  Lemma kernel_elsewhere k P n m : separate k P n -> elsewhere k P n m (loop (iteration k P) n m).
  Proof.
    intros S.
    destruct (loop_cells (iteration k P) (cells k P) n (fun i _ => iteration_confined k P i) (cells_disjoint k P n S) m)
      as [_ H].
    split; intros a Ha; [specialize (H (NumAt a))|specialize (H (BoolAt a))]; cbn in H.
    - assert (X : inl (nums (loop (iteration k P) n m) a) = inl (B := bool) (nums m a)); [|congruence].
      apply H. intros i Hi X. apply Ha. eapply from_inside; [exact Hi|]. apply cells_num, X.
    - assert (X : inr (A := T) (bools (loop (iteration k P) n m) a) = inr (bools m a)); [|congruence].
      apply H. intros i Hi X. apply Ha. eapply from_inside; [exact Hi|]. apply cells_bool, X.
  Qed.
  Lemma kernel_at k P n m i : separate k P n -> i < n ->
    agree (cells k P i) (loop (iteration k P) n m) (fst (run (iteration k P i) m)).
  Proof.
    intros S Hi.
    destruct (loop_cells (iteration k P) (cells k P) n (fun i _ => iteration_confined k P i) (cells_disjoint k P n S) m)
      as [H _]. apply H, Hi.
  Qed.
End Schedules.
