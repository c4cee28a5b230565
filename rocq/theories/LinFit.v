(** Least squares: uniqueness, columns of zeros, rank. *)
From Coq Require Import Reals List Lia Lra Psatz.
From Verif Require Import GenSpec DiscSpec FitSpec.
Import ListNotations.
Open Scope R_scope.

Lemma dotl_nil a : dotl [] a = 0.
Proof. reflexivity. Qed.
Lemma dotl_cons x a y b : dotl (x :: a) (y :: b) = x * y + dotl a b.
Proof. reflexivity. Qed.
Lemma dotl_zeros k x : dotl (repeat 0 k) x = 0.
Proof.
  revert x. induction k as [|k IH]; intros [|a x]; try reflexivity. cbn [repeat]. rewrite dotl_cons, IH. ring.
Qed.
Lemma dotl_app a b a' b' : length a = length a' -> dotl (a ++ b) (a' ++ b') = dotl a a' + dotl b b'.
Proof.
  revert a'. induction a as [|x a IH]; intros [|y a'] L; try discriminate; [cbn [app]; rewrite dotl_nil; ring|].
  cbn [app]. rewrite !dotl_cons, IH by (injection L; auto). ring.
Qed.
Lemma dotl_self_nonneg a : 0 <= dotl a a.
Proof. induction a as [|x a IH]; [unfold dotl; cbn; lra|]. rewrite dotl_cons. nra. Qed.
Lemma dotl_self_zero a : dotl a a <= 0 -> a = repeat 0 (length a).
Proof.
  induction a as [|x a IH]; intros H; [reflexivity|]. rewrite dotl_cons in H. pose proof (dotl_self_nonneg a).
  cbn [length repeat]. f_equal; [nra|apply IH; nra].
Qed.
Lemma dotl_comm a b : dotl a b = dotl b a.
Proof. revert b. induction a as [|x a IH]; intros [|y b]; try reflexivity. rewrite !dotl_cons, IH. ring. Qed.
Definition subl (c c' : list R) : list R := map (fun p => fst p - snd p) (combine c c').
Definition midl (c c' : list R) : list R := map (fun p => (fst p + snd p) / 2) (combine c c').
Lemma subl_length c c' : length c = length c' -> length (subl c c') = length c.
Proof. intros L. unfold subl. rewrite map_length, combine_length. lia. Qed.
Lemma midl_length c c' : length c = length c' -> length (midl c c') = length c.
Proof. intros L. unfold midl. rewrite map_length, combine_length. lia. Qed.
Lemma dotl_sub row c c' : length c = length c' -> dotl row (subl c c') = dotl row c - dotl row c'.
Proof.
  revert c c'. induction row as [|x row IH]; intros [|a c] [|b c'] L; try discriminate; try (unfold dotl; cbn; ring).
  unfold subl. cbn [combine map fst snd]. fold (subl c c'). rewrite !dotl_cons, IH by (injection L; auto). ring.
Qed.
Lemma dotl_mid row c c' : length c = length c' -> dotl row (midl c c') = (dotl row c + dotl row c') / 2.
Proof.
  revert c c'. induction row as [|x row IH]; intros [|a c] [|b c'] L; try discriminate; try (unfold dotl; cbn; field).
  unfold midl. cbn [combine map fst snd]. fold (midl c c'). rewrite !dotl_cons, IH by (injection L; auto). field.
Qed.
Lemma subl_zero c c' : length c = length c' -> Forall (fun a => a = 0) (subl c c') -> c = c'.
Proof.
  revert c'. induction c as [|a c IH]; intros [|b c'] L H; try discriminate; [reflexivity|].
  unfold subl in H. cbn [combine map fst snd] in H. inversion H as [|? ? H0 H1]. f_equal; [lra|]. apply IH; [injection L; auto|exact H1].
Qed.
Lemma misfit_cons row A v b c : misfit (row :: A) (v :: b) c = (dotl row c - v) * (dotl row c - v) + misfit A b c.
Proof. reflexivity. Qed.
Lemma misfit_mid A b c c' : length c = length c' -> length A = length b ->
  misfit A b (midl c c') = (misfit A b c + misfit A b c') / 2 - misfit A (repeat 0 (length A)) (subl c c') / 4.
Proof.
  intros L. revert b. induction A as [|row A IH]; intros [|v b] LA; try discriminate; [unfold misfit; cbn; field|].
  cbn [length repeat]. rewrite !misfit_cons, IH by (injection LA; auto). rewrite dotl_mid, dotl_sub by exact L. field.
Qed.
Lemma misfit_nonneg A b c : 0 <= misfit A b c.
Proof. revert b. induction A as [|row A IH]; intros [|v b]; try (unfold misfit; cbn; lra). rewrite misfit_cons. specialize (IH b). pose proof (Rle_0_sqr (dotl row c - v)) as Q. unfold Rsqr in Q. lra. Qed.
Lemma misfit_null A c : misfit A (repeat 0 (length A)) c <= 0 -> Forall (fun row => dotl row c = 0) A.
Proof.
  induction A as [|row A IH]; intros H; [constructor|]. cbn [length repeat] in H. rewrite misfit_cons in H.
  pose proof (misfit_nonneg A (repeat 0 (length A)) c). pose proof (Rle_0_sqr (dotl row c - 0)) as Q. unfold Rsqr in Q.
  constructor; [|apply IH; lra]. assert (E : (dotl row c - 0) * (dotl row c - 0) = 0) by lra. apply Rmult_integral in E. lra.
Qed.
Lemma misfit_exact A b c : Forall2 (fun row v => dotl row c = v) A b -> misfit A b c = 0.
Proof. intros H. induction H as [|row v A b E H IH]; [reflexivity|]. rewrite misfit_cons, E, IH. ring. Qed.

(** No combination of the columns vanishes. *)
Definition full (n : nat) (A : list (list R)) : Prop :=
  forall c, length c = n -> Forall (fun row => dotl row c = 0) A -> Forall (fun a => a = 0) c.
Definition padded (k : nat) (A : list (list R)) : list (list R) := map (app (repeat 0 k)) A.
Lemma padded_dot k row x0 c : length x0 = k -> dotl (repeat 0 k ++ row) (x0 ++ c) = dotl row c.
Proof. intros L. rewrite dotl_app by (rewrite repeat_length; auto). rewrite dotl_zeros. ring. Qed.
Lemma padded_misfit k A b x0 c : length x0 = k -> misfit (padded k A) b (x0 ++ c) = misfit A b c.
Proof.
  intros L. revert b. induction A as [|row A IH]; intros [|v b]; try reflexivity.
  unfold padded. cbn [map]. fold (padded k A). rewrite !misfit_cons, IH, padded_dot by exact L. reflexivity.
Qed.
Lemma split_length {A} (l : list A) k n : length l = (k + n)%nat -> exists a b, l = a ++ b /\ length a = k /\ length b = n.
Proof.
  intros L. exists (firstn k l), (skipn k l). rewrite firstn_skipn, firstn_length, skipn_length. repeat split; lia.
Qed.
Lemma unit_nth i m j : nth j (repeat 0 i ++ 1 :: repeat 0 m) 0 = if Nat.eq_dec j i then 1 else 0.
Proof.
  revert j. induction i as [|i IH]; intros j.
  - destruct j as [|j]; [reflexivity|]. cbn [repeat app nth]. destruct (Nat.eq_dec (S j) 0); [discriminate|]. apply nth_repeat.
  - destruct j as [|j]; [reflexivity|]. cbn [repeat app nth]. rewrite IH. destruct (Nat.eq_dec j i), (Nat.eq_dec (S j) (S i)); try reflexivity; lia.
Qed.
Lemma nth_zeros (c : list R) : (forall i, nth i c 0 = 0) -> Forall (fun a => a = 0) c.
Proof. intros H. apply Forall_forall. intros a Ha. destruct (In_nth c a 0 Ha) as (i & _ & <-). apply H. Qed.
Lemma no_zero_column k n A S i : (i < k)%nat -> independent (k + n) (padded k A) S -> ~ In i S.
Proof.
  intros Hi HS Hin. set (c := (repeat 0 i ++ 1 :: repeat 0 (k - i - 1)) ++ repeat 0 n).
  assert (Q : Forall (fun a => a = 0) c).
  { apply HS.
    - unfold c. rewrite !app_length. cbn [length]. rewrite !repeat_length. lia.
    - intros j Hj. unfold c. destruct (Nat.lt_ge_cases j k) as [Hk|Hk].
      + rewrite app_nth1 by (rewrite app_length; cbn [length]; rewrite !repeat_length; lia). rewrite unit_nth. destruct (Nat.eq_dec j i); [subst; contradiction|reflexivity].
      + rewrite app_nth2 by (rewrite app_length; cbn [length]; rewrite !repeat_length; lia). apply nth_repeat.
    - unfold padded. rewrite Forall_map. apply Forall_forall. intros row _. unfold c.
      rewrite padded_dot by (rewrite app_length; cbn [length]; rewrite !repeat_length; lia). rewrite dotl_comm. apply dotl_zeros. }
  assert (E : nth i c 0 = 1).
  { unfold c. rewrite app_nth1 by (rewrite app_length; cbn [length]; rewrite !repeat_length; lia). rewrite unit_nth. destruct (Nat.eq_dec i i); [reflexivity|congruence]. }
  rewrite Forall_forall in Q. assert (nth i c 0 = 0); [|lra]. apply Q, nth_In. unfold c. rewrite !app_length. cbn [length]. rewrite !repeat_length. lia.
Qed.
Lemma full_rank k n A r : rank_is (k + n) (padded k A) r -> (full n A -> (n <= r)%nat) /\ (~ full n A -> (r < n)%nat).
Proof.
  intros ((S & (ND & HB) & <- & HI) & HM). split.
  - intros HF. replace n with (length (seq k n)) by apply seq_length. apply HM.
    + split; [apply seq_NoDup|]. apply Forall_forall. intros i Hi. apply in_seq in Hi. lia.
    + intros c L Hz Hd. destruct (split_length c k n L) as (x0 & c' & -> & L0 & L1).
      assert (Z0 : Forall (fun a => a = 0) x0).
      { apply nth_zeros. intros i. destruct (Nat.lt_ge_cases i k) as [Hi|Hi]; [|apply nth_overflow; lia].
        rewrite <- (app_nth1 x0 c' 0) by lia. apply Hz. rewrite in_seq. lia. }
      apply Forall_app. split; [exact Z0|]. apply HF; [exact L1|].
      unfold padded in Hd. rewrite Forall_map in Hd. eapply Forall_impl; [|exact Hd]. intros row E. cbn beta in E. rewrite padded_dot in E by exact L0. exact E.
  - intros HF. destruct (Nat.lt_ge_cases (length S) n) as [Hl|Hl]; [exact Hl|]. exfalso. apply HF.
    assert (I : incl S (seq k n)).
    { intros i Hi. apply in_seq. rewrite Forall_forall in HB. specialize (HB i Hi). split; [|lia].
      destruct (Nat.lt_ge_cases i k) as [Hk|Hk]; [|exact Hk]. exfalso. exact (no_zero_column k n A S i Hk HI Hi). }
    assert (J : incl (seq k n) S) by (apply NoDup_length_incl; [exact ND|rewrite seq_length; exact Hl|exact I]).
    intros c L Hd. assert (Q : Forall (fun a => a = 0) (repeat 0 k ++ c)).
    { apply HI.
      - rewrite app_length, repeat_length. lia.
      - intros i Hi. destruct (Nat.lt_ge_cases i k) as [Hk|Hk]; [rewrite app_nth1 by (rewrite repeat_length; lia); apply nth_repeat|].
        destruct (Nat.lt_ge_cases i (k + n)) as [Hn|Hn]; [|apply nth_overflow; rewrite app_length, repeat_length; lia].
        exfalso. apply Hi, J, in_seq. lia.
      - unfold padded. rewrite Forall_map. eapply Forall_impl; [|exact Hd]. intros row E. cbn beta. rewrite padded_dot by apply repeat_length. exact E. }
    apply Forall_app in Q. apply Q.
Qed.
Lemma full_solution k n A b x : length A = length b -> full n A -> solves (k + n) (padded k A) b x ->
  exists c, x = repeat 0 k ++ c /\ length c = n /\ forall c', length c' = n -> c' <> c -> misfit A b c < misfit A b c'.
Proof.
  intros LA HF (L & HS). destruct (split_length x k n L) as (x0 & c & -> & L0 & L1). exists c.
  assert (HM : forall c', length c' = n -> misfit A b c <= misfit A b c').
  { intros c' L'. destruct (HS (x0 ++ c')) as (H & _); [rewrite app_length; lia|]. rewrite !padded_misfit in H by exact L0. exact H. }
  split; [|split; [exact L1|]].
  - f_equal. rewrite <- L0. apply dotl_self_zero.
    destruct (HS (repeat 0 k ++ c)) as (_ & H); [rewrite app_length, repeat_length; lia|].
    rewrite !padded_misfit in H by (exact L0 || apply repeat_length). specialize (H eq_refl).
    rewrite !dotl_app, dotl_zeros in H by reflexivity. lra.
  - intros c' L' N. destruct (Rlt_le_dec (misfit A b c) (misfit A b c')) as [Hl|Hl]; [exact Hl|]. exfalso. apply N.
    assert (LL : length c = length c') by congruence.
    pose proof (HM c' L') as H1. pose proof (HM (midl c c') ltac:(rewrite midl_length; congruence)) as H2.
    rewrite misfit_mid in H2 by assumption.
    symmetry. apply subl_zero; [exact LL|]. apply HF; [rewrite subl_length; congruence|]. apply misfit_null. lra.
Qed.
