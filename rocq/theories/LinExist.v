(** Every least-squares problem has a solution of smallest length, and every matrix a rank. *)
From Coq Require Import Reals List Lia Lra Psatz Classical.
From Verif Require Import Num NumR Optic GenSpec DiscSpec FitSpec LinFit.
Import ListNotations.
Open Scope R_scope.

(** ** Orthogonal projection *)
Definition axpy (a : R) (v w : list R) : list R := map (fun p => a * fst p + snd p) (combine v w).
Fixpoint lin (m : nat) (c : list R) (V : list (list R)) : list R :=
  match c, V with a :: c, v :: V => axpy a v (lin m c V) | _, _ => repeat 0 m end.
Lemma axpy_length a v w m : length v = m -> length w = m -> length (axpy a v w) = m.
Proof. intros. unfold axpy. rewrite map_length, combine_length. lia. Qed.
Lemma lin_length m c V : Forall (fun v => length v = m) V -> length (lin m c V) = m.
Proof.
  intros H. revert c. induction H as [|v V L H IH]; intros [|a c]; cbn [lin]; try apply repeat_length.
  apply axpy_length; [exact L|apply IH].
Qed.
Lemma dotl_axpy r a v w : length v = length w -> dotl r (axpy a v w) = a * dotl r v + dotl r w.
Proof.
  revert v w. induction r as [|x r IH]; intros [|y v] [|z w] L; try discriminate; try (unfold dotl; cbn; ring).
  unfold axpy. cbn [combine map fst snd]. fold (axpy a v w). rewrite !dotl_cons, IH by (injection L; auto). ring.
Qed.
Lemma dotl_lin m r c V : Forall (fun v => length v = m) V -> Forall (fun v => dotl r v = 0) V -> dotl r (lin m c V) = 0.
Proof.
  intros HL H. revert c. induction HL as [|v V L HL IH]; intros [|a c]; cbn [lin]; try (rewrite dotl_comm; apply dotl_zeros).
  inversion H as [|? ? H0 H1]; subst. rewrite dotl_axpy by (symmetry; apply lin_length; exact HL). rewrite H0, IH by exact H1. ring.
Qed.
Lemma axpy_assoc a b u v w : length u = length v -> length v = length w -> axpy a u (axpy b v w) = axpy b v (axpy a u w).
Proof.
  revert v w. induction u as [|x u IH]; intros [|y v] [|z w] L1 L2; try discriminate; [reflexivity|].
  unfold axpy in *. cbn [combine map fst snd]. f_equal; [ring|]. apply IH; [injection L1; auto|injection L2; auto].
Qed.
Lemma lin_sum m k c e V : Forall (fun v => length v = m) V -> length c = length V -> length e = length V ->
  lin m (axpy k e c) V = axpy k (lin m e V) (lin m c V).
Proof.
  intros HL. revert c e. induction HL as [|v V L HL IH]; intros [|a c] [|b e] L1 L2; try discriminate.
  - unfold axpy. cbn [combine map lin]. induction m as [|m IHm]; [reflexivity|]. cbn [repeat combine map fst snd]. f_equal; [ring|exact IHm].
  - change (axpy k (b :: e) (a :: c)) with ((k * b + a) :: axpy k e c). cbn [lin]. rewrite IH by (injection L1; injection L2; auto).
    pose proof (lin_length m c V HL) as Q1. pose proof (lin_length m e V HL) as Q2. revert Q1 Q2 L. generalize (lin m c V) (lin m e V). clear.
    intros w u Q1 Q2 L. assert (E1 : length v = length u) by congruence. assert (E2 : length u = length w) by congruence. clear Q1 Q2 L.
    revert u w E1 E2. induction v as [|x v IH]; intros [|y u] [|z w] E1 E2; try discriminate; [reflexivity|].
    unfold axpy in *. cbn [combine map fst snd]. f_equal; [ring|]. apply IH; [injection E1; auto|injection E2; auto].
Qed.
Lemma zero_vector v : dotl v v = 0 -> forall r, dotl r v = 0.
Proof. intros H r. rewrite (dotl_self_zero v) by lra. rewrite dotl_comm. apply dotl_zeros. Qed.
Lemma projection m V : Forall (fun v => length v = m) V -> forall b, length b = m ->
  exists c, length c = length V /\ Forall (fun v => dotl (subl b (lin m c V)) v = 0) V.
Proof.
  intros HL. induction HL as [|v V L HL IH]; intros b Lb; [exists []; split; [reflexivity|constructor]|].
  destruct (IH v L) as (e & Le & He). destruct (IH b Lb) as (c & Lc & Hc).
  set (v' := subl v (lin m e V)) in *. set (b' := subl b (lin m c V)) in *.
  pose proof (lin_length m e V HL) as Ln1. pose proof (lin_length m c V HL) as Ln2.
  assert (Lv' : length v' = m) by (unfold v'; rewrite subl_length; congruence).
  assert (Lb' : length b' = m) by (unfold b'; rewrite subl_length; congruence).
  assert (Ev : forall r, dotl r v = dotl r v' + dotl r (lin m e V)) by (intros r; unfold v'; rewrite dotl_sub by congruence; ring).
  destruct (Req_EM_T (dotl v' v') 0) as [Hz|Hz].
  - exists (0 :: c). split; [cbn; congruence|].
    assert (Q : forall r, length r = m -> dotl (subl b (lin m (0 :: c) (v :: V))) r = dotl b' r).
    { intros r Lr. cbn [lin]. rewrite (dotl_comm _ r), (dotl_comm b' r). unfold b'. rewrite !dotl_sub, dotl_axpy; try congruence.
      - ring.
      - rewrite (axpy_length 0 v (lin m c V) m); congruence. }
    constructor.
    + rewrite Q by exact L. rewrite Ev. rewrite zero_vector by exact Hz. rewrite dotl_lin by assumption. ring.
    + apply Forall_forall. intros w Hw. rewrite Forall_forall in HL. rewrite Q by (apply HL, Hw). rewrite Forall_forall in Hc. apply Hc, Hw.
  - set (k := dotl b' v' / dotl v' v'). exists (k :: axpy (- k) e c).
    assert (La : length (axpy (- k) e c) = length V) by (unfold axpy; rewrite map_length, combine_length; lia).
    split; [cbn; congruence|].
    assert (Q : forall r, length r = m -> dotl (subl b (lin m (k :: axpy (- k) e c) (v :: V))) r = dotl b' r - k * dotl v' r).
    { intros r Lr. cbn [lin]. rewrite lin_sum by assumption. rewrite (dotl_comm _ r), (dotl_comm b' r), (dotl_comm v' r). unfold b', v'.
      pose proof (axpy_length (- k) (lin m e V) (lin m c V) m Ln1 Ln2) as La1.
      pose proof (axpy_length k v (axpy (- k) (lin m e V) (lin m c V)) m L La1) as La2.
      rewrite !dotl_sub, !dotl_axpy; try congruence. ring. }
    assert (HV : Forall (fun w => dotl b' w - k * dotl v' w = 0) V).
    { rewrite Forall_forall in Hc, He |- *. intros w Hw. rewrite (Hc w Hw), (He w Hw). ring. }
    constructor.
    + rewrite Q by exact L. rewrite !Ev.
      assert (Z1 : dotl b' (lin m e V) = 0) by (apply dotl_lin; [exact HL|exact Hc]).
      assert (Z2 : dotl v' (lin m e V) = 0) by (apply dotl_lin; [exact HL|exact He]).
      rewrite Z1, Z2. unfold k. field. exact Hz.
    + rewrite Forall_forall in HL, HV |- *. intros w Hw. rewrite Q by (apply HL, Hw). apply HV, Hw.
Qed.

(** ** Rows and columns *)
Definition mul (A : list (list R)) (c : list R) : list R := map (fun row => dotl row c) A.
Fixpoint cols (n : nat) (A : list (list R)) : list (list R) :=
  match n with O => [] | S n => map (hd 0) A :: cols n (map (@tl R) A) end.
Lemma cols_length n : forall A, length (cols n A) = n.
Proof. induction n as [|n IH]; intros A; cbn; [reflexivity|f_equal; apply IH]. Qed.
Lemma cols_rows n : forall A, Forall (fun v => length v = length A) (cols n A).
Proof.
  induction n as [|n IH]; intros A; cbn [cols]; constructor; [apply map_length|].
  specialize (IH (map (@tl R) A)). rewrite map_length in IH. exact IH.
Qed.
Lemma lin_cols n : forall A c, Forall (fun row => length row = n) A -> length c = n -> lin (length A) c (cols n A) = mul A c.
Proof.
  induction n as [|n IH]; intros A [|a c] HA L; try discriminate; cbn [cols lin].
  - unfold mul. induction HA as [|row A Hr HA IHA]; [reflexivity|]. cbn [length repeat map]. f_equal; [|exact IHA].
    destruct row; [symmetry; apply dotl_nil|discriminate].
  - rewrite <- (map_length (@tl R) A), IH; [|apply Forall_map; eapply Forall_impl; [|exact HA]; intros [|? ?] Q; cbn in *; congruence|injection L; auto].
    unfold mul, axpy. clear IH. induction HA as [|row A Hr HA IHA]; [reflexivity|]. cbn [map combine]. f_equal; [|exact IHA].
    destruct row as [|x row]; [discriminate|]. cbn [hd tl fst snd]. rewrite dotl_cons. ring.
Qed.
Lemma mul_sub A x y : length x = length y -> mul A (subl x y) = subl (mul A x) (mul A y).
Proof.
  intros L. unfold mul. induction A as [|row A IH]; [reflexivity|]. cbn [map]. rewrite IH. unfold subl at 3. cbn [combine map fst snd].
  fold (subl (map (fun row => dotl row x) A) (map (fun row => dotl row y) A)). f_equal. apply dotl_sub, L.
Qed.
Lemma misfit_dot A b c : length A = length b -> misfit A b c = dotl (subl b (mul A c)) (subl b (mul A c)).
Proof.
  revert b. induction A as [|row A IH]; intros [|v b] L; try discriminate; [reflexivity|].
  rewrite misfit_cons, IH by (injection L; auto). unfold mul, subl. cbn [map combine fst snd]. rewrite dotl_cons. ring.
Qed.
Lemma mul_length A c : length (mul A c) = length A.
Proof. apply map_length. Qed.
(** *** The normal equations have a solution *)
Lemma normal_equations n A b : Forall (fun row => length row = n) A -> length A = length b ->
  exists c, length c = n /\ forall y, length y = n -> dotl (subl b (mul A c)) (mul A y) = 0.
Proof.
  intros HA Lb. destruct (projection (length A) (cols n A) (cols_rows n A) b (eq_sym Lb)) as (c & Lc & Hc).
  rewrite cols_length in Lc. exists c. split; [exact Lc|]. intros y Ly. rewrite <- (lin_cols n A y HA Ly).
  rewrite <- (lin_cols n A c HA Lc). apply dotl_lin; [apply cols_rows|exact Hc].
Qed.
Lemma least_squares n A b x : Forall (fun row => length row = n) A -> length A = length b -> length x = n ->
  (forall y, length y = n -> dotl (subl b (mul A x)) (mul A y) = 0) ->
  forall y, length y = n -> misfit A b y = misfit A b x + dotl (mul A (subl y x)) (mul A (subl y x)).
Proof.
  intros HA Lb Lx H y Ly. rewrite !misfit_dot by exact Lb. specialize (H (subl y x)).
  assert (L1 : length (subl y x) = n) by (rewrite subl_length; congruence). specialize (H L1).
  rewrite mul_sub in * by congruence. pose proof (mul_length A x) as M1. pose proof (mul_length A y) as M2.
  revert H M1 M2. generalize (mul A x) (mul A y). intros p q H M1 M2. rewrite Lb in M1, M2. clear - H M1 M2.
  rewrite dotl_sub in H by congruence.
  assert (L1 : length (subl b q) = length b) by (rewrite subl_length; congruence).
  assert (L2 : length (subl b p) = length b) by (rewrite subl_length; congruence).
  assert (L3 : length (subl q p) = length b) by (rewrite subl_length; congruence).
  assert (E : forall r, dotl r (subl b q) = dotl r (subl b p) - dotl r (subl q p)).
  { intros r. rewrite !dotl_sub by congruence. ring. }
  rewrite (E (subl b q)). rewrite !(dotl_comm (subl b q)). rewrite !E.
  rewrite (dotl_comm (subl q p) (subl b p)). rewrite (dotl_sub (subl b p) q p) by congruence. lra.
Qed.
Lemma solution_exists n A b : Forall (fun row => length row = n) A -> length A = length b -> exists x, solves n A b x.
Proof.
  intros HA Lb. destruct (normal_equations n A b HA Lb) as (c & Lc & Hc).
  destruct (projection n A HA c Lc) as (z & Lz & Hz). set (x := lin n z A) in *.
  assert (Lx : length x = n) by (apply lin_length; exact HA).
  assert (E : mul A x = mul A c).
  { unfold mul. apply map_ext_in. intros row Hr. rewrite Forall_forall in Hz. specialize (Hz row Hr).
    rewrite dotl_comm, dotl_sub in Hz by congruence. lra. }
  assert (Hx : forall y, length y = n -> dotl (subl b (mul A x)) (mul A y) = 0) by (rewrite E; exact Hc).
  exists x. split; [exact Lx|]. intros y Ly. pose proof (least_squares n A b x HA Lb Lx Hx y Ly) as M. split.
  - pose proof (dotl_self_nonneg (mul A (subl y x))). lra.
  - intros Q. set (d := subl y x) in *. assert (Hd : dotl (mul A d) (mul A d) <= 0) by lra.
    assert (Z : Forall (fun row => dotl d row = 0) A).
    { apply dotl_self_zero in Hd. rewrite mul_length in Hd. apply Forall_forall. intros row Hr. rewrite dotl_comm.
      assert (Hin : In (dotl row d) (mul A d)) by (unfold mul; apply (in_map (fun row => dotl row d)); exact Hr).
      rewrite Hd in Hin. apply repeat_spec in Hin. exact Hin. }
    assert (Ox : dotl d x = 0) by (unfold x; apply dotl_lin; assumption).
    unfold d in Ox. rewrite dotl_comm, dotl_sub in Ox by congruence.
    pose proof (dotl_self_nonneg (subl y x)) as P. rewrite dotl_sub in P by congruence.
    rewrite !(dotl_comm (subl y x)) in P. rewrite !dotl_sub in P by congruence. rewrite (dotl_comm y x) in P. lra.
Qed.
Lemma rank_exists n A : exists r, rank_is n A r.
Proof.
  assert (B : forall S, columns_of n S -> (length S <= n)%nat).
  { intros S [N F]. rewrite <- (seq_length n 0). apply NoDup_incl_length; [exact N|]. intros i Hi. rewrite Forall_forall in F. apply in_seq. specialize (F i Hi). lia. }
  set (P := fun r => exists S, columns_of n S /\ length S = r /\ independent n A S).
  assert (P0 : P 0%nat).
  { exists []. split; [split; constructor|]. split; [reflexivity|]. intros c Lc Hc _. apply nth_zeros. intros i. apply Hc. intros []. }
  assert (Q : forall k, (exists r, (n - k <= r)%nat /\ P r) -> exists r, P r /\ forall r', P r' -> (r' <= r)%nat).
  { induction k as [|k IH]; intros (r & Hr & Pr).
    - exists r. split; [exact Pr|]. intros r' (S & HS & HL & _). specialize (B S HS). lia.
    - destruct (classic (exists r, (n - k <= r)%nat /\ P r)) as [Y|N]; [exact (IH Y)|].
      exists r. split; [exact Pr|]. intros r' Pr'. destruct (Nat.le_gt_cases r' r) as [|G]; [assumption|]. exfalso. apply N. exists r'. split; [lia|exact Pr']. }
  destruct (Q n) as (r & Pr & M); [exists 0%nat; split; [lia|exact P0]|].
  exists r. split; [exact Pr|]. intros S HS HI. apply M. exists S. auto.
Qed.
(** *** Some solver answers *)
Lemma answers_exist n A b : Forall (fun row => length row = n) A -> length A = length b -> exists lstsq, answers lstsq n A b.
Proof.
  intros HA Lb. destruct (solution_exists n A b HA Lb) as (x & Hx). destruct (rank_exists n A) as (r & Hr).
  exists (fun _ _ => Ok (map Fin x, r)). exists x, r. auto.
Qed.
