(** Limits as s tends to 0. *)
From Coq Require Import Reals Lra Lia.
From Verif Require Import GaussSpec.
Open Scope R_scope.

Lemma tends_iff f l : tends f l <-> limit1_in f (fun s => s <> 0) l 0.
Proof.
  unfold tends, limit1_in, limit_in. cbn. unfold R_dist. split; intros H eps He.
  - destruct (H eps He) as (d & D & K). exists d. split; [exact D|]. intros s [N L]. apply K. rewrite Rminus_0_r in L. split; [apply Rabs_pos_lt, N|exact L].
  - destruct (H eps He) as (d & D & K). exists d. split; [exact D|]. intros s [N L]. apply K. split; [|rewrite Rminus_0_r; exact L].
    intros Z. rewrite Z, Rabs_R0 in N. lra.
Qed.
Lemma nearby_and P Q : nearby P -> nearby Q -> nearby (fun s => P s /\ Q s).
Proof.
  intros (d & D & H) (e & E & K). exists (Rmin d e). split; [apply Rmin_glb_lt; assumption|]. intros s [N L]. pose proof (Rmin_l d e). pose proof (Rmin_r d e). split; [apply H|apply K]; lra.
Qed.
Lemma nearby_impl (P Q : R -> Prop) : (forall s, s <> 0 -> P s -> Q s) -> nearby P -> nearby Q.
Proof. intros I (d & D & H). exists d. split; [exact D|]. intros s L. apply I; [intros Z; rewrite Z, Rabs_R0 in L; lra|apply H, L]. Qed.
Lemma tends_near f l eps : tends f l -> 0 < eps -> nearby (fun s => Rabs (f s - l) < eps).
Proof. intros T E. exact (T eps E). Qed.
Lemma tends_ext f g l : nearby (fun s => f s = g s) -> tends f l -> tends g l.
Proof. intros E T eps He. destruct (nearby_and _ _ E (T eps He)) as (d & D & H). exists d. split; [exact D|]. intros s L. destruct (H s L) as [<- K]. exact K. Qed.
Lemma nearby_all (P : R -> Prop) : (forall s, s <> 0 -> P s) -> nearby P.
Proof. intros H. exists 1. split; [lra|]. intros s [N _]. apply H. intros Z. rewrite Z, Rabs_R0 in N. lra. Qed.
Lemma tends_const c : tends (fun _ => c) c.
Proof. intros eps He. exists 1. split; [lra|]. intros s _. rewrite Rminus_diag_eq by reflexivity. rewrite Rabs_R0. exact He. Qed.
Lemma tends_s : tends (fun s => s) 0.
Proof. intros eps He. exists eps. split; [exact He|]. intros s [_ L]. rewrite Rminus_0_r. exact L. Qed.
Lemma tends_plus f g a b : tends f a -> tends g b -> tends (fun s => f s + g s) (a + b).
Proof. rewrite !tends_iff. apply limit_plus. Qed.
Lemma tends_minus f g a b : tends f a -> tends g b -> tends (fun s => f s - g s) (a - b).
Proof. rewrite !tends_iff. apply limit_minus. Qed.
Lemma tends_mul f g a b : tends f a -> tends g b -> tends (fun s => f s * g s) (a * b).
Proof. rewrite !tends_iff. apply limit_mul. Qed.
Lemma tends_inv f a : tends f a -> a <> 0 -> tends (fun s => / f s) (/ a).
Proof. rewrite !tends_iff. apply limit_inv. Qed.
Lemma tends_sqrt f a : tends f a -> 0 <= a -> tends (fun s => sqrt (f s)) (sqrt a).
Proof.
  intros T A eps He. pose proof (continuity_pt_sqrt a A) as C. unfold continuity_pt, continue_in, limit1_in, limit_in in C. cbn in C. unfold R_dist in C.
  destruct (C eps He) as (al & Al & K). destruct (T al Al) as (d & D & H). exists d. split; [exact D|]. intros s L.
  destruct (Req_dec (f s) a) as [E|E]; [rewrite E, Rminus_diag_eq by reflexivity; rewrite Rabs_R0; exact He|]. apply K. split; [|apply H, L]. split; [exact I|]. intros Z. apply E. symmetry. exact Z.
Qed.
(** Bounded times vanishing vanishes. *)
Lemma tends_squeeze f g M : nearby (fun s => Rabs (g s) <= M) -> tends f 0 -> tends (fun s => g s * f s) 0.
Proof.
  intros B T eps He. pose proof (Rabs_pos M). set (K := Rabs M + 1). assert (K0 : 0 < K) by (unfold K; lra).
  assert (E2 : 0 < eps / K) by (apply Rdiv_lt_0_compat; assumption).
  destruct (nearby_and _ _ B (T _ E2)) as (d & D & Q). exists d. split; [exact D|]. intros s L. destruct (Q s L) as [Q1 Q2]. rewrite Rminus_0_r in *.
  rewrite Rabs_mult. pose proof (Rle_abs M). pose proof (Rabs_pos (f s)). pose proof (Rabs_pos (g s)).
  apply Rle_lt_trans with (K * Rabs (f s)); [apply Rmult_le_compat_r; [lra|unfold K; lra]|].
  replace eps with (K * (eps / K)) by (field; lra). apply Rmult_lt_compat_l; assumption.
Qed.
Lemma tends_of_ratio f l : tends (fun s => f s / s) l -> tends f 0.
Proof.
  intros T. apply tends_ext with (fun s => f s / s * s).
  - apply nearby_all. intros s N. field. exact N.
  - replace 0 with (l * 0) by ring. apply tends_mul; [exact T|apply tends_s].
Qed.
Lemma tends_bounded f l : tends f l -> nearby (fun s => Rabs (f s) <= Rabs l + 1).
Proof.
  intros T. destruct (T 1 ltac:(lra)) as (d & D & H). exists d. split; [exact D|]. intros s L. pose proof (H s L).
  replace (f s) with ((f s - l) + l) by ring. eapply Rle_trans; [apply Rabs_triang|lra].
Qed.
Lemma tends_value f a b : tends f a -> a = b -> tends f b. Proof. intros T <-. exact T. Qed.
(** Away from 0, and of a fixed sign, near a limit other than 0. *)
Lemma tends_apart f l : tends f l -> l <> 0 -> nearby (fun s => f s <> 0).
Proof.
  intros T N. assert (P : 0 < Rabs l) by (apply Rabs_pos_lt, N). destruct (T _ P) as (d & D & H). exists d. split; [exact D|]. intros s L Z.
  pose proof (H s L) as K. rewrite Z in K. replace (0 - l) with (- l) in K by ring. rewrite Rabs_Ropp in K. lra.
Qed.
Lemma tends_positive f l : tends f l -> 0 < l -> nearby (fun s => 0 < f s).
Proof.
  intros T P. destruct (T _ P) as (d & D & H). exists d. split; [exact D|]. intros s L. pose proof (H s L) as K. revert K. unfold Rabs. destruct (Rcase_abs _); lra.
Qed.
