(** Changes of frame in double precision. *)
From Coq Require Import Reals ZArith List Bool Lra Lia Psatz.
From Verif Require Import Num NumF Vec CoordSys Surface Ray Bundle Spec XRFacts CoordFacts AnalysisProofs FloatSpec FloatProofs FloatErr.
Import ListNotations.
Open Scope R_scope.

Ltac conj := repeat match goal with |- _ /\ _ => split end.
Definition closeM (e : R) (a : mat3 F64) (x : mR) : Prop :=
  close e (m00 a) (m00 x) /\ close e (m01 a) (m01 x) /\ close e (m02 a) (m02 x) /\ close e (m10 a) (m10 x) /\ close e (m11 a) (m11 x) /\
  close e (m12 a) (m12 x) /\ close e (m20 a) (m20 x) /\ close e (m21 a) (m21 x) /\ close e (m22 a) (m22 x).
Definition ofsize (B : R) (m : mR) : Prop :=
  Rabs (m00 m) <= B /\ Rabs (m01 m) <= B /\ Rabs (m02 m) <= B /\ Rabs (m10 m) <= B /\ Rabs (m11 m) <= B /\ Rabs (m12 m) <= B /\
  Rabs (m20 m) <= B /\ Rabs (m21 m) <= B /\ Rabs (m22 m) <= B.
Definition ofsizeV (B : R) (v : vR) : Prop := Rabs (cx v) <= B /\ Rabs (cy v) <= B /\ Rabs (cz v) <= B.
Lemma fin_close a : finF a -> close 0 a (valF a).
Proof. intros F. split; trivial. rewrite Rminus_diag_eq by reflexivity. rewrite Rabs_R0. lra. Qed.
Lemma finM_close m : finM m -> closeM 0 m (valM m).
Proof. unfold finM, closeM, valM; cbn. intros H. decompose [and] H. conj; apply fin_close; assumption. Qed.
Lemma finV_close v : finV v -> closeV 0 v (valV v).
Proof. intros (A & B & C). split; [|split]; apply fin_close; assumption. Qed.
Lemma closeM_fin e m x : closeM e m x -> finM m.
Proof. unfold closeM, finM. intros H. decompose [and] H. conj; match goal with H : close _ ?a _ |- finF ?a => apply H end. Qed.
Lemma closeV_fin e m x : closeV e m x -> finV m.
Proof. intros (A & B & C). split; [|split]; [apply A|apply B|apply C]. Qed.
Lemma closeV_weaken e g a x : closeV e a x -> e <= g -> closeV g a x.
Proof. intros (A & B & C) L. split; [|split]; eapply close_weaken; eassumption. Qed.
Lemma closeM_weaken e g a x : closeM e a x -> e <= g -> closeM g a x.
Proof. unfold closeM. intros H L. decompose [and] H. conj; eapply close_weaken; eassumption. Qed.

Lemma close_eq e a x y : close e a x -> x = y -> close e a y. Proof. intros H <-; exact H. Qed.
Lemma fwd_vel_close e f A B d v xd xv : inrange (A * B) -> 3 * (A * B) <= two 900 -> 0 <= A -> 0 <= B ->
  closeV e v xv -> closeM f d xd -> ofsizeV A xv -> ofsize B xd -> A * f + B * e + e * f <= A * B / 16 ->
  closeV (3 * (A * f + B * e + e * f) + 8 * ulp * (A * B)) (fwd_vel d v) (applyR (transR xd) xv).
Proof.
  intros R U PA PB (V0 & V1 & V2) M (W0 & W1 & W2) S E. unfold closeM, ofsize in *. decompose [and] M. decompose [and] S.
  unfold closeV, fwd_vel; cbn [cx cy cz].
  split; [|split]; (eapply close_eq; [apply (close_dot3 e f A B); try eassumption | cbn; ring]).
Qed.
Lemma rev_vel_close e f A B d v xd xv : inrange (A * B) -> 3 * (A * B) <= two 900 -> 0 <= A -> 0 <= B ->
  closeV e v xv -> closeM f d xd -> ofsizeV A xv -> ofsize B xd -> A * f + B * e + e * f <= A * B / 16 ->
  closeV (3 * (A * f + B * e + e * f) + 8 * ulp * (A * B)) (rev_vel d v) (applyR xd xv).
Proof.
  intros R U PA PB (V0 & V1 & V2) M (W0 & W1 & W2) S E. unfold closeM, ofsize in *. decompose [and] M. decompose [and] S.
  unfold closeV, rev_vel; cbn [cx cy cz].
  split; [|split]; (eapply close_eq; [apply (close_dot3 e f A B); try eassumption | cbn; ring]).
Qed.
Lemma mv_close e f A B d v xd xv : inrange (A * B) -> 3 * (A * B) <= two 900 -> 0 <= A -> 0 <= B ->
  closeV e v xv -> closeM f d xd -> ofsizeV A xv -> ofsize B xd -> A * f + B * e + e * f <= A * B / 16 ->
  closeV (3 * (A * f + B * e + e * f) + 8 * ulp * (A * B)) (mv d v) (applyR xd xv).
Proof.
  intros R U PA PB (V0 & V1 & V2) M (W0 & W1 & W2) S E. unfold closeM, ofsize in *. decompose [and] M. decompose [and] S.
  replace (3 * (A * f + B * e + e * f) + 8 * ulp * (A * B)) with (3 * (B * e + A * f + f * e) + 8 * ulp * (B * A)) by ring.
  assert (R' : inrange (B * A)) by (rewrite Rmult_comm; exact R). assert (U' : 3 * (B * A) <= two 900) by (rewrite (Rmult_comm B); exact U).
  assert (E' : B * e + A * f + f * e <= B * A / 16) by lra.
  unfold closeV, mv; cbn [cx cy cz].
  split; [|split]; (eapply close_eq; [apply (close_dot3 f e B A); try eassumption | cbn; ring]).
Qed.
Lemma mm_close e f A B a b xa xb : inrange (A * B) -> 3 * (A * B) <= two 900 -> 0 <= A -> 0 <= B ->
  closeM e a xa -> closeM f b xb -> ofsize A xa -> ofsize B xb -> A * f + B * e + e * f <= A * B / 16 ->
  closeM (3 * (A * f + B * e + e * f) + 8 * ulp * (A * B)) (mm a b) (mulR xa xb).
Proof.
  intros R U PA PB M N S T E. unfold closeM, ofsize in *. decompose [and] M. decompose [and] N. decompose [and] S. decompose [and] T. clear M N S T.
  unfold mm; cbn [m00 m01 m02 m10 m11 m12 m20 m21 m22].
  conj; (eapply close_eq; [apply (close_dot3 e f A B); try eassumption | cbn; ring]).
Qed.
Lemma mtr_close e a x : closeM e a x -> closeM e (mtr a) (transR x).
Proof. unfold closeM, mtr, transR; cbn. intros H. decompose [and] H. conj; assumption. Qed.
Lemma trans_ofsize B m : ofsize B m -> ofsize B (transR m).
Proof. unfold ofsize, transR; cbn. intros H. decompose [and] H. conj; assumption. Qed.
Lemma minus_close e f C a b x y : inrange C -> closeV e a x -> closeV f b y -> ofsizeV C (minusR x y) -> e + f <= C / 4 ->
  closeV (e + f + ulp * C) (V3 (nsub (cx a) (cx b)) (nsub (cy a) (cy b)) (nsub (cz a) (cz b))) (minusR x y).
Proof.
  intros R (A0 & A1 & A2) (B0 & B1 & B2) (S0 & S1 & S2) E. unfold closeV, ofsizeV, minusR in *; cbn [cx cy cz] in *.
  split; [|split]; eapply close_sub; try eassumption; lra.
Qed.

(** * Lengths *)
Lemma cauchy a b : dotR a b * dotR a b <= dotR a a * dotR b b.
Proof.
  destruct a as [a0 a1 a2], b as [b0 b1 b2]; unfold dotR; cbn.
  pose proof (Rle_0_sqr (a0 * b1 - a1 * b0)). pose proof (Rle_0_sqr (a0 * b2 - a2 * b0)). pose proof (Rle_0_sqr (a1 * b2 - a2 * b1)).
  unfold Rsqr in *. lra.
Qed.
Lemma dot_nonneg v : 0 <= dotR v v.
Proof. unfold dotR. pose proof (Rle_0_sqr (cx v)). pose proof (Rle_0_sqr (cy v)). pose proof (Rle_0_sqr (cz v)). unfold Rsqr in *. lra. Qed.
Lemma len_le v k : 0 <= k -> (lenR v <= k <-> dotR v v <= k * k).
Proof.
  intros K. rewrite <- (len_sq v). pose proof (len_nonneg v). split; intros H1.
  - apply Rmult_le_compat; lra.
  - destruct (Rle_lt_dec (lenR v) k) as [L|L]; [exact L|]. exfalso. assert (k * k < lenR v * lenR v) by (apply Rmult_le_0_lt_compat; lra). lra.
Qed.
Lemma dot_len a b : Rabs (dotR a b) <= lenR a * lenR b.
Proof.
  pose proof (cauchy a b) as H. rewrite <- (len_sq a), <- (len_sq b) in H.
  pose proof (len_nonneg a). pose proof (len_nonneg b). assert (P : 0 <= lenR a * lenR b) by (apply Rmult_le_pos; assumption).
  rewrite <- (Rabs_pos_eq (lenR a * lenR b)) by assumption. apply Rsqr_le_abs_0. unfold Rsqr. nra.
Qed.
Lemma len_plus a b : lenR (plusR a b) <= lenR a + lenR b.
Proof.
  pose proof (len_nonneg a). pose proof (len_nonneg b). apply len_le; [lra|].
  replace (dotR (plusR a b) (plusR a b)) with (dotR a a + 2 * dotR a b + dotR b b) by (unfold dotR, plusR; cbn; ring).
  pose proof (dot_len a b) as D. pose proof (Rle_abs (dotR a b)). rewrite <- (len_sq a), <- (len_sq b). nra.
Qed.
Lemma len_minus a b : lenR (minusR a b) <= lenR a + lenR b.
Proof.
  replace (minusR a b) with (plusR a (timesR (-1) b)) by (unfold minusR, plusR, timesR; cbn; f_equal; ring).
  eapply Rle_trans; [apply len_plus|]. apply Rplus_le_compat_l. right. unfold lenR. f_equal. unfold dotR, timesR; cbn. ring.
Qed.
Lemma len_comp v : ofsizeV (lenR v) v.
Proof.
  pose proof (len_nonneg v) as N. pose proof (len_sq v) as E. unfold dotR in E.
  pose proof (Rle_0_sqr (cx v)). pose proof (Rle_0_sqr (cy v)). pose proof (Rle_0_sqr (cz v)). unfold Rsqr in *.
  unfold ofsizeV. rewrite <- (Rabs_pos_eq _ N). split; [|split]; apply Rsqr_le_abs_0; unfold Rsqr; lra.
Qed.
Lemma ofsizeV_le A B v : A <= B -> ofsizeV A v -> ofsizeV B v.
Proof. intros L (X & Y & Z). split; [|split]; lra. Qed.
Lemma comp_len e v : 0 <= e -> ofsizeV e v -> lenR v <= 1.7321 * e.
Proof.
  intros E (X & Y & Z). apply len_le; [lra|]. unfold dotR.
  assert (K : forall x, Rabs x <= e -> x * x <= e * e). { intros x H. pose proof (abs_mul _ _ _ _ H H) as M. pose proof (Rle_abs (x * x)). lra. }
  pose proof (K _ X). pose proof (K _ Y). pose proof (K _ Z). pose proof (Rle_0_sqr e). unfold Rsqr in *. lra.
Qed.
Lemma closeV_len e a x : 0 <= e -> closeV e a x -> lenR (minusR (valV a) x) <= 1.7321 * e.
Proof. intros E (X & Y & Z). apply comp_len; trivial. unfold ofsizeV, minusR, valV; cbn. split; [|split]; [apply X|apply Y|apply Z]. Qed.

(** * Nearly orthonormal matrices *)
Lemma abs_between x t : Rabs x <= t -> - t <= x <= t.
Proof. intros H. unfold Rabs in H. destruct (Rcase_abs x); lra. Qed.
Lemma sym_mul a b c t : Rabs c <= t -> - (t * (a * a + b * b)) <= 2 * a * b * c <= t * (a * a + b * b).
Proof.
  intros H. apply abs_between. assert (K : Rabs (2 * a * b) <= a * a + b * b).
  { pose proof (Rle_0_sqr (a - b)). pose proof (Rle_0_sqr (a + b)). unfold Rsqr in *. apply Rabs_le. lra. }
  rewrite (Rmult_comm t). apply abs_mul; assumption.
Qed.
Lemma sq_mul a c t : Rabs c <= t -> - (t * (a * a)) <= a * a * c <= t * (a * a).
Proof.
  intros H. apply abs_between. rewrite (Rmult_comm t). apply abs_mul; trivial. rewrite Rabs_pos_eq. lra.
  pose proof (Rle_0_sqr a). unfold Rsqr in *. lra.
Qed.
Lemma apply_norm tau m w : nearly_columns tau m ->
  Rabs (dotR (applyR m w) (applyR m w) - dotR w w) <= 3 * tau * dotR w w.
Proof.
  intros (H0 & H1 & H2 & H3 & H4 & H5). unfold nearly in *. rewrite Rminus_0_r in H3, H4, H5.
  replace (dotR (applyR m w) (applyR m w) - dotR w w) with
    (cx w * cx w * (dotR (col0 m) (col0 m) - 1) + cy w * cy w * (dotR (col1 m) (col1 m) - 1) + cz w * cz w * (dotR (col2 m) (col2 m) - 1) +
     2 * cx w * cy w * dotR (col0 m) (col1 m) + 2 * cx w * cz w * dotR (col0 m) (col2 m) + 2 * cy w * cz w * dotR (col1 m) (col2 m)).
  2:{ unfold dotR, applyR, plusR, timesR, col0, col1, col2; cbn. ring. }
  pose proof (sq_mul (cx w) _ _ H0). pose proof (sq_mul (cy w) _ _ H1). pose proof (sq_mul (cz w) _ _ H2).
  pose proof (sym_mul (cx w) (cy w) _ _ H3). pose proof (sym_mul (cx w) (cz w) _ _ H4). pose proof (sym_mul (cy w) (cz w) _ _ H5).
  apply Rabs_le. replace (dotR w w) with (cx w * cx w + cy w * cy w + cz w * cz w) by reflexivity. lra.
Qed.
Lemma transR_trans' m : transR (transR m) = m. Proof. destruct m; reflexivity. Qed.
Lemma nearly_trans tau m : nearly_orthonormal tau m -> nearly_orthonormal tau (transR m).
Proof. intros [A B]. split; [exact B|]. rewrite transR_trans'. exact A. Qed.
Lemma nearly_tau tau m : nearly_columns tau m -> 0 <= tau.
Proof. intros (H & _). unfold nearly in H. pose proof (Rabs_pos (dotR (col0 m) (col0 m) - 1)). lra. Qed.
Lemma near_len tau m w : nearly_columns tau m -> tau <= / 100 -> lenR (applyR m w) <= 1.015 * lenR w.
Proof.
  intros N T. pose proof (apply_norm _ _ w N) as H. apply abs_between in H. pose proof (len_nonneg w). pose proof (nearly_tau _ _ N).
  apply len_le; [lra|]. pose proof (dot_nonneg w). pose proof (len_sq w) as L. assert (tau * dotR w w <= / 100 * dotR w w) by (apply Rmult_le_compat_r; lra). nra.
Qed.
Lemma near_entries tau m : nearly_columns tau m -> tau <= / 100 -> ofsize 1.01 m.
Proof.
  intros (H0 & H1 & H2 & _) T. unfold nearly in *.
  assert (K : forall c, Rabs (dotR c c - 1) <= tau -> ofsizeV 1.01 c).
  { intros c H. apply abs_between in H. apply ofsizeV_le with (lenR c); [|apply len_comp]. apply len_le; lra. }
  apply K in H0, H1, H2. destruct H0 as (? & ? & ?), H1 as (? & ? & ?), H2 as (? & ? & ?). cbn in *. unfold ofsize. conj; assumption.
Qed.
Lemma sum_len w : Rabs (cx w) + Rabs (cy w) + Rabs (cz w) <= 1.7321 * lenR w.
Proof.
  pose proof (dot_len (V3 1 1 1) (V3 (Rabs (cx w)) (Rabs (cy w)) (Rabs (cz w)))) as H.
  replace (lenR (V3 (Rabs (cx w)) (Rabs (cy w)) (Rabs (cz w)))) with (lenR w) in H.
  2:{ unfold lenR, dotR; cbn [cx cy cz]. rewrite <- !Rabs_mult. rewrite !Rabs_pos_eq; trivial; apply Rle_0_sqr. }
  assert (L : lenR (V3 1 1 1) <= 1.7321) by (apply len_le; [lra|unfold dotR; cbn; lra]).
  unfold dotR in H; cbn [cx cy cz] in H. pose proof (len_nonneg w). rewrite !Rmult_1_l in H.
  eapply Rle_trans; [apply Rle_abs|]. eapply Rle_trans; [exact H|]. apply Rmult_le_compat_r; assumption.
Qed.
Lemma near_back tau m w : nearly_columns tau (transR m) -> lenR (minusR (applyR m (applyR (transR m) w)) w) <= 3.001 * tau * lenR w.
Proof.
  intros N. pose proof (nearly_tau _ _ N) as T. destruct N as (H0 & H1 & H2 & H3 & H4 & H5). unfold nearly in *. rewrite Rminus_0_r in H3, H4, H5.
  pose proof (len_nonneg w) as Nw. pose proof (sum_len w) as S.
  assert (K : forall a b c, Rabs a <= tau -> Rabs b <= tau -> Rabs c <= tau -> Rabs (cx w * a + cy w * b + cz w * c) <= tau * (1.7321 * lenR w)).
  { intros a b c A B C. eapply Rle_trans; [apply tri3 with (A := Rabs (cx w) * tau) (B := Rabs (cy w) * tau) (C := Rabs (cz w) * tau); apply abs_mul; trivial; lra|].
    replace (Rabs (cx w) * tau + Rabs (cy w) * tau + Rabs (cz w) * tau) with (tau * (Rabs (cx w) + Rabs (cy w) + Rabs (cz w))) by ring.
    apply Rmult_le_compat_l; assumption. }
  eapply Rle_trans; [apply (comp_len (tau * (1.7321 * lenR w)))|].
  - apply Rmult_le_pos; lra.
  - unfold ofsizeV. split; [|split].
    + replace (cx (minusR (applyR m (applyR (transR m) w)) w)) with (cx w * (dotR (col0 (transR m)) (col0 (transR m)) - 1) +
        cy w * dotR (col0 (transR m)) (col1 (transR m)) + cz w * dotR (col0 (transR m)) (col2 (transR m))).
      2:{ unfold dotR, applyR, plusR, timesR, minusR, col0, col1, col2, transR; cbn. ring. }
      apply K; assumption.
    + replace (cy (minusR (applyR m (applyR (transR m) w)) w)) with (cx w * dotR (col0 (transR m)) (col1 (transR m)) +
        cy w * (dotR (col1 (transR m)) (col1 (transR m)) - 1) + cz w * dotR (col1 (transR m)) (col2 (transR m))).
      2:{ unfold dotR, applyR, plusR, timesR, minusR, col0, col1, col2, transR; cbn. ring. }
      apply K; assumption.
    + replace (cz (minusR (applyR m (applyR (transR m) w)) w)) with (cx w * dotR (col0 (transR m)) (col2 (transR m)) +
        cy w * dotR (col1 (transR m)) (col2 (transR m)) + cz w * (dotR (col2 (transR m)) (col2 (transR m)) - 1)).
      2:{ unfold dotR, applyR, plusR, timesR, minusR, col0, col1, col2, transR; cbn. ring. }
      apply K; assumption.
  - assert (0 <= tau * lenR w) by (apply Rmult_le_pos; assumption). nra.
Qed.

(** * The transform between two frames *)
Section Change.
  Context (f t : coordsys F64) (tau S : R).
  Context (Ff : finC f) (Ft : finC t) (RS : inrange4 S) (T1 : tau <= / 100)
    (Nf : nearly_orthonormal tau (valM (rot f))) (Nt : nearly_orthonormal tau (valM (rot t)))
    (Dist : lenR (minusR (valV (origin t)) (valV (origin f))) <= S).
  Let ct := mkCT f t.

  Lemma US : 0 < ulp * S <= / 1000000000000 * S.
  Proof. pose proof ulp_small. pose proof (room_pos _ RS). split; [apply Rmult_lt_0_compat; lra|apply Rmult_le_compat_r; lra]. Qed.
  Lemma room' a : 1 <= a <= 300 -> inrange (a * S) /\ 3 * (a * S) <= two 900.
  Proof.
    intros A. split; [apply room; trivial; lra|].
    assert (inrange (3 * a * S)) as [_ H] by (apply room; trivial; lra). lra.
  Qed.
  Lemma ct_dr_close : closeV (12 * ulp * S) (ct_dr ct) (drR (valC f) (valC t)).
  Proof.
    pose proof US. pose proof (room_pos _ RS) as P. destruct (room' 1.01 ltac:(lra)) as [R1 R2].
    destruct Ff as [F1 F2], Ft as [G1 G2], Nf as [Nf1 Nf2].
    assert (D : ofsizeV S (minusR (valV (origin t)) (valV (origin f)))) by (apply ofsizeV_le with (2 := len_comp _); exact Dist).
    assert (K : closeV (ulp * S) (vsub (origin t) (origin f)) (minusR (valV (origin t)) (valV (origin f)))).
    { eapply closeV_weaken; [unfold vsub; apply (minus_close 0 0 S); try (apply finV_close; assumption); trivial|]; try lra.
      replace S with (1 * S) by ring. apply room; trivial; lra. }
    unfold ct, mkCT, ct_dr, drR, valC; cbn [origin rot].
    eapply closeV_weaken; [apply (mv_close (ulp * S) 0 S 1.01); trivial|]; try lra.
    - rewrite Rmult_comm; exact R1.
    - apply mtr_close, finM_close; assumption.
    - apply trans_ofsize, (near_entries tau); assumption.
  Qed.
  Lemma dr_len : lenR (drR (valC f) (valC t)) <= 1.015 * S.
  Proof.
    unfold drR, valC; cbn [origin rot]. eapply Rle_trans; [apply (near_len tau); [apply Nf|exact T1]|]. lra.
  Qed.
  Lemma drot_ofsize : ofsize 1.03 (drotR (valC f) (valC t)).
  Proof.
    destruct Nt as [(H0 & H1 & H2 & _) _]. unfold nearly in *.
    assert (K : forall c, Rabs (dotR c c - 1) <= tau -> ofsizeV 1.03 (applyR (transR (valM (rot f))) c)).
    { intros c H. apply abs_between in H. eapply ofsizeV_le; [|apply len_comp]. eapply Rle_trans; [apply (near_len tau); [apply Nf|exact T1]|].
      assert (lenR c <= 1.01) by (apply len_le; lra). lra. }
    apply K in H0, H1, H2. destruct H0 as (? & ? & ?), H1 as (? & ? & ?), H2 as (? & ? & ?).
    unfold ofsize, drotR, valC; cbn [origin rot].
    conj; match goal with H : Rabs ?a <= _ |- Rabs ?b <= _ => replace b with a by (cbn; ring); exact H end.
  Qed.
  Lemma ct_drot_close : closeM (9 * ulp) (ct_drot ct) (drotR (valC f) (valC t)).
  Proof.
    destruct Ff as [F1 F2], Ft as [G1 G2]. pose proof ulp_small as [U0 U1].
    unfold ct, mkCT, ct_drot, drotR, valC; cbn [origin rot].
    assert (R0 : inrange (1.01 * 1.01)). { replace (1.01 * 1.01) with (1.0201 * 1) by lra. apply room; [apply room_1|lra]. }
    assert (R3 : inrange (3 * (1.01 * 1.01))). { replace (3 * (1.01 * 1.01)) with (3.0603 * 1) by lra. apply room; [apply room_1|lra]. }
    eapply closeM_weaken; [apply (mm_close 0 0 1.01 1.01); trivial|]; try lra.
    - apply R3.
    - apply mtr_close, finM_close; assumption.
    - apply finM_close; assumption.
    - apply trans_ofsize, (near_entries tau); trivial. apply Nf.
    - apply (near_entries tau); trivial. apply Nt.
  Qed.
  Theorem fwd_point_accurate p : finV p -> lenR (valV p) <= S ->
    closeV (120 * ulp * S) (fwd_point (ct_dr ct) (ct_drot ct) p) (chg_pt (valC f) (valC t) (valV p)).
  Proof.
    intros Fp Lp. pose proof US. pose proof (room_pos _ RS) as P. pose proof ulp_small as [U0 U1].
    assert (L : lenR (minusR (valV p) (drR (valC f) (valC t))) <= 2.02 * S).
    { eapply Rle_trans; [apply len_minus|]. pose proof dr_len. lra. }
    assert (K : closeV (15 * ulp * S) (V3 (nsub (cx p) (cx (ct_dr ct))) (nsub (cy p) (cy (ct_dr ct))) (nsub (cz p) (cz (ct_dr ct))))
      (minusR (valV p) (drR (valC f) (valC t)))).
    { eapply closeV_weaken; [apply (minus_close 0 (12 * ulp * S) (2.02 * S)); try apply ct_dr_close|]; try lra.
      - apply room; trivial; lra.
      - apply finV_close; assumption.
      - apply ofsizeV_le with (2 := len_comp _); exact L. }
    change (fwd_point (ct_dr ct) (ct_drot ct) p) with
      (fwd_vel (ct_drot ct) (V3 (nsub (cx p) (cx (ct_dr ct))) (nsub (cy p) (cy (ct_dr ct))) (nsub (cz p) (cz (ct_dr ct))))).
    assert (W : ulp * (ulp * S) <= / 1000000000000 * (ulp * S)) by (apply Rmult_le_compat_r; lra).
    unfold chg_pt. destruct (room' 2.0806 ltac:(lra)) as [R1 R2].
    eapply closeV_weaken; [apply (fwd_vel_close (15 * ulp * S) (9 * ulp) (2.02 * S) 1.03)|]; try lra.
    - replace (2.02 * S * 1.03) with (2.0806 * S) by lra. exact R1.
    - exact K.
    - apply ct_drot_close.
    - apply ofsizeV_le with (2 := len_comp _); exact L.
    - apply drot_ofsize.
  Qed.
  Theorem fwd_vel_accurate v V : inrange4 V -> finV v -> lenR (valV v) <= V ->
    closeV (36 * ulp * V) (fwd_vel (ct_drot ct) v) (chg_vec (valC f) (valC t) (valV v)).
  Proof.
    intros RV Fv Lv. pose proof (room_pos _ RV) as P. pose proof ulp_small as [U0 U1].
    assert (W : 0 < ulp * V <= / 1000000000000 * V) by (split; [apply Rmult_lt_0_compat; lra|apply Rmult_le_compat_r; lra]).
    assert (R1 : inrange (1.03 * V)) by (apply room; trivial; lra).
    assert (R3 : inrange (3.09 * V)) by (apply room; trivial; lra).
    unfold chg_vec. eapply closeV_weaken; [apply (fwd_vel_close 0 (9 * ulp) V 1.03)|]; try lra.
    - rewrite Rmult_comm; exact R1.
    - destruct R3 as [_ R3]. lra.
    - apply finV_close; assumption.
    - apply ct_drot_close.
    - apply ofsizeV_le with (2 := len_comp _); exact Lv.
    - apply drot_ofsize.
  Qed.
  (** What the formula itself does to a point of space when the axes are not exactly orthonormal. *)
  Lemma chg_pt_near p : lenR p <= S -> lenR (minusR (global_point (valC t) (chg_pt (valC f) (valC t) p)) (global_point (valC f) p)) <= 9.3 * tau * S.
  Proof.
    intros Lp. pose proof (room_pos _ RS) as P. destruct Nf as [Nf1 Nf2], Nt as [Nt1 Nt2]. pose proof (nearly_tau _ _ Nf1) as T0.
    set (D := minusR (valV (origin t)) (valV (origin f))) in *.
    assert (TS : 0 <= tau * S) by (apply Rmult_le_pos; lra).
    set (q := applyR (valM (rot f)) p). set (u := applyR (valM (rot f)) (applyR (transR (valM (rot f))) D)).
    assert (E : minusR (global_point (valC t) (chg_pt (valC f) (valC t) p)) (global_point (valC f) p) =
      minusR (minusR (applyR (valM (rot t)) (applyR (transR (valM (rot t))) (minusR q u))) (minusR q u)) (minusR u D)).
    { unfold chg_pt, drotR, drR, global_point, q, u. unfold valC; cbn [origin rot]. fold D. rewrite transR_mul, transR_trans, applyR_mul.
      rewrite (applyR_minus (valM (rot f)) p). fold q. fold u. unfold D.
      set (A := applyR (valM (rot t)) _). unfold plusR, minusR; cbn. f_equal; ring. }
    rewrite E. eapply Rle_trans; [apply len_minus|].
    assert (Lu : lenR (minusR u D) <= 3.001 * tau * S).
    { eapply Rle_trans; [apply near_back; exact Nf2|]. apply Rmult_le_compat_l; lra. }
    assert (Lq : lenR q <= 1.015 * S) by (eapply Rle_trans; [apply (near_len tau); assumption|lra]).
    assert (LD : lenR u <= 1.0303 * S).
    { eapply Rle_trans; [apply (near_len tau); assumption|]. assert (lenR (applyR (transR (valM (rot f))) D) <= 1.015 * S); [|lra].
      eapply Rle_trans; [apply (near_len tau); assumption|lra]. }
    assert (Lqu : lenR (minusR q u) <= 2.0453 * S) by (eapply Rle_trans; [apply len_minus|lra]).
    eapply Rle_trans; [apply Rplus_le_compat; [apply near_back; exact Nt2|exact Lu]|].
    assert (3.001 * tau * lenR (minusR q u) <= 3.001 * tau * (2.0453 * S)) by (apply Rmult_le_compat_l; lra). lra.
  Qed.
  Lemma chg_vec_near v : lenR (minusR (global_dir (valC t) (chg_vec (valC f) (valC t) v)) (global_dir (valC f) v)) <= 3.1 * tau * lenR v.
  Proof.
    destruct Nf as [Nf1 Nf2], Nt as [Nt1 Nt2]. pose proof (nearly_tau _ _ Nf1) as T0. rewrite chg_vec_eq. unfold global_dir, valC; cbn [rot].
    eapply Rle_trans; [apply near_back; exact Nt2|].
    assert (L : lenR (applyR (valM (rot f)) v) <= 1.015 * lenR v) by (apply (near_len tau); assumption).
    assert (3.001 * tau * lenR (applyR (valM (rot f)) v) <= 3.001 * tau * (1.015 * lenR v)) by (apply Rmult_le_compat_l; lra).
    assert (0 <= tau * lenR v) by (apply Rmult_le_pos; [lra|apply len_nonneg]). lra.
  Qed.
  Theorem same_place p : finV p -> lenR (valV p) <= S ->
    finV (fwd_point (ct_dr ct) (ct_drot ct) p) /\
    distR (global_point (valC t) (valV (fwd_point (ct_dr ct) (ct_drot ct) p))) (global_point (valC f) (valV p)) <= (212 * ulp + 9.3 * tau) * S.
  Proof.
    intros Fp Lp. pose proof (fwd_point_accurate p Fp Lp) as C. pose proof US. split; [eapply closeV_fin; exact C|].
    set (p' := fwd_point (ct_dr ct) (ct_drot ct) p) in *. apply closeV_len in C; [|lra].
    unfold distR. replace (minusR (global_point (valC t) (valV p')) (global_point (valC f) (valV p))) with
      (plusR (applyR (valM (rot t)) (minusR (valV p') (chg_pt (valC f) (valC t) (valV p))))
        (minusR (global_point (valC t) (chg_pt (valC f) (valC t) (valV p))) (global_point (valC f) (valV p)))).
    2:{ rewrite applyR_minus. unfold global_point, valC; cbn [origin rot]. set (A := applyR (valM (rot t)) (chg_pt _ _ _)). clearbody A.
        unfold plusR, minusR; cbn. f_equal; ring. }
    eapply Rle_trans; [apply len_plus|]. pose proof (chg_pt_near (valV p) Lp).
    assert (lenR (applyR (valM (rot t)) (minusR (valV p') (chg_pt (valC f) (valC t) (valV p)))) <= 1.015 * (1.7321 * (120 * ulp * S))).
    { eapply Rle_trans; [apply (near_len tau); [apply Nt|exact T1]|]. lra. }
    lra.
  Qed.
  Theorem same_direction v V : inrange4 V -> finV v -> lenR (valV v) <= V ->
    finV (fwd_vel (ct_drot ct) v) /\
    distR (global_dir (valC t) (valV (fwd_vel (ct_drot ct) v))) (global_dir (valC f) (valV v)) <= (64 * ulp + 3.1 * tau) * V.
  Proof.
    intros RV Fv Lv. pose proof (fwd_vel_accurate v V RV Fv Lv) as C. pose proof ulp_small as [U0 U1]. pose proof (room_pos _ RV) as P.
    assert (W : 0 < ulp * V) by (apply Rmult_lt_0_compat; lra).
    split; [eapply closeV_fin; exact C|].
    set (p' := fwd_vel (ct_drot ct) v) in *. apply closeV_len in C; [|lra].
    unfold distR. replace (minusR (global_dir (valC t) (valV p')) (global_dir (valC f) (valV v))) with
      (plusR (applyR (valM (rot t)) (minusR (valV p') (chg_vec (valC f) (valC t) (valV v))))
        (minusR (global_dir (valC t) (chg_vec (valC f) (valC t) (valV v))) (global_dir (valC f) (valV v)))).
    2:{ rewrite applyR_minus. unfold global_dir, valC; cbn [origin rot]. set (A := applyR (valM (rot t)) (chg_vec _ _ _)). clearbody A.
        unfold plusR, minusR; cbn. f_equal; ring. }
    eapply Rle_trans; [apply len_plus|]. pose proof (chg_vec_near (valV v)).
    assert (lenR (applyR (valM (rot t)) (minusR (valV p') (chg_vec (valC f) (valC t) (valV v)))) <= 1.015 * (1.7321 * (36 * ulp * V))).
    { eapply Rle_trans; [apply (near_len tau); [apply Nt|exact T1]|]. lra. }
    assert (3.1 * tau * lenR (valV v) <= 3.1 * tau * V).
    { apply Rmult_le_compat_l; trivial. destruct Nf as [Nf1 _]. pose proof (nearly_tau _ _ Nf1). lra. }
    lra.
  Qed.
End Change.

Lemma near_len_back tau m w : nearly_columns tau m -> tau <= / 100 -> lenR w <= 1.016 * lenR (applyR m w).
Proof.
  intros N T. pose proof (apply_norm _ _ w N) as H. apply abs_between in H. pose proof (len_nonneg (applyR m w)). pose proof (nearly_tau _ _ N).
  apply len_le; [lra|]. pose proof (dot_nonneg w). pose proof (len_sq (applyR m w)) as L.
  assert (tau * dotR w w <= / 100 * dotR w w) by (apply Rmult_le_compat_r; lra). nra.
Qed.
Lemma len_tri a b c : distR a c <= distR a b + distR b c.
Proof. unfold distR. replace (minusR a c) with (plusR (minusR a b) (minusR b c)) by (unfold minusR, plusR; cbn; f_equal; ring). apply len_plus. Qed.
Lemma dist_len a b : lenR a <= lenR b + distR a b.
Proof. unfold distR. replace a with (plusR b (minusR a b)) at 1 by (unfold minusR, plusR; destruct a; cbn; f_equal; ring). apply len_plus. Qed.
Lemma dist_self a : distR a a = 0.
Proof. unfold distR, lenR. replace (dotR (minusR a a) (minusR a a)) with 0 by (unfold dotR, minusR; cbn; ring). apply sqrt_0. Qed.

(** A ray carried to N frames in turn stays where it is in space. *)
Theorem hops_place tau S cs : inrange4 S -> tau <= / 100 -> forall rv r, Forall (double_frame tau (S / 4)) (rvcs rv :: cs) ->
  forall i, nth_error (rays rv) i = Some r -> finV (pos r) ->
  lenR (global_point (valC (rvcs rv)) (valV (pos r))) + INR (length cs) * ((212 * ulp + 9.3 * tau) * S) <= S / 2 ->
  exists r', nth_error (rays (hops cs rv)) i = Some r' /\ finV (pos r') /\
    distR (global_point (valC (rvcs (hops cs rv))) (valV (pos r'))) (global_point (valC (rvcs rv)) (valV (pos r))) <=
      INR (length cs) * ((212 * ulp + 9.3 * tau) * S) /\
    time r' = time r /\ wavelength r' = wavelength r /\ flux r' = flux r /\ vignetted r' = vignetted r /\ failed r' = failed r.
Proof.
  intros RS T1. pose proof (room_pos _ RS) as P. pose proof ulp_small as [U0 U1]. induction cs as [|c cs IH]; intros rv r F i Hi Fp G.
  - exists r. rewrite dist_self. cbn [hops fold_left length INR]. conj; trivial; lra.
  - inversion F as [|? ? (Ff & Nf & Of) F' E1]; subst. inversion F' as [|? ? (Ft & Nt & Ot) F'' E2]; subst.
    destruct Nf as [Nf1 Nf2]. pose proof (nearly_tau _ _ Nf1) as T0.
    set (D := (212 * ulp + 9.3 * tau) * S) in *. assert (D0 : 0 <= D) by (apply Rmult_le_pos; lra).
    change (length (c :: cs)) with (Datatypes.S (length cs)) in *. rewrite S_INR in *. pose proof (pos_INR (length cs)) as N0.
    assert (ND : 0 <= INR (length cs) * D) by (apply Rmult_le_pos; assumption).
    assert (Lp : lenR (valV (pos r)) <= S).
    { assert (L : lenR (applyR (valM (rot (rvcs rv))) (valV (pos r))) <= 3/4 * S).
      { replace (applyR (valM (rot (rvcs rv))) (valV (pos r))) with (minusR (global_point (valC (rvcs rv)) (valV (pos r))) (valV (origin (rvcs rv)))).
        2:{ unfold global_point, valC; cbn [origin rot]. set (A := applyR _ _). clearbody A. destruct A. unfold minusR, plusR; cbn. f_equal; ring. }
        eapply Rle_trans; [apply len_minus|lra]. }
      eapply Rle_trans; [apply (near_len_back tau); [exact Nf1|exact T1]|]. lra. }
    assert (DO : lenR (minusR (valV (origin c)) (valV (origin (rvcs rv)))) <= S) by (eapply Rle_trans; [apply len_minus|lra]).
    pose proof (same_place (rvcs rv) c tau S Ff Ft RS T1 (conj Nf1 Nf2) Nt DO (pos r) Fp Lp) as [Fq Dq]. fold D in Dq.
    set (ct := mkCT (rvcs rv) c) in *. set (r1 := ray_forward (ct_dr ct) (ct_drot ct) r).
    destruct (IH (rv_toCoordSys c rv) r1) with (i := i) as (r' & Hr & Fr & Dr & Q).
    + exact F'.
    + unfold rv_toCoordSys, batch; cbn [rays dest]. rewrite nth_error_map, Hi. reflexivity.
    + exact Fq.
    + change (rvcs (rv_toCoordSys c rv)) with c. change (pos r1) with (fwd_point (ct_dr ct) (ct_drot ct) (pos r)).
      pose proof (dist_len (global_point (valC c) (valV (fwd_point (ct_dr ct) (ct_drot ct) (pos r)))) (global_point (valC (rvcs rv)) (valV (pos r)))). lra.
    + exists r'. change (hops (c :: cs) rv) with (hops cs (rv_toCoordSys c rv)). conj; try apply Q; trivial.
      eapply Rle_trans; [apply (len_tri _ (global_point (valC c) (valV (fwd_point (ct_dr ct) (ct_drot ct) (pos r)))))|]. change (rvcs (rv_toCoordSys c rv)) with c in Dr.
      change (pos r1) with (fwd_point (ct_dr ct) (ct_drot ct) (pos r)) in Dr. lra.
Qed.
Theorem hops_direction tau O V cs : inrange4 V -> tau <= / 100 -> forall rv r, Forall (double_frame tau O) (rvcs rv :: cs) ->
  forall i, nth_error (rays rv) i = Some r -> finV (vel r) ->
  lenR (global_dir (valC (rvcs rv)) (valV (vel r))) + INR (length cs) * ((64 * ulp + 3.1 * tau) * V) <= 3/4 * V ->
  exists r', nth_error (rays (hops cs rv)) i = Some r' /\ finV (vel r') /\
    distR (global_dir (valC (rvcs (hops cs rv))) (valV (vel r'))) (global_dir (valC (rvcs rv)) (valV (vel r))) <=
      INR (length cs) * ((64 * ulp + 3.1 * tau) * V).
Proof.
  intros RS T1. pose proof (room_pos _ RS) as P. pose proof ulp_small as [U0 U1]. induction cs as [|c cs IH]; intros rv r F i Hi Fp G.
  - exists r. rewrite dist_self. cbn [hops fold_left length INR]. conj; trivial; lra.
  - inversion F as [|? ? (Ff & Nf & Of) F' E1]; subst. inversion F' as [|? ? (Ft & Nt & Ot) F'' E2]; subst.
    destruct Nf as [Nf1 Nf2]. pose proof (nearly_tau _ _ Nf1) as T0.
    set (D := (64 * ulp + 3.1 * tau) * V) in *. assert (D0 : 0 <= D) by (apply Rmult_le_pos; lra).
    change (length (c :: cs)) with (Datatypes.S (length cs)) in *. rewrite S_INR in *. pose proof (pos_INR (length cs)) as N0.
    assert (ND : 0 <= INR (length cs) * D) by (apply Rmult_le_pos; assumption).
    assert (Lp : lenR (valV (vel r)) <= V).
    { eapply Rle_trans; [apply (near_len_back tau); [exact Nf1|exact T1]|]. unfold global_dir, valC in G; cbn [rot] in G. lra. }
    pose proof (same_direction (rvcs rv) c tau Ff Ft T1 (conj Nf1 Nf2) Nt (vel r) V RS Fp Lp) as [Fq Dq]. fold D in Dq.
    set (ct := mkCT (rvcs rv) c) in *. set (r1 := ray_forward (ct_dr ct) (ct_drot ct) r).
    destruct (IH (rv_toCoordSys c rv) r1) with (i := i) as (r' & Hr & Fr & Dr).
    + exact F'.
    + unfold rv_toCoordSys, batch; cbn [rays dest]. rewrite nth_error_map, Hi. reflexivity.
    + exact Fq.
    + change (rvcs (rv_toCoordSys c rv)) with c. change (vel r1) with (fwd_vel (ct_drot ct) (vel r)).
      pose proof (dist_len (global_dir (valC c) (valV (fwd_vel (ct_drot ct) (vel r)))) (global_dir (valC (rvcs rv)) (valV (vel r)))). lra.
    + exists r'. change (hops (c :: cs) rv) with (hops cs (rv_toCoordSys c rv)). conj; trivial.
      eapply Rle_trans; [apply (len_tri _ (global_dir (valC c) (valV (fwd_vel (ct_drot ct) (vel r)))))|]. change (rvcs (rv_toCoordSys c rv)) with c in Dr.
      change (vel r1) with (fwd_vel (ct_drot ct) (vel r)) in Dr. lra.
Qed.
