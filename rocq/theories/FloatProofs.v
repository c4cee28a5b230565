(** The operations of the instance F64 round the exact result once. *)
From Coq Require Import Reals ZArith Bool Lra Lia Psatz Floats.SpecFloat.
From Verif Require Import Num NumF FloatSpec.
Open Scope R_scope.

Lemma two_pos e : 0 < two e.
Proof. apply powerRZ_lt. lra. Qed.
Lemma two_add a b : two (a + b) = two a * two b.
Proof. apply powerRZ_add. lra. Qed.
Lemma two_0 : two 0 = 1. Proof. reflexivity. Qed.
Lemma two_1 : two 1 = 2. Proof. unfold two. simpl. lra. Qed.
Lemma two_m1 : two (-1) = / 2. Proof. unfold two. simpl. rewrite Rmult_1_r. reflexivity. Qed.
Lemma two_inv e : two (- e) = / two e.
Proof. pose proof (two_pos e). apply (Rmult_eq_reg_r (two e)); [|lra]. rewrite <- two_add, Rinv_l by lra. replace (- e + e)%Z with 0%Z by ring. reflexivity. Qed.
Lemma two_nonneg_Z e : (0 <= e)%Z -> two e = IZR (2 ^ e).
Proof. intros H. unfold two. rewrite <- (Z2Nat.id e H). rewrite <- pow_powerRZ, <- pow_IZR. reflexivity. Qed.
Lemma two_ge1 e : (0 <= e)%Z -> 1 <= two e.
Proof. intros H. rewrite two_nonneg_Z by exact H. apply IZR_le. pose proof (Z.pow_pos_nonneg 2 e). lia. Qed.
Lemma two_le a b : (a <= b)%Z -> two a <= two b.
Proof. intros H. replace b with (a + (b - a))%Z by ring. rewrite two_add. pose proof (two_pos a). pose proof (two_ge1 (b - a) ltac:(lia)). nra. Qed.
Lemma two_lt a b : (a < b)%Z -> two a < two b.
Proof. intros H. apply Rlt_le_trans with (two (a + 1)); [|apply two_le; lia]. rewrite two_add, two_1. pose proof (two_pos a). lra. Qed.
Lemma two_lt_inv a b : two a < two b -> (a < b)%Z.
Proof. intros H. destruct (Z_lt_le_dec a b) as [L|L]; [exact L|]. pose proof (two_le _ _ L). lra. Qed.

(** ** Digits *)
Lemma digits_bounds m : (2 ^ (Zpos (digits2_pos m) - 1) <= Zpos m < 2 ^ Zpos (digits2_pos m))%Z.
Proof.
  induction m as [p IH|p IH|]; cbn [digits2_pos]; rewrite ?Pos2Z.inj_succ.
  - replace (Z.succ (Z.pos (digits2_pos p)) - 1)%Z with (Z.succ (Z.pos (digits2_pos p) - 1)) by lia. rewrite !Z.pow_succ_r by lia. lia.
  - replace (Z.succ (Z.pos (digits2_pos p)) - 1)%Z with (Z.succ (Z.pos (digits2_pos p) - 1)) by lia. rewrite !Z.pow_succ_r by lia. lia.
  - cbn. lia.
Qed.
Lemma digits_R m : (0 < m)%Z -> two (Zdigits2 m - 1) <= IZR m < two (Zdigits2 m).
Proof.
  destruct m as [|p|p]; try lia. intros _. cbn [Zdigits2]. pose proof (digits_bounds p) as [A B].
  rewrite !two_nonneg_Z by lia. split; [apply IZR_le, A|apply IZR_lt, B].
Qed.
Lemma digits_le m k : (0 <= m)%Z -> (0 <= k)%Z -> (m < 2 ^ k)%Z -> (Zdigits2 m <= k)%Z.
Proof.
  intros Hm Hk H. destruct m as [|p|p]; [cbn; lia| |lia]. cbn [Zdigits2]. pose proof (digits_bounds p) as [A B].
  destruct (Z_le_gt_dec (Z.pos (digits2_pos p)) k) as [L|L]; [exact L|]. exfalso.
  assert (2 ^ k <= 2 ^ (Z.pos (digits2_pos p) - 1))%Z by (apply Z.pow_le_mono_r; lia). lia.
Qed.

(** ** Shifting with guard bits *)
Definition located (y : R) (k : shr_record) : Prop :=
  let m := IZR (shr_m k) in
  (0 <= shr_m k)%Z /\
  match shr_r k, shr_s k with
  | false, false => y = m
  | false, true => m < y < m + / 2
  | true, false => y = m + / 2
  | true, true => m + / 2 < y < m + 1
  end.
Lemma located_range y k : located y k -> IZR (shr_m k) <= y < IZR (shr_m k) + 1 /\ (0 <= shr_m k)%Z.
Proof. intros (H & L). split; [|exact H]. destruct (shr_r k), (shr_s k); lra. Qed.
Lemma shr_1_ok y k : located y k -> located (y * / 2) (shr_1 k).
Proof.
  destruct k as [m r s]. intros (H & L). cbn [shr_m shr_r shr_s] in *. destruct m as [|p|p]; [|destruct p as [p|p|]|lia]; cbn [shr_1].
  - split; [cbn; lia|]. cbn [shr_m shr_r shr_s]. destruct r, s; cbn [orb] in *; lra.
  - split; [cbn; lia|]. cbn [shr_m shr_r shr_s]. rewrite (Pos2Z.inj_xI p), plus_IZR, mult_IZR in L. destruct r, s; cbn [orb] in *; lra.
  - split; [cbn; lia|]. cbn [shr_m shr_r shr_s]. rewrite (Pos2Z.inj_xO p), mult_IZR in L. destruct r, s; cbn [orb] in *; lra.
  - split; [cbn; lia|]. cbn [shr_m shr_r shr_s]. destruct r, s; cbn [orb] in *; lra.
Qed.
Lemma iter_ok p : forall y k, located y k -> located (y * two (- Zpos p)) (iter_pos shr_1 p k).
Proof.
  induction p as [p IH|p IH|]; intros y k L; cbn [iter_pos].
  - replace (y * two (- Z.pos p~1)) with (y * / 2 * two (- Z.pos p) * two (- Z.pos p)).
    + apply IH, IH, shr_1_ok, L.
    + rewrite Pos2Z.inj_xI. replace (- (2 * Z.pos p + 1))%Z with (-1 + - Z.pos p + - Z.pos p)%Z by ring. rewrite !two_add, two_m1. ring.
  - replace (y * two (- Z.pos p~0)) with (y * two (- Z.pos p) * two (- Z.pos p)).
    + apply IH, IH, L.
    + rewrite Pos2Z.inj_xO. replace (- (2 * Z.pos p))%Z with (- Z.pos p + - Z.pos p)%Z by ring. rewrite !two_add. ring.
  - change (two (- (1))) with (two (-1)). rewrite two_m1. apply shr_1_ok, L.
Qed.
Lemma shr_ok x k e n : located (x * two (- e)) k -> 
  exists k', shr k e n = (k', Z.max e (e + n)) /\ located (x * two (- Z.max e (e + n))) k' /\ ((n <= 0)%Z -> k' = k).
Proof.
  intros L. destruct n as [|p|p]; cbn [shr].
  - exists k. rewrite Z.add_0_r, Z.max_id. auto.
  - exists (iter_pos shr_1 p k). rewrite Z.max_r by lia. split; [reflexivity|]. split; [|lia].
    replace (x * two (- (e + Z.pos p))) with (x * two (- e) * two (- Z.pos p)) by (replace (- (e + Z.pos p))%Z with (- e + - Z.pos p)%Z by ring; rewrite two_add; ring).
    apply iter_ok, L.
  - exists k. rewrite Z.max_l by lia. auto.
Qed.
Lemma rne_ok y k : located y k -> let M := round_nearest_even (shr_m k) (loc_of_shr_record k) in
  (shr_m k <= M <= shr_m k + 1)%Z /\ Rabs (y - IZR M) <= / 2 /\ (shr_r k = false -> shr_s k = false -> M = shr_m k).
Proof.
  destruct k as [m r s]. intros (H & L). cbn [shr_m shr_r shr_s] in *.
  destruct r, s; cbn [loc_of_shr_record round_nearest_even].
  - split; [lia|]. split; [|discriminate]. rewrite plus_IZR. apply Rabs_le. lra.
  - destruct (Z.even m); (split; [lia|]); (split; [|discriminate]); rewrite ?plus_IZR; apply Rabs_le; lra.
  - split; [lia|]. split; [|discriminate]. apply Rabs_le. lra.
  - split; [lia|]. split; [|auto]. apply Rabs_le. lra.
Qed.

(** ** Rounding *)
Notation fexp64 := (fexp prec emax).
Lemma fexp_val e : fexp64 e = Z.max (e - 53) (-1074).
Proof. reflexivity. Qed.
Definition sg (s : bool) : R := if s then -1 else 1.
Lemma sg_abs s : Rabs (sg s) = 1.
Proof. destruct s; cbn; [rewrite Rabs_left|rewrite Rabs_pos_eq]; lra. Qed.
Lemma sg_sq s : sg s * sg s = 1. Proof. destruct s; cbn; ring. Qed.
Lemma shr2_exact M e : (0 <= M <= 2 ^ 53)%Z -> (-1074 <= e)%Z ->
  exists k e2, shr_fexp prec emax M e loc_Exact = (k, e2) /\ (0 <= shr_m k)%Z /\ IZR (shr_m k) * two e2 = IZR M * two e.
Proof.
  intros HM He. unfold shr_fexp. cbn [shr_record_of_loc].
  destruct (Z_lt_le_dec M (2 ^ 53)) as [L|L].
  - pose proof (digits_le M 53 ltac:(lia) ltac:(lia) L) as D. rewrite fexp_val.
    exists {| shr_m := M; shr_r := false; shr_s := false |}, e.
    assert (Z.max (Zdigits2 M + e - 53) (-1074) - e <= 0)%Z by lia. destruct (Z.max _ _ - e)%Z; cbn [shr shr_m]; try lia; repeat split; lia.
  - assert (M = 2 ^ 53)%Z by lia. subst M. rewrite fexp_val. change (Zdigits2 (2 ^ 53)) with 54%Z.
    replace (Z.max (54 + e - 53) (-1074) - e)%Z with 1%Z by lia. cbn [shr]. 
    exists {| shr_m := 2 ^ 52; shr_r := false; shr_s := false |}, (e + 1)%Z. split; [reflexivity|]. cbn [shr_m]. split; [lia|].
    rewrite two_add, two_1. change (2 ^ 53)%Z with (2 ^ 52 * 2)%Z. rewrite mult_IZR. ring.
Qed.
Lemma round_aux s m e l x : (0 <= m)%Z -> located (x * two (- e)) (shr_record_of_loc m l) ->
  let r := binary_round_aux prec emax s m e l in let e' := Z.max e (fexp64 (Zdigits2 m + e)) in
  (x < two 970 -> finF r) /\
  (finF r -> Rabs (valF r - sg s * x) <= / 2 * two e' /\ (l = loc_Exact -> e' = e -> valF r = sg s * x)).
Proof.
  intros Hm L r e'. subst r. unfold binary_round_aux.
  destruct (shr_ok x _ e (fexp64 (Zdigits2 m + e) - e) L) as (k & Ek & Lk & Hk).
  replace (e + (fexp64 (Zdigits2 m + e) - e))%Z with (fexp64 (Zdigits2 m + e)) in * by ring. fold e' in Ek, Lk.
  assert (Ef : shr_fexp prec emax m e l = (k, e')) by exact Ek. rewrite Ef.
  destruct (rne_ok _ _ Lk) as (R1 & R2 & R3). set (M := round_nearest_even _ _) in *.
  destruct (located_range _ _ Lk) as (Rg & K0).
  assert (Sm : shr_m (shr_record_of_loc m l) = m) by (destruct l as [|[]]; reflexivity).
  assert (E' : (-1074 <= e')%Z) by (unfold e'; rewrite fexp_val; lia).
  assert (Up : x < two (Zdigits2 m + e)).
  { destruct (located_range _ _ L) as ((_ & U) & _). rewrite Sm in U.
    assert (IZR m + 1 <= two (Zdigits2 m)).
    { destruct m as [|p|p]; [cbn; lra| |lia]. pose proof (digits_bounds p) as [_ B]. cbn [Zdigits2]. rewrite two_nonneg_Z by lia. rewrite <- plus_IZR. apply IZR_le. lia. }
    pose proof (two_pos e). rewrite two_add. replace x with (x * two (- e) * two e) by (rewrite two_inv; field; lra). nra. }
  assert (Km : (shr_m k < 2 ^ 53)%Z).
  { apply lt_IZR. apply Rle_lt_trans with (x * two (- e')); [lra|]. rewrite <- two_nonneg_Z by lia.
    apply Rlt_le_trans with (two (Zdigits2 m + e) * two (- e')).
    - apply Rmult_lt_compat_r; [apply two_pos|exact Up].
    - rewrite <- two_add. apply two_le. unfold e'. rewrite fexp_val. lia. }
  destruct (shr2_exact M e' ltac:(lia) E') as (k2 & e2 & E2 & Z2 & V2). rewrite E2.
  assert (Err : Rabs (IZR M * two e' - x) <= / 2 * two e').
  { replace (IZR M * two e' - x) with (- ((x * two (- e') - IZR M) * two e')) by (rewrite two_inv; field; pose proof (two_pos e'); lra).
    rewrite Rabs_Ropp, Rabs_mult, (Rabs_pos_eq (two e')) by (pose proof (two_pos e'); lra). apply Rmult_le_compat_r; [pose proof (two_pos e'); lra|exact R2]. }
  assert (Ex : l = loc_Exact -> e' = e -> IZR M * two e' = x).
  { intros -> Ee. assert (fexp64 (Zdigits2 m + e) - e <= 0)%Z by (unfold e' in Ee; lia). rewrite (Hk H) in *. cbn [shr_record_of_loc] in *.
    rewrite (R3 eq_refl eq_refl). cbn [shr_m]. destruct L as (_ & L). cbn [shr_m shr_r shr_s] in L. rewrite <- L, Ee. rewrite two_inv. field. pose proof (two_pos e). lra. }
  assert (Fin : forall v, v = IZR M * two e' -> Rabs (sg s * v - sg s * x) <= / 2 * two e' /\ (l = loc_Exact -> e' = e -> sg s * v = sg s * x)).
  { intros v ->. split; [|intros A B; rewrite (Ex A B); reflexivity].
    replace (sg s * (IZR M * two e') - sg s * x) with (sg s * (IZR M * two e' - x)) by ring. rewrite Rabs_mult, sg_abs, Rmult_1_l. exact Err. }
  destruct (shr_m k2) as [|p|p]; [| |lia].
  - split; [intros; exact I|]. intros _. cbn [valF]. specialize (Fin 0). rewrite Rmult_0_r in Fin. apply Fin. rewrite <- V2. ring.
  - destruct (Zle_bool e2 (emax - prec)) eqn:E4; [|split; [|intros []]].
    2:{ intros Big. exfalso. rewrite Z.leb_gt in E4. change (emax - prec)%Z with 971%Z in E4.
        assert (P1 : 1 <= IZR (Z.pos p)) by (apply IZR_le; lia). pose proof (two_pos e2). pose proof (Rle_abs (IZR M * two e' - x)) as Err2.
        assert (two 972 <= two e2) by (apply two_le; lia).
        assert (M1 : two e2 <= IZR M * two e') by (rewrite <- V2; nra).
        assert (X1 : / 2 * (IZR M * two e') <= x).
        { assert (0 < M)%Z by (apply lt_IZR; apply (Rmult_lt_reg_r (two e')); [apply two_pos|rewrite Rmult_0_l; lra]).
          assert (1 <= IZR M) by (apply IZR_le; lia). pose proof (two_pos e'). nra. }
        assert (two 972 = 4 * two 970) by (change 972%Z with (1 + (1 + 970))%Z; rewrite !two_add, two_1; ring). pose proof (two_pos 970). lra. }
    split; [intros; exact I|]. intros _. cbn [valF].
    specialize (Fin (IZR (Z.pos p) * two e2) V2). rewrite <- Rmult_assoc in Fin. exact Fin.
Qed.
Lemma round_rel s m e l x : (0 <= m)%Z -> located (x * two (- e)) (shr_record_of_loc m l) -> (l = loc_Exact \/ (e <= fexp64 (Zdigits2 m + e))%Z) ->
  let r := binary_round_aux prec emax s m e l in (x < two 970 -> finF r) /\ (finF r -> rounded r (sg s * x)).
Proof.
  intros Hm L Hl r. destruct (round_aux s m e l x Hm L) as (Hf & H). split; [exact Hf|]. intros F. specialize (H F). fold r in H. destruct H as (Er & Ex). unfold rounded, ulp1, eta.
  pose proof (two_pos (-53)) as P1. pose proof (two_pos (-1075)) as P2. rewrite Rabs_mult, sg_abs, Rmult_1_l.
  destruct (Z_le_gt_dec e (fexp64 (Zdigits2 m + e))) as [Le|Gt].
  2:{ destruct Hl as [->|Hl]; [|lia]. rewrite (Ex eq_refl) by lia. rewrite Rminus_diag_eq, Rabs_R0 by reflexivity. pose proof (Rabs_pos x). nra. }
  rewrite Z.max_r in Er by exact Le. eapply Rle_trans; [exact Er|]. rewrite <- two_m1, <- two_add. rewrite fexp_val in *.
  destruct (Z_le_gt_dec (Zdigits2 m + e - 53) (-1074)) as [A|A].
  - rewrite Z.max_r by exact A. change (-1 + -1074)%Z with (-1075)%Z. pose proof (Rabs_pos x). nra.
  - rewrite Z.max_l in * by lia. 
    assert (M0 : (0 < m)%Z) by (destruct m; try lia; cbn [Zdigits2] in *; lia).
    destruct (digits_R m M0) as (D & _). destruct (located_range _ _ L) as ((Lo & _) & _).
    assert (Sm : shr_m (shr_record_of_loc m l) = m) by (destruct l as [|[]]; reflexivity). rewrite Sm in Lo.
    assert (X : two (Zdigits2 m - 1 + e) <= x).
    { rewrite two_add. pose proof (two_pos e). replace x with (x * two (- e) * two e) by (rewrite two_inv; field; lra). nra. }
    pose proof (two_pos (Zdigits2 m - 1 + e)). rewrite (Rabs_pos_eq x) by lra.
    replace (-1 + (Zdigits2 m + e - 53))%Z with (-53 + (Zdigits2 m - 1 + e))%Z by ring. rewrite two_add. nra.
Qed.

(** ** The operations *)
Lemma at_exp m e : IZR m * two e * two (- e) = IZR m.
Proof. rewrite two_inv. field. pose proof (two_pos e). lra. Qed.
Lemma exact_round s p e : let r := binary_round_aux prec emax s (Zpos p) e loc_Exact in
  (IZR (Zpos p) * two e < two 970 -> finF r) /\ (finF r -> rounded r (sg s * (IZR (Zpos p) * two e))).
Proof. apply round_rel; [lia| |left; reflexivity]. split; [cbn; lia|]. cbn [shr_record_of_loc shr_m shr_r shr_s]. apply at_exp. Qed.
Lemma rounded_0 a : valF a = 0 -> rounded a 0.
Proof. intros E. unfold rounded, eta. rewrite E, Rminus_0_r, Rabs_R0. pose proof (two_pos (-1075)). lra. Qed.
Lemma rounded_exact a : rounded a (valF a).
Proof. unfold rounded, ulp1, eta. rewrite Rminus_diag_eq, Rabs_R0 by reflexivity. pose proof (two_pos (-1075)). pose proof (two_pos (-53)). pose proof (Rabs_pos (valF a)). nra. Qed.
Lemma rounded_eq a x : valF a = x -> rounded a x.
Proof. intros <-. apply rounded_exact. Qed.
Theorem mul_rounded a b : finF (nmul a b) -> finF a /\ finF b /\ rounded (nmul a b) (valF a * valF b).
Proof.
  destruct a as [s|s| |s m e], b as [t|t| |t n f]; cbn [nmul NumF64 SFmul]; intros F; try (exfalso; exact F); (split; [exact I|]); (split; [exact I|]).
  1-3: apply rounded_eq; cbn [valF]; ring.
  apply (proj2 (exact_round _ _ _)) in F. cbn [valF].
  replace ((if s then -1 else 1) * IZR (Z.pos m) * two e * ((if t then -1 else 1) * IZR (Z.pos n) * two f))
    with (sg (xorb s t) * (IZR (Z.pos (m * n)) * two (e + f))); [exact F|].
  rewrite two_add, Pos2Z.inj_mul, mult_IZR. destruct s, t; cbn [xorb sg]; ring.
Qed.
Lemma shl_align_val m e e' : let '(m2, e2) := shl_align m e e' in IZR (Zpos m2) * two e2 = IZR (Zpos m) * two e /\ (e2 = Z.min e e')%Z.
Proof.
  unfold shl_align. destruct (e' - e)%Z as [|d|d] eqn:E; [split; [reflexivity|lia]|split; [reflexivity|lia]|]. split; [|lia].
  rewrite shift_pos_correct, mult_IZR. rewrite Zpower_pos_nat. change (Zpower_nat 2 (Pos.to_nat d)) with (Zpower_nat 2 (Pos.to_nat d)).
  rewrite <- Zpower_pos_nat. change (Z.pow_pos 2 d) with (2 ^ Z.pos d)%Z. rewrite <- two_nonneg_Z by lia.
  replace e with (e' + Z.pos d)%Z by lia. rewrite two_add. ring.
Qed.
Lemma normalize_rounded z e b : finF (binary_normalize prec emax z e b) -> rounded (binary_normalize prec emax z e b) (IZR z * two e).
Proof.
  assert (K : forall s p, finF (binary_round prec emax s p e) -> rounded (binary_round prec emax s p e) (sg s * (IZR (Zpos p) * two e))).
  { intros s p. unfold binary_round. pose proof (shl_align_val p e (fexp64 (Z.pos (digits2_pos p) + e))) as A.
    destruct (shl_align p e _) as [m2 e2]. destruct A as (A & _). rewrite <- A. apply (proj2 (exact_round _ _ _)). }
  destruct z as [|p|p]; cbn [binary_normalize]; intros F.
  - apply rounded_eq. cbn. ring.
  - apply K in F. replace (IZR (Z.pos p) * two e) with (sg false * (IZR (Z.pos p) * two e)) by (cbn [sg]; ring). exact F.
  - apply K in F. replace (IZR (Z.neg p) * two e) with (sg true * (IZR (Z.pos p) * two e)) by (cbn [sg]; change (Z.neg p) with (- Z.pos p)%Z; rewrite (opp_IZR (Z.pos p)); ring). exact F.
Qed.
Lemma align_sum (s t : bool) m e n f : let ez := Z.min e f in
  IZR (cond_Zopp s (Zpos (fst (shl_align m e ez)))) * two ez = valF (S754_finite s m e) /\
  IZR (cond_Zopp t (Zpos (fst (shl_align n f ez)))) * two ez = valF (S754_finite t n f).
Proof.
  intros ez. pose proof (shl_align_val m e ez) as A. pose proof (shl_align_val n f ez) as B.
  destruct (shl_align m e ez) as [m2 e2]. destruct (shl_align n f ez) as [n2 f2]. destruct A as (A & ->). destruct B as (B & ->).
  replace (Z.min e ez) with ez in A by lia. replace (Z.min f ez) with ez in B by lia. cbn [fst valF]. rewrite Rmult_assoc, (Rmult_assoc (if t then _ else _)), <- A, <- B.
  destruct s, t; cbn [cond_Zopp]; rewrite ?opp_IZR; split; ring.
Qed.
Theorem add_rounded a b : finF (nadd a b) -> finF a /\ finF b /\ rounded (nadd a b) (valF a + valF b).
Proof.
  destruct a as [s|s| |s m e], b as [t|t| |t n f]; cbn [nadd NumF64 SFadd]; intros F; try (exfalso; exact F).
  1-5: try (split; [exact I|]; split; [exact I|]).
  - apply rounded_eq. destruct (Bool.eqb s t); cbn [valF]; ring.
  - apply rounded_eq. cbn [valF]; ring.
  - destruct (Bool.eqb s t); destruct F.
  - apply rounded_eq. cbn [valF]; ring.
  - destruct (align_sum s t m e n f) as (A & B). rewrite <- A, <- B, <- Rmult_plus_distr_r, <- plus_IZR. apply normalize_rounded, F.
Qed.
Theorem sub_rounded a b : finF (nsub a b) -> finF a /\ finF b /\ rounded (nsub a b) (valF a - valF b).
Proof.
  destruct a as [s|s| |s m e], b as [t|t| |t n f]; cbn [nsub NumF64 SFsub]; intros F; try (exfalso; exact F).
  1-5: try (split; [exact I|]; split; [exact I|]).
  - apply rounded_eq. destruct (Bool.eqb s (negb t)); cbn [valF]; ring.
  - apply rounded_eq. cbn [valF]. destruct t; cbn [negb]; ring.
  - destruct (Bool.eqb s (negb t)); destruct F.
  - apply rounded_eq. cbn [valF]; ring.
  - destruct (align_sum s t m e n f) as (A & B). rewrite <- A, <- B, <- Rmult_minus_distr_r, <- minus_IZR. apply normalize_rounded, F.
Qed.
Theorem opp_exact a : finF (nopp a) -> finF a /\ valF (nopp a) = - valF a.
Proof. destruct a as [s|s| |s m e]; cbn [nopp NumF64 SFopp]; intros F; try (exfalso; exact F); (split; [exact I|]); cbn [valF]; [ring|]. destruct s; cbn [negb]; ring. Qed.
Lemma opp_finite a : finF a -> finF (nopp a).
Proof. destruct a; cbn; auto. Qed.

(** Division. *)
Lemma digits_ge m k : (0 < m)%Z -> (2 ^ (k - 1) <= m)%Z -> (0 < k)%Z -> (k <= Zdigits2 m)%Z.
Proof.
  intros Hm H Hk. destruct m as [|p|p]; try lia. cbn [Zdigits2]. pose proof (digits_bounds p) as [A B].
  destruct (Z_le_gt_dec k (Z.pos (digits2_pos p))) as [L|L]; [exact L|]. exfalso.
  assert (2 ^ (Z.pos (digits2_pos p)) <= 2 ^ (k - 1))%Z by (apply Z.pow_le_mono_r; lia). lia.
Qed.
Lemma digits_nonneg m : (0 <= m)%Z -> (0 <= Zdigits2 m)%Z.
Proof. destruct m; cbn; lia. Qed.
Lemma fexp_mono a b : (a <= b)%Z -> (fexp64 a <= fexp64 b)%Z.
Proof. rewrite !fexp_val. lia. Qed.
Lemma new_location_ok q r n : (0 <= q)%Z -> (0 <= r < n)%Z -> located (IZR q + IZR r / IZR n) (shr_record_of_loc q (new_location n r)).
Proof.
  intros Hq Hr. assert (Pn : 0 < IZR n) by (apply IZR_lt; lia).
  assert (B : forall c, r <> 0%Z -> (c = Lt -> (2 * r < n)%Z) -> (c = Eq -> (2 * r = n)%Z) -> (c = Gt -> (2 * r > n)%Z) -> located (IZR q + IZR r / IZR n) (shr_record_of_loc q (loc_Inexact c))).
  { intros c H0 H1 H2 H3.
    assert (D : IZR r = IZR r / IZR n * IZR n) by (field; lra). set (d := IZR r / IZR n) in *.
    assert (R0 : 0 < IZR r < IZR n) by (split; apply IZR_lt; lia). 
    split; [destruct c; cbn; lia|].
    destruct c; cbn [shr_record_of_loc shr_m shr_r shr_s].
    - specialize (H2 eq_refl). assert (2 * IZR r = IZR n) by (rewrite <- mult_IZR, H2; reflexivity). nra.
    - specialize (H1 eq_refl). assert (2 * IZR r < IZR n) by (rewrite <- mult_IZR; apply IZR_lt; exact H1). split; nra.
    - specialize (H3 eq_refl). assert (2 * IZR r > IZR n) by (rewrite <- mult_IZR; apply IZR_lt; lia). split; nra. }
  assert (X : r = 0%Z -> located (IZR q + IZR r / IZR n) (shr_record_of_loc q loc_Exact)).
  { intros ->. split; [cbn; lia|]. cbn [shr_record_of_loc shr_m shr_r shr_s]. field. lra. }
  unfold new_location. destruct (Z.even n) eqn:Ev; unfold new_location_even, new_location_odd; destruct (Zeq_bool r 0) eqn:E0;
    try (apply X, Zeq_bool_eq, E0); apply Zeq_bool_neq in E0.
  - apply B; [exact E0| | |]; intros C; destruct (Z.compare_spec (2 * r) n); congruence || lia.
  - assert (Od : (n mod 2 = 1)%Z) by (rewrite Zmod_odd, <- Z.negb_even, Ev; reflexivity).
    pose proof (Z.div_mod n 2 ltac:(lia)) as DM.
    apply B; [exact E0| | |]; intros C; destruct (Z.compare_spec (2 * r + 1) n); try discriminate; lia.
Qed.
Lemma div_core m1 e1 m2 e2 : (0 < m1)%Z -> (0 < m2)%Z -> exists q e l, SFdiv_core_binary prec emax m1 e1 m2 e2 = (q, e, l) /\ (0 <= q)%Z /\
  located (IZR m1 * two e1 / (IZR m2 * two e2) * two (- e)) (shr_record_of_loc q l) /\ (e <= fexp64 (Zdigits2 q + e))%Z.
Proof.
  intros P1 P2. unfold SFdiv_core_binary. set (D := (Zdigits2 m1 + e1 - (Zdigits2 m2 + e2))%Z). set (e := Z.min (fexp64 D) (e1 - e2)).
  set (s := (e1 - e2 - e)%Z). assert (Hs : (0 <= s)%Z) by (unfold s, e; lia).
  assert (Em : match s with 0%Z => m1 | Z.pos _ => Z.shiftl m1 s | Z.neg _ => 0%Z end = (m1 * 2 ^ s)%Z).
  { destruct s as [|p|p]; [rewrite Z.pow_0_r; ring|apply Z.shiftl_mul_pow2; lia|lia]. }
  rewrite Em. pose proof (Z_div_mod (m1 * 2 ^ s) m2 ltac:(lia)) as DM. destruct (Z.div_eucl (m1 * 2 ^ s) m2) as [q r]. destruct DM as (Eq & Hr).
  assert (P2s : (0 < 2 ^ s)%Z) by (apply Z.pow_pos_nonneg; lia).
  assert (Hq : (0 <= q)%Z) by nia.
  exists q, e, (new_location m2 r). split; [reflexivity|]. split; [exact Hq|]. split.
  - replace (IZR m1 * two e1 / (IZR m2 * two e2) * two (- e)) with (IZR q + IZR r / IZR m2); [apply new_location_ok; assumption|].
    assert (0 < IZR m2) by (apply IZR_lt; lia). pose proof (two_pos e2). pose proof (two_pos e).
    assert (X : IZR m1 * two s = IZR m2 * IZR q + IZR r) by (rewrite two_nonneg_Z by exact Hs; rewrite <- !mult_IZR, <- plus_IZR, Eq; reflexivity).
    replace (IZR q + IZR r / IZR m2) with ((IZR m2 * IZR q + IZR r) / IZR m2) by (field; lra). rewrite <- X.
    unfold s. replace (e1 - e2 - e)%Z with (e1 + - e2 + - e)%Z by ring. rewrite !two_add, !two_inv. field. lra.
  - apply Z.le_trans with (fexp64 D); [unfold e; lia|]. apply fexp_mono.
    destruct (Z_le_gt_dec (D - e) 0) as [N|N]; [pose proof (digits_nonneg q Hq); lia|].
    assert (ZQ : (2 ^ (D - e - 1) <= q)%Z).
    { assert (K1 : (2 ^ (Zdigits2 m1 - 1) <= m1)%Z) by (destruct m1 as [|p|p]; try lia; apply digits_bounds).
      assert (K2 : (m2 < 2 ^ (Zdigits2 m2))%Z) by (destruct m2 as [|p|p]; try lia; apply digits_bounds).
      assert (D1 : (0 < Zdigits2 m1)%Z) by (destruct m1; cbn; lia). assert (D2 : (0 < Zdigits2 m2)%Z) by (destruct m2; cbn; lia).
      assert (K3 : (2 ^ (D - e - 1) * 2 ^ (Zdigits2 m2) <= m1 * 2 ^ s)%Z).
      { rewrite <- Z.pow_add_r by lia. replace (D - e - 1 + Zdigits2 m2)%Z with (Zdigits2 m1 - 1 + s)%Z by (unfold D, s; ring). rewrite Z.pow_add_r by lia. nia. }
      assert (K4 : (2 ^ (D - e - 1) * m2 <= m1 * 2 ^ s)%Z) by (pose proof (Z.pow_pos_nonneg 2 (D - e - 1)); nia).
      rewrite Eq in K4. nia. }
    assert (0 < q)%Z by (pose proof (Z.pow_pos_nonneg 2 (D - e - 1)); lia).
    pose proof (digits_ge q (D - e) H ZQ ltac:(lia)). lia.
Qed.
Theorem div_rounded a b : finF (ndiv a b) -> finF b -> finF a /\ valF b <> 0 /\ rounded (ndiv a b) (valF a / valF b).
Proof.
  destruct a as [s|s| |s m e], b as [t|t| |t n f]; cbn [ndiv NumF64 SFdiv]; intros F Fb; try (exfalso; exact F); try (exfalso; exact Fb); (split; [exact I|]).
  - assert (valF (S754_finite t n f) <> 0).
    { cbn [valF]. pose proof (two_pos f). assert (0 < IZR (Z.pos n)) by (apply IZR_lt; lia). destruct t; nra. }
    split; [assumption|]. apply rounded_eq. cbn [valF]. unfold Rdiv. ring.
  - assert (valF (S754_finite t n f) <> 0).
    { cbn [valF]. pose proof (two_pos f). assert (0 < IZR (Z.pos n)) by (apply IZR_lt; lia). destruct t; nra. }
    split; [assumption|].
    destruct (div_core (Z.pos m) e (Z.pos n) f ltac:(lia) ltac:(lia)) as (q & e' & l & E & Hq & L & Hl). rewrite E in *.
    pose proof (proj2 (round_rel (xorb s t) q e' l _ Hq L (or_intror Hl)) F) as R.
    replace (valF (S754_finite s m e) / valF (S754_finite t n f)) with (sg (xorb s t) * (IZR (Z.pos m) * two e / (IZR (Z.pos n) * two f))); [exact R|].
    cbn [valF]. pose proof (two_pos f). assert (0 < IZR (Z.pos n)) by (apply IZR_lt; lia). destruct s, t; cbn [xorb sg]; field; lra.
Qed.
(** Square root. *)
Lemma sqrt_core m e : (0 < m)%Z -> exists q e' l, SFsqrt_core_binary prec emax m e = (q, e', l) /\ (0 <= q)%Z /\
  located (sqrt (IZR m * two e) * two (- e')) (shr_record_of_loc q l) /\ (e' <= fexp64 (Zdigits2 q + e'))%Z.
Proof.
  intros Hm. unfold SFsqrt_core_binary. set (h := Z.div2 (Zdigits2 m + e + 1)). set (e' := Z.min (fexp64 h) (Z.div2 e)).
  set (s := (e - 2 * e')%Z).
  assert (D2 : forall z, (2 * Z.div2 z <= z < 2 * Z.div2 z + 2)%Z) by (intros z; pose proof (Z.div2_odd z) as O; destruct (Z.odd z); cbn [Z.b2z] in O; lia).
  assert (Hs : (0 <= s)%Z) by (pose proof (D2 e); unfold s, e'; lia).
  assert (Em : match s with 0%Z => m | Z.pos _ => Z.shiftl m s | Z.neg _ => 0%Z end = (m * 2 ^ s)%Z).
  { destruct s as [|p|p]; [rewrite Z.pow_0_r; ring|apply Z.shiftl_mul_pow2; lia|lia]. }
  rewrite Em. assert (P2s : (0 < 2 ^ s)%Z) by (apply Z.pow_pos_nonneg; lia).
  pose proof (Z.sqrtrem_spec (m * 2 ^ s) ltac:(nia)) as SR. destruct (Z.sqrtrem (m * 2 ^ s)) as [q r]. destruct SR as (Eq & Hr).
  assert (Hq : (0 <= q)%Z) by lia.
  assert (RQ : 0 <= IZR q) by (apply IZR_le; exact Hq).
  assert (X : sqrt (IZR m * two e) * two (- e') = sqrt (IZR q * IZR q + IZR r)).
  { pose proof (two_pos (- e')). rewrite <- (sqrt_square (two (- e'))) by lra. rewrite <- sqrt_mult_alt.
    - f_equal. rewrite <- !mult_IZR, <- plus_IZR, <- Eq, mult_IZR, <- two_nonneg_Z by exact Hs. unfold s.
      replace (e - 2 * e')%Z with (e + - e' + - e')%Z by ring. rewrite !two_add. ring.
    - pose proof (two_pos e). assert (0 < IZR m) by (apply IZR_lt; lia). nra. }
  set (l := if Zeq_bool r 0 then _ else _). exists q, e', l. split; [reflexivity|]. split; [exact Hq|]. split.
  - rewrite X. unfold l. destruct (Zeq_bool r 0) eqn:E0.
    + apply Zeq_bool_eq in E0. rewrite E0, Rplus_0_r, sqrt_square by exact RQ. split; [cbn; lia|reflexivity].
    + apply Zeq_bool_neq in E0. assert (0 < IZR r) by (apply IZR_lt; lia).
      assert (Lo : IZR q < sqrt (IZR q * IZR q + IZR r)) by (rewrite <- (sqrt_square (IZR q)) at 1 by exact RQ; apply sqrt_lt_1_alt; nra).
      destruct (Zle_bool r q) eqn:El.
      * apply Zle_bool_imp_le in El. assert (IZR r <= IZR q) by (apply IZR_le; exact El). split; [cbn; lia|]. cbn [shr_record_of_loc shr_m shr_r shr_s]. split; [exact Lo|].
        rewrite <- (sqrt_square (IZR q + / 2)) by lra. apply sqrt_lt_1_alt. nra.
      * rewrite Z.leb_gt in El. assert (IZR q + 1 <= IZR r) by (rewrite <- plus_IZR; apply IZR_le; lia). assert (IZR r <= 2 * IZR q) by (rewrite <- mult_IZR; apply IZR_le; lia).
        split; [cbn; lia|]. cbn [shr_record_of_loc shr_m shr_r shr_s]. split.
        -- rewrite <- (sqrt_square (IZR q + / 2)) by lra. apply sqrt_lt_1_alt. nra.
        -- rewrite <- (sqrt_square (IZR q + 1)) by lra. apply sqrt_lt_1_alt. nra.
  - apply Z.le_trans with (fexp64 h); [unfold e'; lia|]. apply fexp_mono.
    destruct (Z_le_gt_dec (h - e') 0) as [N|N]; [pose proof (digits_nonneg q Hq); lia|].
    set (k := (h - e')%Z) in *.
    assert (K1 : (2 ^ (Zdigits2 m - 1) <= m)%Z) by (destruct m as [|p|p]; try lia; apply digits_bounds).
    assert (D1 : (0 < Zdigits2 m)%Z) by (destruct m; cbn; lia).
    assert (ZQ : (2 ^ (k - 1) <= q)%Z).
    { pose proof (D2 (Zdigits2 m + e + 1)%Z) as Hh. fold h in Hh.
      assert (K3 : (2 ^ (k - 1) * 2 ^ (k - 1) <= m * 2 ^ s)%Z).
      { rewrite <- Z.pow_add_r by lia. apply Z.le_trans with (2 ^ (Zdigits2 m - 1 + s))%Z; [apply Z.pow_le_mono_r; unfold s, k in *; lia|].
        rewrite Z.pow_add_r by lia. nia. }
      destruct (Z_le_gt_dec (2 ^ (k - 1)) q) as [L|L]; [exact L|]. exfalso.
      assert (q + 1 <= 2 ^ (k - 1))%Z by lia. assert ((q + 1) * (q + 1) <= 2 ^ (k - 1) * 2 ^ (k - 1))%Z by nia. nia. }
    assert (0 < q)%Z by (pose proof (Z.pow_pos_nonneg 2 (k - 1)); lia).
    pose proof (digits_ge q k H ZQ ltac:(lia)). lia.
Qed.
Theorem sqrt_rounded a : finF (nsqrt a) -> finF a /\ 0 <= valF a /\ rounded (nsqrt a) (sqrt (valF a)).
Proof.
  destruct a as [s|s| |s m e]; cbn [nsqrt NumF64 SFsqrt]; intros F; try (exfalso; exact F).
  - split; [exact I|]. split; [cbn; lra|]. apply rounded_eq. cbn [valF]. rewrite sqrt_0. reflexivity.
  - destruct s; destruct F.
  - destruct s; [destruct F|]. split; [exact I|]. pose proof (two_pos e). assert (0 < IZR (Z.pos m)) by (apply IZR_lt; lia).
    split; [cbn [valF]; nra|]. cbn [valF].
    destruct (sqrt_core (Z.pos m) e ltac:(lia)) as (q & e' & l & E & Hq & L & Hl). rewrite E in *.
    pose proof (proj2 (round_rel false q e' l _ Hq L (or_intror Hl)) F) as R. cbn [sg] in R. rewrite Rmult_1_l in R. rewrite (Rmult_1_l (IZR (Z.pos m))). exact R.
Qed.

(** ** No overflow *)
Lemma val_abs s m e : Rabs (valF (S754_finite s m e)) = IZR (Zpos m) * two e.
Proof.
  cbn [valF]. rewrite Rmult_assoc, Rabs_mult. pose proof (sg_abs s) as S. unfold sg in S. rewrite S, Rmult_1_l. apply Rabs_pos_eq.
  pose proof (two_pos e). assert (0 < IZR (Z.pos m)) by (apply IZR_lt; lia). nra.
Qed.
Theorem mul_finite a b : finF a -> finF b -> Rabs (valF a * valF b) < two 970 -> finF (nmul a b).
Proof.
  destruct a as [s|s| |s m e], b as [t|t| |t n f]; cbn [nmul NumF64 SFmul]; intros Fa Fb B; try exact I; try (exfalso; assumption).
  apply (proj1 (exact_round _ _ _)). rewrite Rabs_mult, !val_abs in B. rewrite two_add, Pos2Z.inj_mul, mult_IZR.
  replace (IZR (Z.pos m) * IZR (Z.pos n) * (two e * two f)) with (IZR (Z.pos m) * two e * (IZR (Z.pos n) * two f)) by ring. exact B.
Qed.
Lemma normalize_finite z e b : Rabs (IZR z * two e) < two 970 -> finF (binary_normalize prec emax z e b).
Proof.
  assert (K : forall s p, IZR (Zpos p) * two e < two 970 -> finF (binary_round prec emax s p e)).
  { intros s p. unfold binary_round. pose proof (shl_align_val p e (fexp64 (Z.pos (digits2_pos p) + e))) as A.
    destruct (shl_align p e _) as [m2 e2]. destruct A as (A & _). rewrite <- A. apply (proj1 (exact_round _ _ _)). }
  intros B. pose proof (Rle_abs (IZR z * two e)) as B1. pose proof (Rle_abs (- (IZR z * two e))) as B2. rewrite Rabs_Ropp in B2.
  destruct z as [|p|p]; cbn [binary_normalize]; [exact I|apply K; lra|apply K].
  change (Z.neg p) with (- Z.pos p)%Z in B, B2. rewrite opp_IZR in B, B2. lra.
Qed.
Theorem add_finite a b : finF a -> finF b -> Rabs (valF a + valF b) < two 970 -> finF (nadd a b).
Proof.
  destruct a as [s|s| |s m e], b as [t|t| |t n f]; cbn [nadd NumF64 SFadd]; intros Fa Fb B; try exact I; try (exfalso; assumption).
  - destruct (Bool.eqb s t); exact I.
  - apply normalize_finite. destruct (align_sum s t m e n f) as (A1 & A2). rewrite plus_IZR, Rmult_plus_distr_r, A1, A2. exact B.
Qed.
Theorem sub_finite a b : finF a -> finF b -> Rabs (valF a - valF b) < two 970 -> finF (nsub a b).
Proof.
  destruct a as [s|s| |s m e], b as [t|t| |t n f]; cbn [nsub NumF64 SFsub]; intros Fa Fb B; try exact I; try (exfalso; assumption).
  - destruct (Bool.eqb s (negb t)); exact I.
  - apply normalize_finite. destruct (align_sum s t m e n f) as (A1 & A2). rewrite minus_IZR, Rmult_minus_distr_r, A1, A2. exact B.
Qed.
Lemma val_zero a : finF a -> valF a <> 0 -> exists s m e, a = S754_finite s m e.
Proof. destruct a as [s|s| |s m e]; cbn; intros F N; try (exfalso; assumption); [lra|]. eauto. Qed.
Theorem div_finite a b : finF a -> finF b -> valF b <> 0 -> Rabs (valF a / valF b) < two 970 -> finF (ndiv a b).
Proof.
  intros Fa Fb Nb B. destruct (val_zero b Fb Nb) as (t & n & f & ->). destruct a as [s|s| |s m e]; cbn [ndiv NumF64 SFdiv]; try exact I; try (exfalso; assumption).
  destruct (div_core (Z.pos m) e (Z.pos n) f ltac:(lia) ltac:(lia)) as (q & e' & l & E & Hq & L & Hl). rewrite E.
  apply (proj1 (round_rel (xorb s t) q e' l _ Hq L (or_intror Hl))). unfold Rdiv in B. rewrite Rabs_mult, Rabs_inv, !val_abs in B. exact B.
Qed.
Theorem sqrt_finite a : finF a -> 0 <= valF a -> sqrt (valF a) < two 970 -> finF (nsqrt a).
Proof.
  destruct a as [s|s| |s m e]; cbn [nsqrt NumF64 SFsqrt]; intros F P B; try exact I; try (exfalso; assumption).
  pose proof (two_pos e). assert (0 < IZR (Z.pos m)) by (apply IZR_lt; lia). destruct s; [cbn [valF] in P; nra|].
  destruct (sqrt_core (Z.pos m) e ltac:(lia)) as (q & e' & l & E & Hq & L & Hl). rewrite E.
  apply (proj1 (round_rel false q e' l _ Hq L (or_intror Hl))). cbn [valF] in B. rewrite (Rmult_1_l (IZR (Z.pos m))) in B. exact B.
Qed.

(** All five operations: no overflow below 2^970, and then one rounding of the exact result. *)
Theorem arithmetic_rounded a b : finF a -> finF b ->
  (Rabs (valF a + valF b) < two 970 -> finF (nadd a b) /\ rounded (nadd a b) (valF a + valF b)) /\
  (Rabs (valF a - valF b) < two 970 -> finF (nsub a b) /\ rounded (nsub a b) (valF a - valF b)) /\
  (Rabs (valF a * valF b) < two 970 -> finF (nmul a b) /\ rounded (nmul a b) (valF a * valF b)) /\
  (valF b <> 0 -> Rabs (valF a / valF b) < two 970 -> finF (ndiv a b) /\ rounded (ndiv a b) (valF a / valF b)) /\
  (0 <= valF a -> sqrt (valF a) < two 970 -> finF (nsqrt a) /\ rounded (nsqrt a) (sqrt (valF a))).
Proof.
  intros Fa Fb. split; [|split; [|split; [|split]]].
  - intros H. pose proof (add_finite a b Fa Fb H) as F. split; [exact F|apply (add_rounded a b F)].
  - intros H. pose proof (sub_finite a b Fa Fb H) as F. split; [exact F|apply (sub_rounded a b F)].
  - intros H. pose proof (mul_finite a b Fa Fb H) as F. split; [exact F|apply (mul_rounded a b F)].
  - intros N H. pose proof (div_finite a b Fa Fb N H) as F. split; [exact F|apply (div_rounded a b F Fb)].
  - intros P H. pose proof (sqrt_finite a Fa P H) as F. split; [exact F|apply (sqrt_rounded a F)].
Qed.
