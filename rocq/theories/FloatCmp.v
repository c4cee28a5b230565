(** Comparisons of doubles decide as their values do. *)
From Coq Require Import Reals ZArith Bool Lra Lia Floats.SpecFloat.
From Verif Require Import Num NumF FloatSpec FloatProofs.
Open Scope R_scope.

(** The bits of a double: the mantissa has 53 digits, or the exponent is the least. *)
Definition valid (a : F64) : Prop := valid_binary prec emax a = true.

Lemma valid_finite s m e : valid (S754_finite s m e) <-> (fexp64 (Z.pos (digits2_pos m) + e) = e /\ e <= 971)%Z.
Proof.
  unfold valid. cbn [valid_binary]. unfold bounded, canonical_mantissa. rewrite andb_true_iff, <- Zeq_is_eq_bool, Z.leb_le. reflexivity.
Qed.
Lemma digits_unique m k : (0 < m)%Z -> (0 < k)%Z -> (2 ^ (k - 1) <= m < 2 ^ k)%Z -> Zdigits2 m = k.
Proof. intros M K [L U]. pose proof (digits_le m k ltac:(lia) ltac:(lia) U). pose proof (digits_ge m k M L K). lia. Qed.

Lemma round_valid s m e l x : (0 <= m)%Z -> located (x * two (- e)) (shr_record_of_loc m l) -> (e <= fexp64 (Zdigits2 m + e))%Z ->
  valid (binary_round_aux prec emax s m e l).
Proof.
  intros Hm L He. unfold binary_round_aux.
  destruct (shr_ok x _ e (fexp64 (Zdigits2 m + e) - e) L) as (k & Ek & Lk & Hk).
  replace (e + (fexp64 (Zdigits2 m + e) - e))%Z with (fexp64 (Zdigits2 m + e)) in * by ring.
  set (f := fexp64 (Zdigits2 m + e)) in *. rewrite Z.max_r in Ek, Lk by exact He.
  assert (Ef : shr_fexp prec emax m e l = (k, f)) by exact Ek. rewrite Ef.
  destruct (rne_ok _ _ Lk) as (R1 & R2 & R3). set (M := round_nearest_even _ _) in *.
  destruct (located_range _ _ Lk) as (Rg & K0).
  assert (Sm : shr_m (shr_record_of_loc m l) = m) by (destruct l as [|[]]; reflexivity).
  assert (Fv : f = Z.max (Zdigits2 m + e - 53) (-1074)) by (unfold f; apply fexp_val).
  assert (Up : x < two (Zdigits2 m + e)).
  { destruct (located_range _ _ L) as ((_ & U) & _). rewrite Sm in U.
    assert (IZR m + 1 <= two (Zdigits2 m)).
    { destruct m as [|p|p]; [cbn; lra| |lia]. pose proof (digits_bounds p) as [_ B]. cbn [Zdigits2]. rewrite two_nonneg_Z by lia. rewrite <- plus_IZR. apply IZR_le. lia. }
    pose proof (two_pos e). rewrite two_add. replace x with (x * two (- e) * two e) by (rewrite two_inv; field; lra). nra. }
  assert (Km : (shr_m k < 2 ^ 53)%Z).
  { apply lt_IZR. apply Rle_lt_trans with (x * two (- f)); [lra|]. rewrite <- two_nonneg_Z by lia.
    apply Rlt_le_trans with (two (Zdigits2 m + e) * two (- f)).
    - apply Rmult_lt_compat_r; [apply two_pos|exact Up].
    - rewrite <- two_add. apply two_le. lia. }
  assert (Lo : (f = -1074 \/ 2 ^ 52 <= shr_m k)%Z).
  { destruct (Z_le_gt_dec (Zdigits2 m + e - 53) (-1074)) as [A|A]; [left; lia|right].
    assert (M0 : (0 < m)%Z) by (destruct m; try lia; cbn [Zdigits2] in *; lia).
    destruct (digits_R m M0) as (D & _). destruct (located_range _ _ L) as ((Lw & _) & _). rewrite Sm in Lw.
    assert (X : two (Zdigits2 m - 1 + e) <= x).
    { rewrite two_add. pose proof (two_pos e). replace x with (x * two (- e) * two e) by (rewrite two_inv; field; lra). nra. }
    assert (Y : two 52 <= x * two (- f)).
    { apply Rle_trans with (two (Zdigits2 m - 1 + e) * two (- f)); [rewrite <- two_add; apply two_le; lia|].
      apply Rmult_le_compat_r; [left; apply two_pos|exact X]. }
    assert (Q : IZR (2 ^ 52) < IZR (shr_m k + 1)) by (rewrite plus_IZR, <- (two_nonneg_Z 52) by lia; lra). apply lt_IZR in Q. lia. }
  assert (Valid : forall m2 e2, (0 <= m2)%Z -> (m2 < 2 ^ 53)%Z -> (-1074 <= e2)%Z -> (e2 = -1074 \/ 2 ^ 52 <= m2)%Z ->
    valid match m2 with 0%Z => S754_zero s | Z.pos p => if Zle_bool e2 (emax - prec) then S754_finite s p e2 else S754_infinity s | Z.neg _ => S754_nan end).
  { intros m2 e2 A B E C. destruct m2 as [|p|p]; [reflexivity| |lia].
    destruct (Zle_bool e2 (emax - prec)) eqn:G; [|reflexivity]. apply valid_finite. apply Z.leb_le in G. change (emax - prec)%Z with 971%Z in G. split; [|exact G].
    pose proof (digits_le (Z.pos p) 53 ltac:(lia) ltac:(lia) B) as D. cbn [Zdigits2] in D. rewrite fexp_val. destruct C as [->|C]; [lia|].
    pose proof (digits_ge (Z.pos p) 53 ltac:(lia) C ltac:(lia)) as D'. cbn [Zdigits2] in D'. lia. }
  unfold shr_fexp. cbn [shr_record_of_loc].
  destruct (Z_lt_le_dec M (2 ^ 53)) as [Lt|Ge].
  - pose proof (digits_le M 53 ltac:(lia) ltac:(lia) Lt) as D.
    assert (Hn : (fexp64 (Zdigits2 M + f) - f <= 0)%Z) by (rewrite fexp_val; lia).
    replace (shr {| shr_m := M; shr_r := false; shr_s := false |} f (fexp64 (Zdigits2 M + f) - f)) with ({| shr_m := M; shr_r := false; shr_s := false |}, f).
    + cbn [shr_m]. apply Valid; lia.
    + destruct (fexp64 (Zdigits2 M + f) - f)%Z; cbn [shr]; try lia; reflexivity.
  - assert (EM : (M = 2 ^ 53)%Z) by lia. rewrite EM. rewrite fexp_val. change (Zdigits2 (2 ^ 53)) with 54%Z.
    replace (Z.max (54 + f - 53) (-1074) - f)%Z with 1%Z by lia. cbn [shr].
    change (iter_pos shr_1 1 {| shr_m := 2 ^ 53; shr_r := false; shr_s := false |}) with {| shr_m := 2 ^ 52; shr_r := false; shr_s := false |}.
    cbn [shr_m]. apply Valid; lia.
Qed.

(** ** The operations give doubles *)
Lemma digits_product m n : (0 < m)%Z -> (0 < n)%Z -> (Zdigits2 m <= Zdigits2 (m * n))%Z.
Proof.
  intros M N. destruct m as [|p|p]; try lia. pose proof (digits_bounds p) as [A _]. cbn [Zdigits2] in *.
  apply digits_ge; [nia| |lia]. apply Z.le_trans with (Z.pos p); [exact A|nia].
Qed.
Lemma exact_located p e : located (IZR (Zpos p) * two e * two (- e)) (shr_record_of_loc (Zpos p) loc_Exact).
Proof. split; [cbn; lia|]. cbn [shr_record_of_loc shr_m shr_r shr_s]. apply at_exp. Qed.
Lemma mul_valid a b : valid a -> valid b -> valid (nmul a b).
Proof.
  destruct a as [s|s| |s m e], b as [t|t| |t n f]; cbn [nmul NumF64 SFmul]; intros A B; try reflexivity.
  apply (round_valid _ _ _ _ (IZR (Z.pos (m * n)) * two (e + f))); [lia|apply exact_located|].
  apply valid_finite in A, B. destruct A as [A A1], B as [B B1]. rewrite fexp_val in *.
  pose proof (digits_product (Z.pos m) (Z.pos n) ltac:(lia) ltac:(lia)) as D1. pose proof (digits_product (Z.pos n) (Z.pos m) ltac:(lia) ltac:(lia)) as D2.
  rewrite (Z.mul_comm (Z.pos n)) in D2. rewrite <- Pos2Z.inj_mul in *. cbn [Zdigits2] in *. lia.
Qed.
Lemma shift_digits p d : Zdigits2 (Z.pos (shift_pos d p)) = (Z.pos (digits2_pos p) + Z.pos d)%Z.
Proof.
  rewrite shift_pos_correct. change (Zpower_pos 2 d) with (2 ^ Z.pos d)%Z. pose proof (digits_bounds p) as [A B].
  assert (0 < 2 ^ Z.pos d)%Z by (apply Z.pow_pos_nonneg; lia).
  apply digits_unique; [nia|lia|]. split.
  - replace (Z.pos (digits2_pos p) + Z.pos d - 1)%Z with (Z.pos d + (Z.pos (digits2_pos p) - 1))%Z by lia. rewrite Z.pow_add_r by lia. apply Z.mul_le_mono_nonneg_l; lia.
  - rewrite Z.add_comm, Z.pow_add_r by lia. apply Z.mul_lt_mono_pos_l; lia.
Qed.
Lemma normalize_valid z e b : valid (binary_normalize prec emax z e b).
Proof.
  assert (K : forall s p, valid (binary_round prec emax s p e)).
  { intros s p. unfold binary_round, shl_align. destruct (fexp64 (Z.pos (digits2_pos p) + e) - e)%Z as [|d|d] eqn:E.
    - apply (round_valid _ _ _ _ (IZR (Z.pos p) * two e)); [lia|apply exact_located|]. cbn [Zdigits2]. lia.
    - apply (round_valid _ _ _ _ (IZR (Z.pos p) * two e)); [lia|apply exact_located|]. cbn [Zdigits2]. lia.
    - eapply round_valid; [lia|apply exact_located|]. rewrite shift_digits.
      replace (Z.pos (digits2_pos p) + Z.pos d + fexp64 (Z.pos (digits2_pos p) + e))%Z with (Z.pos (digits2_pos p) + e)%Z by lia. lia. }
  destruct z as [|p|p]; cbn [binary_normalize]; [reflexivity|apply K|apply K].
Qed.
Lemma add_valid a b : valid a -> valid b -> valid (nadd a b).
Proof.
  destruct a as [s|s| |s m e], b as [t|t| |t n f]; cbn [nadd NumF64 SFadd]; intros A B; try reflexivity; try assumption.
  1, 2: destruct (Bool.eqb s t); reflexivity.
  apply normalize_valid.
Qed.
Lemma opp_valid a : valid a -> valid (nopp a).
Proof. destruct a as [s|s| |s m e]; cbn [nopp NumF64 SFopp]; intros A; try reflexivity. apply valid_finite in A. apply valid_finite. exact A. Qed.
Lemma sub_valid a b : valid a -> valid b -> valid (nsub a b).
Proof.
  destruct a as [s|s| |s m e], b as [t|t| |t n f]; cbn [nsub NumF64 SFsub]; intros A B; try reflexivity; try assumption.
  1, 2: destruct (Bool.eqb s (negb t)); reflexivity.
  apply normalize_valid.
Qed.
Lemma div_valid a b : valid a -> valid b -> valid (ndiv a b).
Proof.
  destruct a as [s|s| |s m e], b as [t|t| |t n f]; cbn [ndiv NumF64 SFdiv]; intros A B; try reflexivity.
  destruct (div_core (Z.pos m) e (Z.pos n) f ltac:(lia) ltac:(lia)) as (q & e' & l & E & Hq & L & Hl). rewrite E.
  exact (round_valid _ _ _ _ _ Hq L Hl).
Qed.
Lemma sqrt_valid a : valid a -> valid (nsqrt a).
Proof.
  destruct a as [s|s| |s m e]; cbn [nsqrt NumF64 SFsqrt]; intros A; try reflexivity; try assumption; destruct s; try reflexivity.
  destruct (sqrt_core (Z.pos m) e ltac:(lia)) as (q & e' & l & E & Hq & L & Hl). rewrite E. exact (round_valid _ _ _ _ _ Hq L Hl).
Qed.
Lemma hypot_valid a b : valid a -> valid b -> valid (nhypot a b).
Proof. intros A B. apply sqrt_valid. apply add_valid; apply mul_valid; assumption. Qed.

(** ** Comparison *)
Lemma canon_lt m e n f : (fexp64 (Z.pos (digits2_pos m) + e) = e)%Z -> (fexp64 (Z.pos (digits2_pos n) + f) = f)%Z -> (e < f)%Z ->
  IZR (Z.pos m) * two e < IZR (Z.pos n) * two f.
Proof.
  rewrite !fexp_val. intros A B L. pose proof (digits_R (Z.pos m) ltac:(lia)) as [_ U]. pose proof (digits_R (Z.pos n) ltac:(lia)) as [W _]. cbn [Zdigits2] in *.
  pose proof (two_pos e). pose proof (two_pos f).
  apply Rlt_le_trans with (two (Z.pos (digits2_pos m)) * two e); [apply Rmult_lt_compat_r; assumption|].
  apply Rle_trans with (two (Z.pos (digits2_pos n) - 1) * two f); [|apply Rmult_le_compat_r; lra].
  rewrite <- !two_add. apply two_le. lia.
Qed.
Lemma compare_pos m e n f : (fexp64 (Z.pos (digits2_pos m) + e) = e)%Z -> (fexp64 (Z.pos (digits2_pos n) + f) = f)%Z ->
  match match Z.compare e f with Lt => Lt | Gt => Gt | Eq => Pcompare m n Eq end with
  | Lt => IZR (Z.pos m) * two e < IZR (Z.pos n) * two f
  | Eq => IZR (Z.pos m) * two e = IZR (Z.pos n) * two f
  | Gt => IZR (Z.pos n) * two f < IZR (Z.pos m) * two e
  end.
Proof.
  intros A B. destruct (Z.compare_spec e f) as [->|L|L]; [|apply canon_lt; assumption|apply canon_lt; assumption].
  change (Pcompare m n Eq) with (Pos.compare m n). pose proof (two_pos f).
  destruct (Pos.compare_spec m n) as [->|L|L]; [reflexivity| |]; apply Rmult_lt_compat_r; try assumption; apply IZR_lt; lia.
Qed.
Definition cmpR (x y : R) (c : comparison) : Prop := match c with Lt => x < y | Eq => x = y | Gt => y < x end.
Lemma compare_ok a b : finF a -> finF b -> valid a -> valid b -> exists c, SFcompare a b = Some c /\ cmpR (valF a) (valF b) c.
Proof.
  intros Fa Fb Va Vb. destruct a as [s|s| |s m e], b as [t|t| |t n f]; try contradiction; cbn [SFcompare].
  - exists Eq. split; reflexivity.
  - exists (if t then Gt else Lt). split; [destruct t; reflexivity|]. pose proof (two_pos f). assert (0 < IZR (Z.pos n)) by (apply IZR_lt; lia).
    destruct t; cbn [cmpR valF]; nra.
  - exists (if s then Lt else Gt). split; [destruct s; reflexivity|]. pose proof (two_pos e). assert (0 < IZR (Z.pos m)) by (apply IZR_lt; lia).
    destruct s; cbn [cmpR valF]; nra.
  - apply valid_finite in Va as [Va _], Vb as [Vb _]. pose proof (compare_pos m e n f Va Vb) as C.
    pose proof (two_pos e). pose proof (two_pos f). assert (0 < IZR (Z.pos m)) by (apply IZR_lt; lia). assert (0 < IZR (Z.pos n)) by (apply IZR_lt; lia).
    destruct s, t; cbn [valF].
    + destruct (Z.compare e f) as [| |]; [eexists; split; [reflexivity|]|exists Gt; split; [reflexivity|]; cbn; nra|exists Lt; split; [reflexivity|]; cbn; nra].
      change (Pcompare m n Eq) with (Pos.compare m n) in *. destruct (Pos.compare m n); cbn; nra.
    + exists Lt. split; [reflexivity|]. cbn. nra.
    + exists Gt. split; [reflexivity|]. cbn. nra.
    + destruct (Z.compare e f) as [| |]; [eexists; split; [reflexivity|]|exists Lt; split; [reflexivity|]; cbn; nra|exists Gt; split; [reflexivity|]; cbn; nra].
      change (Pcompare m n Eq) with (Pos.compare m n) in *. destruct (Pos.compare m n); cbn; nra.
Qed.
Lemma ltb_ok a b : finF a -> finF b -> valid a -> valid b -> (nltb a b = true <-> valF a < valF b).
Proof.
  intros Fa Fb Va Vb. destruct (compare_ok a b Fa Fb Va Vb) as (c & E & C). cbn [nltb NumF64]. unfold SFltb. rewrite E.
  destruct c; cbn in C; split; intros; try discriminate; try reflexivity; lra.
Qed.
Lemma leb_ok a b : finF a -> finF b -> valid a -> valid b -> (nleb a b = true <-> valF a <= valF b).
Proof.
  intros Fa Fb Va Vb. destruct (compare_ok a b Fa Fb Va Vb) as (c & E & C). cbn [nleb NumF64]. unfold SFleb. rewrite E.
  destruct c; cbn in C; split; intros; try discriminate; try reflexivity; lra.
Qed.
Lemma eqb_ok a b : finF a -> finF b -> valid a -> valid b -> (neqb a b = true <-> valF a = valF b).
Proof.
  intros Fa Fb Va Vb. destruct (compare_ok a b Fa Fb Va Vb) as (c & E & C). cbn [neqb NumF64]. unfold SFeqb. rewrite E.
  destruct c; cbn in C; split; intros; try discriminate; try reflexivity; lra.
Qed.
