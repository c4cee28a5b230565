(** C47, C48: refractive indices of media. *)
From Coq Require Import Reals List ZArith Bool Lra Lia.
From Verif Require Import Num NumR NumF Medium XRFacts MediaSpec MediaProofs.
Import ListNotations.
Open Scope R_scope.

(** C47 *)
Theorem C47_interpolates : forall args vals i al vl au vu w,
  increasing args -> rows args vals i al vl au vu -> al <= w < au ->
  table_getN (map Fin args) (map Fin vals) (Fin w) = Some (Fin (chord al vl au vu w)) /\
  Rmin vl vu <= chord al vl au vu w <= Rmax vl vu /\
  getN (TableM (map Fin args) (map Fin vals)) (Fin w) = Fin (chord al vl au vu w).
Proof. exact table_interpolates. Qed.
Print Assumptions C47_interpolates.
Theorem C47_nodes : forall args vals i al vl au vu,
  increasing args -> rows args vals i al vl au vu ->
  table_getN (map Fin args) (map Fin vals) (Fin al) = Some (Fin vl).
Proof. exact table_nodes. Qed.
Print Assumptions C47_nodes.
Theorem C47_outside : forall args vals a0 aN w,
  nth_error args 0 = Some a0 -> nth_error args (length args - 1) = Some aN -> w < a0 \/ aN < w ->
  table_getN (map Fin args) (map Fin vals) (Fin w) = Some NaN.
Proof. exact table_outside. Qed.
Print Assumptions C47_outside.
(** Every table is read past its end at its last wavelength. *)
Theorem C47_last_wavelength : forall args vals a0 aN,
  increasing args -> length vals = length args ->
  nth_error args 0 = Some a0 -> nth_error args (length args - 1) = Some aN ->
  table_getN (map Fin args) (map Fin vals) (Fin aN) = None.
Proof. exact table_last. Qed.
Print Assumptions C47_last_wavelength.
Definition glass_w : list R := [1; 2; 4].
Definition glass_n : list R := [3/2; 8/5; 2].
Lemma glass_increasing : increasing glass_w.
Proof.
  intros i j a b Hij Ha Hb. unfold glass_w in *.
  destruct i as [|[|[|i]]]; destruct j as [|[|[|j]]]; cbn in Ha, Hb; try lia; try discriminate;
    try (destruct i; discriminate); try (destruct j; discriminate); injection Ha; injection Hb; intros; subst; lra.
Qed.
Example C47_example : increasing glass_w /\ rows glass_w glass_n 1 2 (8/5) 4 2 /\ 2 <= 3 < 4 /\
  chord 2 (8/5) 4 2 3 = 9/5.
Proof. split; [exact glass_increasing|]. split; [repeat split|]. unfold chord. split; [lra|field]. Qed.
Theorem C47_last_refuted : exists args vals i w n,
  increasing args /\ length vals = length args /\ nth_error args i = Some w /\ nth_error vals i = Some n /\
  forall x, table_getN (map Fin args) (map Fin vals) (Fin w) <> Some x.
Proof.
  exists glass_w, glass_n, 2%nat, 4, 2. split; [exact glass_increasing|]. do 3 (split; [reflexivity|]).
  intros x. rewrite (table_last glass_w glass_n 1 4 glass_increasing eq_refl eq_refl eq_refl). discriminate.
Qed.
Print Assumptions C47_last_refuted.
(** The same in doubles. *)
Theorem C47_last_double_refuted : exists (args vals : list F64) w n,
  args = [nofZ 1; nofZ 2] /\ nth_error args 1 = Some w /\ nth_error vals 1 = Some n /\ table_getN args vals w = None.
Proof. exists [nofZ 1; nofZ 2], [nofZ 1; nofZ 2], (nofZ 2), (nofZ 2). repeat split. Qed.
Print Assumptions C47_last_double_refuted.

(** C48 *)
Theorem C48_const : forall T (NT : Num T) (n w : T), getN (ConstM n) w = n.
Proof. reflexivity. Qed.
Print Assumptions C48_const.
Theorem C48_sellmeier : forall B1 B2 B3 C1 C2 C3 w,
  microns w ^ 2 <> C1 -> microns w ^ 2 <> C2 -> microns w ^ 2 <> C3 ->
  0 <= sellmeier B1 B2 B3 C1 C2 C3 (microns w) ->
  getN (SellmeierM (Fin B1) (Fin B2) (Fin B3) (Fin C1) (Fin C2) (Fin C3)) (Fin w) =
  Fin (sqrt (sellmeier B1 B2 B3 C1 C2 C3 (microns w))).
Proof. exact sellmeier_formula. Qed.
Print Assumptions C48_sellmeier.
Theorem C48_sellmeier_dispersion : forall B1 B2 B3 C1 C2 C3 w1 w2,
  0 <= B1 -> 0 <= B2 -> 0 <= B3 -> 0 <= C1 -> 0 <= C2 -> 0 <= C3 ->
  0 < w1 <= w2 -> C1 < microns w1 ^ 2 -> C2 < microns w1 ^ 2 -> C3 < microns w1 ^ 2 ->
  exists m1 m2, let glass := SellmeierM (Fin B1) (Fin B2) (Fin B3) (Fin C1) (Fin C2) (Fin C3) in
    getN glass (Fin w1) = Fin m1 /\ getN glass (Fin w2) = Fin m2 /\ 1 <= m2 <= m1.
Proof. exact sellmeier_dispersion. Qed.
Print Assumptions C48_sellmeier_dispersion.
Theorem C48_sumita : forall A0 A1 A2 A3 A4 A5 w, w <> 0 ->
  0 <= sumita A0 A1 A2 A3 A4 A5 (microns w) ->
  getN (SumitaM (Fin A0) (Fin A1) (Fin A2) (Fin A3) (Fin A4) (Fin A5)) (Fin w) =
  Fin (sqrt (sumita A0 A1 A2 A3 A4 A5 (microns w))).
Proof. exact sumita_formula. Qed.
Print Assumptions C48_sumita.
Theorem C48_air : forall p t h w, w <> 0 -> / (microns w) ^ 2 <> 146 -> / (microns w) ^ 2 <> 41 ->
  warm (celsius t) <> 0 ->
  getN (AirM (Fin p) (Fin t) (Fin h)) (Fin w) = Fin (air p t h w).
Proof. exact air_formula. Qed.
Print Assumptions C48_air.
Theorem C48_air_above_one : forall p t h w, weather p t h -> beyond_uv w ->
  exists n, getN (AirM (Fin p) (Fin t) (Fin h)) (Fin w) = Fin n /\ 1 < n.
Proof. exact air_above_one. Qed.
Print Assumptions C48_air_above_one.
Theorem C48_air_dispersion : forall p t h w1 w2, weather p t h -> beyond_uv w1 -> w1 < w2 ->
  exists m1 m2, getN (AirM (Fin p) (Fin t) (Fin h)) (Fin w1) = Fin m1 /\
    getN (AirM (Fin p) (Fin t) (Fin h)) (Fin w2) = Fin m2 /\ m2 < m1.
Proof. exact air_dispersion. Qed.
Print Assumptions C48_air_dispersion.
(** The default air at half a micron; a one-term glass at one micron. *)
Example C48_example : weather (69328/1000) (29315/100) (1067/1000) /\ beyond_uv (1/2000000) /\
  sellmeier 1 0 0 (1/5) 0 0 (microns (1/1000000)) = 9/4 /\ sumita 2 0 (1/4) 0 0 0 (microns (1/1000000)) = 9/4.
Proof.
  unfold weather, beyond_uv, sellmeier, sumita, microns. repeat split; try lra.
Qed.
