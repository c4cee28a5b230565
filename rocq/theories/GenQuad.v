(** C40, C64: fans, errors and degenerate grids; quadrature with spokes. *)
From Coq Require Import Reals String List ZArith Bool Lra Psatz Lia.
From Verif Require Import Num NumR Vec CoordSys Surface Medium Ray Bundle Spec OpticsSpec XRFacts CoordFacts RayFacts
  Trig Optic Arrays ArrayProofs Field FieldSpec FieldProofs PatternSpec PatternProofs RayGen GenSpec GenProofs GenMore GenLast.
Import ListNotations.
Open Scope R_scope.

(** *** Degenerate grids *)
Theorem asGrid_dx_vector_refuted : exists g n d rv i j r1 r2,
  asGrid g (Some (Z.of_nat n)) None (Some (Ve (Fin (fst d)) (Fin (snd d)))) None None None (Fin 1) None = Ok (Frv rv) /\
  (2 < n)%nat /\ d <> (0, 0) /\ i <> j /\ nth_error (rays rv) i = Some r1 /\ nth_error (rays rv) j = Some r2 /\ pos r1 = pos r2.
Proof.
  destruct (asGrid_vectors (plain 1) (plain_beam 1) 3 None 3 2 0 2 0 1 (plain_describes false 1) (or_intror (conj eq_refl eq_refl)) ltac:(lia) ltac:(lia) (plain_proper _ _))
    as (rv & E & W). destruct (plain_pos _ _ _ _ W) as (rs & -> & HP).
  assert (E' : asGrid (plain 1) (Some (Z.of_nat 3)) None (Some (Ve (Fin 1) (Fin 0))) None None None (Fin 1) None =
               asGrid (plain 1) (Some (Z.of_nat 3)) None None None (Some (Ve (Fin 2) (Fin 0))) (Some (Ve (Fin 2) (Fin 0))) (Fin 1) None).
  { unfold asGrid. cbn [plain g_optic grid_lx].
    destruct (settle true (plain 1)); [|reflexivity]. cbn [bind]. unfold grid_sizes; cbn [is_some two_of filter List.length Nat.eqb negb or_else bind].
    assert (ES : span (Ve (Fin 1) (Fin 0)) (Z.of_nat 3) = Ve (Fin 2) (Fin 0)); [|rewrite ES; reflexivity]. unfold span. change (Z.of_nat 3 mod 2 =? 0)%Z with false. cbn [size_times]. xunf.
    change (IZR (Z.of_nat 3 - 1)) with 2. f_equal; f_equal; ring. }
  assert (H0 : nth_error (map pos rs) 0 = nth_error (map pos rs) 3).
  { rewrite HP. cbn. do 2 f_equal; unfold Rdiv; ring. }
  assert (H3 : nth_error (map pos rs) 3 <> None).
  { rewrite HP. cbn. discriminate. }
  rewrite !nth_error_map in *. destruct (nth_error rs 0) as [r1|] eqn:E1; destruct (nth_error rs 3) as [r2|] eqn:E2; cbn [option_map] in *; try congruence.
  exists (plain 1), 3%nat, (1, 0), (RV rs (CS (V3 0 0 0) eyeR)), 0%nat, 3%nat, r1, r2. cbn [fst snd rays].
  split; [rewrite E'; exact E|]. split; [lia|]. split; [intros K; injection K; lra|]. split; [lia|]. repeat split; auto. congruence.
Qed.
Theorem asGrid_two_refuted : exists g d rv r1 r2,
  asGrid g (Some 2%Z) None (Some (Sc (Fin d))) None None None (Fin 1) None = Ok (Frv rv) /\ 0 < d /\
  nth_error (rays rv) 0 = Some r1 /\ nth_error (rays rv) 1 = Some r2 /\ pos r1 = pos r2.
Proof.
  destruct (asGrid_vectors (plain 1) (plain_beam 1) 2 None 2 0 0 0 0 1 (plain_describes false 1) (or_intror (conj eq_refl eq_refl)) ltac:(lia) ltac:(lia) (plain_proper _ _))
    as (rv & E & W). destruct (plain_pos _ _ _ _ W) as (rs & -> & HP).
  assert (E' : asGrid (plain 1) (Some 2%Z) None (Some (Sc (Fin 1))) None None None (Fin 1) None =
               asGrid (plain 1) (Some (Z.of_nat 2)) None None None (Some (Ve (Fin 0) (Fin 0))) (Some (Ve (Fin 0) (Fin 0))) (Fin 1) None).
  { unfold asGrid. cbn [plain g_optic grid_lx].
    destruct (settle true (plain 1)); [|reflexivity]. cbn [bind]. unfold grid_sizes; cbn [is_some two_of filter List.length Nat.eqb negb or_else bind].
    assert (ES : span (Sc (Fin 1)) 2 = Sc (Fin 0)); [|rewrite ES; reflexivity]. unfold span. change (2 mod 2 =? 0)%Z with true. cbn [size_times]. xunf.
    change (IZR (2 - 2)) with 0. f_equal; f_equal; ring. }
  assert (H0 : nth_error (map pos rs) 0 = nth_error (map pos rs) 1).
  { rewrite HP. cbn. do 2 f_equal; unfold Rdiv; ring. }
  assert (H3 : nth_error (map pos rs) 1 <> None).
  { rewrite HP. cbn. discriminate. }
  rewrite !nth_error_map in *. destruct (nth_error rs 0) as [r1|] eqn:E1; destruct (nth_error rs 1) as [r2|] eqn:E2; cbn [option_map] in *; try congruence.
  exists (plain 1), 1, (RV rs (CS (V3 0 0 0) eyeR)), r1, r2. cbn [rays].
  split; [rewrite E'; exact E|]. split; [lra|]. repeat split; auto. congruence.
Qed.

(** *** Errors, for every number type *)
Theorem asGrid_over_under {T} {NT : Num T} {TT : Trig T} : forall (g : gen T) nx ny dx dy lx ly f random,
  g_optic g = None ->
  ~ (nx <> None /\ dx <> None /\ lx = None \/ nx <> None /\ dx = None /\ lx <> None \/ nx = None /\ dx <> None /\ lx <> None) ->
  exists e, asGrid g nx ny dx dy lx ly f random = Err e.
Proof.
  intros g nx ny dx dy lx ly f random Ho H. unfold asGrid. destruct (settle true g) as [s|e]; [|exists e; reflexivity]. cbn [bind].
  rewrite Ho. exists ValueError. assert (EL : grid_lx None nx dx lx = Ok lx) by (destruct lx; reflexivity). rewrite EL. cbn [bind].
  unfold grid_sizes. destruct nx, dx, lx; try reflexivity; exfalso; apply H; intuition congruence.
Qed.
Theorem no_wavelength {T} {NT : Num T} {TT : Trig T} : forall (g : gen T), g_wavelength g = None ->
  (forall nx ny dx dy lx ly f random, exists e, asGrid g nx ny dx dy lx ly f random = Err e) /\
  (forall outer inner nrad naz kfold f random, exists e, asPolar g outer inner nrad naz kfold f random = Err e) /\
  (forall lg outer inner spokes rings spacing f, exists e, asSpokes lg g outer inner spokes rings spacing f = Err e) /\
  (forall f xy, exists e, fromStop g f xy = Err e).
Proof.
  intros g H. destruct (settle_wavelength true g H) as (e1 & E1). destruct (settle_wavelength false g H) as (e2 & E2).
  repeat split; intros; [exists e1; unfold asGrid; rewrite E1|exists e2; unfold asPolar; rewrite E2|exists e2; unfold asSpokes; rewrite E2|exists e2; unfold fromStop; rewrite E2]; reflexivity.
Qed.

(** *** asFan *)
Lemma frames_app b f1 p1 f2 p2 r1 r2 : plane_wave b f1 p1 r1 -> plane_wave b f2 p2 r2 ->
  plane_wave b (f1 ++ f2) (p1 ++ p2) (RV (rays r1 ++ rays r2) (rvcs r1)).
Proof.
  intros (rs1 & -> & L1 & F1 & A1) (rs2 & -> & L2 & F2 & A2). exists (rs1 ++ rs2). split; [unfold Frv; cbn; rewrite map_app; reflexivity|].
  split; [rewrite !app_length; congruence|]. split; [rewrite map_app; congruence|]. intros i x y r Hp Hr.
  destruct (Nat.lt_ge_cases i (List.length p1)) as [Hi|Hi].
  - rewrite nth_error_app1 in Hp by exact Hi. rewrite nth_error_app1 in Hr by lia. eapply A1; eassumption.
  - rewrite nth_error_app2 in Hp by exact Hi. rewrite nth_error_app2 in Hr by lia. rewrite L1 in Hr. eapply A2; eassumption.
Qed.
Theorem asFan_cross : forall g b n m a ly c f,
  describes false g b -> (1 < n)%nat -> (1 < m)%nat -> given ly (Sc (Fin a)) (Sc (Fin c)) ->
  proper b (grid_points n 1 (spacing_of n a) c ++ grid_points 1 m a (spacing_of m c)) ->
  exists rv, asFan g (Z.of_nat n) (Z.of_nat m) None None (Some (Sc (Fin a))) ly (Fin f) = Ok (to_arrays rv) /\
    plane_wave b (repeat f (n + m)) (grid_points n 1 (spacing_of n a) c ++ grid_points 1 m a (spacing_of m c)) rv.
Proof.
  intros g b n m a ly c f Hd Hn Hm Hly (H1 & H2 & H3 & H4 & H5). apply Forall_app in H5. destruct H5 as (H5 & H6).
  assert (S1 : forall x, spacing_of 1 x = x) by (intros x; unfold spacing_of; cbn; field).
  destruct (asGrid_grid g b (Some (Z.of_nat n)) (Some 1%Z) None None (Some (Sc (Fin a))) (Some (Sc (Fin a))) ly f n 1 (spacing_of n a) c Hd) as (r1 & E1 & W1).
  { left. split; [discriminate|reflexivity]. }
  { replace c with (spacing_of 1 c) by apply S1. apply by_number_and_length; try reflexivity; try lia; [left; reflexivity|assumption]. }
  { repeat (split; [assumption|]). assumption. }
  destruct (asGrid_grid g b (Some 1%Z) (Some (Z.of_nat m)) None None (Some (Sc (Fin a))) (Some (Sc (Fin a))) ly f 1 m a (spacing_of m c) Hd) as (r2 & E2 & W2).
  { left. split; [discriminate|reflexivity]. }
  { replace a with (spacing_of 1 a) at 2 by apply S1. apply by_number_and_length; try reflexivity; try lia; [left; reflexivity|assumption]. }
  { repeat (split; [assumption|]). assumption. }
  exists (RV (rays r1 ++ rays r2) (rvcs r1)). split.
  - unfold asFan. replace (1 <? Z.of_nat n)%Z with true by (symmetry; apply Z.ltb_lt; lia). replace (1 <? Z.of_nat m)%Z with true by (symmetry; apply Z.ltb_lt; lia).
    rewrite E1, E2. cbn [bind app]. change [to_arrays r1; to_arrays r2] with (map to_arrays [r1; r2]). rewrite concat_rays. cbn [flat_map]. rewrite app_nil_r. reflexivity.
  - pose proof (frames_app _ _ _ _ _ _ _ W1 W2) as W. rewrite <- repeat_app in W.
    replace (List.length (grid_points n 1 (spacing_of n a) c) + List.length (grid_points 1 m a (spacing_of m c)))%nat with (n + m)%nat in W; [exact W|].
    unfold grid_points. cbn [seq flat_map map]. rewrite app_nil_r, map_length, seq_length. rewrite (flat_map_len _ _ 1) by reflexivity. rewrite seq_length. lia.
Qed.

(** With one ray or none asked for in a direction, that arm is left out. *)
Theorem asFan_arms : forall g b n m k a ly c f,
  describes false g b -> (1 < n)%nat -> (1 < m)%nat -> (k <= 1)%Z -> given ly (Sc (Fin a)) (Sc (Fin c)) ->
  (proper b (grid_points n 1 (spacing_of n a) c) -> exists rv, asFan g (Z.of_nat n) k None None (Some (Sc (Fin a))) ly (Fin f) = Ok (to_arrays rv) /\
    plane_wave b (repeat f n) (grid_points n 1 (spacing_of n a) c) rv) /\
  (proper b (grid_points 1 m a (spacing_of m c)) -> exists rv, asFan g k (Z.of_nat m) None None (Some (Sc (Fin a))) ly (Fin f) = Ok (to_arrays rv) /\
    plane_wave b (repeat f m) (grid_points 1 m a (spacing_of m c)) rv).
Proof.
  intros g b n m k a ly c f Hd Hn Hm Hk Hly.
  assert (S1 : forall x, spacing_of 1 x = x) by (intros x; unfold spacing_of; cbn; field).
  assert (Ek : (1 <? k)%Z = false) by (apply Z.ltb_ge; exact Hk). split; intros Hp.
  - destruct (asGrid_grid g b (Some (Z.of_nat n)) (Some 1%Z) None None (Some (Sc (Fin a))) (Some (Sc (Fin a))) ly f n 1 (spacing_of n a) c Hd) as (r1 & E1 & W1).
    { left. split; [discriminate|reflexivity]. }
    { replace c with (spacing_of 1 c) by apply S1. apply by_number_and_length; try reflexivity; try lia; [left; reflexivity|assumption]. }
    { exact Hp. }
    exists (RV (rays r1) (rvcs r1)). split.
    + unfold asFan. replace (1 <? Z.of_nat n)%Z with true by (symmetry; apply Z.ltb_lt; lia). rewrite Ek, E1. cbn [bind app].
      change [to_arrays r1] with (map to_arrays [r1]). rewrite concat_rays. cbn [flat_map]. rewrite app_nil_r. reflexivity.
    + replace (List.length (grid_points n 1 (spacing_of n a) c)) with n in W1; [destruct r1; exact W1|].
      unfold grid_points. cbn [seq flat_map map]. rewrite app_nil_r, map_length, seq_length. reflexivity.
  - destruct (asGrid_grid g b (Some 1%Z) (Some (Z.of_nat m)) None None (Some (Sc (Fin a))) (Some (Sc (Fin a))) ly f 1 m a (spacing_of m c) Hd) as (r2 & E2 & W2).
    { left. split; [discriminate|reflexivity]. }
    { replace a with (spacing_of 1 a) at 2 by apply S1. apply by_number_and_length; try reflexivity; try lia; [left; reflexivity|assumption]. }
    { exact Hp. }
    exists (RV (rays r2) (rvcs r2)). split.
    + unfold asFan. replace (1 <? Z.of_nat m)%Z with true by (symmetry; apply Z.ltb_lt; lia). rewrite Ek, E2. cbn [bind app].
      change [to_arrays r2] with (map to_arrays [r2]). rewrite concat_rays. cbn [flat_map]. rewrite app_nil_r. reflexivity.
    + replace (List.length (grid_points 1 m a (spacing_of m c))) with m in W2; [destruct r2; exact W2|].
      unfold grid_points. rewrite (flat_map_len _ _ 1) by reflexivity. rewrite seq_length. lia.
Qed.
Theorem asFan_none {T} {NT : Num T} {TT : Trig T} : forall (g : gen T) nx ny dx dy lx ly f, (nx <= 1)%Z -> (ny <= 1)%Z ->
  asFan g nx ny dx dy lx ly f = Err ValueError.
Proof.
  intros. unfold asFan. replace (1 <? nx)%Z with false by (symmetry; apply Z.ltb_ge; assumption).
  replace (1 <? ny)%Z with false by (symmetry; apply Z.ltb_ge; assumption). reflexivity.
Qed.

(** *** Quadrature *)
Lemma poly_scale a c x : poly (map (Rmult a) c) x = a * poly c x.
Proof. induction c as [|b c IH]; cbn [map poly]; [ring|]. rewrite IH. ring. Qed.
Fixpoint padd (c d : list R) : list R :=
  match c, d with [], d => d | c, [] => c | a :: c, b :: d => (a + b) :: padd c d end.
Lemma padd_length c d : List.length (padd c d) = Nat.max (List.length c) (List.length d).
Proof. revert d; induction c as [|a c IH]; intros [|b d]; cbn; auto. Qed.
Lemma poly_add c d x : poly (padd c d) x = poly c x + poly d x.
Proof. revert d; induction c as [|a c IH]; intros [|b d]; cbn [padd poly]; try ring. rewrite IH. ring. Qed.
Lemma poly_power a b k : poly_below (S k) (fun x => (a + b * x) ^ k).
Proof.
  induction k as [|k (c & HL & Hc)].
  - exists [1]. split; [cbn; lia|]. intros x. cbn. ring.
  - exists (padd (map (Rmult a) c) (0 :: map (Rmult b) c)). split.
    + rewrite padd_length. cbn. rewrite !map_length. lia.
    + intros x. rewrite poly_add. cbn [poly]. rewrite !poly_scale, <- Hc. cbn [pow]. ring.
Qed.
Lemma poly_below_le n m p : (n <= m)%nat -> poly_below n p -> poly_below m p.
Proof. intros H (c & HL & Hc). exists c. split; [lia|exact Hc]. Qed.
Lemma power_moment n rule a b k : exact_rule n rule -> (k < n)%nat -> b <> 0 ->
  sumR (map (fun lw => snd lw * (a + b * fst lw) ^ k) rule) = ((a + b) ^ (S k) - (a - b) ^ (S k)) / (b * INR (S k)).
Proof.
  intros He Hk Hb. assert (HI : INR (S k) <> 0) by (apply not_0_INR; discriminate).
  rewrite (He (fun x => (a + b * x) ^ k) (fun x => (a + b * x) ^ (S k) / (b * INR (S k)))).
  - replace (a + b * 1) with (a + b) by ring. replace (a + b * -1) with (a - b) by ring. field. split; assumption.
  - apply (poly_below_le (S k)); [lia|]. apply poly_power.
  - intros x. replace ((a + b * x) ^ k) with (/ (b * INR (S k)) * ((INR (S k) * (a + b * x) ^ pred (S k)) * b)) by (cbn [pred]; field; split; assumption).
    replace (fun x0 : R => (a + b * x0) ^ S k / (b * INR (S k))) with (mult_real_fct (/ (b * INR (S k))) (comp (fun y => y ^ S k) (fun x0 => a + b * x0))).
    + apply derivable_pt_lim_scal. apply (derivable_pt_lim_comp (fun x0 => a + b * x0) (fun y => y ^ S k)).
      * cut (derivable_pt_lim (fun x0 => a + b * x0) x (0 + b * 1)); [replace (0 + b * 1) with b by ring; auto|]. apply (derivable_pt_lim_plus (fun _ => a) (fun x0 => b * x0)); [apply derivable_pt_lim_const|].
        apply (derivable_pt_lim_scal id b). apply derivable_pt_lim_id.
      * apply derivable_pt_lim_pow.
    + unfold mult_real_fct, comp. apply FunctionalExtensionality.functional_extensionality. intros y. unfold Rdiv. ring.
Qed.
Lemma sumR_scale a l : sumR (map (Rmult a) l) = a * sumR l.
Proof. induction l as [|x l IH]; cbn; [ring|]. unfold sumR in IH. rewrite IH. ring. Qed.
Lemma sumR_app a b : sumR (a ++ b) = sumR a + sumR b.
Proof. unfold sumR. induction a as [|x a IH]; cbn; [ring|]. rewrite IH. ring. Qed.
Lemma sumR_zero {A} (l : list A) : sumR (map (fun _ => 0) l) = 0.
Proof. induction l; cbn; [reflexivity|]. unfold sumR in IHl. rewrite IHl. ring. Qed.
Lemma sumR_flat {A} (f : A -> list R) l : sumR (flat_map f l) = sumR (map (fun a => sumR (f a)) l).
Proof. induction l as [|x l IH]; cbn; [reflexivity|]. rewrite sumR_app, IH. reflexivity. Qed.
(** Equally spaced angles. *)
Lemma cos_telescope h n : 2 * sin h * sumR (map (fun j => cos (2 * h * INR j)) (seq 0 n)) = sin (h * (2 * INR n - 1)) + sin h.
Proof.
  induction n as [|n IH].
  - cbn. replace (h * (2 * 0 - 1)) with (- h) by ring. rewrite sin_neg. ring.
  - rewrite seq_S, map_app, sumR_app, Rmult_plus_distr_l, IH. cbn [map plus sumR fold_right]. rewrite S_INR.
    replace (h * (2 * (INR n + 1) - 1)) with (2 * h * INR n + h) by ring. replace (h * (2 * INR n - 1)) with (2 * h * INR n - h) by ring.
    rewrite sin_plus, sin_minus. ring.
Qed.
Lemma sin_telescope h n : 2 * sin h * sumR (map (fun j => sin (2 * h * INR j)) (seq 0 n)) = cos h - cos (h * (2 * INR n - 1)).
Proof.
  induction n as [|n IH].
  - cbn. replace (h * (2 * 0 - 1)) with (- h) by ring. rewrite cos_neg. ring.
  - rewrite seq_S, map_app, sumR_app, Rmult_plus_distr_l, IH. cbn [map plus sumR fold_right]. rewrite S_INR.
    replace (h * (2 * (INR n + 1) - 1)) with (2 * h * INR n + h) by ring. replace (h * (2 * INR n - 1)) with (2 * h * INR n - h) by ring.
    rewrite cos_plus, cos_minus. ring.
Qed.
Lemma angles_sum q m : (0 < q < m)%nat ->
  sumR (map (fun j => cos (INR q * (2 * PI * (INR j / INR m)))) (seq 0 m)) = 0 /\
  sumR (map (fun j => sin (INR q * (2 * PI * (INR j / INR m)))) (seq 0 m)) = 0.
Proof.
  intros Hq. assert (HM : 0 < INR m) by (apply lt_0_INR; lia). assert (HQ : 0 < INR q) by (apply lt_0_INR; lia).
  assert (HQM : INR q < INR m) by (apply lt_INR; lia). set (h := INR q * PI / INR m). pose proof PI_RGT_0.
  assert (Hh : 0 < h < PI).
  { split; unfold h. - apply Rdiv_lt_0_compat; nra. - apply (Rmult_lt_reg_r (INR m)); [lra|]. unfold Rdiv. rewrite Rmult_assoc, Rinv_l by lra. nra. }
  assert (Hs : 0 < sin h) by (apply sin_gt_0; apply Hh).
  assert (E : h * (2 * INR m - 1) = - h + 2 * INR q * PI) by (unfold h; field; lra).
  assert (EA : forall j, INR q * (2 * PI * (INR j / INR m)) = 2 * h * INR j) by (intros j; unfold h; field; lra).
  split.
  - rewrite (map_ext _ (fun j => cos (2 * h * INR j))) by (intros j; rewrite EA; reflexivity).
    pose proof (cos_telescope h m) as H1. rewrite E, sin_period, sin_neg in H1. nra.
  - rewrite (map_ext _ (fun j => sin (2 * h * INR j))) by (intros j; rewrite EA; reflexivity).
    pose proof (sin_telescope h m) as H1. rewrite E, cos_period, cos_neg in H1. nra.
Qed.
Lemma weighted_grid (ws : list (R * R)) angles (rad : R -> R) (flx : R -> R) (h1 h2 : R -> R) :
  weighted (flat_map (fun _ => map (fun lw => flx (snd lw)) ws) angles) (flat_map (fun th => map (fun lw => (rad (fst lw), th)) ws) angles) (fun r t => h1 r * h2 t) =
  sumR (map (fun lw => flx (snd lw) * h1 (rad (fst lw))) ws) * sumR (map h2 angles).
Proof.
  unfold weighted. induction angles as [|th angles IH]; [cbn; ring|]. cbn [flat_map map].
  assert (EC : forall {A B} (a a' : list A) (b b' : list B), List.length a = List.length b -> combine (a ++ a') (b ++ b') = combine a b ++ combine a' b').
  { intros A B. induction a as [|x a IHa]; intros a' [|y b] b' Hl; try discriminate; [reflexivity|]. cbn. f_equal. apply IHa. injection Hl; auto. }
  rewrite EC by (rewrite !map_length; reflexivity). rewrite map_app, sumR_app, IH. cbn [sumR fold_right].
  fold (sumR (map h2 angles)). rewrite Rmult_plus_distr_l. f_equal. rewrite Rmult_comm, <- sumR_scale. f_equal.
  clear. induction ws as [|w ws IH]; [reflexivity|]. cbn [map combine fst snd]. f_equal; [ring|exact IH].
Qed.
Lemma INR_sum_one {A} (l : list A) : sumR (map (fun _ => 1) l) = INR (List.length l).
Proof. induction l; [reflexivity|]. cbn [map List.length]. rewrite S_INR. cbn [sumR fold_right]. unfold sumR in IHl. rewrite IHl. ring. Qed.
(** The moments of the polar rule with Gauss-Legendre rings between radius eps and 1. *)
Lemma gq_moments eps N m (rule : list (R * R)) : 0 <= eps < 1 -> (1 <= m)%nat ->
  Forall (fun lw => -1 <= fst lw <= 1) rule -> exact_rule N rule ->
  let angles := map (fun j => 2 * PI * (INR j / INR m)) (seq 0 m) in
  let fl := flat_map (fun _ => map (fun lw => gq_flux eps m (snd lw)) rule) angles in
  let pol := flat_map (fun th => map (fun lw => (sqrt (eps * eps + (1 + fst lw) * (1 - eps * eps) / 2), th)) rule) angles in
  (forall k, (k < N)%nat -> weighted fl pol (fun r th => r ^ (2 * k)) = PI * (1 - eps ^ (2 * k + 2)) / INR (k + 1)) /\
  (forall k q, (0 < q < m)%nat ->
     weighted fl pol (fun r th => r ^ k * cos (INR q * th)) = 0 /\ weighted fl pol (fun r th => r ^ k * sin (INR q * th)) = 0).
Proof.
  intros He Hm1 Hrule Hex angles fl pol.
  assert (HM : INR m <> 0) by (apply not_0_INR; lia).
  set (rad := fun L => sqrt (eps * eps + (1 + L) * (1 - eps * eps) / 2)).
  assert (Hrad : forall lw, In lw rule -> 0 <= eps * eps + (1 + fst lw) * (1 - eps * eps) / 2 <= 1).
  { intros lw Hin. rewrite Forall_forall in Hrule. specialize (Hrule lw Hin). assert (0 <= (1 + fst lw) * (1 - eps * eps)) by (apply Rmult_le_pos; nra).
    assert (0 <= (1 - fst lw) * (1 - eps * eps)) by (apply Rmult_le_pos; nra). split; nra. }
  change pol with (flat_map (fun th => map (fun lw => (rad (fst lw), th)) rule) angles). clear pol. unfold fl. clear fl.
  split.
  - intros k Hk. replace (weighted _ _ _) with (weighted (flat_map (fun _ => map (fun lw => gq_flux eps m (snd lw)) rule) angles) (flat_map (fun th => map (fun lw => (rad (fst lw), th)) rule) angles) (fun r th => r ^ (2 * k) * (fun _ => 1) th)).
    2:{ unfold weighted. f_equal. apply map_ext. intros p. ring. }
    rewrite weighted_grid, INR_sum_one. unfold angles. rewrite map_length, seq_length.
    rewrite (map_ext_in _ (fun lw => (PI * (1 - eps * eps) / (2 * INR m)) * (snd lw * ((1 + eps * eps) / 2 + (1 - eps * eps) / 2 * fst lw) ^ k))).
    + rewrite <- map_map with (f := fun lw => snd lw * ((1 + eps * eps) / 2 + (1 - eps * eps) / 2 * fst lw) ^ k) (g := Rmult (PI * (1 - eps * eps) / (2 * INR m))).
      rewrite sumR_scale, (power_moment N) by (assumption || nra). rewrite Nat.add_1_r.
      replace ((1 + eps * eps) / 2 + (1 - eps * eps) / 2) with 1 by field. replace ((1 + eps * eps) / 2 - (1 - eps * eps) / 2) with (eps * eps) by field.
      rewrite pow1. replace ((eps * eps) ^ S k) with (eps ^ (2 * k + 2)).
      * assert (INR (S k) <> 0) by (apply not_0_INR; discriminate). assert (1 - eps * eps <> 0) by nra. field. repeat split; assumption.
      * rewrite Rpow_mult_distr, <- pow_add. f_equal. lia.
    + intros lw Hin. unfold gq_flux. replace (rad (fst lw) ^ (2 * k)) with ((((1 + eps * eps) / 2 + (1 - eps * eps) / 2 * fst lw)) ^ k); [field; exact HM|].
      rewrite pow_mult. f_equal. cbn [pow]. rewrite Rmult_1_r. unfold rad. rewrite sqrt_sqrt by (apply Hrad, Hin). field.
  - intros k q Hq. destruct (angles_sum q m Hq) as (HC & HS). split.
    + rewrite (weighted_grid rule angles rad (gq_flux eps m) (fun r => r ^ k) (fun th => cos (INR q * th))). unfold angles. rewrite map_map, HC. ring.
    + rewrite (weighted_grid rule angles rad (gq_flux eps m) (fun r => r ^ k) (fun th => sin (INR q * th))). unfold angles. rewrite map_map, HS. ring.
Qed.
Theorem asSpokes_moments : forall lg g b outer ro ri n m f N (rule : list (R * R)) spokes,
  describes true g b -> outer_from g outer ro -> lg n = map Fxy rule ->
  Forall (fun lw => -1 <= fst lw <= 1) rule -> exact_rule N rule -> 0 <= ri < ro -> (1 <= m)%nat ->
  spokes = Some (CInt m) \/ spokes = None /\ m = (2 * n + 1)%nat ->
  proper_disc b ro ->
  exists fl pol rv, asSpokes lg g outer (Fin ri) spokes (CInt n) "GQ" (Fin f) = Ok rv /\
    plane_wave b fl (map (fun p => cartesian (ro * fst p, snd p)) pol) rv /\
    (forall k, (k < N)%nat ->
       weighted fl pol (fun r th => r ^ (2 * k)) = PI * (1 - (ri / ro) ^ (2 * k + 2)) / INR (k + 1)) /\
    (forall k q, (0 < q < m)%nat ->
       weighted fl pol (fun r th => r ^ k * cos (INR q * th)) = 0 /\ weighted fl pol (fun r th => r ^ k * sin (INR q * th)) = 0).
Proof.
  intros lg g b outer ro ri n m f N rule spokes Hd Ho Hlg Hrule Hex Hi Hm1 Hsp Hp.
  set (eps := ri / ro). set (angles := map (fun j => 2 * PI * (INR j / INR m)) (seq 0 m)).
  assert (Hro : 0 < ro) by lra.
  assert (He : 0 <= eps < 1).
  { split; [apply Rmult_le_pos; [lra|apply Rlt_le, Rinv_0_lt_compat, Hro]|]. apply (Rmult_lt_reg_r ro); [lra|]. unfold eps, Rdiv. rewrite Rmult_assoc, Rinv_l by lra. lra. }
  assert (HM : INR m <> 0) by (apply not_0_INR; lia).
  set (rad := fun L => sqrt (eps * eps + (1 + L) * (1 - eps * eps) / 2)).
  assert (Hrad : forall lw, In lw rule -> 0 <= eps * eps + (1 + fst lw) * (1 - eps * eps) / 2 <= 1).
  { intros lw Hin. rewrite Forall_forall in Hrule. specialize (Hrule lw Hin). assert (0 <= (1 + fst lw) * (1 - eps * eps)) by (apply Rmult_le_pos; nra).
    assert (0 <= (1 - fst lw) * (1 - eps * eps)) by (apply Rmult_le_pos; nra). split; nra. }
  destruct (asSpokes_gq lg g b outer ro ri n m f rule spokes Hd Ho Hlg Hrule ltac:(lra) Hro Hm1 Hsp) as (rv & E & W).
  { apply (proper_disc_list b ro); [exact Hp|]. intros p Hin. unfold spoke_points in Hin. apply in_flat_map in Hin. destruct Hin as (th & _ & Hin).
    apply in_map_iff in Hin. destruct Hin as (r & <- & Hin). apply in_map_iff in Hin. destruct Hin as (lw & <- & Hin).
    change (?r * cos th, ?r * sin th) with (cartesian (r, th)). rewrite cartesian_sq. cbn [fst]. unfold gq_radius. fold eps.
    specialize (Hrad lw Hin). pose proof (sqrt_sqrt _ (proj1 Hrad)) as HS. set (s := sqrt _) in *.
    replace (s * ro * (s * ro)) with (s * s * (ro * ro)) by ring. rewrite HS. nra. }
  fold eps in W. fold angles in W.
  exists (flat_map (fun _ => map (fun lw => gq_flux eps m (snd lw)) rule) angles), (flat_map (fun th => map (fun lw => (rad (fst lw), th)) rule) angles), rv.
  split; [exact E|]. split; [|exact (gq_moments eps N m rule He Hm1 Hrule Hex)].
  - replace (map (fun p => cartesian (ro * fst p, snd p)) (flat_map (fun th => map (fun lw => (rad (fst lw), th)) rule) angles)) with
      (spoke_points (map (fun lw => gq_radius eps ro (fst lw)) rule) angles); [exact W|].
    unfold spoke_points. rewrite map_flat_map. apply flat_map_ext. intros th. rewrite !map_map. apply map_ext. intros lw.
    unfold cartesian, gq_radius, rad; cbn [fst snd]. f_equal; ring.
Qed.
