(** Changing the unit of length. *)
From Coq Require Import Reals String ZArith List Bool Arith Lia Lra.
From Verif Require Import Num NumR Vec CoordSys Surface Medium Obscuration Ray Bundle Optic ImageSpec ImageTrace UnitsSpec.
Import ListNotations.
Open Scope num_scope.
#[local] Arguments conv : simpl never.

Section Units.
  Context (k : R) (k_pos : (0 < k)%R).
  Notation u := (conv k).

  Lemma pw_pos d : (0 < powerRZ k d)%R.
  Proof. apply powerRZ_lt. exact k_pos. Qed.
  Lemma pw_add d e : powerRZ k (d + e) = (powerRZ k d * powerRZ k e)%R.
  Proof. apply powerRZ_add. lra. Qed.
  Lemma pw_sub d e : powerRZ k (d - e) = (powerRZ k d / powerRZ k e)%R.
  Proof. unfold Z.sub. rewrite pw_add, powerRZ_neg'. reflexivity. Qed.
  Lemma conv_fin d x : u d (Fin x) = Fin (powerRZ k d * x).
  Proof. reflexivity. Qed.
  Lemma conv_p d : u d PInf = PInf.
  Proof. unfold conv. cbn. unfold xsgn. destruct (Rlt_dec _ _); [reflexivity|]. assert (H := pw_pos d). lra. Qed.
  Lemma conv_n d : u d NInf = NInf.
  Proof. unfold conv. cbn. unfold xsgn. destruct (Rlt_dec _ _); [reflexivity|]. assert (H := pw_pos d). lra. Qed.
  Lemma conv_nan d : u d NaN = NaN.
  Proof. reflexivity. Qed.
  Ltac cases_ := rewrite ?conv_p, ?conv_n, ?conv_nan, ?conv_fin; try reflexivity.
  Lemma xsgn_scale p q r x a : (0 < a)%R -> xsgn p q r (a * x) = xsgn p q r x.
  Proof.
    intros H. unfold xsgn. destruct (Rlt_dec 0 x).
    - destruct (Rlt_dec _ _); [reflexivity|]. assert (0 < a * x)%R by (apply Rmult_lt_0_compat; assumption). lra.
    - destruct (Rlt_dec 0 (a * x)).
      + assert (a * x <= 0)%R by (assert (0 <= a * - x)%R by (apply Rmult_le_pos; lra); lra). lra.
      + destruct (Rlt_dec x 0), (Rlt_dec (a * x) 0); try reflexivity.
        * assert (0 < a * - x)%R by (apply Rmult_lt_0_compat; lra). lra.
        * assert (x = 0)%R by lra. subst. lra.
  Qed.
  Lemma conv_sgn d p q r x : u d p = p -> u d q = q -> u d r = r -> u d (xsgn p q r x) = xsgn p q r x.
  Proof. intros A B C. unfold xsgn. destruct (Rlt_dec _ _); [exact A|]. destruct (Rlt_dec _ _); assumption. Qed.

  (** [hom d a a']: a' is a of dimension d in the new unit. *)
  Definition hom (d : Z) (a a' : XR) : Prop := a' = u d a.
  Lemma h_refl d a : hom d a (u d a). Proof. reflexivity. Qed.
  Lemma conv_0d a : u 0 a = a.
  Proof. destruct a; cases_. cbn. f_equal. ring. Qed.
  Lemma h_const a : hom 0 a a. Proof. unfold hom. symmetry. apply conv_0d. Qed.
  Lemma h_eq d a a' : hom d a a' -> d = 0%Z -> a' = a. Proof. intros -> ->. apply conv_0d. Qed.
  Lemma h_n0 d : hom d n0 n0. Proof. unfold hom. change (@n0 XR NumXR) with (Fin 0). rewrite conv_fin. f_equal. ring. Qed.
  Lemma h_nan d : hom d nnan nnan. Proof. reflexivity. Qed.
  Lemma h_add d a a' b b' : hom d a a' -> hom d b b' -> hom d (a + b) (a' + b').
  Proof. intros -> ->. unfold hom. destruct a, b; cases_; cbn; cases_. f_equal. ring. Qed.
  Lemma h_sub d a a' b b' : hom d a a' -> hom d b b' -> hom d (a - b) (a' - b').
  Proof. intros -> ->. unfold hom. destruct a, b; cases_; cbn; cases_. f_equal. ring. Qed.
  Lemma h_opp d a a' : hom d a a' -> hom d (- a) (- a').
  Proof. intros ->. unfold hom. destruct a; cases_; cbn; cases_. f_equal. ring. Qed.
  Lemma h_mul d e f a a' b b' : hom d a a' -> hom e b b' -> f = (d + e)%Z -> hom f (a * b) (a' * b').
  Proof.
    intros -> -> ->. unfold hom. assert (D := pw_pos d). assert (E := pw_pos e).
    destruct a, b; cases_; cbn; rewrite ?xsgn_scale by assumption; rewrite ?conv_sgn; cases_. rewrite pw_add. f_equal. ring.
  Qed.
  Lemma h_div d e f a a' b b' : hom d a a' -> hom e b b' -> f = (d - e)%Z -> hom f (a / b) (a' / b').
  Proof.
    intros -> -> ->. unfold hom. assert (D := pw_pos d). assert (E := pw_pos e).
    destruct a as [x| | |], b as [y| | |]; cases_; cbn.
    - destruct (Req_EM_T y 0) as [->|Hy].
      + rewrite Rmult_0_r. destruct (Req_EM_T 0 0); [|contradiction]. rewrite xsgn_scale by assumption. rewrite conv_sgn; cases_.
      + destruct (Req_EM_T _ 0) as [Z|_]; [apply Rmult_integral in Z; lra|]. cases_. rewrite pw_sub. f_equal. field. lra.
    - cases_. f_equal. ring.
    - cases_. f_equal. ring.
    - destruct (Rlt_dec y 0), (Rlt_dec (powerRZ k e * y) 0); cases_; exfalso.
      + assert (0 < powerRZ k e * - y)%R by (apply Rmult_lt_0_compat; lra). lra.
      + assert (0 <= powerRZ k e * y)%R by (apply Rmult_le_pos; lra). lra.
    - destruct (Rlt_dec y 0), (Rlt_dec (powerRZ k e * y) 0); cases_; exfalso.
      + assert (0 < powerRZ k e * - y)%R by (apply Rmult_lt_0_compat; lra). lra.
      + assert (0 <= powerRZ k e * y)%R by (apply Rmult_le_pos; lra). lra.
  Qed.
  Lemma scaled_lt d x y : (powerRZ k d * x < powerRZ k d * y)%R <-> (x < y)%R.
  Proof. assert (D := pw_pos d). split; intros H; [apply Rmult_lt_reg_l in H; assumption|apply Rmult_lt_compat_l; assumption]. Qed.
  Lemma scaled_le d x y : (powerRZ k d * x <= powerRZ k d * y)%R <-> (x <= y)%R.
  Proof. assert (D := pw_pos d). split; intros H; [apply Rmult_le_reg_l in H; assumption|apply Rmult_le_compat_l; lra]. Qed.
  Lemma h_ltb d a a' b b' : hom d a a' -> hom d b b' -> (a' <? b') = (a <? b).
  Proof.
    intros -> ->. destruct a, b; cases_. cbn. assert (S := scaled_lt d r r0). destruct (Rlt_dec _ _), (Rlt_dec _ _); tauto.
  Qed.
  Lemma h_leb d a a' b b' : hom d a a' -> hom d b b' -> (a' <=? b') = (a <=? b).
  Proof.
    intros -> ->. destruct a, b; cases_. cbn. assert (S := scaled_le d r r0). destruct (Rle_dec _ _), (Rle_dec _ _); tauto.
  Qed.
  Lemma h_eqb d a a' b b' : hom d a a' -> hom d b b' -> (a' =? b') = (a =? b).
  Proof.
    intros -> ->. destruct a, b; cases_. cbn. assert (D := pw_pos d).
    destruct (Req_EM_T _ _) as [H|H], (Req_EM_T r r0) as [H2|H2]; try reflexivity; exfalso; [|subst; lra].
    apply H2. apply Rmult_eq_reg_l in H; [exact H|lra].
  Qed.
  Lemma h_max d a a' b b' : hom d a a' -> hom d b b' -> hom d (nmax a b) (nmax a' b').
  Proof. intros A B. unfold nmax. rewrite (h_ltb d a a' b b' A B). destruct (_ <? _); assumption. Qed.
  Lemma h_min d a a' b b' : hom d a a' -> hom d b b' -> hom d (nmin a b) (nmin a' b').
  Proof. intros A B. unfold nmin. rewrite (h_ltb d b b' a a' B A). destruct (_ <? _); assumption. Qed.
  Lemma h_isnan d a a' : hom d a a' -> nisnan a' = nisnan a.
  Proof. intros ->. destruct a; cases_. Qed.
  Lemma h_abs d a a' : hom d a a' -> hom d (nabs a) (nabs a').
  Proof. intros ->. unfold hom. destruct a; cases_; cbn; cases_. rewrite Rabs_mult, (Rabs_pos_eq (powerRZ k d)); [reflexivity|]. assert (H := pw_pos d). lra. Qed.
  Lemma h_sqrt d e a a' : hom d a a' -> d = (e + e)%Z -> hom e (nsqrt a) (nsqrt a').
  Proof.
    intros -> ->. unfold hom. destruct a as [x| | |]; cases_; cbn; cases_. assert (E := pw_pos e). assert (E2 := pw_pos (e + e)).
    destruct (Rlt_dec x 0), (Rlt_dec (powerRZ k (e + e) * x) 0); cases_.
    - exfalso. assert (0 < powerRZ k (e + e) * - x)%R by (apply Rmult_lt_0_compat; lra). lra.
    - exfalso. assert (0 <= powerRZ k (e + e) * x)%R by (apply Rmult_le_pos; lra). lra.
    - f_equal. rewrite pw_add, sqrt_mult by (try apply Rmult_le_pos; lra). rewrite sqrt_square by lra. reflexivity.
  Qed.
  Lemma h_sqrt_half d e a a' : hom d a a' -> e = Z.div2 d -> Z.even d = true -> hom e (nsqrt a) (nsqrt a').
  Proof.
    intros H -> E. apply (h_sqrt d); [exact H|]. assert (G := Z.div2_odd d). rewrite <- Z.negb_even, E in G. cbn [negb Z.b2z] in G. lia.
  Qed.
  Lemma h_hypot d a a' b b' : hom d a a' -> hom d b b' -> hom d (nhypot a b) (nhypot a' b').
  Proof.
    intros -> ->. unfold hom. destruct a as [x| | |], b as [y| | |]; cases_; cbn; cases_. assert (D := pw_pos d). f_equal.
    replace (powerRZ k d * x * (powerRZ k d * x) + powerRZ k d * y * (powerRZ k d * y))%R
      with ((powerRZ k d * powerRZ k d) * (x * x + y * y))%R by ring.
    rewrite sqrt_mult; [rewrite sqrt_square by lra; reflexivity|apply Rmult_le_pos; lra|].
    assert (A := Rle_0_sqr x). assert (B := Rle_0_sqr y). unfold Rsqr in *. lra.
  Qed.

  (** Dimensional analysis.  [known] settles the leaves. *)
  Ltac known := first [eassumption | apply h_refl | apply h_const].
  Ltac dims := repeat first
    [ progress cbv zeta
    | match goal with
      | |- hom _ (_ + _) _ => eapply h_add
      | |- hom _ (_ - _) _ => eapply h_sub
      | |- hom _ (_ * _) _ => eapply h_mul
      | |- hom _ (_ / _) _ => eapply h_div
      | |- hom _ (- _) _ => eapply h_opp
      | |- hom _ (nsqrt _) _ => eapply h_sqrt_half
      | |- @eq bool _ _ => reflexivity
      | |- hom _ (nabs _) _ => eapply h_abs
      | |- hom _ (nhypot _ _) _ => eapply h_hypot
      | |- hom _ (nmax _ _) _ => eapply h_max
      | |- hom _ (nmin _ _) _ => eapply h_min
      | |- hom _ n0 n0 => apply h_n0
      | |- hom _ nnan nnan => apply h_nan
      | |- @eq Z _ _ => reflexivity
      | |- hom _ _ _ => known
      end ].

  Lemma roots_units da db dc a a' b b' c c' : hom da a a' -> hom db b b' -> hom dc c c' -> (db + db = da + dc)%Z ->
    match roots a b c, roots a' b' c' with
    | None, None => True
    | Some (p, q), Some (p', q') => hom (db - da) p p' /\ hom (db - da) q q'
    | _, _ => False end.
  Proof.
    intros A B C E. unfold roots. cbv zeta.
    assert (D : hom (db + db) (b * b - n4 * a * c) (b' * b' - n4 * a' * c')).
    { eapply h_sub; [eapply h_mul; [exact B|exact B|reflexivity]|].
      eapply h_mul; [eapply h_mul; [apply h_const|exact A|reflexivity]|exact C|]. lia. }
    rewrite (h_ltb _ _ _ _ _ D (h_n0 _)). destruct (_ <? _); [exact I|].
    rewrite (h_ltb _ _ _ _ _ (h_n0 db) B).
    assert (SQ := h_sqrt _ db _ _ D eq_refl).
    match goal with |- hom _ ?p ?p' /\ _ => assert (P : hom (db - da) p p') end.
    { destruct (_ <? b); (eapply h_div; [| |]).
      - eapply h_sub; [apply h_opp; exact B|exact SQ].
      - eapply h_mul; [apply h_const|exact A|reflexivity].
      - lia.
      - eapply h_mul; [apply h_const|exact C|reflexivity].
      - eapply h_add; [apply h_opp; exact B|exact SQ].
      - lia. }
    split; [exact P|]. eapply h_div; [exact C|eapply h_mul; [exact A|exact P|reflexivity]|lia].
  Qed.

  Definition same_hit (r r' : bool * XR) : Prop := fst r' = fst r /\ hom 1 (snd r) (snd r').
  Lemma tti_units s x y z vx vy vz dt niter : closed_form s = true ->
    same_hit (tti s x y z vx vy vz dt niter) (tti (conv_surface k s) (u 1 x) (u 1 y) (u 1 z) vx vy vz (u 1 dt) niter).
  Proof.
    intros H. destruct s; try discriminate; cbn [tti conv_surface].
    - unfold plane_tti. destruct (vz =? n0); split; cbn [fst snd]; try reflexivity. dims.
    - unfold tilted_tti. cbv zeta. destruct (_ =? n0); split; cbn [fst snd]; try reflexivity. dims.
    - unfold sphere_tti. cbv zeta.
      match goal with |- same_hit (match roots ?a ?b ?c with _ => _ end) (match roots ?a2 ?b2 ?c2 with _ => _ end) =>
        assert (A : hom 0 a a2) by dims; assert (B : hom 1 b b2) by dims; assert (C : hom 2 c c2) by dims;
        pose proof (roots_units 0 1 2 a a2 b b2 c c2 A B C eq_refl) as G;
        destruct (roots a b c) as [[p q]|], (roots a2 b2 c2) as [[p2 q2]|]; try contradiction; [|split; reflexivity] end.
      cbn in G. destruct G as [P Q].
      match goal with |- same_hit (_, if ?a <? _ then _ else _) (_, if ?b <? _ then _ else _) => assert (T : hom 1 a b) by dims end.
      rewrite (h_ltb _ _ _ _ _ T (h_n0 1)). split; [reflexivity|]. cbn [snd]. destruct (_ <? _); dims.
    - unfold paraboloid_tti. cbv zeta.
      match goal with |- same_hit (if ?a =? _ then (true, - ?c / ?b) else _) (if ?a2 =? _ then (true, - ?c2 / ?b2) else _) =>
        assert (A : hom (-1) a a2) by dims; assert (B : hom 0 b b2) by dims; assert (C : hom 1 c c2) by dims;
        pose proof (roots_units (-1) 0 1 a a2 b b2 c c2 A B C eq_refl) as G; rewrite (h_eqb _ _ _ _ _ A (h_n0 (-1)));
        destruct (_ =? _); [split; [reflexivity|cbn [snd]; dims]|];
        destruct (roots a b c) as [[p q]|], (roots a2 b2 c2) as [[p2 q2]|]; try contradiction; [|split; reflexivity] end.
      cbn in G. destruct G as [P Q].
      match goal with |- same_hit (_, if ?a <? _ then _ else _) (_, if ?b <? _ then _ else _) => assert (T : hom 1 a b) by dims end.
      rewrite (h_ltb _ _ _ _ _ T (h_n0 1)). split; [reflexivity|]. cbn [snd]. destruct (_ <? _); dims.
    - unfold quadric_tti. cbv zeta.
      match goal with |- same_hit (match roots ?a ?b ?c with _ => _ end) (match roots ?a2 ?b2 ?c2 with _ => _ end) =>
        assert (A : hom 0 a a2) by dims; assert (B : hom 1 b b2) by dims; assert (C : hom 2 c c2) by dims;
        pose proof (roots_units 0 1 2 a a2 b b2 c c2 A B C eq_refl) as G;
        destruct (roots a b c) as [[p q]|], (roots a2 b2 c2) as [[p2 q2]|]; try contradiction; [|split; reflexivity] end.
      cbn in G. destruct G as [P Q].
      match goal with |- same_hit (_, if ?a <? ?c then _ else _) (_, if ?b <? ?d then _ else _) =>
        assert (T : hom 1 a b) by dims; assert (T2 : hom 1 c d) by dims end.
      rewrite (h_ltb _ _ _ _ _ T T2). split; [reflexivity|]. cbn [snd]. destruct (_ <? _); assumption.
  Qed.

  (** ** Heights and normals *)
  Lemma surface_ind_list (P : surface XR -> Prop) :
    (forall s, (forall l, s <> Sum l) -> P s) -> (forall l, (forall s, In s l -> P s) -> P (Sum l)) -> forall s, P s.
  Proof.
    intros H HS. fix F 1. intros s. destruct s as [| | | | | | | |l]; try (apply H; discriminate). apply HS.
    induction l as [|a l IH]; intros s; [intros []|]. intros [<-|Hs]; [apply F|apply IH; exact Hs].
  Qed.
  Lemma conv_asphere_loop l d e r2 r2' rr rr' a a' : hom 2 r2 r2' -> hom d rr rr' -> hom 1 a a' -> (d + e = -1)%Z ->
    hom 1 (asphere_loop l r2 rr a) (asphere_loop (conv_asphere k e l) r2' rr' a').
  Proof.
    revert d e rr rr' a a'. induction l as [|c l IH]; intros d e rr rr' a a' H2 Hr Ha E; [exact Ha|]. cbn [asphere_loop conv_asphere].
    assert (R2 : hom (d + 2) (rr * r2) (rr' * r2')) by (eapply h_mul; [exact Hr|exact H2|reflexivity]).
    apply (IH (d + 2)%Z (e - 2)%Z); [exact H2|exact R2| |lia].
    eapply h_add; [exact Ha|]. eapply h_mul; [apply h_refl|exact R2|lia].
  Qed.
  Lemma conv_dzdr_loop l d e i rr rr' rrr rrr' a a' : hom 2 rr rr' -> hom d rrr rrr' -> hom 0 a a' -> (d + e = 0)%Z ->
    hom 0 (asphere_dzdr_loop (asphere_dzdr_coefs i l) rr rrr a) (asphere_dzdr_loop (asphere_dzdr_coefs i (conv_asphere k e l)) rr' rrr' a').
  Proof.
    revert d e i rrr rrr' a a'. induction l as [|c l IH]; intros d e i rrr rrr' a a' H2 Hr Ha E; [exact Ha|].
    cbn [asphere_dzdr_loop conv_asphere asphere_dzdr_coefs].
    apply (IH (d + 2)%Z (e - 2)%Z); [exact H2|eapply h_mul; [exact Hr|exact H2|reflexivity]| |lia].
    eapply h_add; [exact Ha|]. eapply h_mul; [eapply h_mul; [apply h_refl|apply h_const|reflexivity]|exact Hr|lia].
  Qed.
  Lemma conv_poly_nth d w l m j : hom (d - Z.of_nat ((m + j) / w) - Z.of_nat ((m + j) mod w)) (nth j l nnan) (nth j (conv_poly k d w m l) nnan).
  Proof.
    revert m j. induction l as [|c l IH]; intros m [|j]; cbn [conv_poly nth]; try apply h_nan.
    - rewrite Nat.add_0_r. apply h_refl.
    - replace (m + S j)%nat with (S m + j)%nat by lia. apply IH.
  Qed.
  Lemma horner_units d w l i n y y' : hom 1 y y' -> (n <= w)%nat -> forall r r', hom (d - Z.of_nat i - Z.of_nat n) r r' ->
    hom (d - Z.of_nat i) (horner_loop n y l (i * w) r) (horner_loop n y' (conv_poly k d w 0 l) (i * w) r').
  Proof.
    intros Hy. induction n as [|n IH]; intros Hn r r' Hr; cbn [horner_loop].
    - replace (d - Z.of_nat i - Z.of_nat 0)%Z with (d - Z.of_nat i)%Z in Hr by lia. exact Hr.
    - apply IH; [lia|]. eapply h_add; [eapply h_mul; [exact Hr|exact Hy|lia]|].
      assert (G := conv_poly_nth d w l 0 (i * w + n)). cbn [Nat.add] in G.
      rewrite Nat.div_add_l, Nat.div_small, Nat.add_0_r in G by lia.
      rewrite (Nat.add_comm (i * w) n), Nat.mod_add, Nat.mod_small in G by lia. rewrite (Nat.add_comm (i * w) n). exact G.
  Qed.
  Lemma horner2d_units d w l x x' y y' h : hom 1 x x' -> hom 1 y y' -> hom d (horner2d x y l w h) (horner2d x' y' (conv_poly k d w 0 l) w h).
  Proof.
    intros Hx Hy. unfold horner2d.
    assert (G : forall r r', hom (d - Z.of_nat h) r r' -> hom d (horner2d_loop h x y l w r) (horner2d_loop h x' y' (conv_poly k d w 0 l) w r')).
    { induction h as [|h IH]; intros r r' Hr; cbn [horner2d_loop].
      - replace (d - Z.of_nat 0)%Z with d in Hr by lia. exact Hr.
      - apply IH. eapply h_add; [eapply h_mul; [exact Hr|exact Hx|lia]|]. apply horner_units; [exact Hy|lia|apply h_n0]. }
    apply G, h_n0.
  Qed.
  Lemma nth_conv d l j : hom d (nth j l nnan) (nth j (map (u d) l) nnan).
  Proof. revert j. induction l as [|c l IH]; intros [|j]; cbn [map nth]; try apply h_nan; [apply h_refl|apply IH]. Qed.
  Lemma cell_units t x y : table_cell (conv_table k t) (u 1 x) (u 1 y) = table_cell t x y.
  Proof.
    unfold table_cell. cbn [conv_table tb_x0 tb_y0 tb_dx tb_dy tb_nx tb_ny].
    assert (A : hom 0 ((x - tb_x0 t) / tb_dx t) ((u 1 x - u 1 (tb_x0 t)) / u 1 (tb_dx t))) by dims.
    assert (B : hom 0 ((y - tb_y0 t) / tb_dy t) ((u 1 y - u 1 (tb_y0 t)) / u 1 (tb_dy t))) by dims.
    rewrite (h_eq _ _ _ A eq_refl), (h_eq _ _ _ B eq_refl). reflexivity.
  Qed.
  Lemma h_mul0 d a a' b b' : hom 0 a a' -> hom d b b' -> hom d (a * b) (a' * b').
  Proof. intros A B. eapply h_mul; [exact A|exact B|lia]. Qed.
  Lemma spline_units d x x' a a' b b' c c' e e' : hom 0 x x' -> hom d a a' -> hom d b b' -> hom d c c' -> hom d e e' ->
    hom d (oneDSpline x a b c e) (oneDSpline x' a' b' c' e').
  Proof.
    intros HX HA HB HC HE. unfold oneDSpline. cbv zeta.
    assert (P : hom d (n2 * (a - b) + c + e) (n2 * (a' - b') + c' + e')).
    { eapply h_add; [eapply h_add; [apply h_mul0; [apply h_const|eapply h_sub; eassumption]|exact HC]|exact HE]. }
    assert (Q : hom d (n3 * (b - a) - n2 * c - e) (n3 * (b' - a') - n2 * c' - e')).
    { eapply h_sub; [eapply h_sub; [apply h_mul0; [apply h_const|eapply h_sub; eassumption]|apply h_mul0; [apply h_const|exact HC]]|exact HE]. }
    eapply h_add; [exact HA|]. apply h_mul0; [exact HX|]. eapply h_add; [exact HC|]. apply h_mul0; [exact HX|].
    eapply h_add; [exact Q|]. apply h_mul0; [exact HX|exact P].
  Qed.
  Lemma dspline_units d x x' a a' b b' c c' e e' : hom 0 x x' -> hom d a a' -> hom d b b' -> hom d c c' -> hom d e e' ->
    hom d (oneDGrad x a b c e) (oneDGrad x' a' b' c' e').
  Proof.
    intros HX HA HB HC HE. unfold oneDGrad. cbv zeta.
    assert (P : hom d (n2 * (a - b) + c + e) (n2 * (a' - b') + c' + e')).
    { eapply h_add; [eapply h_add; [apply h_mul0; [apply h_const|eapply h_sub; eassumption]|exact HC]|exact HE]. }
    assert (Q : hom d (n3 * (b - a) - n2 * c - e) (n3 * (b' - a') - n2 * c' - e')).
    { eapply h_sub; [eapply h_sub; [apply h_mul0; [apply h_const|eapply h_sub; eassumption]|apply h_mul0; [apply h_const|exact HC]]|exact HE]. }
    eapply h_add; [exact HC|]. apply h_mul0; [exact HX|].
    eapply h_add; [apply h_mul0; [apply h_const|exact Q]|].
    apply h_mul0; [apply h_mul0; [exact HX|apply h_const]|exact P].
  Qed.
  Ltac at_nodes := repeat first
    [ apply spline_units | apply dspline_units | apply nth_conv
    | match goal with
      | |- hom _ (nth ?i ?l nnan) (nth ?i ?l nnan) => apply h_const
      | |- hom _ (nth _ _ _ * _) _ => eapply h_mul; [first [apply h_const|apply nth_conv]|apply h_refl|reflexivity]
      end ].
  Lemma table_eval_units t x y : hom 1 (table_eval t x y) (table_eval (conv_table k t) (u 1 x) (u 1 y)).
  Proof.
    unfold table_eval. rewrite cell_units. cbn [conv_table tb_x0 tb_y0 tb_dx tb_dy tb_nx tb_ny tb_z tb_dzdx tb_dzdy tb_d2 tb_use_nan].
    destruct (table_cell t x y) as [[ix iy]|]; [|destruct (tb_use_nan t); [apply h_nan|apply h_n0]]. cbv zeta.
    assert (X : hom 0 ((x - (tb_x0 t + nofZ (Z.of_nat ix) * tb_dx t)) / tb_dx t)
                      ((u 1 x - (u 1 (tb_x0 t) + nofZ (Z.of_nat ix) * u 1 (tb_dx t))) / u 1 (tb_dx t))) by dims.
    assert (Y : hom 0 ((y - (tb_y0 t + nofZ (Z.of_nat iy) * tb_dy t)) / tb_dy t)
                      ((u 1 y - (u 1 (tb_y0 t) + nofZ (Z.of_nat iy) * u 1 (tb_dy t))) / u 1 (tb_dy t))) by dims.
    apply spline_units; [exact Y| | | |].
    - apply spline_units; [exact X| | | |]; at_nodes.
    - apply spline_units; [exact X| | | |]; at_nodes.
    - apply (h_mul 0 1); [|apply h_refl|reflexivity]. apply spline_units; [exact X| | | |]; at_nodes.
    - apply (h_mul 0 1); [|apply h_refl|reflexivity]. apply spline_units; [exact X| | | |]; at_nodes.
  Qed.
  Lemma table_grad_units t x y : table_grad (conv_table k t) (u 1 x) (u 1 y) = table_grad t x y.
  Proof.
    unfold table_grad. rewrite cell_units. cbn [conv_table tb_x0 tb_y0 tb_dx tb_dy tb_nx tb_ny tb_z tb_dzdx tb_dzdy tb_d2 tb_use_nan].
    destruct (table_cell t x y) as [[ix iy]|]; [|reflexivity]. cbv zeta.
    assert (X : hom 0 ((x - (tb_x0 t + nofZ (Z.of_nat ix) * tb_dx t)) / tb_dx t)
                      ((u 1 x - (u 1 (tb_x0 t) + nofZ (Z.of_nat ix) * u 1 (tb_dx t))) / u 1 (tb_dx t))) by dims.
    assert (Y : hom 0 ((y - (tb_y0 t + nofZ (Z.of_nat iy) * tb_dy t)) / tb_dy t)
                      ((u 1 y - (u 1 (tb_y0 t) + nofZ (Z.of_nat iy) * u 1 (tb_dy t))) / u 1 (tb_dy t))) by dims.
    f_equal; (eapply h_eq; [apply (h_div 1 1 0); [|apply h_refl|reflexivity]|reflexivity]).
    - apply spline_units; [exact Y| | | |];
        [| |apply (h_mul 0 1); [|apply h_refl|reflexivity]|apply (h_mul 0 1); [|apply h_refl|reflexivity]];
        (apply dspline_units; [exact X| | | |]; at_nodes).
    - apply spline_units; [exact X| | | |];
        [| |apply (h_mul 0 1); [|apply h_refl|reflexivity]|apply (h_mul 0 1); [|apply h_refl|reflexivity]];
        (apply dspline_units; [exact Y| | | |]; at_nodes).
  Qed.

  Lemma quadric_sag_units R c x y : hom 1 (quadric_sag R c x y) (quadric_sag (u 1 R) c (u 1 x) (u 1 y)).
  Proof. unfold quadric_sag. cbv zeta. rewrite (h_eqb 1 R (u 1 R) n0 n0 (h_refl _ _) (h_n0 1)). destruct (negb _); dims. Qed.
  Lemma quadric_dzdr_units R c r r' : hom 1 r r' -> hom 0 (quadric_dzdr R c r) (quadric_dzdr (u 1 R) c r').
  Proof. intros H. unfold quadric_dzdr. cbv zeta. rewrite (h_eqb 1 R (u 1 R) n0 n0 (h_refl _ _) (h_n0 1)). destruct (negb _); dims. Qed.
  Lemma sag_units s : forall x y, hom 1 (sag s x y) (sag (conv_surface k s) (u 1 x) (u 1 y)).
  Proof.
    induction s as [s H|l IH] using surface_ind_list; intros x y.
    - destruct s as [|tx ty|rc|rc|rc cc|rc cc cs|cs gradx grady x0 y0 xsize ysize|tb|l]; cbn [sag conv_surface]; [| | | | | | | |exfalso; exact (H l eq_refl)].
      + apply h_n0.
      + unfold tilted_sag. dims.
      + unfold sphere_sag. rewrite (h_eqb 1 rc (u 1 rc) n0 n0 (h_refl _ _) (h_n0 1)). destruct (negb _); dims.
      + unfold paraboloid_sag. rewrite (h_eqb 1 rc (u 1 rc) n0 n0 (h_refl _ _) (h_n0 1)). destruct (negb _); dims.
      + apply quadric_sag_units.
      + unfold asphere_sag. apply (conv_asphere_loop _ 0 (-1)); [dims|apply h_const|apply quadric_sag_units|reflexivity].
      + unfold poly_sag. apply horner2d_units; dims.
      + apply table_eval_units.
    - cbn [sag conv_surface].
      assert (G : forall a a', hom 1 a a' -> hom 1 (fold_left (fun acc s => acc + sag s x y) l a)
                    (fold_left (fun acc s => acc + sag s (u 1 x) (u 1 y)) (map (conv_surface k) l) a')).
      { induction l as [|s l IHl]; intros a a' A; [exact A|]. cbn [map fold_left]. apply IHl; [intros t Ht; apply IH; right; exact Ht|].
        eapply h_add; [exact A|apply IH; left; reflexivity]. }
      apply G, h_n0.
  Qed.
  Definition hom0v (v v' : vec3 XR) : Prop := v' = v.
  Lemma radial_normal_units f f' x y : (forall r r', hom 1 r r' -> hom 0 (f r) (f' r')) -> radial_normal f' (u 1 x) (u 1 y) = radial_normal f x y.
  Proof.
    intros Hf. unfold radial_normal. cbv zeta.
    assert (S : hom 1 (nsqrt (x * x + y * y)) (nsqrt (u 1 x * u 1 x + u 1 y * u 1 y))) by dims.
    rewrite (h_eqb _ _ _ _ _ S (h_n0 1)). destruct (_ =? _); [reflexivity|].
    assert (F := Hf _ _ S). rewrite (h_eq _ _ _ F eq_refl). f_equal; (eapply h_eq; [dims|reflexivity]).
  Qed.
  Lemma normal_units s : forall x y, normal (conv_surface k s) (u 1 x) (u 1 y) = normal s x y.
  Proof.
    induction s as [s H|l IH] using surface_ind_list; intros x y.
    - destruct s as [|tx ty|rc|rc|rc cc|rc cc cs|cs gradx grady x0 y0 xsize ysize|tb|l]; cbn [normal conv_surface]; [| | | | | | | |exfalso; exact (H l eq_refl)].
      + reflexivity.
      + reflexivity.
      + unfold sphere_normal. cbv zeta.
        assert (S2 : hom 2 (x * x + y * y) (u 1 x * u 1 x + u 1 y * u 1 y)) by dims.
        rewrite (h_eqb 1 rc (u 1 rc) n0 n0 (h_refl _ _) (h_n0 1)), (h_eqb _ _ _ _ _ S2 (h_n0 2)).
        destruct (_ || _); [reflexivity|].
        assert (D : hom 0 (sphere_dzdr rc (nsqrt (x * x + y * y))) (sphere_dzdr (u 1 rc) (nsqrt (u 1 x * u 1 x + u 1 y * u 1 y))))
          by (unfold sphere_dzdr; dims).
        rewrite (h_eq _ _ _ D eq_refl). f_equal; (eapply h_eq; [dims|reflexivity]).
      + unfold paraboloid_normal. cbv zeta. rewrite (h_eqb 1 rc (u 1 rc) n0 n0 (h_refl _ _) (h_n0 1)).
        destruct (_ =? _); [reflexivity|]. f_equal; (eapply h_eq; [dims|reflexivity]).
      + apply radial_normal_units. intros r r' Hr. apply quadric_dzdr_units. exact Hr.
      + apply radial_normal_units. intros r r' Hr. unfold asphere_dzdr.
        apply (conv_dzdr_loop _ 1 (-1)); [dims|exact Hr|apply quadric_dzdr_units; exact Hr|reflexivity].
      + unfold poly_normal. cbv zeta.
        assert (GX := horner2d_units 0 (xsize - 1) gradx (x - x0) (u 1 x - u 1 x0) (y - y0) (u 1 y - u 1 y0) (ysize - 1) ltac:(dims) ltac:(dims)).
        assert (GY := horner2d_units 0 (xsize - 1) grady (x - x0) (u 1 x - u 1 x0) (y - y0) (u 1 y - u 1 y0) (ysize - 1) ltac:(dims) ltac:(dims)).
        rewrite (h_eq _ _ _ GX eq_refl), (h_eq _ _ _ GY eq_refl). reflexivity.
      + unfold bicubic_normal. rewrite table_grad_units. reflexivity.
    - cbn [normal conv_surface].
      replace (fold_left (fun '(ax, ay) s => let n := normal s (u 1 x) (u 1 y) in (ax + cx n / cz n, ay + cy n / cz n)) (map (conv_surface k) l) (n0, n0))
        with (fold_left (fun '(ax, ay) s => let n := normal s x y in (ax + cx n / cz n, ay + cy n / cz n)) l (n0, n0)); [reflexivity|].
      generalize ((n0, n0) : XR * XR). induction l as [|s l IHl]; intros [a b]; [reflexivity|]. cbn [map fold_left].
      cbv zeta. rewrite IH by (left; reflexivity). apply IHl. intros t Ht. apply IH. right. exact Ht.
  Qed.
  Lemma grad_units s x y : grad (conv_surface k s) (u 1 x) (u 1 y) = grad s x y.
  Proof. unfold grad. rewrite normal_units. reflexivity. Qed.

  (** ** Obscurations *)
  Lemma obsc_ind_list (P : obsc XR -> Prop) :
    (forall o, match o with ObscNegation _ | ObscUnion _ | ObscIntersection _ => True | _ => P o end) ->
    (forall o, P o -> P (ObscNegation o)) -> (forall l, (forall o, In o l -> P o) -> P (ObscUnion l)) ->
    (forall l, (forall o, In o l -> P o) -> P (ObscIntersection l)) -> forall o, P o.
  Proof.
    intros H HN HU HI. fix F 1. intros o.
    destruct o as [r x0 y0|i o x0 y0|w h x0 y0 s c|w x0 y0 s c|vs|o|l|l].
    - exact (H (ObscCircle r x0 y0)).
    - exact (H (ObscAnnulus i o x0 y0)).
    - exact (H (ObscRectangle w h x0 y0 s c)).
    - exact (H (ObscRay w x0 y0 s c)).
    - exact (H (ObscPolygon vs)).
    - apply HN, F.
    - apply HU. induction l as [|a l IH]; intros o; [intros []|]. intros [<-|Hs]; [apply F|apply IH; exact Hs].
    - apply HI. induction l as [|a l IH]; intros o; [intros []|]. intros [<-|Hs]; [apply F|apply IH; exact Hs].
  Qed.
  Definition hom_st (a b : XR * XR * XR * bool) : Prop :=
    hom 1 (fst (fst (fst a))) (fst (fst (fst b))) /\ hom 1 (snd (fst (fst a))) (snd (fst (fst b))) /\
    hom 1 (snd (fst a)) (snd (fst b)) /\ snd b = snd a.
  Lemma poly_step_units x y a b p : hom_st a b -> hom_st (poly_step x y a p) (poly_step (u 1 x) (u 1 y) b (u 1 (fst p), u 1 (snd p))).
  Proof.
    destruct a as [[[x1 y1] xi] ins], b as [[[x1' y1'] xi'] ins'], p as [x2 y2]. intros (A & B & C & D). cbn [fst snd] in *. subst ins'.
    unfold poly_step.
    rewrite (h_ltb 1 (nmin y1 y2) (nmin y1' (u 1 y2)) y (u 1 y)) by dims.
    destruct (_ <? _); [|repeat split; cbn [fst snd]; first [assumption|apply h_refl]].
    rewrite (h_leb 1 y (u 1 y) (nmax y1 y2) (nmax y1' (u 1 y2))) by dims.
    destruct (y <=? _); [|repeat split; cbn [fst snd]; first [assumption|apply h_refl]].
    rewrite (h_leb 1 x (u 1 x) (nmax x1 x2) (nmax x1' (u 1 x2))) by dims.
    destruct (x <=? _); [|repeat split; cbn [fst snd]; first [assumption|apply h_refl]]. cbv zeta.
    rewrite (h_eqb 1 y1 y1' y2 (u 1 y2)) by dims. rewrite (h_eqb 1 x1 x1' x2 (u 1 x2)) by dims.
    set (xa := if negb (y1 =? y2) then (y - y1) * (x2 - x1) / (y2 - y1) + x1 else xi).
    set (xb := if negb (y1 =? y2) then (u 1 y - y1') * (u 1 x2 - x1') / (u 1 y2 - y1') + x1' else xi').
    assert (X : hom 1 xa xb) by (subst xa xb; destruct (negb _); dims).
    rewrite (h_leb 1 x (u 1 x) xa xb) by dims.
    repeat split; cbn [fst snd]; first [assumption|apply h_refl].
  Qed.
  Lemma contains_units o : forall x y, contains (conv_obsc k o) (u 1 x) (u 1 y) = contains o x y.
  Proof.
    revert o. apply (obsc_ind_list (fun o => forall x y, contains (conv_obsc k o) (u 1 x) (u 1 y) = contains o x y));
      [intros o; destruct o; try exact I|intros o IH|intros l IH|intros l IH]; intros x y; cbn [contains conv_obsc].
    - apply (h_ltb 1); dims.
    - cbv zeta. f_equal; [apply (h_leb 1)|apply (h_ltb 1)]; dims.
    - cbv zeta. repeat match goal with |- _ && _ = _ && _ => apply f_equal2 end; apply (h_ltb 1); dims.
    - cbv zeta. repeat match goal with |- _ && _ = _ && _ => apply f_equal2 end; apply (h_ltb 1); dims.
    - unfold poly_contains. destruct verts as [|[xa ya] rest]; [reflexivity|]. cbn [map fst snd].
      assert (G : forall l a b, hom_st a b -> hom_st (fold_left (poly_step x y) l a)
                    (fold_left (poly_step (u 1 x) (u 1 y)) (map (fun p => (u 1 (fst p), u 1 (snd p))) l) b)).
      { induction l as [|p l IHl]; intros a b Hab; [exact Hab|]. cbn [map fold_left]. apply IHl, poly_step_units, Hab. }
      change (map (fun p => (u 1 (fst p), u 1 (snd p))) rest ++ [(u 1 xa, u 1 ya)])
        with (map (fun p => (u 1 (fst p), u 1 (snd p))) rest ++ map (fun p => (u 1 (fst p), u 1 (snd p))) [(xa, ya)]).
      rewrite <- map_app. apply G. repeat split; cbn [fst snd]; first [apply h_refl|apply h_n0].
    - rewrite IH. reflexivity.
    - generalize false. induction l as [|o l IHl]; intros acc; [reflexivity|]. cbn [map fold_left].
      rewrite IH by (left; reflexivity). apply IHl. intros t Ht. apply IH. right. exact Ht.
    - generalize true. induction l as [|o l IHl]; intros acc; [reflexivity|]. cbn [map fold_left].
      rewrite IH by (left; reflexivity). apply IHl. intros t Ht. apply IH. right. exact Ht.
  Qed.

  (** ** Loop bodies *)
  Notation cv := (conv_vec k).
  Notation cr := (conv_ray k).
  Ltac vdims := unfold conv_vec; cbn [cx cy cz]; f_equal; (match goal with |- ?l = conv k ?d ?r => change (hom d r l) end; dims).
  Lemma mkCT_units f t : ct_dr (mkCT (conv_frame k f) (conv_frame k t)) = cv (ct_dr (mkCT f t)) /\
                         ct_drot (mkCT (conv_frame k f) (conv_frame k t)) = ct_drot (mkCT f t).
  Proof. split; [|reflexivity]. cbn [mkCT ct_dr conv_frame origin rot]. unfold mv, vsub. vdims. Qed.
  Lemma fwd_point_units dr d p : fwd_point (cv dr) d (cv p) = cv (fwd_point dr d p).
  Proof. unfold fwd_point. cbv zeta. vdims. Qed.
  Lemma advance_units p v dt dt' : hom 1 dt dt' -> advance (cv p) v dt' = cv (advance p v dt).
  Proof. intros H. unfold advance. vdims. Qed.
  Lemma hit_units s niter p v : closed_form s = true -> same_hit (hit s niter p v) (hit (conv_surface k s) niter (cv p) v).
  Proof.
    intros H. unfold hit. unfold conv_vec; cbn [cx cy cz].
    assert (G := tti_units s (cx p) (cy p) (cz p) (cx v) (cy v) (cz v) n0 niter H). rewrite <- (h_n0 1) in G. exact G.
  Qed.
  Lemma normal_unitsv s p : normal (conv_surface k s) (cx (cv p)) (cy (cv p)) = normal s (cx p) (cy p).
  Proof. apply normal_units. Qed.
  Lemma time_units r dt dt' : hom 1 dt dt' -> u 1 (time r) + dt' = u 1 (time r + dt).
  Proof. intros H. change (hom 1 (time r + dt) (u 1 (time r) + dt')). dims. Qed.
  Lemma hit_cases s niter p v : closed_form s = true -> exists dt dt',
    (hit s niter p v = (true, dt) /\ hit (conv_surface k s) niter (cv p) v = (true, dt') \/
     hit s niter p v = (false, dt) /\ hit (conv_surface k s) niter (cv p) v = (false, dt')) /\ hom 1 dt dt'.
  Proof.
    intros H. destruct (hit_units s niter p v H) as [E D]. destruct (hit s niter p v) as [ok dt], (hit (conv_surface k s) niter (cv p) v) as [ok' dt'].
    cbn [fst snd] in E, D. subst ok'. exists dt, dt'. split; [|exact D]. destruct ok; [left|right]; split; reflexivity.
  Qed.
  Ltac start H D := cbv zeta; cbn [conv_ray pos vel time wavelength flux vignetted failed];
    rewrite fwd_point_units; destruct (failed _); [reflexivity|];
    match goal with |- context[hit ?s ?n (fwd_point ?a ?b ?c) ?d] => 
      let dt := fresh "dt" in let dt' := fresh "dt'" in let E1 := fresh in let E2 := fresh in
      destruct (hit_cases s n (fwd_point a b c) d H) as (dt & dt' & [[E1 E2]|[E1 E2]] & D); rewrite E1, E2; [|reflexivity];
      rewrite (advance_units _ _ dt dt' D) end.
  Ltac finish D := unfold conv_ray; cbn [pos vel time wavelength flux vignetted failed]; rewrite <- (time_units _ _ _ D); reflexivity.
  Lemma intersect_units s dr d c niter r : closed_form s = true ->
    ray_intersect (conv_surface k s) (cv dr) d c niter (cr r) = cr (ray_intersect s dr d c niter r).
  Proof. intros H. unfold ray_intersect. start H D. rewrite normal_unitsv. finish D. Qed.
  Lemma reflect_units s dr d c niter r : closed_form s = true ->
    ray_reflect (conv_surface k s) (cv dr) d c niter (cr r) = cr (ray_reflect s dr d c niter r).
  Proof. intros H. unfold ray_reflect. start H D. rewrite normal_unitsv. finish D. Qed.
  Lemma refract_units s dr d m c niter r : closed_form s = true ->
    ray_refract (conv_surface k s) (cv dr) d m c niter (cr r) = cr (ray_refract s dr d m c niter r).
  Proof.
    intros H. unfold ray_refract. start H D. rewrite normal_unitsv. destruct (orient _ _) as [n a].
    destruct (refract_vel _ _ _ _ _); finish D.
  Qed.
  Lemma rsplit_units s dr d m c niter r : closed_form s = true ->
    ray_rsplit (conv_surface k s) (cv dr) d m c niter (cr r) = let '(a, b) := ray_rsplit s dr d m c niter r in (cr a, cr b).
  Proof.
    intros H. unfold ray_rsplit. start H D. rewrite normal_unitsv. destruct (orient _ _) as [n a]. destruct (getCoefs _ _ _) as [rf tr].
    destruct (refract_vel _ _ _ _ _); finish D.
  Qed.
  Lemma screen_units s p dr d niter r : closed_form s = true ->
    ray_screen (conv_surface k s) (conv_surface k p) (cv dr) d niter (cr r) = cr (ray_screen s p dr d niter r).
  Proof.
    intros H. unfold ray_screen. start H D. unfold screen_vel. rewrite normal_unitsv.
    match goal with |- context[sag (conv_surface k p) (cx (cv ?q)) (cy (cv ?q))] =>
      change (grad (conv_surface k p) (cx (cv q)) (cy (cv q))) with (grad (conv_surface k p) (u 1 (cx q)) (u 1 (cy q)));
      change (sag (conv_surface k p) (cx (cv q)) (cy (cv q))) with (sag (conv_surface k p) (u 1 (cx q)) (u 1 (cy q)));
      rewrite grad_units, (sag_units p (cx q) (cy q)) end.
    unfold conv_ray; cbn [pos vel time wavelength flux vignetted failed]. f_equal.
    rewrite (time_units _ _ _ D). match goal with |- ?l = conv k ?d ?r => change (hom d r l) end. dims.
  Qed.
  Lemma obscure_units o r : ray_obscure (conv_obsc k o) (cr r) = cr (ray_obscure o r).
  Proof.
    unfold ray_obscure, conv_ray; cbn [pos vel time wavelength flux vignetted failed conv_vec cx cy]. rewrite contains_units. reflexivity.
  Qed.
  Lemma units_respects : respects (convert k) (fun s => closed_form s = true) (fun _ => True) (fun _ => True).
  Proof.
    assert (G : forall body body', (forall dr d r, body' (cv dr) d (cr r) = cr (body dr d r)) -> alongside (convert k) body body').
    { intros body body' H f t r. cbn [convert on_frame on_ray]. destruct (mkCT_units f t) as [-> ->]. apply H. }
    constructor; cbn [convert on_surface on_screen on_obsc on_frame on_ray].
    - intros s c n H. apply G. intros. apply intersect_units. exact H.
    - intros s c n H. apply G. intros. apply reflect_units. exact H.
    - intros s m c n H. apply G. intros. apply refract_units. exact H.
    - intros s p n H Hp. apply G. intros. apply screen_units. exact H.
    - intros s m c n H f t r. destruct (mkCT_units f t) as [-> ->]. apply rsplit_units. exact H.
    - intros o r _. apply obscure_units.
    - reflexivity.
  Qed.
  (** ** Iterative intersections: the time found is the same, only the test against 1e-12 differs *)
  Lemma newton_units sg nm sg' nm' : (forall x y, hom 1 (sg x y) (sg' (u 1 x) (u 1 y))) -> (forall x y, nm' (u 1 x) (u 1 y) = nm x y) ->
    forall x y z vx vy vz dt niter, hom 1 (snd (newton sg nm x y z vx vy vz dt niter)) (snd (newton sg' nm' (u 1 x) (u 1 y) (u 1 z) vx vy vz (u 1 dt) niter)).
  Proof.
    intros Hs Hn x y z vx vy vz dt niter. unfold newton. cbv zeta.
    assert (X : hom 1 (x + vx * dt) (u 1 x + vx * u 1 dt)) by dims.
    assert (Y : hom 1 (y + vy * dt) (u 1 y + vy * u 1 dt)) by dims.
    assert (Z : hom 1 (z + vz * dt) (u 1 z + vz * u 1 dt)) by dims.
    rewrite X, Y, Z. generalize (Hs (x + vx * dt) (y + vy * dt)).
    generalize (sg (x + vx * dt) (y + vy * dt)) as sz. generalize (sg' (u 1 (x + vx * dt)) (u 1 (y + vy * dt))) as sz'.
    generalize (x + vx * dt) as px. generalize (y + vy * dt) as py. generalize (z + vz * dt) as pz. clear X Y Z.
    generalize (h_refl 1 dt). generalize (u 1 dt) as dt'. revert dt.
    induction niter as [|m IH]; intros dt dt' D pz py px sz' sz S; cbn [newton_loop]; [exact D|]. rewrite Hn.
    generalize (nm px py). intros [nx ny nz]. cbn [cx cy cz].
    match goal with |- hom 1 (snd (newton_loop _ _ _ _ _ _ _ _ _ ?a _ _ _ _)) (snd (newton_loop _ _ _ _ _ _ _ _ _ ?b _ _ _ _)) =>
      assert (A : hom 1 a b) by dims; revert A; generalize a b end.
    intros d d' A.
    assert (X : hom 1 (x + vx * d) (u 1 x + vx * d')) by dims.
    assert (Y : hom 1 (y + vy * d) (u 1 y + vy * d')) by dims.
    assert (Z : hom 1 (z + vz * d) (u 1 z + vz * d')) by dims.
    rewrite X, Y, Z. apply IH; [exact A|]. apply Hs.
  Qed.
  Lemma iterated_units s niter p v : iterated s = true -> hom 1 (snd (hit s niter p v)) (snd (hit (conv_surface k s) niter (cv p) v)).
  Proof.
    intros H. unfold hit. unfold conv_vec; cbn [cx cy cz]. assert (N := h_n0 1). unfold hom in N.
    destruct s as [|tx ty|rc|rc|rc cc|rc cc cs|cs gradx grady x0 y0 xsize ysize|tb|l]; try discriminate; cbn [tti conv_surface].
    - assert (G := tti_units (Quadric rc cc) (cx p) (cy p) (cz p) (cx v) (cy v) (cz v) n0 niter eq_refl). rewrite <- N in G. cbn [tti conv_surface] in G.
      destruct G as [E D]. destruct (quadric_tti rc _ _ _ _ _ _ _ _) as [ok d], (quadric_tti (u 1 rc) _ _ _ _ _ _ _ _) as [ok' d'].
      cbn [fst snd] in E, D. unfold hom in D. subst ok' d'. destruct ok; cbn [negb]; [|apply h_refl].
      apply newton_units; intros a b; [exact (sag_units (Asphere rc cc cs) a b)|exact (normal_units (Asphere rc cc cs) a b)].
    - rewrite N at 2. apply newton_units; intros a b.
      + exact (sag_units (Poly cs gradx grady x0 y0 xsize ysize) a b).
      + exact (normal_units (Poly cs gradx grady x0 y0 xsize ysize) a b).
    - rewrite N at 2. apply newton_units; intros a b; [exact (sag_units (Bicubic tb) a b)|exact (normal_units (Bicubic tb) a b)].
  Qed.
  Lemma closed_ok o : closed_optic o -> all_ifaces (ok_iface (fun s => closed_form s = true) (fun _ => True) (fun _ => True)) o.
  Proof. induction 1 as [i Hi|a items Hl IH]; constructor; [repeat split; auto|exact IH]. Qed.
End Units.
