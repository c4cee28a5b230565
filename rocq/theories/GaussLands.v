(** Close to the axis, light that can meet a surface does. *)
From Coq Require Import Reals List ZArith Bool Lra Psatz.
From Verif Require Import Num NumR Vec CoordSys Surface Medium Obscuration Ray Bundle Optic Spec OpticsSpec SurfSpec XRFacts CoordFacts
  RayFacts NormalFacts SurfMore TreeSpec RefractProofs OpticsProofs RootFacts IntersectProofs IntersectMore AxialTrace StigSpec StigProofs GaussSpec GaussLimits GaussProofs.
Import ListNotations.
Open Scope R_scope.

Lemma tends_opp f a : tends f a -> tends (fun s => - f s) (- a).
Proof. intros H. apply tends_ext with (fun s => 0 - f s); [apply nearby_all; intros; ring|]. eapply tends_value; [apply tends_minus; [apply tends_const|exact H]|ring]. Qed.
Ltac lim := repeat first [eassumption|apply tends_const|
  lazymatch goal with
  | |- tends (fun s => _ - _) _ => apply tends_minus
  | |- tends (fun s => _ + _) _ => apply tends_plus
  | |- tends (fun s => _ * _) _ => apply tends_mul
  | |- tends (fun s => - _) _ => apply tends_opp
  end].

(** The root of a quadratic that stays near a simple root. *)
Section Root.
  Context (A B C : R -> R) (a b c sg : R) (LA : tends A a) (LB : tends B b) (LC : tends C c).
  Context (Sg : sg * sg = 1) (D0 : 0 < b * b - 4 * a * c) (W0 : - b + sg * sqrt (b * b - 4 * a * c) <> 0).
  Let D s := discR (A s) (B s) (C s).
  Definition root_of (s : R) : R := 2 * C s / (- B s + sg * sqrt (discR (A s) (B s) (C s))).
  Lemma disc_tends : tends D (b * b - 4 * a * c).
  Proof. unfold D, discR. lim. Qed.
  Lemma low_tends : tends (fun s => - B s + sg * sqrt (D s)) (- b + sg * sqrt (b * b - 4 * a * c)).
  Proof. apply tends_plus; [apply tends_opp, LB|]. apply tends_mul; [apply tends_const|]. apply tends_sqrt; [exact disc_tends|lra]. Qed.
  Lemma root_tends : tends root_of (2 * c / (- b + sg * sqrt (b * b - 4 * a * c))).
  Proof. unfold root_of, Rdiv. apply tends_mul; [lim|]. apply tends_inv; [exact low_tends|exact W0]. Qed.
  Lemma root_is : nearby (fun s => 0 < D s /\ quad (A s) (B s) (C s) (root_of s) = 0 /\ 2 * A s * root_of s + B s = - sg * sqrt (D s)).
  Proof.
    eapply nearby_impl; [|exact (nearby_and _ _ (tends_positive _ _ disc_tends D0) (tends_apart _ _ low_tends W0))].
    intros s _ (P & N). split; [exact P|]. unfold root_of, quad. fold (D s). assert (Q : sqrt (D s) * sqrt (D s) = D s) by (apply sqrt_sqrt; lra).
    set (q := sqrt (D s)) in *. set (w := - B s + sg * q) in *.
    assert (E : 4 * A s * C s = (- B s - sg * q) * w).
    { unfold w. replace ((- B s - sg * q) * (- B s + sg * q)) with (B s * B s - (sg * sg) * (q * q)) by ring. rewrite Sg, Q. unfold D, discR. ring. }
    assert (F : 2 * A s * (2 * C s / w) = - B s - sg * q) by (replace (2 * A s * (2 * C s / w)) with (4 * A s * C s / w) by (field; exact N); rewrite E; field; exact N).
    split; [|lra].
    replace (A s * (2 * C s / w) * (2 * C s / w) + B s * (2 * C s / w) + C s) with ((2 * A s * (2 * C s / w) + 2 * B s + w) * (C s / w)) by (field; exact N).
    rewrite F. unfold w. field. exact N.
  Qed.
  (** The two roots found by the formula, in whichever order. *)
  Lemma root_pair : c <> 0 -> nearby (fun s => A s <> 0 -> exists x y, roots (Fin (A s)) (Fin (B s)) (Fin (C s)) = Some (Fin x, Fin y) /\
    (x = root_of s /\ A s * (x - y) = - sg * sqrt (D s) \/ y = root_of s /\ A s * (y - x) = - sg * sqrt (D s)) /\ A s * (x + y) = - B s).
  Proof.
    intros C0. eapply nearby_impl; [|exact (nearby_and _ _ root_is (tends_apart _ _ LC C0))].
    intros s _ ((P & Q & F) & N) A0. destruct (roots_two (A s) (B s) (C s) A0 ltac:(unfold D in P; lra) N) as (x & y & E & _ & _ & Sm & Pr).
    exists x, y. split; [exact E|]. split; [|exact Sm]. destruct (root_cases _ _ _ _ _ _ A0 Sm Pr Q) as [<-|<-]; [left|right]; (split; [reflexivity|]); lra.
  Qed.
End Root.

Lemma sqrt_abs x : sqrt (x * x) = Rabs x. Proof. apply sqrt_Rsqr_abs. Qed.
Definition round (sh : shape) : Prop := match sh with ShTilted _ _ => False | _ => good_shape sh end.

Lemma sign_of c : c <> 0 -> exists sg, sg * sg = 1 /\ sg * Rabs c = c /\ 0 < sg * c.
Proof.
  intros N. destruct (Rlt_dec c 0) as [L|L]; [exists (-1)|exists 1]; (split; [lra|]); [rewrite Rabs_left by lra|rewrite Rabs_right by lra]; lra.
Qed.
Lemma nearby_sign f l : tends f l -> l <> 0 -> nearby (fun s => 0 < l * f s).
Proof. intros T N. apply (tends_positive _ (l * l)); [apply tends_mul; [apply tends_const|exact T]|]. assert (l * l <> 0) by (apply Rmult_integral_contrapositive; split; assumption). pose proof (Rle_0_sqr l). unfold Rsqr in *. lra. Qed.

Section Near.
  Context (niter : nat) (P V : R -> vR) (zp c : R) (Hc : c <> 0).
  Context (LX : tends (fun s => cx (P s)) 0) (LY : tends (fun s => cy (P s)) 0) (LZ : tends (fun s => cz (P s)) zp).
  Context (LU : tends (fun s => cx (V s)) 0) (LW : tends (fun s => cy (V s)) 0) (LV : tends (fun s => cz (V s)) c).

  Definition found (sh : shape) : Prop := exists T, tends T (- zp / c) /\
    nearby (fun s => hit (Fshape sh) niter (F3 (P s)) (F3 (V s)) = (true, Fin (T s)) /\ whole sh (on_line (P s) (V s) (T s))).
  Lemma found_plane : found ShPlane.
  Proof.
    exists (fun s => - cz (P s) / cz (V s)). split.
    - unfold Rdiv. apply tends_mul; [apply tends_opp, LZ|apply tends_inv; assumption].
    - eapply nearby_impl; [|exact (tends_apart _ _ LV Hc)]. intros s _ N. rewrite hit_plane. destruct (Req_EM_T _ 0); [contradiction|]. split; [reflexivity|].
      unfold whole, on_line; cbn. field. exact N.
  Qed.
  Lemma found_sphere rad : rad <> 0 -> ~ whole (ShSphere rad) (V3 0 0 zp) -> found (ShSphere rad).
  Proof.
    intros Hr NW. cbn in NW. set (sh := ShSphere rad).
    assert (RC : rad * c <> 0) by (apply Rmult_integral_contrapositive; split; assumption).
    destruct (sign_of _ RC) as (sg & S1 & S2 & S3).
    set (A := fun s => coefA sh (P s) (V s)). set (B := fun s => coefB sh (P s) (V s)). set (C := fun s => coefC sh (P s) (V s)).
    assert (LA : tends A (c * c)) by (unfold A; cbn; eapply tends_value; [lim|ring]).
    assert (LB : tends B (2 * c * (zp - rad))) by (unfold B; cbn; eapply tends_value; [lim|ring]).
    assert (LC : tends C (zp * (zp - 2 * rad))) by (unfold C; cbn; eapply tends_value; [lim|ring]).
    assert (C0 : zp * (zp - 2 * rad) <> 0) by (intros Z; apply NW; lra).
    assert (DE : 2 * c * (zp - rad) * (2 * c * (zp - rad)) - 4 * (c * c) * (zp * (zp - 2 * rad)) = (2 * (rad * c)) * (2 * (rad * c))) by ring.
    assert (SQ : sg * sqrt ((2 * (rad * c)) * (2 * (rad * c))) = 2 * (rad * c)).
    { rewrite sqrt_abs, Rabs_mult, (Rabs_pos_eq 2) by lra. transitivity (2 * (sg * Rabs (rad * c))); [ring|rewrite S2; ring]. }
    assert (D0 : 0 < 2 * c * (zp - rad) * (2 * c * (zp - rad)) - 4 * (c * c) * (zp * (zp - 2 * rad))).
    { rewrite DE. assert (2 * (rad * c) <> 0) by lra. pose proof (Rsqr_pos_lt _ H). exact H0. }
    assert (W0 : - (2 * c * (zp - rad)) + sg * sqrt (2 * c * (zp - rad) * (2 * c * (zp - rad)) - 4 * (c * c) * (zp * (zp - 2 * rad))) <> 0).
    { rewrite DE, SQ. replace (- (2 * c * (zp - rad)) + 2 * (rad * c)) with (- (2 * (c * (zp - 2 * rad)))) by ring. intros Z. apply C0.
      assert (Z2 : c * (zp - 2 * rad) = 0) by lra. apply Rmult_integral in Z2. destruct Z2 as [Z2|Z2]; [contradiction|]. rewrite Z2. ring. }
    exists (root_of A B C sg). split.
    - eapply tends_value; [apply root_tends; try eassumption|]. rewrite DE, SQ. field. split; [exact Hc|].
      intros Z. apply W0. rewrite DE, SQ. lra.
    - assert (VS := nearby_sign _ _ LV Hc). assert (AP := tends_positive _ _ LA ltac:(pose proof (Rsqr_pos_lt _ Hc) as Q; exact Q)).
      eapply nearby_impl; [|exact (nearby_and _ _ (nearby_and _ _ VS AP) (nearby_and _ _ (root_is A B C _ _ _ sg LA LB LC S1 D0 W0) (root_pair A B C _ _ _ sg LA LB LC S1 D0 W0 C0)))].
      intros s _ ((Sv & Pa) & (Pd & Q & _) & RP). destruct (RP ltac:(lra)) as (x & y & E & O & _). split; [|apply quad_whole; [exact Hr|exact Q]].
      unfold sh. rewrite hit_sphere. fold sh. unfold by_roots. fold (A s) (B s) (C s). rewrite E. f_equal. cbn [pick_root sh]. xunf. cbn [xmul].
      set (D := sqrt (discR (A s) (B s) (C s))) in *. assert (DP : 0 < D) by (apply sqrt_lt_R0; exact Pd).
      assert (SV : 0 < sg * (cz (V s) * rad)).
      { assert (0 < (sg * (rad * c)) * (c * cz (V s))) by (apply Rmult_lt_0_compat; assumption). assert (0 < c * c) by (pose proof (Rsqr_pos_lt _ Hc) as Z; exact Z).
        apply Rmult_lt_reg_l with (c * c); [assumption|]. lra. }
      assert (S4 : sg = 1 \/ sg = -1). { assert (Z : (sg - 1) * (sg + 1) = 0) by lra. apply Rmult_integral in Z. lra. }
      destruct S4 as [-> | ->].
      + rewrite xltb_f by lra. rewrite nmin_fin. f_equal. destruct O as [(<- & F)|(<- & F)]; [rewrite Rmin_left; [reflexivity|nra]|rewrite Rmin_right; [reflexivity|nra]].
      + rewrite xltb_t by lra. rewrite nmax_fin. f_equal. destruct O as [(<- & F)|(<- & F)]; [rewrite Rmax_left; [reflexivity|nra]|rewrite Rmax_right; [reflexivity|nra]].
  Qed.
  Lemma found_paraboloid rad : rad <> 0 -> ~ whole (ShParaboloid rad) (V3 0 0 zp) -> found (ShParaboloid rad).
  Proof.
    intros Hr NW. cbn in NW. set (sh := ShParaboloid rad). destruct (sign_of _ Hc) as (sg & S1 & S2 & S3).
    set (A := fun s => coefA sh (P s) (V s)). set (B := fun s => coefB sh (P s) (V s)). set (C := fun s => coefC sh (P s) (V s)).
    assert (LA : tends A 0) by (unfold A; cbn; eapply tends_value; [lim|ring]).
    assert (LB : tends B (- c)) by (unfold B; cbn; eapply tends_value; [lim|ring]).
    assert (LC : tends C (- zp)) by (unfold C; cbn; eapply tends_value; [lim|ring]).
    assert (C0 : - zp <> 0) by (intros Z; apply NW; replace zp with 0 by lra; ring).
    assert (DE : - c * - c - 4 * 0 * - zp = c * c) by ring.
    assert (CC : 0 < c * c) by (pose proof (Rsqr_pos_lt _ Hc) as Q; exact Q).
    assert (SQ : sg * sqrt (c * c) = c) by (rewrite sqrt_abs; exact S2).
    assert (D0 : 0 < - c * - c - 4 * 0 * - zp) by (rewrite DE; exact CC).
    assert (W0 : - - c + sg * sqrt (- c * - c - 4 * 0 * - zp) <> 0) by (rewrite DE, SQ; lra).
    exists (root_of A B C sg). split.
    - eapply tends_value; [apply root_tends; try eassumption|]. rewrite DE, SQ. field. split; lra.
    - assert (VS := nearby_sign _ _ LV Hc). assert (BS := nearby_sign _ _ LB (Ropp_neq_0_compat _ Hc)).
      eapply nearby_impl; [|exact (nearby_and _ _ (nearby_and _ _ VS BS) (nearby_and _ _ (root_is A B C _ _ _ sg LA LB LC S1 D0 W0) (root_pair A B C _ _ _ sg LA LB LC S1 D0 W0 C0)))].
      intros s _ ((Sv & Sb) & (Pd & Q & _) & RP). split; [|apply quad_whole; [exact Hr|exact Q]].
      unfold sh. rewrite hit_paraboloid by exact Hr. fold sh. fold (A s) (B s) (C s).
      assert (S4 : sg = 1 \/ sg = -1). { assert (Z : (sg - 1) * (sg + 1) = 0) by lra. apply Rmult_integral in Z. lra. }
      assert (BN : B s <> 0) by (intros Z; rewrite Z in Sb; lra).
      destruct (Req_EM_T (A s) 0) as [A0|A0].
      + rewrite xdiv_fin by exact BN. do 2 f_equal. unfold root_of, discR. rewrite A0. replace (B s * B s - 4 * 0 * C s) with (B s * B s) by ring. rewrite sqrt_abs.
        assert (K : sg * Rabs (B s) = - B s).
        { destruct S4 as [-> | ->]; [assert (B s < 0) by nra; rewrite Rabs_left by assumption; ring|assert (0 < B s) by nra; rewrite Rabs_pos_eq by lra; ring]. }
        rewrite K. field. split; lra.
      + destruct (RP A0) as (x & y & E & O & _). unfold by_roots. fold (A s) (B s) (C s). rewrite E. f_equal. cbn [pick_root sh]. xunf.
        set (D := sqrt (discR (A s) (B s) (C s))) in *. assert (DP : 0 < D) by (apply sqrt_lt_R0; exact Pd).
        assert (AR : 0 < A s * rad).
        { assert (AE : A s * rad = (cx (V s) * cx (V s) + cy (V s) * cy (V s)) / 2) by (unfold A, sh; cbn; field; exact Hr). pose proof (Rle_0_sqr (cx (V s))). pose proof (Rle_0_sqr (cy (V s))). unfold Rsqr in *.
          assert (A s * rad <> 0) by (apply Rmult_integral_contrapositive; split; assumption). lra. }
        assert (AA : 0 < A s * A s) by (pose proof (Rsqr_pos_lt _ A0) as Z; exact Z).
        assert (RR : 0 < rad * rad) by (pose proof (Rsqr_pos_lt _ Hr) as Z; exact Z).
        assert (SV : 0 < (sg * A s) * (cz (V s) * rad)).
        { assert (0 < (sg * c) * ((c * cz (V s)) * (A s * rad))) by (apply Rmult_lt_0_compat; [assumption|apply Rmult_lt_0_compat; assumption]). apply Rmult_lt_reg_l with (c * c); [assumption|]. lra. }
        assert (KF : forall d, A s * d = - sg * D -> (sg * A s) * d < 0). { intros d F. rewrite Rmult_assoc, F. replace (sg * (- sg * D)) with (- (sg * sg) * D) by ring. rewrite S1. lra. }
        destruct (Rlt_dec (cz (V s) * rad) 0) as [L|L]; [rewrite xltb_t by exact L|rewrite xltb_f by lra].
        * assert (Sn : sg * A s < 0) by nra. rewrite nmax_fin. f_equal. destruct O as [(<- & F)|(<- & F)]; apply KF in F; [rewrite Rmax_left; [reflexivity|nra]|rewrite Rmax_right; [reflexivity|nra]].
        * assert (Sn : 0 < sg * A s) by nra. rewrite nmin_fin. f_equal. destruct O as [(<- & F)|(<- & F)]; apply KF in F; [rewrite Rmin_left; [reflexivity|nra]|rewrite Rmin_right; [reflexivity|nra]].
  Qed.
  Lemma found_quadric rad k : rad <> 0 -> 1 + k <> 0 -> ~ whole (ShQuadric rad k) (V3 0 0 zp) -> found (ShQuadric rad k).
  Proof.
    intros Hr Hk NW. cbn in NW. set (sh := ShQuadric rad k). set (h := rad / (k + 1)).
    assert (Hk' : k + 1 <> 0) by lra. assert (Hh : h <> 0) by (unfold h, Rdiv; apply Rmult_integral_contrapositive; split; [exact Hr|apply Rinv_neq_0_compat, Hk']).
    assert (RC : h * c <> 0) by (apply Rmult_integral_contrapositive; split; assumption).
    destruct (sign_of _ RC) as (sg & S1 & S2 & S3).
    set (A := fun s => coefA sh (P s) (V s)). set (B := fun s => coefB sh (P s) (V s)). set (C := fun s => coefC sh (P s) (V s)).
    assert (LA : tends A (c * c)) by (unfold A; cbn; eapply tends_value; [lim|ring]).
    assert (LB : tends B (2 * c * (zp - h))) by (unfold B; cbn; eapply tends_value; [lim|unfold h; ring]).
    assert (LC : tends C (zp * (zp - 2 * h))) by (unfold C; cbn; eapply tends_value; [lim|unfold h; field; exact Hk']).
    assert (C0 : zp * (zp - 2 * h) <> 0).
    { intros Z. apply NW. assert (Z2 : (k + 1) * (zp * (zp - 2 * h)) = 0) by (rewrite Z; ring). unfold h in Z2.
      replace ((k + 1) * (zp * (zp - 2 * (rad / (k + 1))))) with ((1 + k) * (zp * zp) - 2 * rad * zp) in Z2 by (field; exact Hk'). lra. }
    assert (DE : 2 * c * (zp - h) * (2 * c * (zp - h)) - 4 * (c * c) * (zp * (zp - 2 * h)) = (2 * (h * c)) * (2 * (h * c))) by ring.
    assert (SQ : sg * sqrt ((2 * (h * c)) * (2 * (h * c))) = 2 * (h * c)).
    { rewrite sqrt_abs, Rabs_mult, (Rabs_pos_eq 2) by lra. transitivity (2 * (sg * Rabs (h * c))); [ring|rewrite S2; ring]. }
    assert (D0 : 0 < 2 * c * (zp - h) * (2 * c * (zp - h)) - 4 * (c * c) * (zp * (zp - 2 * h))).
    { rewrite DE. assert (2 * (h * c) <> 0) by lra. pose proof (Rsqr_pos_lt _ H). exact H0. }
    assert (W0 : - (2 * c * (zp - h)) + sg * sqrt (2 * c * (zp - h) * (2 * c * (zp - h)) - 4 * (c * c) * (zp * (zp - 2 * h))) <> 0).
    { rewrite DE, SQ. replace (- (2 * c * (zp - h)) + 2 * (h * c)) with (- (2 * (c * (zp - 2 * h)))) by ring. intros Z. apply C0.
      assert (Z2 : c * (zp - 2 * h) = 0) by lra. apply Rmult_integral in Z2. destruct Z2 as [Z2|Z2]; [contradiction|]. rewrite Z2. ring. }
    assert (LT : tends (root_of A B C sg) (- zp / c)).
    { eapply tends_value; [apply root_tends; try eassumption|]. rewrite DE, SQ. field. split; [exact Hc|]. intros Z. apply W0. rewrite DE, SQ. lra. }
    assert (CC : 0 < c * c) by (pose proof (Rsqr_pos_lt _ Hc) as Q; exact Q).
    exists (root_of A B C sg). split; [exact LT|].
    assert (AP := tends_positive _ _ LA CC).
    assert (ZT : tends (fun s => cz (P s) + cz (V s) * root_of A B C sg s) 0) by (eapply tends_value; [lim|field; exact Hc]).
    assert (ZU : tends (fun s => cz (P s) + cz (V s) * (- B s * / A s - root_of A B C sg s)) (2 * h)).
    { eapply tends_value; [apply tends_plus; [exact LZ|]; apply tends_mul; [exact LV|]; apply tends_minus; [|exact LT]; apply tends_mul; [apply tends_opp, LB|apply tends_inv; [exact LA|lra]]|]. field. exact Hc. }
    assert (H0 : 0 < Rabs h) by (apply Rabs_pos_lt, Hh).
    eapply nearby_impl; [|exact (nearby_and _ _ (nearby_and _ _ AP (nearby_and _ _ (ZT _ H0) (ZU _ H0))) (nearby_and _ _ (root_is A B C _ _ _ sg LA LB LC S1 D0 W0) (root_pair A B C _ _ _ sg LA LB LC S1 D0 W0 C0)))].
    intros s _ ((Pa & T1 & U1) & (Pd & Q & _) & RP). destruct (RP ltac:(lra)) as (x & y & E & O & Sm). split; [|apply quad_whole; [split; assumption|exact Q]].
    unfold sh. rewrite hit_quadric by exact Hk. fold sh. unfold by_roots. fold (A s) (B s) (C s). rewrite E. f_equal. cbn [pick_root sh xmul xadd xabs xltb].
    rewrite Rminus_0_r in T1. set (T := root_of A B C sg s) in *.
    assert (U2 : Rabs h < Rabs (cz (P s) + cz (V s) * (- B s * / A s - T))).
    { set (zu := cz (P s) + cz (V s) * (- B s * / A s - T)) in *. assert (Rabs (2 * h) = 2 * Rabs h) by (rewrite Rabs_mult, (Rabs_pos_eq 2) by lra; reflexivity).
      pose proof (Rabs_triang (2 * h - zu) zu). replace (2 * h - zu + zu) with (2 * h) in H1 by ring. rewrite Rabs_minus_sym in U1. lra. }
    assert (XY : x + y = - B s * / A s) by (apply (Rmult_eq_reg_l (A s)); [rewrite Sm; field; lra|lra]).
    destruct O as [(-> & _)|(-> & _)].
    - replace y with (- B s * / A s - T) by lra. destruct (Rlt_dec _ _) as [L|L]; [reflexivity|]. exfalso. apply L. lra.
    - replace x with (- B s * / A s - T) by lra. destruct (Rlt_dec _ _) as [L|L]; [|reflexivity]. exfalso. lra.
  Qed.
  Lemma found_all sh : round sh -> ~ whole sh (V3 0 0 zp) -> found sh.
  Proof.
    destruct sh as [|tx ty|rad|rad|rad k]; cbn [round good_shape]; intros Hr NW.
    - apply found_plane. - destruct Hr. - apply found_sphere; assumption. - apply found_paraboloid; assumption. - destruct Hr. apply found_quadric; assumption.
  Qed.
End Near.

Definition real_of (sh : shape) : surface R :=
  match sh with ShPlane => Plane | ShTilted tx ty => Tilted tx ty | ShSphere rad => Sphere rad | ShParaboloid rad => Paraboloid rad | ShQuadric rad k => Quadric rad k end.
Lemma real_shape sh : Fsurf (real_of sh) = Fshape sh. Proof. destruct sh; reflexivity. Qed.
Lemma real_smooth sh : round sh -> smooth (real_of sh). Proof. destruct sh; intros H; solve [exact I|destruct H]. Qed.

Section Land.
  Context (niter : nat) (reverse : bool) (A : frame) (r : R -> ray R) (e : element) (w : R) (g : gauss).
  Context (HA : good_frame A) (HE : element_ok reverse w (g_n g) e) (HP : pencil A r w g).
  Context (HF : nearby (fun s => failed (r s) = false)) (HR : reachable_from (g_z g) e).

  Theorem land_one a : 0 < a -> exists r1,
    nearby (fun s => lands niter (e_iface e) reverse A (r s) (at_z (e_z e)) (r1 s) /\ Rabs (cx (pos (r1 s))) <= a /\ Rabs (cy (pos (r1 s))) <= a).
  Proof.
    intros Ha. destruct HE as (Ci & HC & Ki). destruct HP as (N0 & Hw & LZ & LVz & LX & LY & LPx & LPy). destruct HR as (sh & Es & Rd & NW).
    assert (Gs : good_shape sh) by (destruct sh; try exact Rd; destruct Rd).
    set (i := e_iface e) in *. set (zB := e_z e) in *. set (k := e_k e) in *. set (n := g_n g) in *.
    set (P := fun s => chg_pt A (at_z zB) (pos (r s))). set (V := fun s => chg_vec A (at_z zB) (vel (r s))).
    assert (EP : forall s, P s = minusR (global_point A (pos (r s))) (V3 0 0 zB)) by (intros s; apply at_pt, HA).
    assert (EV : forall s, V s = global_dir A (vel (r s))) by (intros s; apply at_vec).
    assert (NN : n * n <> 0) by (apply Rmult_integral_contrapositive; split; assumption).
    assert (LPX : tends (fun s => cx (P s) / s) (g_x g)).
    { apply tends_ext with (fun s => cx (global_point A (pos (r s))) / s); [|exact LX]. apply nearby_all. intros s N. rewrite EP. cbn. field. exact N. }
    assert (LPY : tends (fun s => cy (P s) / s) (g_y g)).
    { apply tends_ext with (fun s => cy (global_point A (pos (r s))) / s); [|exact LY]. apply nearby_all. intros s N. rewrite EP. cbn. field. exact N. }
    assert (LPZ : tends (fun s => cz (P s)) (g_z g - zB)).
    { apply tends_ext with (fun s => cz (global_point A (pos (r s))) - zB); [apply nearby_all; intros s _; rewrite EP; reflexivity|]. apply tends_minus; [exact LZ|apply tends_const]. }
    assert (LVx : tends (fun s => cx (V s) / s) (g_px g / (n * n))).
    { apply tends_ext with (fun s => n * n * (cx (global_dir A (vel (r s))) / s) * / (n * n)); [apply nearby_all; intros s N; rewrite EV; field; split; assumption|]. apply tends_mul; [exact LPx|apply tends_const]. }
    assert (LVy : tends (fun s => cy (V s) / s) (g_py g / (n * n))).
    { apply tends_ext with (fun s => n * n * (cy (global_dir A (vel (r s))) / s) * / (n * n)); [apply nearby_all; intros s N; rewrite EV; field; split; assumption|]. apply tends_mul; [exact LPy|apply tends_const]. }
    assert (LVV : tends (fun s => cz (V s)) (/ n)) by (apply tends_ext with (fun s => cz (global_dir A (vel (r s)))); [apply nearby_all; intros s _; rewrite EV; reflexivity|exact LVz]).
    assert (IN : / n <> 0) by (apply Rinv_neq_0_compat, N0).
    destruct (found_all niter P V (g_z g - zB) (/ n) IN (tends_of_ratio _ _ LPX) (tends_of_ratio _ _ LPY) LPZ (tends_of_ratio _ _ LVx) (tends_of_ratio _ _ LVy) LVV sh Rd NW) as (T & LT & HT).
    set (q := fun s => plusR (P s) (timesR (T s) (V s))).
    assert (EQ : forall s, on_line (P s) (V s) (T s) = q s) by (intros s; apply vec3_eq; reflexivity).
    assert (QX : tends (fun s => cx (q s) / s) (g_x g + - (g_z g - zB) / / n * (g_px g / (n * n)))).
    { apply tends_ext with (fun s => cx (P s) / s + T s * (cx (V s) / s)); [apply nearby_all; intros s N; unfold q; cbn; field; exact N|]. lim. }
    assert (QY : tends (fun s => cy (q s) / s) (g_y g + - (g_z g - zB) / / n * (g_py g / (n * n)))).
    { apply tends_ext with (fun s => cy (P s) / s + T s * (cy (V s) / s)); [apply nearby_all; intros s N; unfold q; cbn; field; exact N|]. lim. }
    assert (QZ : tends (fun s => cz (q s)) 0) by (unfold q; cbn [cz plusR timesR]; eapply tends_value; [lim|field; exact N0]).
    assert (X0 := tends_of_ratio _ _ QX). assert (Y0 := tends_of_ratio _ _ QY).
    assert (VP : nearby (fun s => vertex_part sh (q s))).
    { destruct sh as [|tx ty|rad|rad|rad kk]; cbn [vertex_part]; try (apply nearby_all; intros; exact I); cbn in Gs.
      - eapply nearby_impl; [|apply (tends_positive (fun s => rad * (rad - cz (q s))) (rad * (rad - 0))); [lim|]]; [intros; lra|]. pose proof (Rsqr_pos_lt _ Gs) as Z. unfold Rsqr in Z. lra.
      - eapply nearby_impl; [|apply (tends_positive (fun s => rad * (rad - (1 + kk) * cz (q s))) (rad * (rad - (1 + kk) * 0))); [lim|]]; [intros; lra|]. pose proof (Rsqr_pos_lt _ (proj1 Gs)) as Z. unfold Rsqr in Z. lra. }
    assert (RG : nearby (fun s => regular (real_of sh) (cx (q s)) (cy (q s)))).
    { destruct sh as [|tx ty|rad|rad|rad kk]; cbn [real_of regular]; try (apply nearby_all; intros; exact I); cbn in Gs.
      - eapply nearby_impl; [|apply (tends_positive (fun s => rad * rad - (cx (q s) * cx (q s) + cy (q s) * cy (q s))) (rad * rad - (0 * 0 + 0 * 0))); [lim|]]; [intros; right; lra|]. pose proof (Rsqr_pos_lt _ Gs) as Z. unfold Rsqr in Z. lra.
      - eapply nearby_impl; [|apply (tends_positive (fun s => rad * rad - (1 + kk) * (cx (q s) * cx (q s) + cy (q s) * cy (q s))) (rad * rad - (1 + kk) * (0 * 0 + 0 * 0))); [lim|]]; [intros; right; lra|]. pose proof (Rsqr_pos_lt _ (proj1 Gs)) as Z. unfold Rsqr in Z. lra. }
    set (m := fun s => vmap reR (normal (i_surf i) (Fin (cx (q s))) (Fin (cy (q s))))).
    assert (NM : nearby (fun s => normal (i_surf i) (Fin (cx (q s))) (Fin (cy (q s))) = F3 (m s))).
    { eapply nearby_impl; [|exact RG]. intros s _ G. destruct (normals_exist (real_of sh) _ _ (real_smooth sh Rd) G) as (m0 & Hm). rewrite real_shape, <- Es in Hm. unfold m. rewrite Hm, re_F3. reflexivity. }
    destruct (normal_tends (i_surf i) k HC q m _ _ QX QY NM) as (Mx & My & Mz).
    set (v1 := fun s => match i_kind i with KMirror => reflR (V s) (m s) | KRefractive => refrR (unitR (V s)) (m s) (index_of (V s)) (Rabs (e_n e)) | _ => V s end).
    exists (fun s => after (P s) (V s) (T s) (v1 s) i (r s)).
    assert (Scr : forall sc, i_kind i <> KScreen sc) by (intros sc E; rewrite E in Ki; exact Ki).
    assert (BD : nearby (fun s => bends i reverse (wavelength (r s)) (q s) (V s) (v1 s))).
    { unfold bends, v1. destruct (i_kind i) eqn:K; try (apply nearby_all; intros; reflexivity); [|eapply nearby_impl; [|exact NM]; intros s _ E; exists (m s); auto].
      destruct Ki as (Pos & Hn). assert (e0 : e_n e <> 0) by (intros Z; rewrite Z in Pos; lra). assert (Ea : 0 < Rabs (e_n e)) by (apply Rabs_pos_lt, e0).
      assert (SN : tends (fun s => 1 - sin2R (unitR (V s)) (m s) (index_of (V s)) (Rabs (e_n e))) 1).
      { pose proof (index_tends V _ _ _ IN LVx LVy LVV) as LI. pose proof (unit_dot_tends V m _ _ _ _ _ IN LVx LVy LVV Mx My Mz) as LD.
        pose proof (sg_sq _ IN) as SS. unfold sin2R, Rdiv. eapply tends_value; [lim|]. rewrite SS. ring. }
      eapply nearby_impl; [|exact (nearby_and _ _ NM (nearby_and _ _ (nearby_and _ _ Hw (tends_positive _ _ SN ltac:(lra))) (tends_apart _ _ LVV IN)))].
      intros s _ (E & (W & S1) & Vz). exists (m s). split; [exact E|]. split; [intros Z; apply Vz; rewrite Z; reflexivity|]. left. exists (Rabs (e_n e)). rewrite W, Hn.
      split; [reflexivity|]. split; [lra|]. split; [lra|reflexivity]. }
    eapply nearby_impl; [|exact (nearby_and _ _ (nearby_and _ _ HF BD) (nearby_and _ _ (nearby_and _ _ HT VP) (nearby_and _ _ (X0 a Ha) (Y0 a Ha))))].
    intros s _ ((F & Bd) & ((Hh & Wh) & Vp) & Qx & Qy). rewrite Rminus_0_r in Qx, Qy. rewrite EQ in Wh.
    assert (On : on_sag (i_surf i) (q s)) by (rewrite Es; apply on_sag_iff; [exact Gs|split; assumption]).
    split; [split; [|split; [reflexivity|exact On]]|cbn [pos after]; fold (q s); lra].
    apply (iface_do niter i reverse A (at_z zB) (r s) (T s) (v1 s) Scr Ci F); [|exact Bd]. fold (P s) (V s). rewrite Es. exact Hh.
  Qed.
End Land.

(** Whole systems: nothing needs to be assumed about where the rays go. *)
Theorem land_all niter reverse w els a : 0 < a -> forall A r g, good_frame A -> centred reverse w (g_n g) els -> pencil A r w g ->
  nearby (fun s => failed (r s) = false) -> reachable (g_z g) els -> exists C r2, guided niter reverse a A r els C r2.
Proof.
  intros Ha. induction els as [|e els IH]; intros A r g HA HC HP HF HR; [exists A, r; constructor|].
  destruct HC as (He & Hs). destruct HR as (Re & Rs).
  destruct (land_one niter reverse A r e w g HA He HP HF Re a Ha) as (r1 & L).
  pose proof (meet_pencil niter reverse a A r e r1 w g HA He HP L) as P1.
  destruct (IH (at_z (e_z e)) r1 (meet g e) (at_good _) Hs P1) as (C & r2 & G).
  - eapply nearby_impl; [|exact L]. intros s _ ((_ & F & _) & _). exact F.
  - exact Rs.
  - exists C, r2. econstructor; eassumption.
Qed.
Lemma guided_alive niter reverse a A r els C r2 : guided niter reverse a A r els C r2 -> nearby (fun s => failed (r s) = false) -> nearby (fun s => failed (r2 s) = false).
Proof.
  intros H. induction H as [A r|A r e els r1 C r2 N H IH]; intros F; [exact F|]. apply IH. eapply nearby_impl; [|exact N]. intros s _ ((_ & E & _) & _). exact E.
Qed.
Theorem paraxial niter reverse w els A r g : good_frame A -> centred reverse w (g_n g) els -> reachable (g_z g) els ->
  pencil A r w g -> nearby (fun s => failed (r s) = false) -> exists C r2,
  nearby (fun s => in_turn niter reverse (map e_iface els) (RV [Fray (r s)] (Fcs A)) = RV [Fray (r2 s)] (Fcs C) /\ failed (r2 s) = false) /\
  pencil C r2 w (fold_left meet els g).
Proof.
  intros HA HC HR HP HF. destruct (land_all niter reverse w els 1 ltac:(lra) A r g HA HC HP HF HR) as (C & r2 & G). exists C, r2.
  split; [exact (nearby_and _ _ (guided_traced _ _ _ _ _ _ _ _ G) (guided_alive _ _ _ _ _ _ _ _ G HF))|eapply system; eassumption].
Qed.
