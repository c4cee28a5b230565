(** The aplanatic points of a sphere. *)
From Coq Require Import Reals List ZArith Bool Lra Psatz.
From Verif Require Import Num NumR Vec CoordSys Surface Medium Obscuration Ray Bundle Optic Spec OpticsSpec XRFacts CoordFacts
  RayFacts NormalFacts RefractProofs OpticsProofs RootFacts IntersectProofs IntersectMore TreeSpec TreeProofs AnalysisProofs AnalysisFocus MoveProofs AxialProofs AxialTrace StigSpec StigProofs AplanSpec.
Import ListNotations.
Open Scope R_scope.

Section Ball.
  Context (rad : R) (q : vR) (Hr : rad <> 0) (Hon : on_sag (Sphere (Fin rad)) q).
  Let G : vR := V3 (- cx q) (- cy q) (rad - cz q).
  Lemma ball_whole : cx q * cx q + cy q * cy q = 2 * rad * cz q - cz q * cz q.
  Proof. apply (on_sag_iff (ShSphere rad)) in Hon; [|exact Hr]. destruct Hon as (W & _). cbn in W. lra. Qed.
  Lemma ball_vertex : 0 <= rad * (rad - cz q).
  Proof. apply (on_sag_iff (ShSphere rad)) in Hon; [|exact Hr]. destruct Hon as (_ & V). cbn in V. lra. Qed.
  Lemma ball_normal m : normal (Sphere (Fin rad)) (Fin (cx q)) (Fin (cy q)) = F3 m ->
    exists c, m = timesR c G /\ c <> 0 /\ rad - cz q <> 0.
  Proof.
    intros E. set (x := cx q) in *. set (y := cy q) in *. pose proof ball_whole as W. fold x y in W. pose proof ball_vertex as V. unfold G. fold x y.
    cbn [normal] in E. unfold sphere_normal in E. cbv zeta in E. xunf. rewrite (xeqb_f rad 0 Hr) in E. cbn [orb] in E.
    destruct (Req_dec (x * x + y * y) 0) as [Z|Z].
    - rewrite (xeqb_t _ _ Z) in E. assert (x = 0) by nra. assert (y = 0) by nra.
      assert (Z0 : cz q = 0).
      { assert (P : cz q * (2 * rad - cz q) = 0) by nra. apply Rmult_integral in P. destruct P as [P|P]; [exact P|]. exfalso. nra. }
      exists (/ rad). change (zhat (T := XR)) with (F3 (V3 0 0 1)) in E. apply F3_inj in E. subst m. rewrite Z0. split; [apply vec3_eq; cbn; [rewrite H|rewrite H0|]; field; exact Hr|].
      split; [apply Rinv_neq_0_compat, Hr|lra].
    - rewrite xeqb_f in E by exact Z. assert (ZP : 0 < x * x + y * y) by (assert (0 <= x * x + y * y) by nra; lra).
      rewrite xsqrt_fin in E by lra. set (rr := sqrt (x * x + y * y)) in *. assert (Rr : rr * rr = x * x + y * y) by (apply sqrt_sqrt; lra).
      assert (RR0 : 0 < rr) by (apply sqrt_lt_R0; exact ZP).
      unfold sphere_dzdr in E. cbv zeta in E. xunf. rewrite (xdiv_fin 1 rad) in E by exact Hr. cbn [xmul xsub] in E.
      set (rat := rr * (1 / rad)) in *. set (S2 := 1 - rat * rat) in *.
      assert (HS : S2 * (rad * rad) = (rad - cz q) * (rad - cz q)).
      { unfold S2, rat. transitivity (rad * rad - rr * rr); [field; exact Hr|]. rewrite Rr, W. ring. }
      assert (S0 : 0 <= S2).
      { assert (RP : 0 < rad * rad) by nra. assert (SQ : 0 <= S2 * (rad * rad)) by (rewrite HS; apply Rle_0_sqr). clear - RP SQ. nra. }
      rewrite xsqrt_fin in E by exact S0. set (S := sqrt S2) in *. assert (SS : S * S = S2) by (apply sqrt_sqrt; exact S0). assert (SP : 0 <= S) by apply sqrt_pos.
      assert (RS : rad - cz q = rad * S).
      { assert (K : (rad - cz q) * (rad - cz q) = (rad * S) * (rad * S)) by (rewrite <- HS, <- SS; ring).
        set (a := rad - cz q) in *. assert (KK : (rad * a) * (rad * a) = (rad * rad * S) * (rad * rad * S)) by (transitivity (rad * rad * (a * a)); [ring|rewrite K; ring]).
        assert (P0 : 0 <= rad * rad * S) by (assert (0 <= rad * rad) by nra; nra). apply (Rmult_eq_reg_l rad); [|exact Hr].
        replace (rad * (rad * S)) with (rad * rad * S) by ring. clear - KK P0 V. set (b := rad * a) in *. set (c := rad * rad * S) in *. nra. }
      assert (N0 : rat <> 0) by (unfold rat; apply Rmult_integral_contrapositive; split; [lra|unfold Rdiv; rewrite Rmult_1_l; apply Rinv_neq_0_compat, Hr]).
      destruct (Req_dec S 0) as [S00|S00].
      + exfalso. rewrite S00 in E. apply (f_equal cx) in E. cbn [cx F3 vmap] in E.
        apply mul_fin in E. destruct E as (? & ? & E & _ & _). apply mul_fin in E. destruct E as (? & ? & _ & E & _).
        revert E. cbn. unfold xsgn. destruct (Req_EM_T 0 0); [|lra]. destruct (Rlt_dec 0 rat); [discriminate|]. destruct (Rlt_dec rat 0); discriminate.
      + assert (RSn : rad * S <> 0) by (apply Rmult_integral_contrapositive; auto). rewrite (xdiv_fin rat S) in E by exact S00. cbn [xmul xadd] in E.
        set (dz := rat / S) in *. assert (0 < sqrt (1 + dz * dz)) by (apply sqrt_lt_R0; nra). rewrite xsqrt_fin in E by nra. rewrite (xdiv_fin 1) in E by lra.
        set (nz := 1 / sqrt (1 + dz * dz)) in *. cbn [xopp] in E. rewrite !xdiv_fin in E by lra. cbn [xmul] in E.
        exists (nz / (rad * S)). rewrite RS. split.
        * apply F3_inj. transitivity (V3 (Fin (- x / rr * dz * nz)) (Fin (- y / rr * dz * nz)) (Fin nz)); [symmetry; exact E|].
          apply vec3_eq; cbn; f_equal; unfold dz, rat; field; repeat split; auto; lra.
        * split; [|exact RSn]. unfold Rdiv, nz. apply Rmult_integral_contrapositive. split; [|apply Rinv_neq_0_compat, RSn].
          unfold Rdiv. rewrite Rmult_1_l. apply Rinv_neq_0_compat. lra.
  Qed.
  (** A point a radii beyond the centre. *)
  Lemma ball_dist a : dotR (minusR q (V3 0 0 (rad * (1 + a)))) (minusR q (V3 0 0 (rad * (1 + a)))) = rad * rad * (1 + a * a) + 2 * rad * a * (rad - cz q).
  Proof. unfold dotR; cbn. transitivity (cx q * cx q + cy q * cy q + (cz q - rad * (1 + a)) * (cz q - rad * (1 + a))); [ring|]. rewrite ball_whole. ring. Qed.
  Lemma ball_front a : dotR (minusR q (V3 0 0 (rad * (1 + a)))) G = - (rad * (rad + a * (rad - cz q))).
  Proof. unfold dotR, G; cbn. transitivity (- (cx q * cx q + cy q * cy q) + (cz q - rad * (1 + a)) * (rad - cz q)); [ring|]. rewrite ball_whole. ring. Qed.
End Ball.

Lemma unit_dot v : v <> zeroR -> dotR (unitR v) (unitR v) = 1.
Proof.
  intros H. pose proof (len_pos v H) as L. unfold unitR.
  transitivity (/ lenR v * / lenR v * (lenR v * lenR v)); [rewrite RefractProofs.len_sq; unfold dotR; cbn; ring|field; lra].
Qed.
(** Light towards (or from) the point n2/n1 radii beyond the centre goes on towards (or from) the point n1/n2 radii beyond it, and its line
    is at both points at the same time. *)
Lemma aplanatic niter i b A B r r1 rad n2 t : sphere_lens i b B rad (wavelength r) n2 -> good_frame A -> lands niter i b A r B r1 ->
  passes A r t (beyond_centre B rad (n2 / index_of (vel r))) -> passes B r1 t (beyond_centre B rad (index_of (vel r) / n2)).
Proof.
  intros (Ki & Si & Ci & HB & Hr & Hn & N2) HA La Pa.
  destruct (lands_inv niter i b A r B r1 ltac:(rewrite Ki; discriminate) Ci La) as (u & v' & Hb & Ep & Ev & Et & _).
  destruct La as (_ & _ & On). rewrite Si in On.
  unfold bends in Hb. rewrite Ki in Hb. destruct Hb as (m & Hm & Vz & Hbt). rewrite Si in Hm. rewrite Hn in Hbt.
  set (v := chg_vec A B (vel r)) in *. apply passes_local in Pa; [|assumption..]. fold v in Pa.
  assert (Iv : index_of v = index_of (vel r)) by (unfold index_of, v; rewrite chg_vec_len by assumption; reflexivity).
  rewrite <- Iv in *. apply bent_fin in Hbt. destruct Hbt as (_ & S2 & Hv').
  pose proof (len_pos v Vz) as L. assert (I0 : 0 < index_of v) by (apply Rinv_0_lt_compat; exact L).
  set (q := pos r1) in *. set (tau := time r1 - t).
  destruct (ball_normal rad q Hr On m Hm) as (c & Em & C0 & F0).
  pose proof (ball_front rad q Hr On) as FR. pose proof (ball_dist rad q Hr On) as DI. pose proof (ball_vertex rad q Hr On) as Vx.
  assert (UL : unitR v = timesR (index_of v) v) by reflexivity.
  pose proof (unit_dot v Vz) as UU.
  set (n1 := index_of v) in *. set (G := V3 (- cx q) (- cy q) (rad - cz q)) in *.
  set (f1 := V3 0 0 (rad * (1 + n2 / n1))) in *. set (f2 := V3 0 0 (rad * (1 + n1 / n2))) in *.
  assert (Q : minusR q f1 = timesR tau v).
  { rewrite <- Pa, Ep. unfold tau. rewrite Et. apply vec3_eq; cbn; ring. }
  assert (P2 : 0 < rad * rad) by nra.
  assert (SH : forall a, 0 < a -> 0 < rad * (rad + a * (rad - cz q))).
  { intros a Pa_. assert (0 <= a * (rad * (rad - cz q))) by (apply Rmult_le_pos; lra). lra. }
  assert (F1 : dotR (minusR q f1) G < 0).
  { unfold f1. rewrite FR. assert (0 < n2 / n1) by (apply Rdiv_lt_0_compat; assumption). specialize (SH _ H). lra. }
  assert (F2 : dotR (minusR q f2) G < 0).
  { unfold f2. rewrite FR. assert (0 < n1 / n2) by (apply Rdiv_lt_0_compat; assumption). specialize (SH _ H). lra. }
  assert (T0 : tau <> 0).
  { intros Z. rewrite Q, Z in F1. unfold dotR in F1; cbn in F1. lra. }
  (* the distances are as n2 to n1 *)
  assert (D12 : n2 * n2 * dotR (minusR q f2) (minusR q f2) = n1 * n1 * dotR (minusR q f1) (minusR q f1)).
  { unfold f1, f2. rewrite !DI. field. lra. }
  assert (D1 : n1 * n1 * dotR (minusR q f1) (minusR q f1) = tau * tau).
  { rewrite Q. transitivity (tau * tau * dotR (timesR n1 v) (timesR n1 v)); [unfold dotR; cbn; ring|]. rewrite <- UL, UU. ring. }
  set (ww := timesR (n2 / tau) (minusR q f2)).
  assert (WW : dotR ww ww = 1).
  { transitivity (n2 * n2 * dotR (minusR q f2) (minusR q f2) / (tau * tau)); [unfold ww; clearbody f2; unfold dotR; cbn; field; exact T0|]. rewrite D12, D1. field. exact T0. }
  assert (Fin_ : v' = timesR (/ n2) ww).
  { rewrite Hv'. apply (refr_char _ ww m n1 n2 ((n2 * n2 - n1 * n1) / tau / c)); try assumption.
    - apply (normal_unit _ _ _ _ Hm).
    - rewrite Em, UL. replace v with (timesR (/ tau) (minusR q f1)) by (rewrite Q; apply vec3_eq; cbn; field; exact T0).
      unfold ww, f1, f2, G. clearbody n1 tau. apply vec3_eq; cbn; field; repeat split; auto; lra.
    - rewrite Em, UL. replace v with (timesR (/ tau) (minusR q f1)) by (rewrite Q; apply vec3_eq; cbn; field; exact T0).
      replace (dotR (timesR n1 (timesR (/ tau) (minusR q f1))) (timesR c G)) with (n1 * (c / tau) * dotR (minusR q f1) G) by (clearbody n1 tau f1 G; unfold dotR; cbn; field; exact T0).
      replace (dotR ww (timesR c G)) with (n2 * (c / tau) * dotR (minusR q f2) G) by (unfold ww; clearbody n1 tau f2 G; unfold dotR; cbn; field; exact T0).
      replace (n1 * (c / tau) * dotR (minusR q f1) G * (n2 * (c / tau) * dotR (minusR q f2) G))
        with (n1 * n2 * ((c / tau) * (c / tau)) * (dotR (minusR q f1) G * dotR (minusR q f2) G)) by ring.
      assert (CT : c / tau <> 0) by (apply Rmult_integral_contrapositive; split; [exact C0|apply Rinv_neq_0_compat, T0]).
      assert (0 < (c / tau) * (c / tau)) by (clear - CT; nra).
      apply Rmult_lt_0_compat; [apply Rmult_lt_0_compat; [apply Rmult_lt_0_compat; lra|assumption]|]. clear - F1 F2. nra. }
  apply passes_here. fold q. fold f2. rewrite Ev, Fin_. unfold ww.
  replace (t - time r1) with (- tau) by (unfold tau; ring). clearbody f2. apply vec3_eq; cbn; field; split; auto; lra.
Qed.
(** Light through the centre is not bent. *)
Lemma centred niter i b A B r r1 rad n2 t : sphere_lens i b B rad (wavelength r) n2 -> good_frame A -> lands niter i b A r B r1 ->
  passes A r t (beyond_centre B rad 0) -> vel r1 = timesR (index_of (vel r) / n2) (vel_in A B r) /\
  passes B r1 (time r1 + (t - time r1) * n2 / index_of (vel r)) (beyond_centre B rad 0).
Proof.
  intros (Ki & Si & Ci & HB & Hr & Hn & N2) HA La Pa.
  destruct (lands_inv niter i b A r B r1 ltac:(rewrite Ki; discriminate) Ci La) as (u & v' & Hb & Ep & Ev & Et & _).
  destruct La as (_ & _ & On). rewrite Si in On.
  unfold bends in Hb. rewrite Ki in Hb. destruct Hb as (m & Hm & Vz & Hbt). rewrite Si in Hm. rewrite Hn in Hbt.
  assert (Vi : vel_in A B r = chg_vec A B (vel r)) by (symmetry; apply chg_vec_local). rewrite Vi.
  set (v := chg_vec A B (vel r)) in *. apply passes_local in Pa; [|assumption..]. fold v in Pa.
  assert (Iv : index_of v = index_of (vel r)) by (unfold index_of, v; rewrite chg_vec_len by assumption; reflexivity).
  rewrite <- Iv in *. apply bent_fin in Hbt. destruct Hbt as (_ & S2 & Hv').
  pose proof (len_pos v Vz) as L. assert (I0 : 0 < index_of v) by (apply Rinv_0_lt_compat; exact L).
  set (q := pos r1) in *. set (tau := time r1 - t).
  destruct (ball_normal rad q Hr On m Hm) as (c & Em & C0 & F0). pose proof (proj1 (normal_unit _ _ _ _ Hm)) as MM.
  assert (UL : unitR v = timesR (index_of v) v) by reflexivity. pose proof (unit_dot v Vz) as UU.
  set (n1 := index_of v) in *. set (G := V3 (- cx q) (- cy q) (rad - cz q)) in *.
  assert (Q : timesR (-1) G = timesR tau v).
  { transitivity (minusR q (V3 0 0 (rad * (1 + 0)))); [unfold G; apply vec3_eq; cbn; ring|]. rewrite <- Pa, Ep. unfold tau. rewrite Et. apply vec3_eq; cbn; ring. }
  assert (T0 : tau <> 0).
  { intros Z. rewrite Z in Q. apply F0. apply (f_equal cz) in Q. cbn in Q. lra. }
  assert (EM : m = timesR (- (c * tau) / n1) (unitR v)).
  { rewrite Em, UL. transitivity (timesR (- c) (timesR (-1) G)); [apply vec3_eq; cbn; ring|]. rewrite Q. clearbody n1. apply vec3_eq; cbn; field; lra. }
  set (a := - (c * tau) / n1) in *.
  assert (A0 : a * a = 1).
  { rewrite EM in MM. transitivity (a * a * dotR (unitR v) (unitR v)); [rewrite UU; ring|]. rewrite <- MM. unfold dotR; cbn; ring. }
  assert (Fin_ : v' = timesR (/ n2) (unitR v)).
  { rewrite Hv'. apply (refr_char _ (unitR v) m n1 n2 ((n1 - n2) / a)); try assumption.
    - rewrite EM. assert (a <> 0) by (intros Z; rewrite Z in A0; lra). clearbody a. generalize (unitR v). intros w0. apply vec3_eq; cbn; field; assumption.
    - rewrite EM. replace (dotR (unitR v) (timesR a (unitR v))) with (a * dotR (unitR v) (unitR v)) by (unfold dotR; cbn; ring). rewrite UU. lra. }
  assert (V1 : vel r1 = timesR (n1 / n2) v) by (rewrite Ev, Fin_, UL; clearbody n1; apply vec3_eq; cbn; field; lra).
  split; [exact V1|]. apply passes_here. fold q. rewrite V1.
  transitivity (plusR q (timesR (-1) (timesR tau v))); [unfold tau; clearbody n1; apply vec3_eq; cbn; field; lra|]. rewrite <- Q. unfold G. apply vec3_eq; cbn; ring.
Qed.
