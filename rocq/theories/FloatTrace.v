(** Intersections with planes, normals and reflections in double precision. *)
From Coq Require Import Reals ZArith List Bool Lra Lia Psatz Floats.SpecFloat.
From Verif Require Import Num NumF Vec CoordSys Surface Medium Ray Bundle Spec XRFacts CoordFacts AnalysisProofs FloatSpec FloatProofs FloatErr FloatFrames.
Import ListNotations.
Open Scope R_scope.

Lemma abs_inv_le x y m : 0 < m -> m <= Rabs x -> m <= Rabs y -> Rabs (/ x - / y) <= Rabs (x - y) / (m * m).
Proof.
  intros M X Y. assert (x <> 0) by (intros ->; rewrite Rabs_R0 in X; lra). assert (y <> 0) by (intros ->; rewrite Rabs_R0 in Y; lra).
  replace (/ x - / y) with ((y - x) * / (x * y)) by (field; split; assumption). rewrite Rabs_mult, Rabs_minus_sym. unfold Rdiv.
  apply Rmult_le_compat_l; [apply Rabs_pos|]. rewrite Rabs_inv.
  rewrite Rabs_mult. apply Rinv_le_contravar; [nra|]. apply Rmult_le_compat; lra.
Qed.
(** Division of exact doubles. *)
Lemma close_div C a b : inrange C -> finF a -> finF b -> valF b <> 0 -> Rabs (valF a / valF b) <= C -> close (ulp * C) (ndiv a b) (valF a / valF b).
Proof.
  intros R Fa Fb B S. pose proof (inrange_970 _ R). pose proof (inrange_pos _ R).
  assert (F : finF (ndiv a b)) by (apply div_finite; trivial; lra). split; [exact F|].
  destruct (div_rounded a b F Fb) as (_ & _ & H1). apply (rounding _ _ _ R); [lra|exact H1].
Qed.
Lemma val_n0 : valF (n0 (T := F64)) = 0. Proof. reflexivity. Qed.
Lemma eqb_0 a : finF a -> valF a <> 0 -> neqb a n0 = false.
Proof.
  intros F N. destruct (val_zero a F N) as (s & m & e & ->). destruct s; reflexivity.
Qed.
Lemma opp_close e a x : close e a x -> close e (nopp a) (- x).
Proof.
  intros [F H]. pose proof (opp_finite a F) as F'. split; [exact F'|]. destruct (opp_exact a F') as [_ ->].
  replace (- valF a - - x) with (- (valF a - x)) by ring. rewrite Rabs_Ropp. exact H.
Qed.

(** * Planes *)
Section PlaneHit.
  Context (p v : vec3 F64) (t L : R).
  Context (RL : inrange4 L) (Fp : finV p) (Sv : sizedV 2 v) (Vz : valF (cz v) <> 0)
    (Px : Rabs (valF (cx p)) <= L) (Py : Rabs (valF (cy p)) <= L) (Pz : Rabs (valF (cz p) / valF (cz v)) <= L).
  Let T := - valF (cz p) / valF (cz v).
  Let dt := ndiv (nopp (cz p)) (cz v).
  Lemma RL1 : inrange L. Proof. replace L with (1 * L) by ring. apply room; trivial; lra. Qed.
  Lemma UL : 0 < ulp * L <= / 1000000000000 * L.
  Proof. pose proof ulp_small. pose proof (room_pos _ RL). split; [apply Rmult_lt_0_compat; lra|apply Rmult_le_compat_r; lra]. Qed.
  Lemma T_le : Rabs T <= L.
  Proof. unfold T. replace (- valF (cz p) / valF (cz v)) with (- (valF (cz p) / valF (cz v))) by (field; exact Vz). rewrite Rabs_Ropp. exact Pz. Qed.
  Lemma dt_close : close (ulp * L) dt T.
  Proof.
    unfold dt, T. destruct Fp as (_ & _ & Fz). pose proof (opp_finite _ Fz) as Fo. pose proof (opp_exact _ Fo) as [_ Eo]. rewrite <- Eo.
    apply close_div; trivial. apply RL1. apply Sv. rewrite Eo. exact T_le.
  Qed.
  Lemma land a w : finF a -> sized 2 w -> Rabs (valF a) <= L -> close (7 * ulp * L) (nadd a (nmul w dt)) (valF a + valF w * T).
  Proof.
    intros Fa [Fw Sw] Sa. pose proof UL. pose proof (room_pos _ RL). pose proof T_le.
    pose proof (abs_mul _ _ _ _ Sw T_le).
    assert (K : close (4 * ulp * L) (nmul w dt) (valF w * T)).
    { apply (close_mul 0 (ulp * L) 2 L (2 * L)); trivial; try lra; [apply room; trivial; lra|apply fin_close; assumption|apply dt_close]. }
    apply (close_add 0 (4 * ulp * L) (3 * L)); trivial; try lra; [apply room; trivial; lra|apply fin_close; assumption|].
    eapply Rle_trans; [apply Rabs_triang|lra].
  Qed.
  Lemma land_z : Rabs (valF (nadd (cz p) (nmul (cz v) dt))) <= 3 * ulp * (Rabs (valF (cz v)) * L) \/ Rabs (valF (cz v)) * L < two (-840).
  Proof.
    set (Z := Rabs (valF (cz v)) * L). destruct (Rle_lt_dec (two (-840)) Z) as [RZ|RZ]; [left|right; exact RZ].
    pose proof UL. pose proof (room_pos _ RL) as PL. destruct Sv as (_ & _ & Fw & Sw). destruct Fp as (_ & _ & Fz).
    assert (Vp : 0 < Rabs (valF (cz v))) by (apply Rabs_pos_lt; exact Vz).
    assert (ZP : 0 < Z) by (apply Rmult_lt_0_compat; assumption).
    assert (UZ : 0 < ulp * Z <= / 1000000000000 * Z) by (pose proof ulp_small; split; [apply Rmult_lt_0_compat; lra|apply Rmult_le_compat_r; lra]).
    assert (Zhi : Z <= 2 * L) by (unfold Z; apply Rmult_le_compat_r; lra).
    assert (R2 : inrange (2 * L)) by (apply room; trivial; lra).
    assert (R : inrange Z). { split. eapply Rle_trans; [|exact RZ]. apply two_le; lia. destruct R2. lra. }
    assert (Zp : Rabs (valF (cz p)) <= Z).
    { unfold Z. replace (valF (cz p)) with (valF (cz v) * (valF (cz p) / valF (cz v))) by (field; exact Vz). rewrite Rabs_mult. apply Rmult_le_compat_l; [lra|exact Pz]. }
    assert (E : valF (cz v) * T = - valF (cz p)) by (unfold T; field; exact Vz).
    assert (K : close (2 * ulp * Z) (nmul (cz v) dt) (- valF (cz p))).
    { rewrite <- E. apply (close_mul 0 (ulp * L) (Rabs (valF (cz v))) L Z); trivial; try lra.
      - apply fin_close; assumption.
      - apply dt_close.
      - apply T_le.
      - rewrite E, Rabs_Ropp. exact Zp.
      - replace (Rabs (valF (cz v)) * (ulp * L)) with (ulp * Z) by (unfold Z; ring). lra.
      - replace (Rabs (valF (cz v)) * (ulp * L)) with (ulp * Z) by (unfold Z; ring). lra. }
    assert (RU : inrange (8 * ulp * Z)).
    { split. 2:{ destruct R. eapply Rle_trans; [|exact H1]. lra. }
      apply Rle_trans with (ulp * two (-840)).
      - unfold ulp. rewrite <- two_add. apply two_le. lia.
      - pose proof ulp_small. replace (8 * ulp * Z) with (ulp * (8 * Z)) by ring. apply Rmult_le_compat_l; lra. }
    assert (K2 : close (3 * ulp * Z) (nadd (cz p) (nmul (cz v) dt)) (valF (cz p) + - valF (cz p))).
    { apply (close_add 0 (2 * ulp * Z) (8 * ulp * Z)); trivial; try lra.
      - apply fin_close; assumption.
      - rewrite Rplus_opp_r, Rabs_R0. lra.
      - assert (ulp * (8 * ulp * Z) <= / 1000000000000 * (8 * (ulp * Z))); [|lra].
        pose proof ulp_small. replace (8 * ulp * Z) with (8 * (ulp * Z)) by ring. apply Rmult_le_compat_r; lra. }
    destruct K2 as [_ K2]. rewrite Rplus_opp_r, Rminus_0_r in K2. exact K2.
  Qed.
End PlaneHit.
(** A ray that reaches a plane lands where the line meets it, and on it. *)
Theorem plane_accurate L dr d c niter r : inrange4 L -> failed r = false ->
  let p := fwd_point dr d (pos r) in let v := fwd_vel d (vel r) in
  sizedV L p -> sizedV 2 v -> valF (cz v) <> 0 -> sized L (time r) -> Rabs (valF (cz p) / valF (cz v)) <= L ->
  let r' := ray_intersect Plane dr d c niter r in let T := - valF (cz p) / valF (cz v) in
  failed r' = false /\ vel r' = v /\
  closeV (7 * ulp * L) (pos r') (plusR (valV p) (timesR T (valV v))) /\ close (3 * ulp * L) (time r') (valF (time r) + T) /\
  (two (-840) <= Rabs (valF (cz v)) * L -> Rabs (valF (cz (pos r'))) <= 3 * ulp * (Rabs (valF (cz v)) * L)).
Proof.
  intros RL Hf p v (Sx & Sy & Sz) Sv Vz [Ft St] Pz r' T. pose proof (room_pos _ RL) as P. pose proof (UL _ RL) as U.
  assert (Fp : finV p) by (split; [|split]; [apply Sx|apply Sy|apply Sz]).
  set (dt := ndiv (nopp (cz p)) (cz v)).
  assert (E : r' = Ray (advance p v dt) v (nadd (time r) dt) (wavelength r)
     (match c with None => flux r | Some c => nmul (flux r) (getTransmit c (wavelength r) (nmul (dot3 v (normal Plane (cx (advance p v dt)) (cy (advance p v dt)))) (invspeed v))) end)
     (vignetted r) (failed r)).
  { unfold r', ray_intersect. rewrite Hf. fold p. fold v. unfold hit. change (tti Plane (cx p) (cy p) (cz p) (cx v) (cy v) (cz v) n0 niter) with (plane_tti (cx p) (cy p) (cz p) (cx v) (cy v) (cz v) n0).
    unfold plane_tti. destruct Sv as (_ & _ & Fz & _). rewrite (eqb_0 _ Fz Vz). reflexivity. }
  rewrite E. cbn [pos vel time failed].
  split; [exact Hf|]. split; [reflexivity|]. split; [|split].
  - unfold closeV, advance, plusR, timesR, valV; cbn [cx cy cz]. rewrite !(Rmult_comm T).
    split; [|split]; apply (land p v L); trivial; first [apply Fp|apply Sv|apply Sx|apply Sy|apply Sz].
  - pose proof (T_le p v L Vz Pz) as TL. fold T in TL.
    apply (close_add 0 (ulp * L) (2 * L)); try lra; [apply room; trivial; lra|apply fin_close; assumption|apply (dt_close p v L); assumption|].
    eapply Rle_trans; [apply Rabs_triang|lra].
  - intros B. destruct (land_z p v L RL Fp Sv Vz Pz) as [H|H]; [exact H|lra].
Qed.

(** * Reflection *)
Lemma reflect_close v n : finV v -> finV n -> lenR (valV v) <= 1.2 -> lenR (valV n) <= 1.01 ->
  closeV (33 * ulp) (reflect_vel v n) (minusR (valV v) (timesR (2 * dotR (valV v) (valV n)) (valV n))).
Proof.
  intros Fv Fn Lv Ln. pose proof ulp_small as [U0 U1]. pose proof (len_nonneg (valV v)). pose proof (len_nonneg (valV n)).
  assert (Sv : ofsizeV 1.2 (valV v)) by (apply ofsizeV_le with (2 := len_comp _); exact Lv).
  assert (Sn : ofsizeV 1.01 (valV n)) by (apply ofsizeV_le with (2 := len_comp _); exact Ln).
  assert (RR : forall k, 1 <= k <= 1000 -> inrange k) by (intros k K; replace k with (k * 1) by ring; apply room; [apply room_1|exact K]).
  destruct (finV_close v Fv) as (V0 & V1 & V2). destruct (finV_close n Fn) as (N0 & N1 & N2).
  destruct Sv as (Sv0 & Sv1 & Sv2). destruct Sn as (Sn0 & Sn1 & Sn2).
  assert (A : close (10 * ulp) (dot3 v n) (dotR (valV v) (valV n))).
  { unfold dot3, dotR. eapply close_weaken; [apply (close_dot3 0 0 1.2 1.01); trivial; try lra|lra].
    - apply RR; lra.
    - destruct (RR (3 * (1.2 * 1.01)) ltac:(lra)) as [_ H1]. exact H1. }
  assert (AA : Rabs (dotR (valV v) (valV n)) <= 1.22).
  { eapply Rle_trans; [apply dot_len|]. assert (lenR (valV v) * lenR (valV n) <= 1.2 * 1.01) by (apply Rmult_le_compat; lra). lra. }
  assert (TW : close 0 (n2 (T := F64)) 2).
  { split; [exact I|]. replace (valF n2) with 2. rewrite Rminus_diag_eq by reflexivity. rewrite Rabs_R0. lra.
    unfold valF, n2; cbn. unfold two. simpl. lra. }
  assert (B : close (23 * ulp) (nmul n2 (dot3 v n)) (2 * dotR (valV v) (valV n))).
  { apply (close_mul 0 (10 * ulp) 2 1.22 2.44); trivial; try lra; [apply RR; lra|rewrite Rabs_pos_eq; lra|].
    rewrite Rabs_mult, (Rabs_pos_eq 2) by lra. lra. }
  assert (BB : Rabs (2 * dotR (valV v) (valV n)) <= 2.44) by (rewrite Rabs_mult, (Rabs_pos_eq 2) by lra; lra).
  assert (K : forall a x, close 0 a x -> Rabs x <= 1.01 -> close (26 * ulp) (nmul (nmul n2 (dot3 v n)) a) (2 * dotR (valV v) (valV n) * x)).
  { intros a x Ca Sa. apply (close_mul (23 * ulp) 0 2.44 1.01 2.4644); trivial; try lra; [apply RR; lra|].
    pose proof (abs_mul _ _ _ _ BB Sa). lra. }
  assert (KK : forall x, Rabs x <= 1.01 -> Rabs (2 * dotR (valV v) (valV n) * x) <= 2.4644).
  { intros x Sa. pose proof (abs_mul _ _ _ _ BB Sa). lra. }
  assert (M : forall a x b y, close 0 a x -> Rabs x <= 1.2 -> close 0 b y -> Rabs y <= 1.01 ->
    close (33 * ulp) (nsub a (nmul (nmul n2 (dot3 v n)) b)) (x - 2 * dotR (valV v) (valV n) * y)).
  { intros a x b y Ca Sa Cb Sb. pose proof (KK y Sb). apply (close_sub 0 (26 * ulp) 3.67); trivial; try lra; [apply RR; lra|apply K; assumption|].
    unfold Rminus. eapply Rle_trans; [apply Rabs_triang|]. rewrite Rabs_Ropp. lra. }
  unfold closeV, reflect_vel, minusR, timesR; cbn [cx cy cz]. split; [|split]; apply M; assumption.
Qed.
Lemma len_close e a x : 0 <= e -> closeV e a x -> Rabs (dotR (valV a) (valV a) - dotR x x) <= 1.7321 * e * (2 * lenR x + 1.7321 * e).
Proof.
  intros E C. pose proof (closeV_len _ _ _ E C) as D. set (w := minusR (valV a) x) in *.
  replace (dotR (valV a) (valV a) - dotR x x) with (2 * dotR x w + dotR w w) by (unfold w, dotR, minusR; cbn; ring).
  pose proof (dot_len x w) as X. pose proof (len_nonneg x). pose proof (len_nonneg w). rewrite <- (len_sq w).
  eapply Rle_trans; [apply Rabs_triang|]. rewrite Rabs_mult, (Rabs_pos_eq 2) by lra. rewrite (Rabs_pos_eq (_ * _)) by nra.
  assert (lenR x * lenR w <= lenR x * (1.7321 * e)) by (apply Rmult_le_compat_l; lra).
  assert (lenR w * lenR w <= 1.7321 * e * (1.7321 * e)) by (apply Rmult_le_compat; lra). lra.
Qed.
(** One reflection changes the squared speed by the departure of the normal from unit length and rounding. *)
Theorem reflect_speed v n tau : finV v -> finV n -> lenR (valV v) <= 1.2 -> tau <= / 100 -> nearly tau (dotR (valV n) (valV n)) 1 ->
  finV (reflect_vel v n) /\ Rabs (dotR (valV (reflect_vel v n)) (valV (reflect_vel v n)) - dotR (valV v) (valV v)) <= 6 * tau + 145 * ulp.
Proof.
  intros Fv Fn Lv T N. pose proof ulp_small as [U0 U1]. unfold nearly in N. pose proof (Rabs_pos (dotR (valV n) (valV n) - 1)) as T0.
  assert (Ln : lenR (valV n) <= 1.01) by (apply abs_between in N; apply len_le; lra).
  pose proof (reflect_close v n Fv Fn Lv Ln) as C. split; [eapply closeV_fin; exact C|].
  set (x := minusR _ _) in C. assert (E0 : 0 <= 33 * ulp) by lra. pose proof (len_close _ _ _ E0 C) as D.
  pose proof (dot_len (valV v) (valV n)) as A. pose proof (len_nonneg (valV v)). pose proof (len_nonneg (valV n)).
  assert (A2 : Rabs (dotR (valV v) (valV n)) <= 1.212) by (assert (lenR (valV v) * lenR (valV n) <= 1.2 * 1.01) by (apply Rmult_le_compat; lra); lra).
  set (al := dotR (valV v) (valV n)) in *.
  assert (E : dotR x x - dotR (valV v) (valV v) = 4 * (al * al) * (dotR (valV n) (valV n) - 1)).
  { unfold x, al, dotR, minusR, timesR; cbn. ring. }
  assert (AA : al * al <= 1.469) by (pose proof (abs_mul _ _ _ _ A2 A2); pose proof (Rle_abs (al * al)); lra).
  assert (AP : 0 <= al * al) by (pose proof (Rle_0_sqr al); unfold Rsqr in *; lra).
  assert (X : Rabs (dotR x x - dotR (valV v) (valV v)) <= 5.876 * tau).
  { rewrite E, Rabs_mult, (Rabs_pos_eq (4 * (al * al))) by lra. apply Rmult_le_compat; trivial; lra. }
  assert (Lx : lenR x <= 1.23).
  { apply len_le; [lra|]. apply abs_between in X. assert (P12 : 0 <= 1.2) by lra; pose proof (proj1 (len_le (valV v) 1.2 P12) Lv). lra. }
  replace (dotR (valV (reflect_vel v n)) (valV (reflect_vel v n)) - dotR (valV v) (valV v)) with
    ((dotR (valV (reflect_vel v n)) (valV (reflect_vel v n)) - dotR x x) + (dotR x x - dotR (valV v) (valV v))) by ring.
  eapply Rle_trans; [apply Rabs_triang|]. pose proof (len_nonneg x).
  assert (1.7321 * (33 * ulp) * (2 * lenR x + 1.7321 * (33 * ulp)) <= 1.7321 * (33 * ulp) * 2.4601) by (apply Rmult_le_compat_l; lra). lra.
Qed.
(** Rotating the velocity into another frame. *)
Lemma frame_speed tau f t v : finC f -> finC t -> tau <= / 100 -> nearly_orthonormal tau (valM (rot f)) -> nearly_orthonormal tau (valM (rot t)) ->
  finV v -> lenR (valV v) <= 1.2 ->
  let w := fwd_vel (ct_drot (mkCT f t)) v in
  finV w /\ Rabs (dotR (valV w) (valV w) - dotR (valV v) (valV v)) <= 10 * tau + 190 * ulp.
Proof.
  intros Ff Ft T Nf Nt Fv Lv w. pose proof ulp_small as [U0 U1].
  assert (R : inrange4 1.2). { destruct room_1 as [A B]. split; [lra|]. apply Rle_trans with (two 1); [unfold two; simpl; lra|apply two_le; lia]. }
  pose proof (fwd_vel_accurate f t tau Ff Ft T Nf Nt v 1.2 R Fv Lv) as C. fold w in C. split; [eapply closeV_fin; exact C|].
  set (x := chg_vec _ _ _) in C. assert (E0 : 0 <= 36 * ulp * 1.2) by lra. pose proof (len_close _ _ _ E0 C) as D.
  destruct Nf as [Nf1 Nf2], Nt as [Nt1 Nt2]. pose proof (nearly_tau _ _ Nf1) as T0.
  assert (X : x = applyR (transR (valM (rot t))) (applyR (valM (rot f)) (valV v))) by (unfold x; rewrite chg_vec_eq; reflexivity).
  set (u := applyR (valM (rot f)) (valV v)) in *.
  pose proof (apply_norm _ _ (valV v) Nf1) as H1. fold u in H1. pose proof (apply_norm _ _ u Nt2) as H2. rewrite <- X in H2.
  assert (P12 : 0 <= 1.2) by lra; pose proof (proj1 (len_le (valV v) 1.2 P12) Lv) as V2. pose proof (dot_nonneg (valV v)). pose proof (dot_nonneg u).
  assert (G1 : 3 * tau * dotR (valV v) (valV v) <= 3 * tau * 1.44) by (apply Rmult_le_compat_l; lra).
  assert (Du : dotR u u <= 1.4832) by (apply abs_between in H1; lra).
  assert (G2 : 3 * tau * dotR u u <= 3 * tau * 1.4832) by (apply Rmult_le_compat_l; lra).
  assert (Lx : lenR x <= 1.24) by (apply len_le; [lra|]; apply abs_between in H2; lra). pose proof (len_nonneg x).
  replace (dotR (valV w) (valV w) - dotR (valV v) (valV v)) with ((dotR (valV w) (valV w) - dotR x x) + (dotR x x - dotR u u) + (dotR u u - dotR (valV v) (valV v))) by ring.
  assert (1.7321 * (36 * ulp * 1.2) * (2 * lenR x + 1.7321 * (36 * ulp * 1.2)) <= 1.7321 * (36 * ulp * 1.2) * 2.481) by (apply Rmult_le_compat_l; lra).
  eapply Rle_trans; [apply tri3 with (1 := D) (2 := H2) (3 := H1)|]. lra.
Qed.
