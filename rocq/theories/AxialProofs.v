(** Proofs about axially symmetric optics: the surfaces. *)
From Coq Require Import Reals List ZArith Bool Lra Psatz Lia.
From Verif Require Import Num NumR Vec CoordSys Surface Medium Obscuration Ray Bundle Optic Spec XRFacts CoordFacts
  TreeSpec AxialSpec.
Import ListNotations.
Open Scope R_scope.

(** ** Values that are not real stay so *)
Definition lost (a : XR) : Prop := match a with Fin _ => False | _ => True end.
Lemma fin_or_lost a : (exists r, a = Fin r) \/ lost a.
Proof. destruct a; cbn; eauto. Qed.
Lemma xsgn_lost p z n r : lost p -> lost z -> lost n -> lost (xsgn p z n r).
Proof. unfold xsgn. destruct (Rlt_dec 0 r), (Rlt_dec r 0); auto. Qed.
Lemma lost_add_l a b : lost a -> lost (nadd a b).
Proof. destruct a, b; cbn; auto. Qed.
Lemma lost_add_r a b : lost b -> lost (nadd a b).
Proof. destruct a, b; cbn; auto. Qed.
Lemma lost_opp a : lost a -> lost (nopp a).
Proof. destruct a; cbn; auto. Qed.
Lemma lost_sub_l a b : lost a -> lost (nsub a b).
Proof. destruct a, b; cbn; auto. Qed.
Lemma lost_sub_r a b : lost b -> lost (nsub a b).
Proof. destruct a, b; cbn; auto. Qed.
Lemma lost_mul_l a b : lost a -> lost (nmul a b).
Proof. destruct a, b; cbn; auto; intros H; try contradiction; apply xsgn_lost; exact I. Qed.
Lemma lost_mul_r a b : lost b -> lost (nmul a b).
Proof. destruct a, b; cbn; auto; intros H; try contradiction; apply xsgn_lost; exact I. Qed.
Lemma lost_div_l a b : lost a -> lost (ndiv a b).
Proof. destruct a as [x| | |], b as [y| | |]; cbn; auto; intros H; try contradiction; destruct (Rlt_dec y 0); exact I. Qed.
Lemma lost_small a k : lost a -> nltb (nabs a) (Fin k) = false.
Proof. destruct a; cbn; auto; contradiction. Qed.
Lemma add_fin a b r : nadd a b = Fin r -> exists x y, a = Fin x /\ b = Fin y /\ x + y = r.
Proof. destruct a, b; cbn; try discriminate. intros E; injection E; eauto. Qed.
Lemma sub_fin a b r : nsub a b = Fin r -> exists x y, a = Fin x /\ b = Fin y /\ x - y = r.
Proof. destruct a, b; cbn; try discriminate. intros E; injection E; eauto. Qed.
Lemma mul_fin a b r : nmul a b = Fin r -> exists x y, a = Fin x /\ b = Fin y /\ x * y = r.
Proof.
  intros E. destruct (fin_or_lost a) as [(x & ->)|L]; [|apply (lost_mul_l a b) in L; rewrite E in L; contradiction].
  destruct (fin_or_lost b) as [(y & ->)|L]; [|apply (lost_mul_r (Fin x) b) in L; rewrite E in L; contradiction].
  cbn in E. injection E; eauto.
Qed.
Lemma div_fin a b r : ndiv a b = Fin r -> exists x, a = Fin x.
Proof. destruct a as [x| | |], b as [y| | |]; cbn; try discriminate; eauto; destruct (Rlt_dec y 0); discriminate. Qed.

(** ** Turning in the plane *)
Record plane_turn := PT { qa : R; qb : R; qc : R; qd : R;
  q1 : qa * qa + qc * qc = 1; q2 : qb * qb + qd * qd = 1; q3 : qa * qb + qc * qd = 0 }.
Definition tx (q : plane_turn) (x y : R) := qa q * x + qb q * y.
Definition ty (q : plane_turn) (x y : R) := qc q * x + qd q * y.
Definition turn (q : plane_turn) (p : vR) : vR := V3 (tx q (cx p) (cy p)) (ty q (cx p) (cy p)) (cz p).
Section Turn.
  Context (q : plane_turn).
  Lemma turn_dot x y x' y' : tx q x y * tx q x' y' + ty q x y * ty q x' y' = x * x' + y * y'.
  Proof.
    unfold tx, ty. destruct q as [a b c d H1 H2 H3]; cbn.
    replace ((a * x + b * y) * (a * x' + b * y') + (c * x + d * y) * (c * x' + d * y'))
      with ((a * a + c * c) * (x * x') + (b * b + d * d) * (y * y') + (a * b + c * d) * (x * y' + y * x')) by ring.
    rewrite H1, H2, H3. ring.
  Qed.
  Lemma dot_turn u v : dotR (turn q u) (turn q v) = dotR u v.
  Proof. unfold dotR, turn; cbn. pose proof (turn_dot (cx u) (cy u) (cx v) (cy v)). lra. Qed.
  Lemma turn_plus u v : turn q (plusR u v) = plusR (turn q u) (turn q v).
  Proof. apply vec3_eq; cbn; unfold tx, ty; cbn; ring. Qed.
  Lemma turn_times k u : turn q (timesR k u) = timesR k (turn q u).
  Proof. apply vec3_eq; cbn; unfold tx, ty; cbn; ring. Qed.
  (** The two combinations surfaces use. *)
  Lemma turn_xx x y x' y' :
    nadd (nmul (Fin (tx q x y)) (Fin (tx q x' y'))) (nmul (Fin (ty q x y)) (Fin (ty q x' y')))
    = nadd (nmul (Fin x) (Fin x')) (nmul (Fin y) (Fin y')).
  Proof. cbn. f_equal. apply turn_dot. Qed.

  (** *** Sags *)
  Lemma round_sag s : round_surface s -> forall x y, sag s (Fin (tx q x y)) (Fin (ty q x y)) = sag s (Fin x) (Fin y).
  Proof.
    induction 1 as [|R|R|R k|R k cs|l Hl IH]; intros x y; cbn [sag]; try reflexivity;
      try (unfold asphere_sag, quadric_sag, sphere_sag, paraboloid_sag; rewrite !turn_xx; reflexivity).
    generalize (@n0 XR _). induction l as [|s l IHl]; intros acc; cbn [fold_left]; [reflexivity|].
    rewrite IH by (left; reflexivity). apply IHl; intros; [apply Hl|apply IH]; right; assumption.
  Qed.

  (** *** Normals *)
  Definition nimg (n n' : vec3 XR) : Prop :=
    (exists m, n = F3 m /\ n' = F3 (turn q m) /\ cz m <> 0) \/
    (lost (cx n) /\ lost (cy n) /\ lost (cx n') /\ lost (cy n')).
  Lemma nimg_zhat : nimg zhat zhat.
  Proof.
    left. exists (V3 0 0 1). split; [reflexivity|]. split; [|cbn; lra].
    unfold zhat, turn, F3, vmap; cbn. unfold tx, ty; f_equal; xunf; f_equal; ring.
  Qed.
  (** x*k*nz, y*k*nz, nz with nz = 1/sqrt(1 + g^2) *)
  Lemma nimg_scaled (k : XR) (f g : R -> XR) x y :
    (forall u, lost k -> lost (f u)) -> (forall c, k = Fin c -> exists h w, w <> 0 /\ (forall u, f u = Fin (h * u)) /\ g 0 = Fin w) ->
    (forall u v, g u = g v) ->
    nimg (V3 (nmul (f x) (g 0)) (nmul (f y) (g 0)) (g 0)) (V3 (nmul (f (tx q x y)) (g 0)) (nmul (f (ty q x y)) (g 0)) (g 0)).
  Proof.
    intros H1 H2 _. destruct (fin_or_lost k) as [(c & ->)|L].
    - left. destruct (H2 c eq_refl) as (h & w & Hw & Hf & ->). exists (V3 (h * x * w) (h * y * w) w). rewrite !Hf. cbn.
      split; [reflexivity|]. split; [|exact Hw]. unfold F3, turn, vmap; cbn. unfold tx, ty; f_equal; f_equal; ring.
    - right. cbn. repeat split; apply lost_mul_l, H1, L.
  Qed.
  Lemma slope_fin dz : ndiv n1 (nsqrt (nadd n1 (nmul (Fin dz) (Fin dz)))) = Fin (1 / sqrt (1 + dz * dz)) /\ 1 / sqrt (1 + dz * dz) <> 0.
  Proof.
    assert (0 < sqrt (1 + dz * dz)) by (apply sqrt_lt_R0; nra). xunf. rewrite xsqrt_fin by nra. rewrite xdiv_fin by lra.
    split; [reflexivity|]. unfold Rdiv. rewrite Rmult_1_l. apply Rinv_neq_0_compat. lra.
  Qed.
  Lemma nimg_radial (dz : XR) r x y : r <> 0 ->
    let nz := ndiv n1 (nsqrt (nadd n1 (nmul dz dz))) in
    nimg (V3 (nmul (nmul (ndiv (nopp (Fin x)) (Fin r)) dz) nz) (nmul (nmul (ndiv (nopp (Fin y)) (Fin r)) dz) nz) nz)
         (V3 (nmul (nmul (ndiv (nopp (Fin (tx q x y))) (Fin r)) dz) nz) (nmul (nmul (ndiv (nopp (Fin (ty q x y))) (Fin r)) dz) nz) nz).
  Proof.
    intros Hr nz.
    apply (nimg_scaled dz (fun u => nmul (ndiv (nopp (Fin u)) (Fin r)) dz) (fun _ => nz)).
    - intros u L. apply lost_mul_r, L.
    - intros c ->. exists (- c / r), (1 / sqrt (1 + c * c)). destruct (slope_fin c) as (E1 & E2). split; [exact E2|].
      split; [|exact E1]. intros u. cbn [nopp NumXR xopp]. cbn [ndiv NumXR]. rewrite xdiv_fin by exact Hr. cbn. f_equal. field. exact Hr.
    - reflexivity.
  Qed.
  Lemma round_normal s : round_surface s -> forall x y, nimg (normal s (Fin x) (Fin y)) (normal s (Fin (tx q x y)) (Fin (ty q x y))).
  Proof.
    induction 1 as [|R|R|R k|R k cs|l Hl IH]; intros x y; cbn [normal].
    - apply nimg_zhat.
    - unfold sphere_normal. rewrite turn_xx. cbv zeta. destruct (neqb R n0) eqn:ER; cbn [orb]; [apply nimg_zhat|].
      cbn [nadd nmul NumXR xadd xmul]. destruct (neqb (Fin (x * x + y * y)) n0) eqn:E; [apply nimg_zhat|].
      cbn [nsqrt NumXR]. rewrite xsqrt_fin by nra. apply nimg_radial. intros Z.
      apply sqrt_eq_0 in Z; [|nra]. xunf. rewrite xeqb_t in E by exact Z. discriminate.
    - unfold paraboloid_normal. rewrite turn_xx. cbv zeta. destruct (neqb R n0) eqn:ER; [apply nimg_zhat|].
      set (Ri := ndiv n1 R). set (nz := ndiv n1 (nsqrt _)).
      apply (nimg_scaled Ri (fun u => nmul (nopp (Fin u)) Ri) (fun _ => nz)).
      + intros u L. apply lost_mul_r, L.
      + intros c Ec. set (g := sqrt (x * x + y * y) * c). exists (- c), (1 / sqrt (1 + g * g)). destruct (slope_fin g) as (E1 & E2).
        split; [exact E2|]. split; [intros u; rewrite Ec; cbn; f_equal; ring|]. rewrite <- E1. unfold nz. rewrite Ec. cbn.
        replace (g * g) with ((x * x + y * y) * c * c); [reflexivity|]. unfold g. rewrite <- (sqrt_sqrt (x * x + y * y)) at 1 by nra. ring.
      + reflexivity.
    - unfold radial_normal. rewrite turn_xx. cbn [nadd nmul NumXR xadd xmul nsqrt]. rewrite xsqrt_fin by nra. cbv zeta.
      destruct (neqb (Fin (sqrt _)) n0) eqn:E; [apply nimg_zhat|]. apply nimg_radial. intros Z. xunf. rewrite xeqb_t in E by exact Z. discriminate.
    - unfold radial_normal. rewrite turn_xx. cbn [nadd nmul NumXR xadd xmul nsqrt]. rewrite xsqrt_fin by nra. cbv zeta.
      destruct (neqb (Fin (sqrt _)) n0) eqn:E; [apply nimg_zhat|]. apply nimg_radial. intros Z. xunf. rewrite xeqb_t in E by exact Z. discriminate.
    - set (st := fun '(ax, ay) (s : surface XR) => let n := normal s (Fin x) (Fin y) in (nadd ax (ndiv (cx n) (cz n)), nadd ay (ndiv (cy n) (cz n)))).
      set (st' := fun '(ax, ay) (s : surface XR) => let n := normal s (Fin (tx q x y)) (Fin (ty q x y)) in (nadd ax (ndiv (cx n) (cz n)), nadd ay (ndiv (cy n) (cz n)))).
      set (R2 := fun a a' : XR * XR => (exists u v, a = (Fin u, Fin v) /\ a' = (Fin (tx q u v), Fin (ty q u v))) \/
                   (lost (fst a) /\ lost (snd a) /\ lost (fst a') /\ lost (snd a'))).
      assert (S0 : R2 (n0, n0) (n0, n0)).
      { left. exists 0, 0. split; [reflexivity|]. unfold tx, ty. xunf. f_equal; f_equal; ring. }
      assert (SS : forall l a a', (forall s, In s l -> forall x y, nimg (normal s (Fin x) (Fin y)) (normal s (Fin (tx q x y)) (Fin (ty q x y)))) ->
                R2 a a' -> R2 (fold_left st l a) (fold_left st' l a')).
      { clear. induction l as [|s l IHl]; intros a a' IH Ha; [exact Ha|]. cbn [fold_left].
        apply IHl; [intros; apply IH; right; assumption|]. specialize (IH s (or_introl eq_refl) x y). unfold st, st'.
        destruct a as [a1 a2], a' as [b1 b2]. cbv zeta. destruct Ha as [(u & v & E1 & E2)|(L1 & L2 & L3 & L4)].
        - injection E1 as -> ->. injection E2 as -> ->. destruct IH as [(m & -> & -> & Hz)|(L1 & L2 & L3 & L4)].
          + left. cbn [F3 vmap cx cy cz turn ndiv NumXR]. rewrite !xdiv_fin by exact Hz. cbn.
            exists (u + cx m / cz m), (v + cy m / cz m). split; [reflexivity|]. unfold tx, ty. f_equal; f_equal; field; exact Hz.
          + right. cbn [fst snd]. repeat split; apply lost_add_r, lost_div_l; assumption.
        - right. cbn [fst snd] in *. repeat split; apply lost_add_l; assumption. }
      pose proof (SS l _ _ IH S0) as H. change (fold_left _ l (n0, n0)) with (fold_left st l (n0, n0)) at 1.
      match goal with |- nimg _ (let '(_, _) := ?X in _) => change X with (fold_left st' l (n0, n0)) end.
      destruct (fold_left st l _) as [a1 a2], (fold_left st' l _) as [b1 b2].
      destruct H as [(u & v & E1 & E2)|(L1 & L2 & L3 & L4)].
      + injection E1 as -> ->. injection E2 as -> ->. rewrite turn_xx. cbv zeta.
        set (nz := ndiv n1 (nsqrt _)). 
        apply (nimg_scaled (Fin 1) (fun u => Fin u) (fun _ => nz)).
        * intros ? [].
        * intros c _. set (g := sqrt (u * u + v * v)). exists 1, (1 / sqrt (1 + g * g)). destruct (slope_fin g) as (E1 & E2).
          split; [exact E2|]. split; [intros w; f_equal; ring|]. rewrite <- E1. unfold nz. cbn.
          replace (1 + g * g) with (u * u + v * v + 1); [reflexivity|]. unfold g. rewrite sqrt_sqrt by nra. ring.
        * reflexivity.
      + right. cbn [fst snd cx cy] in *. repeat split; apply lost_mul_l; assumption.
  Qed.

  (** *** Intersections *)
  (** Same success, and then the same time. *)
  Definition same_hit (h h' : bool * XR) : Prop := fst h' = fst h /\ (fst h = true -> snd h' = snd h).
  Lemma same_refl h : same_hit h h.
  Proof. split; auto. Qed.
  Section Newton.
    Context (sg : XR -> XR -> XR) (nm : XR -> XR -> vec3 XR)
      (Hs : forall x y, sg (Fin (tx q x y)) (Fin (ty q x y)) = sg (Fin x) (Fin y))
      (Hn : forall x y, nimg (nm (Fin x) (Fin y)) (nm (Fin (tx q x y)) (Fin (ty q x y)))).
    (** Once the point is lost the iteration fails. *)
    Lemma newton_lost x y z vx vy vz n : forall dt a b c sz, lost a -> lost c ->
      fst (newton_loop sg nm x y z vx vy vz n dt a b c sz) = false.
    Proof.
      induction n as [|n IH]; intros dt a b c sz La Lc; cbn [newton_loop fst].
      - apply lost_small, lost_sub_r, Lc.
      - cbv zeta. set (num := nadd (nadd (nmul (nsub a x) _) _) _).
        assert (Ln : lost num) by (apply lost_add_l, lost_add_l, lost_mul_l, lost_sub_l, La).
        apply IH; apply lost_add_r, lost_mul_r, lost_div_l, Ln.
    Qed.
    Lemma newton_turn p v n : forall dt X Y Z sz,
      same_hit (newton_loop sg nm (Fin (cx p)) (Fin (cy p)) (Fin (cz p)) (Fin (cx v)) (Fin (cy v)) (Fin (cz v)) n dt (Fin X) (Fin Y) (Fin Z) sz)
        (newton_loop sg nm (Fin (tx q (cx p) (cy p))) (Fin (ty q (cx p) (cy p))) (Fin (cz p))
           (Fin (tx q (cx v) (cy v))) (Fin (ty q (cx v) (cy v))) (Fin (cz v)) n dt (Fin (tx q X Y)) (Fin (ty q X Y)) (Fin Z) sz).
    Proof.
      induction n as [|n IH]; intros dt X Y Z sz; cbn [newton_loop].
      - apply same_refl.
      - cbv zeta. pose proof (Hn X Y) as HN. set (N := nm (Fin X) (Fin Y)) in *. set (N' := nm (Fin (tx q X Y)) (Fin (ty q X Y))) in *.
        set (num := nadd (nadd _ _) _). set (den := nadd (nadd _ _) _). set (num' := nadd (nadd _ _) _). set (den' := nadd (nadd _ _) _).
        assert (C : (num' = num /\ den' = den) \/ lost num /\ lost num').
        { destruct HN as [(m & E1 & E2 & _)|(L1 & L2 & L3 & L4)].
          - left. unfold num, num', den, den'. rewrite E1, E2. cbn [F3 vmap turn cx cy cz].
            split; f_equal; cbn [nadd nmul nsub NumXR xadd xmul xsub]; f_equal.
            + pose proof (turn_dot (X - cx p) (Y - cy p) (cx m) (cy m)) as T. unfold tx, ty in *. nra.
            + pose proof (turn_dot (cx m) (cy m) (cx v) (cy v)) as T. unfold tx, ty in *. nra.
          - right. split; apply lost_add_l, lost_add_l, lost_mul_r; assumption. }
        destruct C as [(-> & ->)|(L & L')].
        + destruct (fin_or_lost (ndiv num den)) as [(d & ->)|L].
          * cbn [nadd nmul NumXR xadd xmul].
            replace (tx q (cx p) (cy p) + tx q (cx v) (cy v) * d) with (tx q (cx p + cx v * d) (cy p + cy v * d)) by (unfold tx; ring).
            replace (ty q (cx p) (cy p) + ty q (cx v) (cy v) * d) with (ty q (cx p + cx v * d) (cy p + cy v * d)) by (unfold ty; ring).
            rewrite Hs. apply IH.
          * split; [|rewrite newton_lost by (apply lost_add_r, lost_mul_r, L); discriminate].
            rewrite !newton_lost by (apply lost_add_r, lost_mul_r, L). reflexivity.
        + split; [|rewrite newton_lost by (apply lost_add_r, lost_mul_r, lost_div_l, L); discriminate].
          rewrite !newton_lost by (apply lost_add_r, lost_mul_r, lost_div_l; assumption). reflexivity.
    Qed.
    Lemma newton_same p v n dt :
      same_hit (newton sg nm (Fin (cx p)) (Fin (cy p)) (Fin (cz p)) (Fin (cx v)) (Fin (cy v)) (Fin (cz v)) dt n)
        (newton sg nm (Fin (tx q (cx p) (cy p))) (Fin (ty q (cx p) (cy p))) (Fin (cz p))
           (Fin (tx q (cx v) (cy v))) (Fin (ty q (cx v) (cy v))) (Fin (cz v)) dt n).
    Proof.
      unfold newton. cbv zeta. destruct (fin_or_lost dt) as [(d & ->)|L].
      - cbn [nadd nmul NumXR xadd xmul].
        replace (tx q (cx p) (cy p) + tx q (cx v) (cy v) * d) with (tx q (cx p + cx v * d) (cy p + cy v * d)) by (unfold tx; ring).
        replace (ty q (cx p) (cy p) + ty q (cx v) (cy v) * d) with (ty q (cx p + cx v * d) (cy p + cy v * d)) by (unfold ty; ring).
        rewrite Hs. apply newton_turn.
      - split; [|rewrite newton_lost by (apply lost_add_r, lost_mul_r, L); discriminate].
        rewrite !newton_lost by (apply lost_add_r, lost_mul_r, L). reflexivity.
    Qed.
  End Newton.
  Lemma round_tti s : round_surface s -> forall p v n,
    same_hit (tti s (Fin (cx p)) (Fin (cy p)) (Fin (cz p)) (Fin (cx v)) (Fin (cy v)) (Fin (cz v)) n0 n)
      (tti s (Fin (tx q (cx p) (cy p))) (Fin (ty q (cx p) (cy p))) (Fin (cz p))
         (Fin (tx q (cx v) (cy v))) (Fin (ty q (cx v) (cy v))) (Fin (cz v)) n0 n).
  Proof.
    assert (Q : forall R k p v, quadric_tti R k (Fin (tx q (cx p) (cy p))) (Fin (ty q (cx p) (cy p))) (Fin (cz p))
         (Fin (tx q (cx v) (cy v))) (Fin (ty q (cx v) (cy v))) (Fin (cz v)) n0
       = quadric_tti R k (Fin (cx p)) (Fin (cy p)) (Fin (cz p)) (Fin (cx v)) (Fin (cy v)) (Fin (cz v)) n0).
    { intros. unfold quadric_tti. rewrite !turn_xx. reflexivity. }
    induction 1 as [|R|R|R k|R k cs|l Hl IH]; intros p v n; cbn [tti].
    - apply same_refl.
    - unfold sphere_tti. rewrite !turn_xx. apply same_refl.
    - unfold paraboloid_tti. rewrite !turn_xx. apply same_refl.
    - rewrite Q. apply same_refl.
    - rewrite Q. destruct (quadric_tti _ _ _ _ _ _ _ _ _) as [[] dt]; cbn [negb]; [|apply same_refl].
      apply newton_same; [apply (round_sag (Asphere R k cs)); constructor|apply (round_normal (Asphere R k cs)); constructor].
    - destruct l as [|s0 l]; [apply same_refl|]. pose proof (IH s0 (or_introl eq_refl) p v n) as (E1 & E2).
      destruct (tti s0 _ _ _ (Fin (cx v)) _ _ _ _) as [ok dt], (tti s0 _ _ _ (Fin (tx q (cx v) (cy v))) _ _ _ _) as [ok' dt']; cbn [fst snd] in *. subst ok'.
      destruct ok; cbn [negb]; [|split; [reflexivity|discriminate]]. rewrite E2 by reflexivity.
      apply newton_same; [apply round_sag|apply round_normal]; constructor; exact Hl.
  Qed.
  Lemma round_hit s n p v : round_surface s -> same_hit (hit s n (F3 p) (F3 v)) (hit s n (F3 (turn q p)) (F3 (turn q v))).
  Proof. intros H. exact (round_tti s H p v n). Qed.

  (** *** Obscurations *)
  Lemma round_contains o : round_obsc o -> forall x y, contains o (Fin (tx q x y)) (Fin (ty q x y)) = contains o (Fin x) (Fin y).
  Proof.
    assert (H : forall x y, nhypot (nsub (Fin (tx q x y)) (Fin 0)) (nsub (Fin (ty q x y)) (Fin 0)) = nhypot (nsub (Fin x) (Fin 0)) (nsub (Fin y) (Fin 0))).
    { intros. cbn. f_equal. f_equal. rewrite !Rminus_0_r. apply turn_dot. }
    induction 1 as [r|i o|o Ho IH|l Hl IH|l Hl IH]; intros x y; cbn [contains]; rewrite ?H; try reflexivity.
    - rewrite IH. reflexivity.
    - generalize false. induction l as [|o l IHl]; intros acc; cbn [fold_left]; [reflexivity|].
      rewrite IH by (left; reflexivity). apply IHl; intros; [apply Hl|apply IH]; right; assumption.
    - generalize true. induction l as [|o l IHl]; intros acc; cbn [fold_left]; [reflexivity|].
      rewrite IH by (left; reflexivity). apply IHl; intros; [apply Hl|apply IH]; right; assumption.
  Qed.
End Turn.
