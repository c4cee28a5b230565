(** The mirror image of an optic does to the mirror images of rays what the optic does to the rays. *)
From Coq Require Import String List Bool Arith Lia Reals Lra.
From Verif Require Import Num NumR Vec CoordSys Surface Medium Obscuration Ray Bundle Optic ImageSpec MirrorSpec.
Import ListNotations.
Open Scope num_scope.

(** Signs move out of every operation. *)
Lemma xsgn_opp p z n a : xsgn p z n (- a)%R = xsgn n z p a.
Proof. unfold xsgn. repeat destruct (Rlt_dec _ _); try reflexivity; lra. Qed.
Lemma opp_xsgn p z n a : xopp (xsgn p z n a) = xsgn (xopp p) (xopp z) (xopp n) a.
Proof. unfold xsgn. repeat destruct (Rlt_dec _ _); reflexivity. Qed.
Ltac fin := cbn; rewrite ?xsgn_opp, ?opp_xsgn; cbn; try reflexivity; try (f_equal; ring).
Lemma opp_opp (a : XR) : - - a = a. Proof. destruct a; fin. Qed.
Lemma mul_opp_l (a b : XR) : - a * b = - (a * b). Proof. destruct a, b; fin. Qed.
Lemma mul_opp_r (a b : XR) : a * - b = - (a * b). Proof. destruct a, b; fin. Qed.
Lemma add_opp (a b : XR) : - a + - b = - (a + b). Proof. destruct a, b; fin. Qed.
Lemma sub_opp (a b : XR) : - a - - b = - (a - b). Proof. destruct a, b; fin. Qed.
Lemma div_opp (a b : XR) : - a / b = - (a / b).
Proof.
  destruct a, b; fin; try (destruct (Req_EM_T _ _); fin; f_equal; field; assumption); try (destruct (Rlt_dec _ _); reflexivity).
Qed.
Lemma abs_opp (a : XR) : nabs (- a) = nabs a. Proof. destruct a; cbn; rewrite ?Rabs_Ropp; reflexivity. Qed.
Lemma hypot_l (a b : XR) : nhypot (- a) b = nhypot a b. Proof. destruct a, b; cbn; try reflexivity; do 2 f_equal; ring. Qed.
Lemma hypot_r (a b : XR) : nhypot a (- b) = nhypot a b. Proof. destruct a, b; cbn; try reflexivity; do 2 f_equal; ring. Qed.
Lemma isnan_opp (a : XR) : nisnan (- a) = nisnan a. Proof. destruct a; reflexivity. Qed.
Lemma opp_0 : - (n0 : XR) = n0. Proof. cbn. f_equal. ring. Qed.
Lemma opp_nan : - (nnan : XR) = nnan. Proof. reflexivity. Qed.
#[global] Hint Rewrite opp_opp mul_opp_l mul_opp_r add_opp sub_opp div_opp abs_opp hypot_l hypot_r isnan_opp opp_0 opp_nan : signs.
Ltac signs := cbn [flip xorb]; autorewrite with signs.

Section Mir.
  Context (bx by_ : bool).
  Notation fx := (flip bx). Notation fy := (flip by_).
  Notation mv_ := (mir_vec bx by_).
  Ltac both := destruct bx, by_.

  Lemma flip_0 b : flip b n0 = n0. Proof. destruct b; signs; reflexivity. Qed.
  Lemma flip_nan b : flip b nnan = nnan. Proof. destruct b; reflexivity. Qed.

  (** ** Surfaces *)
  Lemma r2_mir (x y : XR) : fx x * fx x + fy y * fy y = x * x + y * y.
  Proof. both; signs; reflexivity. Qed.
  Lemma zhat_mir : mv_ zhat = zhat.
  Proof. unfold mir_vec, zhat; cbn [cx cy cz]. rewrite !flip_0. reflexivity. Qed.

  Lemma signed_nth b w l k j : nth j (signed bx by_ b w k l) nnan = flip (sign_at bx by_ b w (k + j)) (nth j l nnan).
  Proof.
    revert k j. induction l as [|c l IH]; intros k [|j]; cbn [signed nth]; rewrite ?flip_nan; try reflexivity.
    - rewrite Nat.add_0_r. reflexivity.
    - rewrite IH. do 2 f_equal. lia.
  Qed.
  Lemma flip_xor b c a : flip b (flip c a) = flip (xorb b c) a.
  Proof. destruct b, c; signs; reflexivity. Qed.
  Lemma flip_mul b c x y : flip b x * flip c y = flip (xorb b c) (x * y).
  Proof. destruct b, c; signs; reflexivity. Qed.
  Lemma flip_add b x y : flip b x + flip b y = flip b (x + y).
  Proof. destruct b; signs; reflexivity. Qed.
  Lemma flip_sub b x y : flip b x - flip b y = flip b (x - y).
  Proof. destruct b; signs; reflexivity. Qed.
  Lemma flip_div b x y : flip b x / y = flip b (x / y).
  Proof. destruct b; signs; reflexivity. Qed.
  Lemma flip_opp b x : - flip b x = flip b (- x).
  Proof. destruct b; signs; reflexivity. Qed.

  Lemma odd_pred n b : xorb (xorb b (by_ && Nat.odd (S n))) by_ = xorb b (by_ && Nat.odd n).
  Proof. rewrite Nat.odd_succ, <- Nat.negb_odd. destruct by_, b, (Nat.odd n); reflexivity. Qed.
  Lemma horner_mir b w l i n y : (n <= w)%nat ->
    forall r, horner_loop n (fy y) (signed bx by_ b w 0 l) (i * w) (flip (xorb (xorb b (bx && Nat.odd i)) (by_ && Nat.odd n)) r) =
              flip (xorb b (bx && Nat.odd i)) (horner_loop n y l (i * w) r).
  Proof.
    induction n as [|n IH]; intros Hn r; cbn [horner_loop].
    - rewrite andb_false_r, xorb_false_r. reflexivity.
    - rewrite flip_mul, odd_pred, signed_nth. cbn [Nat.add].
      replace (sign_at bx by_ b w (i * w + n)) with (xorb (xorb b (bx && Nat.odd i)) (by_ && Nat.odd n)).
      + rewrite flip_add. apply IH. lia.
      + unfold sign_at. rewrite Nat.div_add_l, Nat.div_small, Nat.add_0_r by lia.
        rewrite Nat.add_comm, Nat.mod_add, Nat.mod_small by lia. rewrite xorb_assoc. reflexivity.
  Qed.
  Lemma odd_pred_x n b : xorb (xorb b (bx && Nat.odd (S n))) bx = xorb b (bx && Nat.odd n).
  Proof. rewrite Nat.odd_succ, <- Nat.negb_odd. destruct bx, b, (Nat.odd n); reflexivity. Qed.
  Lemma horner2d_mir b w l x y h : horner2d (fx x) (fy y) (signed bx by_ b w 0 l) w h = flip b (horner2d x y l w h).
  Proof.
    unfold horner2d.
    assert (G : forall r, horner2d_loop h (fx x) (fy y) (signed bx by_ b w 0 l) w (flip (xorb b (bx && Nat.odd h)) r) =
                          flip b (horner2d_loop h x y l w r)).
    { induction h as [|h IH]; intros r; cbn [horner2d_loop].
      - rewrite andb_false_r, xorb_false_r. reflexivity.
      - unfold horner. rewrite flip_mul, odd_pred_x.
        rewrite <- (flip_0 (xorb (xorb b (bx && Nat.odd h)) (by_ && Nat.odd w))) at 1.
        rewrite horner_mir by lia. rewrite flip_add. apply IH. }
    rewrite <- (flip_0 (xorb b (bx && Nat.odd h))) at 1. apply G.
  Qed.
  Lemma poly_sag_mir cs x0 y0 xs ys x y :
    poly_sag (signed bx by_ false xs 0 cs) (fx x0) (fy y0) xs ys (fx x) (fy y) = poly_sag cs x0 y0 xs ys x y.
  Proof. unfold poly_sag. rewrite !flip_sub, horner2d_mir. reflexivity. Qed.
  Lemma poly_normal_mir gx gy x0 y0 xs ys x y :
    poly_normal (signed bx by_ bx (xs - 1) 0 gx) (signed bx by_ by_ (xs - 1) 0 gy) (fx x0) (fy y0) xs ys (fx x) (fy y) =
    mv_ (poly_normal gx gy x0 y0 xs ys x y).
  Proof.
    unfold poly_normal. rewrite !flip_sub, !horner2d_mir. cbv zeta. rewrite !flip_opp, r2_mir.
    unfold mir_vec; cbn [cx cy cz]. both; signs; reflexivity.
  Qed.
  Lemma tilted_sag_mir tx ty x y : tilted_sag (fx tx) (fy ty) (fx x) (fy y) = tilted_sag tx ty x y.
  Proof. unfold tilted_sag. both; signs; reflexivity. Qed.
  Lemma tilted_normal_mir tx ty x y : tilted_normal (fx tx) (fy ty) (fx x) (fy y) = mv_ (tilted_normal tx ty x y).
  Proof. unfold tilted_normal, mir_vec; cbn [cx cy cz]. both; signs; reflexivity. Qed.

  Lemma sag_mir s : mirrorable s -> forall x y, sag (mir_surface bx by_ s) (fx x) (fy y) = sag s x y.
  Proof.
    induction 1 as [| | | | | | |l Hl IH]; intros x y; cbn [sag mir_surface]; try reflexivity.
    - apply tilted_sag_mir.
    - unfold sphere_sag. rewrite r2_mir. reflexivity.
    - unfold paraboloid_sag. rewrite r2_mir. reflexivity.
    - unfold quadric_sag. rewrite r2_mir. reflexivity.
    - unfold asphere_sag, quadric_sag. rewrite r2_mir. reflexivity.
    - apply poly_sag_mir.
    - clear Hl. generalize (n0 : XR). induction l as [|s l IHl]; intros acc; [reflexivity|].
      cbn [map fold_left]. rewrite IH by (left; reflexivity). apply IHl. intros t Ht. apply IH. right. exact Ht.
  Qed.
  Lemma sphere_normal_mir R x y : sphere_normal R (fx x) (fy y) = mv_ (sphere_normal R x y).
  Proof.
    unfold sphere_normal. rewrite r2_mir. destruct (_ || _); [symmetry; apply zhat_mir|].
    cbv zeta. unfold mir_vec; cbn [cx cy cz]. both; signs; reflexivity.
  Qed.
  Lemma paraboloid_normal_mir R x y : paraboloid_normal R (fx x) (fy y) = mv_ (paraboloid_normal R x y).
  Proof.
    unfold paraboloid_normal. rewrite r2_mir. destruct (_ =? _); [symmetry; apply zhat_mir|].
    cbv zeta. unfold mir_vec; cbn [cx cy cz]. both; signs; reflexivity.
  Qed.
  Lemma radial_normal_mir f x y : radial_normal f (fx x) (fy y) = mv_ (radial_normal f x y).
  Proof.
    unfold radial_normal. rewrite r2_mir. cbv zeta. destruct (_ =? _); [symmetry; apply zhat_mir|].
    unfold mir_vec; cbn [cx cy cz]. both; signs; reflexivity.
  Qed.
  Lemma normal_mir s : mirrorable s -> forall x y, normal (mir_surface bx by_ s) (fx x) (fy y) = mv_ (normal s x y).
  Proof.
    induction 1 as [| | | | | | |l Hl IH]; intros x y; cbn [normal mir_surface].
    - symmetry. apply zhat_mir.
    - apply tilted_normal_mir.
    - apply sphere_normal_mir.
    - apply paraboloid_normal_mir.
    - apply radial_normal_mir.
    - apply radial_normal_mir.
    - apply poly_normal_mir.
    - clear Hl.
      set (st := fun '(ax, ay) s => let n := normal s x y in (ax + cx n / cz n, ay + cy n / cz n)).
      set (st' := fun '(ax, ay) s => let n := normal s (fx x) (fy y) in (ax + cx n / cz n, ay + cy n / cz n)).
      assert (G : forall a b, fold_left st' (map (mir_surface bx by_) l) (fx a, fy b) =
                              let '(p, q) := fold_left st l (a, b) in (fx p, fy q)).
      { induction l as [|s l IHl]; intros a b; [reflexivity|]. cbn [map fold_left].
        cbn [st st']. cbv zeta. rewrite IH by (left; reflexivity). cbn [mir_vec cx cy cz].
        rewrite !flip_div, !flip_add. rewrite IHl by (intros t Ht; apply IH; right; exact Ht). reflexivity. }
      specialize (G n0 n0). rewrite !flip_0 in G. rewrite G. destruct (fold_left st l (n0, n0)) as [p q].
      cbv zeta. rewrite r2_mir. unfold mir_vec; cbn [cx cy cz]. both; signs; reflexivity.
  Qed.
  Lemma grad_mir s : mirrorable s -> forall x y,
    grad (mir_surface bx by_ s) (fx x) (fy y) = let '(p, q) := grad s x y in (fx p, fy q).
  Proof.
    intros H x y. unfold grad. rewrite (normal_mir s H). cbn [mir_vec cx cy cz].
    replace (nisnan (fx (cx (normal s x y)))) with (nisnan (cx (normal s x y))) by (both; signs; reflexivity).
    destruct (nisnan _); [rewrite !flip_nan; reflexivity|]. rewrite !flip_opp, !flip_div. reflexivity.
  Qed.

  Lemma newton_mir sg nm sg' nm' : (forall x y, sg' (fx x) (fy y) = sg x y) -> (forall x y, nm' (fx x) (fy y) = mv_ (nm x y)) ->
    forall x y z vx vy vz dt niter, newton sg' nm' (fx x) (fy y) z (fx vx) (fy vy) vz dt niter = newton sg nm x y z vx vy vz dt niter.
  Proof.
    intros Hs Hn x y z vx vy vz dt niter. unfold newton. cbv zeta.
    assert (AX : forall d, fx x + fx vx * d = fx (x + vx * d)) by (intros d; both; signs; reflexivity).
    assert (AY : forall d, fy y + fy vy * d = fy (y + vy * d)) by (intros d; both; signs; reflexivity).
    rewrite AX, AY, Hs. generalize (sg (x + vx * dt) (y + vy * dt)) as sz.
    generalize (x + vx * dt) as px. generalize (y + vy * dt) as py. generalize (z + vz * dt) as pz. revert dt.
    induction niter as [|k IH]; intros dt pz py px sz; cbn [newton_loop]; [reflexivity|].
    rewrite Hn. cbn [mir_vec cx cy cz]. rewrite !flip_sub.
    replace (fx (px - x) * fx (cx (nm px py)) + fy (py - y) * fy (cy (nm px py)) + (sz - z) * cz (nm px py))
      with ((px - x) * cx (nm px py) + (py - y) * cy (nm px py) + (sz - z) * cz (nm px py)) by (both; signs; reflexivity).
    replace (fx (cx (nm px py)) * fx vx + fy (cy (nm px py)) * fy vy + cz (nm px py) * vz)
      with (cx (nm px py) * vx + cy (nm px py) * vy + cz (nm px py) * vz) by (both; signs; reflexivity).
    rewrite AX, AY, Hs. apply IH.
  Qed.
  Lemma quadric_tti_mir R k x y z vx vy vz dt : quadric_tti R k (fx x) (fy y) z (fx vx) (fy vy) vz dt = quadric_tti R k x y z vx vy vz dt.
  Proof.
    unfold quadric_tti. rewrite !r2_mir.
    replace (fx vx * fx x + fy vy * fy y) with (vx * x + vy * y) by (both; signs; reflexivity). reflexivity.
  Qed.
  Lemma tti_mir s : mirrorable s -> forall x y z vx vy vz dt niter,
    tti (mir_surface bx by_ s) (fx x) (fy y) z (fx vx) (fy vy) vz dt niter = tti s x y z vx vy vz dt niter.
  Proof.
    induction 1 as [| | | | | | |l Hl IH]; intros x y z vx vy vz dt niter; cbn [tti mir_surface].
    - reflexivity.
    - unfold tilted_tti. cbv zeta.
      replace (z - fx x * fx tx - fy y * fy ty) with (z - x * tx - y * ty) by (both; signs; reflexivity).
      replace (fx vx * fx tx + fy vy * fy ty - vz) with (vx * tx + vy * ty - vz) by (both; signs; reflexivity). reflexivity.
    - unfold sphere_tti. rewrite !r2_mir.
      replace (fx vx * fx x + fy vy * fy y) with (vx * x + vy * y) by (both; signs; reflexivity). reflexivity.
    - unfold paraboloid_tti. rewrite !r2_mir.
      replace (fx x * fx vx + fy y * fy vy) with (x * vx + y * vy) by (both; signs; reflexivity). reflexivity.
    - apply quadric_tti_mir.
    - rewrite quadric_tti_mir. destruct (quadric_tti _ _ _ _ _ _ _ _ _) as [ok d]. destruct ok; cbn [negb]; [|reflexivity].
      apply newton_mir; intros a b; [exact (sag_mir _ (mir_asphere _ k cs) a b)|exact (normal_mir _ (mir_asphere _ k cs) a b)].
    - apply newton_mir; intros a b; [apply poly_sag_mir|apply poly_normal_mir].
    - destruct l as [|s0 l]; [reflexivity|]. cbn [map]. rewrite IH by (left; reflexivity).
      destruct (tti s0 _ _ _ _ _ _ _ _) as [ok d]. destruct ok; cbn [negb]; [|reflexivity].
      apply newton_mir; intros a b; [exact (sag_mir _ (mir_sum (s0 :: l) Hl) a b)|exact (normal_mir _ (mir_sum (s0 :: l) Hl) a b)].
  Qed.
  Lemma hit_mir s niter p v : mirrorable s -> hit (mir_surface bx by_ s) niter (mv_ p) (mv_ v) = hit s niter p v.
  Proof. intros H. unfold hit. cbn [mir_vec cx cy cz]. apply tti_mir. exact H. Qed.

  (** ** Obscurations *)
  Lemma ltb_opp (a b : XR) : (- a <? - b) = (b <? a).
  Proof. destruct a, b; cbn; try reflexivity. repeat destruct (Rlt_dec _ _); try reflexivity; lra. Qed.
  Lemma band_opp (w a : XR) : (- w / n2 <? - a) && (- a <? w / n2) = (- w / n2 <? a) && (a <? w / n2).
  Proof.
    rewrite div_opp, ltb_opp. replace (- a <? w / n2) with (- (w / n2) <? a); [apply andb_comm|].
    rewrite <- (opp_opp (w / n2)) at 2. rewrite ltb_opp. reflexivity.
  Qed.
  Lemma contains_mir o : smooth_obsc o -> forall x y, contains (mir_obsc bx by_ o) (fx x) (fy y) = contains o x y.
  Proof.
    induction 1 as [| | | | |l Hl IH|l Hl IH]; intros x y; cbn [contains mir_obsc].
    - rewrite !flip_sub. both; signs; reflexivity.
    - rewrite !flip_sub. both; signs; reflexivity.
    - rewrite !flip_sub.
      replace (fx (x - x0) * fx c + fy (y - y0) * fy s) with ((x - x0) * c + (y - y0) * s) by (both; signs; reflexivity).
      replace (- fx (x - x0) * fy s + fy (y - y0) * fx c) with (flip (xorb bx by_) (- (x - x0) * s + (y - y0) * c))
        by (rewrite flip_opp, !flip_mul, (xorb_comm by_ bx), flip_add; reflexivity).
      cbv zeta. destruct (xorb bx by_); cbn [flip]; [|reflexivity]. rewrite <- !andb_assoc, band_opp. reflexivity.
    - rewrite !flip_sub.
      replace (fx (x - x0) * fx c + fy (y - y0) * fy s) with ((x - x0) * c + (y - y0) * s) by (both; signs; reflexivity).
      replace (- fx (x - x0) * fy s + fy (y - y0) * fx c) with (flip (xorb bx by_) (- (x - x0) * s + (y - y0) * c))
        by (rewrite flip_opp, !flip_mul, (xorb_comm by_ bx), flip_add; reflexivity).
      cbv zeta. destruct (xorb bx by_); cbn [flip]; [|reflexivity]. rewrite <- !andb_assoc, band_opp. reflexivity.
    - rewrite IHsmooth_obsc. reflexivity.
    - clear Hl. generalize false. induction l as [|o l IHl]; intros acc; [reflexivity|].
      cbn [map fold_left]. rewrite IH by (left; reflexivity). apply IHl. intros t Ht. apply IH. right. exact Ht.
    - clear Hl. generalize true. induction l as [|o l IHl]; intros acc; [reflexivity|].
      cbn [map fold_left]. rewrite IH by (left; reflexivity). apply IHl. intros t Ht. apply IH. right. exact Ht.
  Qed.
End Mir.
