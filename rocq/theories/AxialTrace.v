(** Proofs about axially symmetric optics: rays and traces. *)
From Coq Require Import Reals List ZArith Bool Lra Psatz Lia.
From Verif Require Import Num NumR Vec CoordSys Surface Medium Obscuration Ray Bundle Optic Spec OpticsSpec XRFacts CoordFacts
  RayFacts NormalFacts RefractProofs OpticsProofs TreeSpec TreeProofs MoveProofs AnalysisProofs AnalysisFocus AxialSpec AxialProofs.
Import ListNotations.
Open Scope R_scope.

(** ** Real results come from real data *)
Lemma F3_of a b c : V3 (Fin a) (Fin b) (Fin c) = F3 (V3 a b c).
Proof. reflexivity. Qed.
Ltac fins := repeat match goal with
  | H : nadd _ _ = Fin _ |- _ => apply add_fin in H; destruct H as (? & ? & ? & ? & ?)
  | H : nsub _ _ = Fin _ |- _ => apply sub_fin in H; destruct H as (? & ? & ? & ? & ?)
  | H : nmul _ _ = Fin _ |- _ => apply mul_fin in H; destruct H as (? & ? & ? & ? & ?)
  | H : ndiv _ _ = Fin _ |- _ => apply div_fin in H; destruct H as (? & ?)
  end.
Lemma fwd_point_real dr d p p' : fwd_point (F3 dr) (FM d) p = F3 p' -> exists p0, p = F3 p0.
Proof.
  destruct p as [x y z]. unfold fwd_point; cbn [cx cy cz]. intros E. apply (f_equal cx) in E. cbn [cx F3 vmap] in E. fins. subst.
  eexists (V3 _ _ _). apply vec3_eq; cbn; reflexivity.
Qed.
Lemma fwd_vel_real d p p' : fwd_vel (FM d) p = F3 p' -> exists p0, p = F3 p0.
Proof.
  destruct p as [x y z]. unfold fwd_vel; cbn [cx cy cz]. intros E. apply (f_equal cx) in E. cbn [cx F3 vmap] in E. fins. subst.
  eexists (V3 _ _ _). apply vec3_eq; cbn; reflexivity.
Qed.
Lemma advance_real p v dt p' : advance p v dt = F3 p' -> exists p0 v0 t, p = F3 p0 /\ v = F3 v0 /\ dt = Fin t.
Proof.
  destruct p as [x y z], v as [a b c]. unfold advance; cbn [cx cy cz]. intros E.
  pose proof (f_equal cx E) as E1. pose proof (f_equal cy E) as E2. pose proof (f_equal cz E) as E3. cbn [cx cy cz F3 vmap] in *. clear E. fins. subst.
  eexists (V3 _ _ _), (V3 _ _ _), _. split; [apply vec3_eq; cbn; reflexivity|]. split; [apply vec3_eq; cbn; reflexivity|]. eassumption.
Qed.
Lemma reflect_real v n v' : reflect_vel v n = F3 v' -> (exists v0, v = F3 v0) /\ exists m, n = F3 m.
Proof.
  destruct n as [x y z], v as [a b c]. unfold reflect_vel; cbn [cx cy cz]. cbv zeta. set (al := dot3 _ _). intros E.
  pose proof (f_equal cx E) as E1. pose proof (f_equal cy E) as E2. pose proof (f_equal cz E) as E3. cbn [cx cy cz F3 vmap] in *. clear E.
  fins. subst. split; eexists (V3 _ _ _); apply vec3_eq; cbn; reflexivity.
Qed.

Lemma some_V3 (a b c : XR) v : Some (V3 a b c) = Some (F3 v) -> a = Fin (cx v) /\ b = Fin (cy v) /\ c = Fin (cz v).
Proof. intros E. inversion E. auto. Qed.
Lemma invspeed_zero : invspeed (F3 zeroR) = PInf.
Proof.
  unfold invspeed. rewrite dot3_F. replace (dotR zeroR zeroR) with 0 by (unfold dotR; cbn; ring). xunf. rewrite xsqrt_fin by lra. rewrite sqrt_0.
  unfold xdiv, xsgn. destruct (Req_EM_T 0 0); [|lra]. destruct (Rlt_dec 0 1); [reflexivity|lra].
Qed.

(** ** What one interface does to a ray that gets through *)
Section Step.
  Context (f t : frame).
  Let dr := F3 (drR f t). Let d := FM (drotR f t).
  Lemma intersect_inv s niter x r1 : ray_intersect s dr d None niter x = Fray r1 -> failed r1 = false ->
    exists r0 u, x = Fray r0 /\ failed r0 = false /\
      let p := chg_pt f t (pos r0) in let v := chg_vec f t (vel r0) in
      hit s niter (F3 p) (F3 v) = (true, Fin u) /\
      r1 = Ray (plusR p (timesR u v)) v (time r0 + u) (wavelength r0) (flux r0) (vignetted r0) false.
  Proof.
    intros E F. unfold ray_intersect in E. destruct (failed x) eqn:Fx; [rewrite E in Fx; cbn in Fx; congruence|].
    destruct (hit s niter _ _) as [[] dt] eqn:Eh; [|apply (f_equal failed) in E; cbn in E; congruence].
    pose proof (f_equal pos E) as E1. pose proof (f_equal vel E) as E2. pose proof (f_equal time E) as E3.
    pose proof (f_equal wavelength E) as E4. pose proof (f_equal flux E) as E5. pose proof (f_equal vignetted E) as E6.
    cbn [pos vel time wavelength flux vignetted Fray] in *. clear E.
    destruct (advance_real _ _ _ _ E1) as (p0 & v0 & u & P & V & ->).
    unfold dr, d in *. destruct (fwd_point_real _ _ _ _ P) as (p & Hp). destruct (fwd_vel_real _ _ _ V) as (v & Hv).
    rewrite Hp, Hv in *. rewrite fwd_point_F, fwd_vel_F in *. fold (chg_pt f t p) in *. fold (chg_vec f t v) in *.
    fins. rename x0 into t0. destruct x as [xp xv xt xw xf xg xl]; cbn in *. subst.
    exists (Ray p v t0 (wavelength r1) (flux r1) (vignetted r1) false), u.
    split; [reflexivity|]. split; [reflexivity|]. cbn. split; [exact Eh|].
    apply F3_inj in E2. destruct r1 as [rp rv rt rw rf rg rl]; cbn in *. subst. f_equal; try congruence.
    apply F3_inj. rewrite <- E1. unfold advance. apply vec3_eq; cbn; f_equal; ring.
  Qed.
End Step.
(** The velocity after refraction at normal [m] into index [n2_]. *)
Definition bent (v m : vR) (n2_ : XR) (v' : vR) : Prop :=
  (exists k, n2_ = Fin k /\ k <> 0 /\ sin2R (unitR v) m (index_of v) k <= 1 /\ v' = refrR (unitR v) m (index_of v) k) \/
  ((n2_ = PInf \/ n2_ = NInf) /\ v' = zeroR).
Section Step2.
  Context (f t : frame).
  Let dr := F3 (drR f t). Let d := FM (drotR f t).
  Lemma reflect_inv s niter x r1 : ray_reflect s dr d None niter x = Fray r1 -> failed r1 = false ->
    exists r0 u m, x = Fray r0 /\ failed r0 = false /\
      let p := chg_pt f t (pos r0) in let v := chg_vec f t (vel r0) in
      let p' := plusR p (timesR u v) in
      hit s niter (F3 p) (F3 v) = (true, Fin u) /\ normal s (Fin (cx p')) (Fin (cy p')) = F3 m /\
      r1 = Ray p' (reflR v m) (time r0 + u) (wavelength r0) (flux r0) (vignetted r0) false.
  Proof.
    intros E F. unfold ray_reflect in E. destruct (failed x) eqn:Fx; [rewrite E in Fx; cbn in Fx; congruence|].
    destruct (hit s niter _ _) as [[] dt] eqn:Eh; [|apply (f_equal failed) in E; cbn in E; congruence].
    pose proof (f_equal pos E) as E1. pose proof (f_equal vel E) as E2. pose proof (f_equal time E) as E3.
    pose proof (f_equal wavelength E) as E4. pose proof (f_equal flux E) as E5. pose proof (f_equal vignetted E) as E6.
    cbn [pos vel time wavelength flux vignetted Fray] in *. clear E.
    destruct (advance_real _ _ _ _ E1) as (p0 & v0 & u & P & V & ->).
    unfold dr, d in *. destruct (fwd_point_real _ _ _ _ P) as (p & Hp). destruct (fwd_vel_real _ _ _ V) as (v & Hv).
    rewrite Hp, Hv in *. rewrite fwd_point_F, fwd_vel_F in *. fold (chg_pt f t p) in *. fold (chg_vec f t v) in *.
    destruct (reflect_real _ _ _ E2) as (_ & m & Hm).
    assert (Ea : advance (F3 (chg_pt f t p)) (F3 (chg_vec f t v)) (Fin u) = F3 (plusR (chg_pt f t p) (timesR u (chg_vec f t v)))).
    { unfold advance. apply vec3_eq; cbn; f_equal; ring. }
    rewrite Ea in *. rewrite Hm, reflect_vel_F in E2. apply F3_inj in E1, E2.
    fins. rename x0 into t0. destruct x as [xp xv xt xw xf xg xl]; cbn in *. subst.
    exists (Ray p v t0 (wavelength r1) (flux r1) (vignetted r1) false), u, m.
    split; [reflexivity|]. split; [reflexivity|]. cbn. split; [exact Eh|]. split; [exact Hm|].
    destruct r1 as [rp rv rt rw rf rg rl]; cbn in *. subst. f_equal; congruence.
  Qed.
  Lemma refract_inf u n al k n2_ : n2_ = PInf \/ n2_ = NInf -> refract_vel (F3 u) (F3 n) (Fin al) (Fin k) n2_ = Some (F3 zeroR).
  Proof.
    intros H. unfold refract_vel. cbv zeta. replace (ndiv (Fin k) n2_) with (Fin 0) by (destruct H as [-> | ->]; reflexivity).
    set (ss := nmul _ (nsub n1 _)). assert (Es : ss = Fin 0) by (unfold ss; xunf; cbn; f_equal; ring). rewrite Es.
    change (nltb n1 (Fin 0)) with (xltb (Fin 1) (Fin 0)). rewrite xltb_f by lra.
    change (nsub n1 (Fin 0)) with (Fin (1 - 0)). change (nsqrt (Fin (1 - 0))) with (xsqrt (Fin (1 - 0))). rewrite xsqrt_fin by lra.
    destruct H as [-> | ->]; reflexivity.
  Qed.
  Lemma refract_real v n n2_ v' :
    let n1_ := invspeed (F3 v) in let nv := scale (F3 v) n1_ in
    (let '(n', alpha) := orient nv n in refract_vel nv n' alpha n1_ n2_) = Some (F3 v') ->
    v <> zeroR /\ exists m, n = F3 m /\
      bent v m n2_ v'.
  Proof.
    intros n1_ nv E.
    assert (Hv : v <> zeroR).
    { intros ->. destruct (orient nv n) as [n' al]. unfold refract_vel in E. cbv zeta in E. destruct (nltb _ _); [discriminate|].
      apply some_V3 in E. destruct E as (E & _). fins.
      assert (N : cx nv = NaN); [|congruence]. unfold nv, n1_. rewrite invspeed_zero. cbn. unfold xsgn. destruct (Rlt_dec 0 0); [lra|]. destruct (Rlt_dec 0 0); [lra|reflexivity]. }
    split; [exact Hv|]. unfold nv, n1_ in E. rewrite nv_F, invspeed_F in E by exact Hv. clear nv n1_.
    assert (exists m, n = F3 m) as (m & ->).
    { unfold orient in E. destruct n as [a b c]. destruct (nltb n0 _); unfold refract_vel in E; cbv zeta in E; (destruct (nltb _ _) in E; [discriminate|]);
      apply some_V3 in E; destruct E as (Ex & Ey & Ez); cbn [cx cy cz] in *; fins; subst; eexists (V3 _ _ _); apply vec3_eq; cbn; reflexivity. }
    exists m. split; [reflexivity|]. rewrite orient_F in E. destruct n2_ as [k| | |].
    - left. exists k. split; [reflexivity|]. destruct (Req_dec k 0) as [->|Hk].
      + exfalso. unfold refract_vel in E. cbv zeta in E. destruct (nltb _ _) in E; [discriminate|]. apply some_V3 in E. destruct E as (Ex & _).
        set (eta := ndiv (Fin (index_of v)) (Fin 0)) in *. fins. unfold eta in *.
        assert (P : 0 < index_of v) by (unfold index_of; apply Rinv_0_lt_compat, len_pos, Hv).
        assert (N : ndiv (Fin (index_of v)) (Fin 0) = PInf); [|congruence]. cbn. unfold xsgn. destruct (Req_EM_T 0 0); [|lra]. destruct (Rlt_dec 0 (index_of v)); [reflexivity|lra].
      + rewrite refract_vel_F in E by exact Hk. destruct (Rlt_dec _ _); [discriminate|]. injection E as Ex Ey Ez.
        split; [exact Hk|]. split; [lra|]. symmetry. apply vec3_eq; assumption.
    - right. split; [left; reflexivity|]. rewrite refract_inf in E by auto. apply some_V3 in E. destruct E as (Ex & Ey & Ez). apply vec3_eq; cbn in *; congruence.
    - right. split; [right; reflexivity|]. rewrite refract_inf in E by auto. apply some_V3 in E. destruct E as (Ex & Ey & Ez). apply vec3_eq; cbn in *; congruence.
    - exfalso. unfold refract_vel in E. cbv zeta in E. destruct (nltb _ _) in E; [discriminate|]. apply some_V3 in E. destruct E as (Ex & _).
      cbn in Ex. discriminate.
  Qed.
  (** And the other way round. *)
  Lemma refract_form v m n2_ v' :
    v <> zeroR ->
    bent v m n2_ v' ->
    let n1_ := invspeed (F3 v) in let nv := scale (F3 v) n1_ in
    exists n' al, orient nv (F3 m) = (n', al) /\ refract_vel nv n' al n1_ n2_ = Some (F3 v').
  Proof.
    intros Hv H n1_ nv. unfold nv, n1_. rewrite nv_F, invspeed_F by exact Hv. eexists _, _. split; [apply orient_F|].
    destruct H as [(k & -> & Hk & Hs & ->)|([-> | ->] & ->)].
    - rewrite refract_vel_F by exact Hk. destruct (Rlt_dec _ _); [lra|reflexivity].
    - apply refract_inf; auto.
    - apply refract_inf; auto.
  Qed.
  Lemma advance_F p v u : advance (F3 p) (F3 v) (Fin u) = F3 (plusR p (timesR u v)).
  Proof. unfold advance. apply vec3_eq; cbn; f_equal; ring. Qed.
  Lemma refract_inv s m2 niter x r1 : ray_refract s dr d m2 None niter x = Fray r1 -> failed r1 = false ->
    exists r0 u m, x = Fray r0 /\ failed r0 = false /\
      let p := chg_pt f t (pos r0) in let v := chg_vec f t (vel r0) in
      let p' := plusR p (timesR u v) in
      hit s niter (F3 p) (F3 v) = (true, Fin u) /\ normal s (Fin (cx p')) (Fin (cy p')) = F3 m /\ v <> zeroR /\
      exists v', bent v m (getN m2 (Fin (wavelength r0))) v' /\
      r1 = Ray p' v' (time r0 + u) (wavelength r0) (flux r0) (vignetted r0) false.
  Proof.
    intros E F. unfold ray_refract in E. destruct (failed x) eqn:Fx; [rewrite E in Fx; cbn in Fx; congruence|].
    destruct (hit s niter _ _) as [[] dt] eqn:Eh; [|apply (f_equal failed) in E; cbn in E; congruence].
    cbv zeta in E. destruct (orient _ _) as [n' al] eqn:Eo in E.
    destruct (refract_vel _ _ _ _ _) as [w|] eqn:Er in E; [|apply (f_equal failed) in E; cbn in E; congruence].
    pose proof (f_equal pos E) as E1. pose proof (f_equal vel E) as E2. pose proof (f_equal time E) as E3.
    pose proof (f_equal wavelength E) as E4. pose proof (f_equal flux E) as E5. pose proof (f_equal vignetted E) as E6.
    cbn [pos vel time wavelength flux vignetted Fray] in *. clear E.
    destruct (advance_real _ _ _ _ E1) as (p0 & v0 & u & P & V & ->).
    unfold dr, d in *. destruct (fwd_point_real _ _ _ _ P) as (p & Hp). destruct (fwd_vel_real _ _ _ V) as (v & Hv).
    rewrite Hp, Hv in *. rewrite fwd_point_F, fwd_vel_F in *. fold (chg_pt f t p) in *. fold (chg_vec f t v) in *.
    rewrite advance_F in *. subst w.
    destruct (refract_real (chg_vec f t v) (normal s (cx (F3 (plusR (chg_pt f t p) (timesR u (chg_vec f t v))))) (cy (F3 (plusR (chg_pt f t p) (timesR u (chg_vec f t v))))))
       (getN m2 (wavelength x)) (vel r1)) as (Hnz & m & Hm & Hb).
    { cbv zeta. rewrite Eo. exact Er. }
    apply F3_inj in E1. rewrite E4 in Hb.
    fins. rename x0 into t0. destruct x as [xp xv xt xw xf xg xl]; cbn in *. subst.
    exists (Ray p v t0 (wavelength r1) (flux r1) (vignetted r1) false), u, m.
    split; [reflexivity|]. split; [reflexivity|]. cbn. split; [exact Eh|]. split; [exact Hm|]. split; [exact Hnz|].
    exists (vel r1). split; [exact Hb|].
    destruct r1 as [rp rv rt rw rf rg rl]; cbn in *. subst. f_equal; congruence.
  Qed.
  (** The same in the other direction. *)
  Lemma intersect_do s niter r u : failed r = false ->
    let p := chg_pt f t (pos r) in let v := chg_vec f t (vel r) in
    hit s niter (F3 p) (F3 v) = (true, Fin u) ->
    ray_intersect s dr d None niter (Fray r) = Fray (Ray (plusR p (timesR u v)) v (time r + u) (wavelength r) (flux r) (vignetted r) false).
  Proof.
    intros F p v E. unfold ray_intersect, dr, d. cbn [pos vel failed Fray]. rewrite fwd_point_F, fwd_vel_F, F. fold (chg_pt f t (pos r)). fold (chg_vec f t (vel r)).
    fold p v. rewrite E, advance_F. reflexivity.
  Qed.
  Lemma reflect_do s niter r u m : failed r = false ->
    let p := chg_pt f t (pos r) in let v := chg_vec f t (vel r) in let p' := plusR p (timesR u v) in
    hit s niter (F3 p) (F3 v) = (true, Fin u) -> normal s (Fin (cx p')) (Fin (cy p')) = F3 m ->
    ray_reflect s dr d None niter (Fray r) = Fray (Ray p' (reflR v m) (time r + u) (wavelength r) (flux r) (vignetted r) false).
  Proof.
    intros F p v p' E N. unfold ray_reflect, dr, d. cbn [pos vel failed Fray]. rewrite fwd_point_F, fwd_vel_F, F. fold (chg_pt f t (pos r)). fold (chg_vec f t (vel r)).
    fold p v. rewrite E, advance_F. fold p'. cbn [cx cy F3 vmap]. rewrite N, reflect_vel_F. reflexivity.
  Qed.
  Lemma refract_do s m2 niter r u m v' : failed r = false ->
    let p := chg_pt f t (pos r) in let v := chg_vec f t (vel r) in let p' := plusR p (timesR u v) in
    hit s niter (F3 p) (F3 v) = (true, Fin u) -> normal s (Fin (cx p')) (Fin (cy p')) = F3 m -> v <> zeroR ->
    bent v m (getN m2 (Fin (wavelength r))) v' ->
    ray_refract s dr d m2 None niter (Fray r) = Fray (Ray p' v' (time r + u) (wavelength r) (flux r) (vignetted r) false).
  Proof.
    intros F p v p' E N Z B. unfold ray_refract, dr, d. cbn [pos vel failed Fray wavelength]. rewrite fwd_point_F, fwd_vel_F, F. fold (chg_pt f t (pos r)). fold (chg_vec f t (vel r)).
    fold p v. rewrite E, advance_F. fold p'. change (cx (F3 p')) with (Fin (cx p')). change (cy (F3 p')) with (Fin (cy p')). rewrite N.
    destruct (refract_form v m _ v' Z B) as (n' & al & Eo & Er). cbv zeta. rewrite Eo, Er. reflexivity.
  Qed.
End Step2.

(** ** Turning *)
Section Turning.
  Context (q : plane_turn).
  Lemma turn_index v : index_of (turn q v) = index_of v.
  Proof. unfold index_of, lenR. rewrite dot_turn. reflexivity. Qed.
  Lemma turn_unit v : unitR (turn q v) = turn q (unitR v).
  Proof. unfold unitR. unfold lenR. rewrite dot_turn, turn_times. reflexivity. Qed.
  Lemma turn_minus u v : turn q (minusR u v) = minusR (turn q u) (turn q v).
  Proof. apply vec3_eq; cbn; unfold tx, ty; cbn; ring. Qed.
  Lemma turn_refl v m : reflR (turn q v) (turn q m) = turn q (reflR v m).
  Proof. unfold reflR. rewrite dot_turn, turn_minus, turn_times. reflexivity. Qed.
  Lemma turn_refr u m a b : refrR (turn q u) (turn q m) a b = turn q (refrR u m a b).
  Proof. unfold refrR, sideR, sin2R. rewrite !dot_turn, turn_times, turn_minus, !turn_times. reflexivity. Qed.
  Lemma turn_zero : turn q zeroR = zeroR.
  Proof. apply vec3_eq; cbn; unfold tx, ty; cbn; ring. Qed.
  Lemma turn_nonzero v : v <> zeroR -> turn q v <> zeroR.
  Proof.
    intros H E. apply H. assert (D : dotR v v = 0) by (rewrite <- (dot_turn q), E; unfold dotR; cbn; ring).
    unfold dotR in D. apply vec3_eq; cbn; nra.
  Qed.
  Lemma turn_bent v m k v' : bent v m k v' -> bent (turn q v) (turn q m) k (turn q v').
  Proof.
    intros [(c & -> & Hc & Hs & ->)|(Hi & ->)]; [left; exists c|right; auto using turn_zero].
    rewrite turn_unit, turn_index, turn_refr. split; [reflexivity|]. split; [exact Hc|]. split; [|reflexivity].
    unfold sin2R in *. rewrite dot_turn. exact Hs.
  Qed.
End Turning.
Lemma frame_turn Q A : axial_turn Q -> axial_frame A -> exists q,
  (forall p, local_point A (applyR Q (global_point A p)) = turn q p) /\ (forall v, local_dir A (applyR Q (global_dir A v)) = turn q v).
Proof.
  intros (Qo & Q1 & Q2 & Q3 & Q4 & Q5) (G & X & Y & A1 & A2 & A3 & A4).
  set (M := mulR (transR (rot A)) (mulR Q (rot A))).
  assert (O : orthonormal M) by (unfold M; apply orth_mul; [apply orth_trans, G|apply orth_mul; assumption]).
  assert (Z : m22 (rot A) * m22 (rot A) = 1).
  { destruct G as (_ & _ & G & _). unfold dotR, col2 in G. cbn in G. rewrite A1, A2 in G. lra. }
  assert (M1 : m20 M = 0) by (unfold M, mulR; cbn; rewrite ?Q1, ?Q2, ?Q3, ?Q4, ?A1, ?A2, ?A3, ?A4; ring).
  assert (M2 : m21 M = 0) by (unfold M, mulR; cbn; rewrite ?Q1, ?Q2, ?Q3, ?Q4, ?A1, ?A2, ?A3, ?A4; ring).
  assert (M3 : m02 M = 0) by (unfold M, mulR; cbn; rewrite ?Q1, ?Q2, ?Q3, ?Q4, ?A1, ?A2, ?A3, ?A4; ring).
  assert (M4 : m12 M = 0) by (unfold M, mulR; cbn; rewrite ?Q1, ?Q2, ?Q3, ?Q4, ?A1, ?A2, ?A3, ?A4; ring).
  assert (M5 : m22 M = 1) by (unfold M, mulR; cbn; rewrite ?Q1, ?Q2, ?Q3, ?Q4, ?A1, ?A2, ?A3, ?A4, ?Q5; lra).
  assert (V : forall v, local_dir A (applyR Q (global_dir A v)) = applyR M v).
  { intros v. unfold local_dir, global_dir, M. apply vec3_eq; cbn; ring. }
  assert (q1 : m00 M * m00 M + m10 M * m10 M = 1) by (destruct O as (O & _); unfold dotR, col0 in O; cbn [cx cy cz] in O; rewrite M1 in O; lra).
  assert (q2 : m01 M * m01 M + m11 M * m11 M = 1) by (destruct O as (_ & O & _); unfold dotR, col1 in O; cbn [cx cy cz] in O; rewrite M2 in O; lra).
  assert (q3 : m00 M * m01 M + m10 M * m11 M = 0) by (destruct O as (_ & _ & _ & O & _); unfold dotR, col0, col1 in O; cbn [cx cy cz] in O; rewrite M1 in O; lra).
  exists (PT _ _ _ _ q1 q2 q3).
  assert (T : forall v, applyR M v = turn (PT _ _ _ _ q1 q2 q3) v).
  { intros v. clearbody M. apply vec3_eq; cbn; unfold tx, ty; cbn; rewrite ?M1, ?M2, ?M3, ?M4, ?M5; ring. }
  split; intros v; rewrite <- T, <- V; [|reflexivity].
  unfold local_point, local_dir, global_point, global_dir. apply vec3_eq; cbn; rewrite ?X, ?Y, ?Q1, ?Q2, ?Q3, ?Q4, ?Q5, ?A1, ?A2, ?A3, ?A4; ring.
Qed.

(** ** One interface *)
Definition bends (i : iface XR) (b : bool) (w : R) (p v v' : vR) : Prop :=
  match i_kind i with
  | KMirror => exists m, normal (i_surf i) (Fin (cx p)) (Fin (cy p)) = F3 m /\ v' = reflR v m
  | KRefractive => exists m, normal (i_surf i) (Fin (cx p)) (Fin (cy p)) = F3 m /\ v <> zeroR /\
                     bent v m (getN (if b then i_in i else i_out i) (Fin w)) v'
  | _ => v' = v
  end.
Definition hidden (i : iface XR) (p : vR) : bool :=
  match i_obsc i with None => false | Some o => contains o (Fin (cx p)) (Fin (cy p)) end.
Definition after (p v : vR) (u : R) (v' : vR) (i : iface XR) (r : ray R) : ray R :=
  let p' := plusR p (timesR u v) in
  Ray p' v' (time r + u) (wavelength r) (flux r) (vignetted r || hidden i p') false.
Lemma iface_inv niter i b f t x r1 B : (forall s, i_kind i <> KScreen s) -> i_cs i = Fcs t ->
  iface_trace niter i b (RV [x] (Fcs f)) = RV [Fray r1] B -> failed r1 = false ->
  exists r0 u v', x = Fray r0 /\ failed r0 = false /\
    let p := chg_pt f t (pos r0) in let v := chg_vec f t (vel r0) in
    hit (i_surf i) niter (F3 p) (F3 v) = (true, Fin u) /\
    bends i b (wavelength r0) (plusR p (timesR u v)) v v' /\ r1 = after p v u v' i r0.
Proof.
  intros Hk Ht E F. unfold iface_trace in E.
  assert (exists g, interact niter i b (RV [x] (Fcs f)) = RV [Fray (Ray (pos r1) (vel r1) (time r1) (wavelength r1) (flux r1) g false)] (Fcs t) /\
    vignetted r1 = (g || hidden i (pos r1))%bool) as (g & Eg & Vg).
  { pose proof (f_equal rays E) as Er. unfold hidden.
    assert (Hr : rvcs (interact niter i b (RV [x] (Fcs f))) = Fcs t) by (rewrite <- Ht; unfold interact; destruct (i_kind i), b; reflexivity).
    destruct (interact niter i b (RV [x] (Fcs f))) as [ys cs']. cbn in Hr. subst cs'. destruct (i_obsc i) as [o|]; cbn in *.
    - destruct ys as [|y [|]]; try discriminate. destruct y as [yp yv yt yw yf yg yl]. injection Er as P V T W Fl G L. cbn in *. subst.
      exists yg. rewrite F. split; [reflexivity|]. symmetry. exact G.
    - subst ys. exists (vignetted r1). rewrite orb_false_r. split; [|reflexivity]. destruct r1; cbn in *; subst; reflexivity. }
  clear E. unfold interact in Eg. unfold bends, after.
  destruct (i_kind i) eqn:Ek; try (exfalso; eapply Hk; reflexivity).
  all: rewrite Ht in Eg; unfold rv_intersect, rv_reflect, rv_refract, batch, dest in Eg; cbn [rvcs rays map] in Eg; rewrite mkCT_F in Eg; cbn [ct_dr ct_drot] in Eg.
  all: assert (F' : failed (Ray (pos r1) (vel r1) (time r1) (wavelength r1) (flux r1) g false) = false) by reflexivity.
  all: assert (D : forall p v t' w fl g' l, Ray (pos r1) (vel r1) (time r1) (wavelength r1) (flux r1) g false = Ray p v t' w fl g' l ->
         r1 = Ray p v t' w fl (g' || hidden i p) false)
    by (intros; destruct r1; cbn in *; injection H; intros; subst; reflexivity).
  2: { assert (Eg' : ray_refract (i_surf i) (F3 (drR f t)) (FM (drotR f t)) (if b then i_in i else i_out i) None niter x
         = Fray (Ray (pos r1) (vel r1) (time r1) (wavelength r1) (flux r1) g false)) by (destruct b; injection Eg; auto).
       destruct (refract_inv _ _ _ _ _ _ _ Eg' F') as (r0 & u & m & -> & Fr & Eh & En & Nz & v' & Hb & Er).
       exists r0, u, v'. split; [reflexivity|]. split; [exact Fr|]. split; [exact Eh|]. split; [exists m; auto|]. exact (D _ _ _ _ _ _ _ Er). }
  2: { assert (Eg' : ray_reflect (i_surf i) (F3 (drR f t)) (FM (drotR f t)) None niter x
         = Fray (Ray (pos r1) (vel r1) (time r1) (wavelength r1) (flux r1) g false)) by (injection Eg; auto).
       destruct (reflect_inv _ _ _ _ _ _ Eg' F') as (r0 & u & m & -> & Fr & Eh & En & Er).
       exists r0, u, (reflR (chg_vec f t (vel r0)) m). split; [reflexivity|]. split; [exact Fr|]. split; [exact Eh|]. split; [exists m; auto|]. exact (D _ _ _ _ _ _ _ Er). }
  all: assert (Eg' : ray_intersect (i_surf i) (F3 (drR f t)) (FM (drotR f t)) None niter x
         = Fray (Ray (pos r1) (vel r1) (time r1) (wavelength r1) (flux r1) g false)) by (injection Eg; auto);
    destruct (intersect_inv _ _ _ _ _ _ Eg' F') as (r0 & u & -> & Fr & Eh & Er);
    exists r0, u, (chg_vec f t (vel r0)); (split; [reflexivity|]); (split; [exact Fr|]); (split; [exact Eh|]); (split; [reflexivity|]); exact (D _ _ _ _ _ _ _ Er).
Qed.
Lemma iface_do niter i b f t r u v' : (forall s, i_kind i <> KScreen s) -> i_cs i = Fcs t -> failed r = false ->
  let p := chg_pt f t (pos r) in let v := chg_vec f t (vel r) in
  hit (i_surf i) niter (F3 p) (F3 v) = (true, Fin u) -> bends i b (wavelength r) (plusR p (timesR u v)) v v' ->
  iface_trace niter i b (RV [Fray r] (Fcs f)) = RV [Fray (after p v u v' i r)] (Fcs t).
Proof.
  intros Hk Ht F p v E H. unfold iface_trace.
  assert (Eg : interact niter i b (RV [Fray r] (Fcs f)) =
    RV [Fray (Ray (plusR p (timesR u v)) v' (time r + u) (wavelength r) (flux r) (vignetted r) false)] (Fcs t)).
  { unfold interact, bends in *. destruct (i_kind i) eqn:Ek; try (exfalso; eapply Hk; reflexivity).
    all: rewrite Ht; unfold rv_intersect, rv_reflect, rv_refract, batch, dest.
    2: { destruct H as (m & Em & Nz & Hb). transitivity (RV [ray_refract (i_surf i) (F3 (drR f t)) (FM (drotR f t)) (if b then i_in i else i_out i) None niter (Fray r)] (Fcs t)).
         - destruct b; cbn [rvcs rays map]; rewrite mkCT_F; reflexivity.
         - rewrite (refract_do f t (i_surf i) _ niter r u m v' F E Em Nz Hb). reflexivity. }
    2: { destruct H as (m & Em & ->). cbn [rvcs rays map]; rewrite mkCT_F; cbn [ct_dr ct_drot]. rewrite (reflect_do f t (i_surf i) niter r u m F E Em). reflexivity. }
    all: subst v'; cbn [rvcs rays map]; rewrite mkCT_F; cbn [ct_dr ct_drot]; rewrite (intersect_do f t (i_surf i) niter r u F E); reflexivity. }
  rewrite Eg. unfold apply_obsc, after, hidden. destruct (i_obsc i) as [o|]; [reflexivity|]. rewrite orb_false_r. reflexivity.
Qed.
(** ** One interface, turned *)
Lemma global_of_local A g : good_frame A -> global_point A (local_point A g) = g.
Proof.
  intros H. unfold global_point, local_point. rewrite orth_apply_rl by exact H. apply vec3_eq; cbn; ring.
Qed.
Lemma global_of_local_dir A g : good_frame A -> global_dir A (local_dir A g) = g.
Proof. intros H. unfold global_dir, local_dir. apply orth_apply_rl, H. Qed.
Lemma chg_pt_local f t p : good_frame f -> good_frame t -> chg_pt f t p = local_point t (global_point f p).
Proof. intros. rewrite chg_pt_eq by assumption. reflexivity. Qed.
Lemma chg_vec_local f t v : chg_vec f t v = local_dir t (global_dir f v).
Proof. rewrite chg_vec_eq. reflexivity. Qed.
Lemma bends_turn q i b w p v v' : round_iface i -> bends i b w p v v' -> bends i b w (turn q p) (turn q v) (turn q v').
Proof.
  intros (Hs & _) H. unfold bends in *.
  assert (N : forall m, normal (i_surf i) (Fin (cx p)) (Fin (cy p)) = F3 m ->
    normal (i_surf i) (Fin (cx (turn q p))) (Fin (cy (turn q p))) = F3 (turn q m)).
  { intros m E. cbn. destruct (round_normal q _ Hs (cx p) (cy p)) as [(m' & E1 & E2 & _)|(L & _)].
    - rewrite E2. f_equal. f_equal. apply F3_inj. congruence.
    - rewrite E in L. destruct L. }
  destruct (i_kind i); try congruence.
  - destruct H as (m & E & Nz & Hb). exists (turn q m). split; [exact (N m E)|]. split; [apply turn_nonzero, Nz|apply turn_bent, Hb].
  - destruct H as (m & E & ->). exists (turn q m). split; [exact (N m E)|]. symmetry. apply turn_refl.
Qed.
Lemma iface_turn niter i b Q f x r1 B : axial_turn Q -> good_frame f -> round_iface i ->
  iface_trace niter i b (RV [x] (Fcs f)) = RV [Fray r1] B -> failed r1 = false ->
  exists r0 t, x = Fray r0 /\ failed r0 = false /\ i_cs i = Fcs t /\ B = Fcs t /\ axial_frame t /\
    iface_trace niter i b (RV [Fray (turned Q f r0)] (Fcs f)) = RV [Fray (turned Q t r1)] (Fcs t).
Proof.
  intros HQ Hf Hi E F. destruct Hi as (Hs & Ho & (t & Ht & At) & Hk) eqn:Hi'. clear Hi'.
  assert (HB : B = Fcs t) by (rewrite <- Ht; apply (f_equal rvcs) in E; rewrite iface_frame in E; symmetry; exact E).
  assert (Ri : round_iface i) by (repeat split; eauto).
  destruct (iface_inv niter i b f t x r1 B Hk Ht E F) as (r0 & u & v' & -> & F0 & Eh & Hb & Er).
  exists r0, t. split; [reflexivity|]. split; [exact F0|]. split; [exact Ht|]. split; [exact HB|]. split; [exact At|].
  destruct (frame_turn Q t HQ At) as (q & Qp & Qv). set (p := chg_pt f t (pos r0)) in *. set (v := chg_vec f t (vel r0)) in *.
  assert (Gt : good_frame t) by apply At.
  assert (Cp : chg_pt f t (pos (turned Q f r0)) = turn q p).
  { cbn. rewrite chg_pt_local, global_of_local by assumption. rewrite <- Qp. unfold p. rewrite chg_pt_global by assumption. reflexivity. }
  assert (Cv : chg_vec f t (vel (turned Q f r0)) = turn q v).
  { cbn. rewrite chg_vec_local, global_of_local_dir by assumption. rewrite <- Qv. unfold v. rewrite chg_vec_local, global_of_local_dir by assumption. reflexivity. }
  assert (Eh' : hit (i_surf i) niter (F3 (turn q p)) (F3 (turn q v)) = (true, Fin u)).
  { destruct (round_hit q (i_surf i) niter p v Hs) as (S1 & S2). rewrite Eh in S1, S2. cbn in S1, S2.
    destruct (hit _ _ (F3 (turn q p)) _) as [sb dt]; cbn in *. rewrite S2 by reflexivity. subst. reflexivity. }
  pose proof (bends_turn q i b _ _ _ _ Ri Hb) as Hb'. rewrite turn_plus, turn_times in Hb'.
  rewrite <- Cp, <- Cv in Eh', Hb'.
  change (wavelength r0) with (wavelength (turned Q f r0)) in Hb'.
  rewrite (iface_do niter i b f t (turned Q f r0) u (turn q v') Hk Ht F0 Eh' Hb'). rewrite Cp, Cv, Er. f_equal. f_equal. f_equal.
  unfold after, turned. cbn. rewrite Qp, Qv, <- turn_times, <- turn_plus. f_equal. f_equal.
  unfold hidden. destruct (i_obsc i) as [o|] eqn:Eo; [|reflexivity]. apply (round_contains q o (Ho o eq_refl)).
Qed.

(** ** Whole traces *)
Lemma one_out niter i b x f : round_iface i -> exists y g, iface_trace niter i b (RV [x] (Fcs f)) = RV [y] (Fcs g) /\ axial_frame g.
Proof.
  intros (_ & _ & (t & Ht & At) & _).
  assert (exists y, interact niter i b (RV [x] (Fcs f)) = RV [y] (Fcs t)) as (y & E).
  { unfold interact. rewrite Ht. destruct (i_kind i), b; eexists; reflexivity. }
  unfold iface_trace. rewrite E. destruct (i_obsc i); eexists _, t; (split; [reflexivity|exact At]).
Qed.
Lemma in_turn_one niter b is x f : (forall i, In i is -> round_iface i) -> good_frame f ->
  exists y g, in_turn niter b is (RV [x] (Fcs f)) = RV [y] (Fcs g) /\ good_frame g.
Proof.
  revert x f. induction is as [|i is IH]; intros x f H G; cbn; [eauto|].
  destruct (one_out niter i b x f (H i (or_introl eq_refl))) as (y & g & -> & (Gg & _)). apply IH; [intros; apply H; right; assumption|exact Gg].
Qed.
Lemma in_turn_turn niter b Q is : axial_turn Q -> (forall i, In i is -> round_iface i) -> forall f x r1 B, good_frame f ->
  in_turn niter b is (RV [x] (Fcs f)) = RV [Fray r1] (Fcs B) -> failed r1 = false ->
  exists r0, x = Fray r0 /\ failed r0 = false /\ good_frame B /\
    in_turn niter b is (RV [Fray (turned Q f r0)] (Fcs f)) = RV [Fray (turned Q B r1)] (Fcs B).
Proof.
  intros HQ. induction is as [|i is IH] using rev_ind; intros Hr f x r1 B Hf E F.
  - pose proof (f_equal rvcs E) as Ec. pose proof (f_equal rays E) as Ex. cbn [rvcs rays in_turn fold_left] in Ec, Ex. apply Fcs_inj in Ec. subst B.
    assert (x = Fray r1) by congruence. exists r1. auto.
  - assert (Hr' : forall j, In j is -> round_iface j) by (intros; apply Hr, in_or_app; auto).
    rewrite in_turn_app in *. destruct (in_turn_one niter b is x f Hr' Hf) as (y & g & Ey & Gg). rewrite Ey in E.
    change (iface_trace niter i b (RV [y] (Fcs g)) = RV [Fray r1] (Fcs B)) in E.
    destruct (iface_turn niter i b Q g y r1 (Fcs B) HQ Gg) as (r' & t & -> & F' & Ht & EB & At & Et); [apply Hr, in_or_app; right; left; reflexivity|exact E|exact F|].
    apply Fcs_inj in EB. subst t. destruct (IH Hr' f x r' g Hf Ey F') as (r0 & -> & F0 & _ & E0).
    exists r0. split; [reflexivity|]. split; [exact F0|]. split; [apply At|]. rewrite in_turn_app, E0. exact Et.
Qed.
Lemma in_visit b (o : optic XR) i : In i (visit b o) -> In i (leaves o).
Proof. unfold visit. destruct b; [apply in_rev|auto]. Qed.
Lemma trace_turned niter o b Q A x B r1 : axial_optic o -> axial_turn Q -> good_frame A -> gets_through niter o b A x B r1 ->
  exists r0, x = Fray r0 /\ gets_through niter o b A (Fray (turned Q A r0)) B (turned Q B r1).
Proof.
  intros Ho HQ HA (E & F). unfold gets_through in *. rewrite trace_in_turn in *.
  destruct (in_turn_turn niter b Q (visit b o) HQ (fun i Hi => Ho i (in_visit b o i Hi)) A x r1 B HA E F) as (r0 & -> & F0 & GB & Et).
  exists r0. split; [reflexivity|]. rewrite trace_in_turn. auto.
Qed.
Lemma trace_good niter o b A x B r1 : axial_optic o -> good_frame A -> gets_through niter o b A x B r1 ->
  exists r0, x = Fray r0 /\ failed r0 = false /\ good_frame B.
Proof.
  intros Ho HA (E & F). rewrite trace_in_turn in *. assert (HQ : axial_turn eyeR) by (split; [apply orth_eye|cbn; auto 6]).
  destruct (in_turn_turn niter b eyeR (visit b o) HQ (fun i Hi => Ho i (in_visit b o i Hi)) A x r1 B HA E F) as (r0 & -> & F0 & GB & Et). eauto.
Qed.

(** ** Rays that keep to the axis, or to a plane through it *)
Lemma trans_turn Q : axial_turn Q -> axial_turn (transR Q).
Proof. intros (O & Q1 & Q2 & Q3 & Q4 & Q5). split; [apply orth_trans, O|]. cbn. auto 6. Qed.
Lemma turned_back Q A r : axial_turn Q -> good_frame A -> turned (transR Q) A (turned Q A r) = r.
Proof.
  intros (HQ & _) HA. destruct r as [p v t w fl g l]. unfold turned. cbn [pos vel time wavelength flux vignetted failed].
  rewrite global_of_local, global_of_local_dir by exact HA. rewrite !orth_apply_lr by exact HQ. f_equal.
  - apply local_of_global, HA.
  - unfold local_dir, global_dir. apply orth_apply_lr, HA.
Qed.
Lemma trace_turned_iff niter o b Q A B r r1 : axial_optic o -> axial_turn Q -> good_frame A -> good_frame B ->
  gets_through niter o b A (Fray r) B r1 <-> gets_through niter o b A (Fray (turned Q A r)) B (turned Q B r1).
Proof.
  intros Ho HQ HA HB. split; intros H.
  - destruct (trace_turned niter o b Q A _ B r1 Ho HQ HA H) as (r0 & E & H'). apply Fray_inj in E. subst. exact H'.
  - destruct (trace_turned niter o b (transR Q) A _ B _ Ho (trans_turn Q HQ) HA H) as (r0 & E & H'). apply Fray_inj in E. subst.
    rewrite !turned_back in H' by assumption. exact H'.
Qed.
Lemma fixed_ray niter o b Q A B r r1 : axial_optic o -> axial_turn Q -> good_frame A ->
  gets_through niter o b A (Fray r) B r1 -> turned Q A r = r -> turned Q B r1 = r1.
Proof.
  intros Ho HQ HA H E. destruct (trace_turned niter o b Q A _ B r1 Ho HQ HA H) as (r0 & E0 & (H' & _)). apply Fray_inj in E0. subst r0. rewrite E in H'.
  destruct H as (H & _). rewrite H in H'. pose proof (f_equal rays H') as Er. cbn [rays] in Er.
  apply Fray_inj. congruence.
Qed.
(** Reflection in the plane a x + b y = 0. *)
Definition flip (a b : R) : mR :=
  let n := a * a + b * b in
  M3 ((b * b - a * a) / n) (- (2 * a * b) / n) 0 (- (2 * a * b) / n) ((a * a - b * b) / n) 0 0 0 1.
Lemma flip_turn a b : a * a + b * b <> 0 -> axial_turn (flip a b).
Proof.
  intros H. split; [|cbn; auto 6]. unfold orthonormal, dotR, flip; cbn. repeat split; field; exact H.
Qed.
Lemma flip_fixed a b g : a * a + b * b <> 0 -> (applyR (flip a b) g = g <-> a * cx g + b * cy g = 0).
Proof.
  intros H. split; intros E.
  - pose proof (f_equal cx E) as E1. pose proof (f_equal cy E) as E2. cbn in E1, E2.
    assert (X : cx g * (b * b - a * a) - cy g * (2 * a * b) = cx g * (a * a + b * b)) by (transitivity ((cx g * ((b * b - a * a) / (a * a + b * b)) + cy g * (- (2 * a * b) / (a * a + b * b)) + cz g * 0) * (a * a + b * b)); [field; exact H|rewrite E1; reflexivity]).
    assert (Y : - cx g * (2 * a * b) + cy g * (a * a - b * b) = cy g * (a * a + b * b)) by (transitivity ((cx g * (- (2 * a * b) / (a * a + b * b)) + cy g * ((a * a - b * b) / (a * a + b * b)) + cz g * 0) * (a * a + b * b)); [field; exact H|rewrite E2; reflexivity]).
    assert (A0 : a * (a * cx g + b * cy g) = 0) by lra. assert (B0 : b * (a * cx g + b * cy g) = 0) by lra.
    apply Rmult_integral in A0, B0. destruct A0 as [->|A0]; [|exact A0]. destruct B0 as [->|B0]; [|exact B0]. exfalso. apply H. ring.
  - apply vec3_eq; cbn; [| |ring].
    + apply (Rmult_eq_reg_r (a * a + b * b)); [|exact H]. field_simplify; [|exact H]. assert (a * (a * cx g + b * cy g) = 0) by (rewrite E; ring). assert (b * (a * cx g + b * cy g) = 0) by (rewrite E; ring). lra.
    + apply (Rmult_eq_reg_r (a * a + b * b)); [|exact H]. field_simplify; [|exact H]. assert (a * (a * cx g + b * cy g) = 0) by (rewrite E; ring). assert (b * (a * cx g + b * cy g) = 0) by (rewrite E; ring). lra.
Qed.
Lemma flip_meridional a b A r : a * a + b * b <> 0 -> good_frame A -> turned (flip a b) A r = r <-> meridional a b A r.
Proof.
  intros H HA. unfold meridional. rewrite <- !(flip_fixed a b _ H). split.
  - intros E. rewrite <- E at 2 4. unfold turned; cbn [pos vel]. rewrite global_of_local, global_of_local_dir by exact HA. auto.
  - intros (E1 & E2). unfold turned. rewrite E1, E2. rewrite local_of_global by exact HA. unfold local_dir, global_dir. rewrite orth_apply_lr by exact HA. destruct r; reflexivity.
Qed.
Lemma trace_meridional niter o b A B r r1 m n : axial_optic o -> good_frame A -> m * m + n * n <> 0 ->
  gets_through niter o b A (Fray r) B r1 -> meridional m n A r -> meridional m n B r1.
Proof.
  intros Ho HA H G M. destruct (trace_good niter o b A _ B r1 Ho HA G) as (_ & _ & _ & GB).
  apply flip_meridional; [exact H|exact GB|]. apply (fixed_ray niter o b _ A B r r1 Ho (flip_turn _ _ H) HA G). apply flip_meridional; assumption.
Qed.

(** ** Skewness *)
Definition crossz (p v : vR) : R := cx p * cy v - cy p * cx v.
Lemma normal_radial s x y m : round_surface s -> normal s (Fin x) (Fin y) = F3 m -> x * cy m - y * cx m = 0.
Proof.
  intros Hs E. destruct (Req_dec (x * x + y * y) 0) as [Z|H].
  - assert (x = 0) by nra. assert (y = 0) by nra. subst. ring.
  - assert (q1 : (x * x - y * y) / (x * x + y * y) * ((x * x - y * y) / (x * x + y * y)) + 2 * x * y / (x * x + y * y) * (2 * x * y / (x * x + y * y)) = 1) by (field; exact H).
    assert (q2 : 2 * x * y / (x * x + y * y) * (2 * x * y / (x * x + y * y)) + (y * y - x * x) / (x * x + y * y) * ((y * y - x * x) / (x * x + y * y)) = 1) by (field; exact H).
    assert (q3 : (x * x - y * y) / (x * x + y * y) * (2 * x * y / (x * x + y * y)) + 2 * x * y / (x * x + y * y) * ((y * y - x * x) / (x * x + y * y)) = 0) by (field; exact H).
    set (q := PT _ _ _ _ q1 q2 q3).
    assert (Tx : tx q x y = x) by (unfold tx; cbn; field; exact H). assert (Ty : ty q x y = y) by (unfold ty; cbn; field; exact H).
    destruct (round_normal q s Hs x y) as [(m' & E1 & E2 & _)|(L & _)]; [|rewrite E in L; destruct L].
    rewrite Tx, Ty, E in E2. rewrite E in E1. apply F3_inj in E1, E2. subst m'.
    pose proof (f_equal cx E2) as X. pose proof (f_equal cy E2) as Y. cbn in X, Y. unfold tx in X. unfold ty in Y. cbn in X, Y.
    assert (X' : (x * x - y * y) * cx m + 2 * x * y * cy m = cx m * (x * x + y * y)) by (apply (Rmult_eq_reg_r (/ (x * x + y * y))); [|apply Rinv_neq_0_compat, H]; transitivity (cx m); [rewrite X at 2|]; field; exact H).
    assert (Y' : 2 * x * y * cx m + (y * y - x * x) * cy m = cy m * (x * x + y * y)) by (apply (Rmult_eq_reg_r (/ (x * x + y * y))); [|apply Rinv_neq_0_compat, H]; transitivity (cy m); [rewrite Y at 2|]; field; exact H).
    assert (A0 : x * (x * cy m - y * cx m) = 0) by lra. assert (B0 : y * (x * cy m - y * cx m) = 0) by lra.
    apply Rmult_integral in A0, B0. destruct A0 as [->|A0]; [|exact A0]. destruct B0 as [->|B0]; [|exact B0]. exfalso. apply H. ring.
Qed.
Lemma refr_sq u n k1 k : dotR u u = 1 -> dotR n n = 1 -> k <> 0 -> sin2R u n k1 k <= 1 -> dotR (refrR u n k1 k) (refrR u n k1 k) = / (k * k).
Proof.
  intros Hu Hn Hk Hs. unfold refrR. set (s := sideR u n). set (S := sqrt (1 - sin2R u n k1 k)). set (e := k1 / k). set (c := dotR u n).
  assert (HS : S * S = 1 - e * e * (1 - c * c)) by (unfold S; rewrite sqrt_sqrt by lra; reflexivity).
  assert (Hss : s * s = 1) by apply side_sq.
  set (F := e * (s * c) + S). cbv zeta.
  assert (D : dotR (minusR (timesR e u) (timesR (F * s) n)) (minusR (timesR e u) (timesR (F * s) n)) = 1).
  { transitivity (e * e * dotR u u - 2 * e * F * s * dotR u n + F * F * (s * s) * dotR n n); [unfold dotR; cbn; ring|].
    rewrite Hu, Hn, Hss. fold c. unfold F.
    transitivity (e * e + S * S - e * e * (c * c) * (s * s)); [ring|]. rewrite Hss, HS. ring. }
  transitivity (/ k * / k * dotR (minusR (timesR e u) (timesR (F * s) n)) (minusR (timesR e u) (timesR (F * s) n))); [unfold dotR; cbn; ring|].
  rewrite D. field. exact Hk.
Qed.
Lemma bends_skew i b w p v v' : round_iface i -> bends i b w p v v' -> v' <> zeroR -> v <> zeroR /\ crossz p v' / dotR v' v' = crossz p v / dotR v v.
Proof.
  intros (Hs & _) H Nz. unfold bends in H. destruct (i_kind i); try (subst; auto).
  - destruct H as (m & E & Vz & [(k & Ek & Hk & Hs2 & ->)|(_ & ->)]); [|congruence]. split; [exact Vz|].
    pose proof (normal_radial _ _ _ _ Hs E) as Rad. destruct (normal_unit _ _ _ _ E) as (U & _).
    rewrite refr_sq by (auto; apply unit_unit, Vz).
    assert (L : 0 < lenR v) by (apply len_pos, Vz). pose proof (len_sq v) as Ls.
    unfold refrR. cbv zeta. set (F := _ * sideR (unitR v) m). clearbody F. rewrite <- Ls. unfold crossz, unitR, index_of. cbn.
    transitivity (k * k * (/ k * (/ lenR v / k * (/ lenR v * (cx p * cy v - cy p * cx v)) - F * (cx p * cy m - cy p * cx m)))); [field; lra|].
    rewrite Rad. field. lra.
  - destruct H as (m & E & ->). pose proof (normal_radial _ _ _ _ Hs E) as Rad. destruct (normal_unit _ _ _ _ E) as (U & _).
    assert (D : dotR (reflR v m) (reflR v m) = dotR v v).
    { unfold reflR. transitivity (dotR v v - 4 * dotR v m * dotR v m + 4 * dotR v m * dotR v m * dotR m m); [unfold dotR; cbn; ring|]. rewrite U. ring. }
    split.
    + intros ->. apply Nz. unfold reflR, dotR. apply vec3_eq; cbn; ring.
    + rewrite D. f_equal. unfold crossz, reflR; cbn. transitivity (cx p * cy v - cy p * cx v - 2 * dotR v m * (cx p * cy m - cy p * cx m)); [ring|]. rewrite Rad. ring.
Qed.
(** In the frame of the interface the global skewness is the local one up to a sign. *)
Definition dsign (t : frame) : R := m00 (rot t) * m11 (rot t) - m01 (rot t) * m10 (rot t).
Lemma skew_local t r : axial_frame t -> skewness t r = dsign t * (crossz (pos r) (vel r) / dotR (vel r) (vel r)).
Proof.
  intros (G & X & Y & A1 & A2 & A3 & A4). unfold skewness. cbv zeta.
  replace (dotR (global_dir t (vel r)) (global_dir t (vel r))) with (dotR (vel r) (vel r)) by (symmetry; apply orth_dot, G).
  unfold dsign, crossz, Rdiv. rewrite <- Rmult_assoc. f_equal. unfold global_point, global_dir; cbn. rewrite X, Y, A1, A2. ring.
Qed.
Lemma iface_skew niter i b f r0 r1 t : good_frame f -> round_iface i -> i_cs i = Fcs t -> axial_frame t ->
  iface_trace niter i b (RV [Fray r0] (Fcs f)) = RV [Fray r1] (Fcs t) -> failed r1 = false -> vel r1 <> zeroR ->
  vel r0 <> zeroR /\ skewness f r0 = skewness t r1.
Proof.
  intros Hf Hi Ht At E F Nz. destruct (iface_inv niter i b f t _ r1 _ (proj2 (proj2 (proj2 Hi))) Ht E F) as (r & u & v' & Er & F0 & Eh & Hb & E1).
  apply Fray_inj in Er. subst r. rewrite E1 in *. cbn in Nz.
  destruct (bends_skew i b _ _ _ _ Hi Hb Nz) as (Vz & Sk). split.
  - intros Z. apply Vz. rewrite Z. unfold chg_vec. apply vec3_eq; cbn; ring.
  - assert (Gt : good_frame t) by apply At.
    transitivity (skewness t (Ray (chg_pt f t (pos r0)) (chg_vec f t (vel r0)) 0 0 0 false false)).
    + unfold skewness. cbn [pos vel]. rewrite chg_pt_global by assumption. rewrite chg_vec_local, global_of_local_dir by assumption. reflexivity.
    + rewrite !skew_local by exact At. unfold after. cbn [pos vel]. f_equal. rewrite Sk. f_equal. unfold crossz; cbn; ring.
Qed.
Lemma in_turn_skew niter b is : (forall i, In i is -> round_iface i) -> forall f r0 r1 B, good_frame f ->
  in_turn niter b is (RV [Fray r0] (Fcs f)) = RV [Fray r1] (Fcs B) -> failed r1 = false -> vel r1 <> zeroR -> skewness f r0 = skewness B r1.
Proof.
  induction is as [|i is IH] using rev_ind; intros Hr f r0 r1 B Hf E F Nz.
  - pose proof (f_equal rvcs E) as Ec. pose proof (f_equal rays E) as Ex. cbn [rvcs rays in_turn fold_left] in Ec, Ex. apply Fcs_inj in Ec. subst B.
    assert (r0 = r1) by (apply Fray_inj; congruence). subst; reflexivity.
  - assert (Hr' : forall j, In j is -> round_iface j) by (intros; apply Hr, in_or_app; auto).
    rewrite in_turn_app in *. destruct (in_turn_one niter b is (Fray r0) f Hr' Hf) as (y & g & Ey & Gg). rewrite Ey in E.
    change (iface_trace niter i b (RV [y] (Fcs g)) = RV [Fray r1] (Fcs B)) in E.
    assert (HQ : axial_turn eyeR) by (split; [apply orth_eye|cbn; auto 6]).
    assert (Ri : round_iface i) by (apply Hr, in_or_app; right; left; reflexivity).
    destruct (iface_turn niter i b eyeR g y r1 (Fcs B) HQ Gg Ri E F) as (r' & t & -> & F' & Ht & EB & At & _).
    apply Fcs_inj in EB. subst t. destruct (iface_skew niter i b g r' r1 B Gg Ri Ht At E F Nz) as (Nz' & Sk).
    rewrite <- Sk. apply (IH Hr' f r0 r' g Hf Ey F' Nz').
Qed.
Lemma trace_skew niter o b A B r r1 : axial_optic o -> good_frame A -> gets_through niter o b A (Fray r) B r1 -> vel r1 <> zeroR ->
  skewness A r = skewness B r1.
Proof.
  intros Ho HA (E & F) Nz. rewrite trace_in_turn in E.
  exact (in_turn_skew niter b (visit b o) (fun i Hi => Ho i (in_visit b o i Hi)) A r r1 B HA E F Nz).
Qed.
