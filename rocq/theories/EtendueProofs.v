(** C90: the Lagrange invariant, Poincare's integral invariant and the cosine theorem. *)
From Coq Require Import Reals List ZArith Bool Lra Psatz Lia.
From Verif Require Import Num NumR Vec CoordSys Surface Ray Bundle Optic Spec OpticsSpec XRFacts CoordFacts
  RayFacts RefractProofs SurfSpec SlopeProofs TreeSpec AxialTrace MalusSpec MalusProofs MalusFocus EtendueSpec.
Import ListNotations.
Open Scope R_scope.

Lemma carries_lag niter b o A rs B rs1 m : good_frame A -> carries niter b o A rs B rs1 -> lag A rs m ->
  lag B rs1 m /\ good_frame B /\ smooth_rays rs1 /\ one_light rs1.
Proof. intros G (S & L & W) M. destruct (sweeps_lag _ _ _ _ _ _ _ m W G S L M) as (? & ? & ? & ? & _). auto. Qed.
Lemma carries_good niter b o A rs B rs1 : good_frame A -> carries niter b o A rs B rs1 -> good_frame B /\ smooth_rays rs1 /\ one_light rs1.
Proof. intros G C. destruct (has_lag A rs (proj1 C)) as (m & M). apply (carries_lag _ _ _ _ _ _ _ m G C M). Qed.

(** ** Loops *)
Lemma dl_to f s d : derivable_pt_lim f s d -> derivable_pt_lim (fun t => f (s + t)) 0 d.
Proof.
  intros H eps He. destruct (H eps He) as [al Hal]. exists al. intros h H1 H2. specialize (Hal h H1 H2).
  rewrite !Rplus_0_l, Rplus_0_r. exact Hal.
Qed.
Lemma lag_rate A rs W s m : measures A rs W s -> lag A (from s rs) m -> derivable_pt_lim (fun x => time (rs x) - W x) s m.
Proof.
  intros (dp & P & D) (dp' & dt & P' & T & <-). rewrite <- (changes_unique _ _ _ P P').
  replace (ray_global_vel A (from s rs 0)) with (ray_global_vel A (rs s)) by (unfold from; rewrite Rplus_0_r; reflexivity).
  apply dl_minus; [|exact D]. apply (dl_from (fun x => time (rs x))). exact T.
Qed.
Theorem paths_agree niter (o : optic XR) b A rs B rs1 W W1 lo hi : good_frame A ->
  (forall s, lo < s < hi -> carries niter b o A (from s rs) B (from s rs1) /\ measures A rs W s /\ measures B rs1 W1 s) ->
  forall s1 s2, lo < s1 < hi -> lo < s2 < hi ->
  (W1 s2 - W1 s1) - (W s2 - W s1) = (time (rs1 s2) - time (rs1 s1)) - (time (rs s2) - time (rs s1)).
Proof.
  intros G H s1 s2 H1 H2.
  assert (E : time (rs1 s1) - W1 s1 - (time (rs s1) - W s1) = time (rs1 s2) - W1 s2 - (time (rs s2) - W s2)).
  { apply (still_constant (fun x => (time (rs1 x) - W1 x) - (time (rs x) - W x)) lo hi); try assumption. intros s Hs.
    destruct (H s Hs) as (C & M & M1). destruct (has_lag A _ (proj1 C)) as (m & L).
    pose proof (proj1 (carries_lag _ _ _ _ _ _ _ m G C L)) as L1.
    eapply dl_val; [apply dl_minus; eapply lag_rate; eassumption|ring]. }
  lra.
Qed.
Lemma Frv_one r r' B : Frv (RV [r] B) = Frv (RV [r'] B) -> r = r'.
Proof. unfold Frv. cbn. intros E. injection E. intros. destruct r as [[? ? ?] [? ? ?] ? ? ? ? ?], r' as [[? ? ?] [? ? ?] ? ? ? ? ?]; cbn in *; congruence. Qed.
(** Equal rays in, equal rays out. *)
Lemma carries_same niter b o A rs rs' B rs1 rs1' : good_frame A -> carries niter b o A rs B rs1 -> carries niter b o A rs' B rs1' ->
  rs 0 = rs' 0 -> rs1 0 = rs1' 0.
Proof.
  intros G (S & L & W) (S' & L' & W') E. destruct (malus _ _ _ _ _ _ _ W G S L) as (N & _). destruct (malus _ _ _ _ _ _ _ W' G S' L') as (N' & _).
  apply near_0 in N, N'. apply (Frv_one _ _ B). rewrite <- N, <- N', E. reflexivity.
Qed.
Theorem loop_conserved niter (o : optic XR) b A rs B rs1 W W1 lo hi : good_frame A ->
  (forall s, lo < s < hi -> carries niter b o A (from s rs) B (from s rs1) /\ measures A rs W s /\ measures B rs1 W1 s) ->
  forall s1 s2, lo < s1 < hi -> lo < s2 < hi -> rs s1 = rs s2 -> rs1 s1 = rs1 s2 /\ W1 s2 - W1 s1 = W s2 - W s1.
Proof.
  intros G H s1 s2 H1 H2 E.
  assert (E1 : rs1 s1 = rs1 s2).
  { pose proof (carries_same niter b o A (from s1 rs) (from s2 rs) B (from s1 rs1) (from s2 rs1) G (proj1 (H s1 H1)) (proj1 (H s2 H2))) as K.
    unfold from in K. rewrite !Rplus_0_r in K. exact (K E). }
  split; [exact E1|]. pose proof (paths_agree niter o b A rs B rs1 W W1 lo hi G H s1 s2 H1 H2) as K. rewrite E, E1 in K. lra.
Qed.

(** ** Two parameters *)
Lemma curl A rs e : twice_smooth A rs -> etendue A rs e ->
  exists Lu Lv a b, near (fun v => lag A (fun u => rs u v) (Lu v)) /\ near (fun u => lag A (fun v => rs u v) (Lv u)) /\
    derivable_pt_lim Lu 0 a /\ derivable_pt_lim Lv 0 b /\ a - b = e.
Proof.
  intros (qu & qv & tu & tv & quv & tuv & NU & NV & QU & QV & TU & TV) (pu & pv & qu0 & qv0 & PU & PV & Q0 & Q1 & ->).
  rewrite (changes_unique _ _ _ Q0 (proj1 (near_0 _ NU))). rewrite (changes_unique _ _ _ Q1 (proj1 (near_0 _ NV))).
  exists (fun v => tu v - dotR (momentum A (rs 0 v)) (qu v)), (fun u => tv u - dotR (momentum A (rs u 0)) (qv u)).
  exists (tuv - (dotR pv (qu 0) + dotR (momentum A (rs 0 0)) quv)), (tuv - (dotR pu (qv 0) + dotR (momentum A (rs 0 0)) quv)).
  split; [|split; [|split; [|split]]].
  - eapply near_imp; [|exact NU]. intros v (P & T). exists (qu v), (tu v). split; [exact P|]. split; [exact T|reflexivity].
  - eapply near_imp; [|exact NV]. intros u (P & T). exists (qv u), (tv u). split; [exact P|]. split; [exact T|reflexivity].
  - apply dl_minus; [exact TU|]. exact (changes_dot _ _ _ _ PV QU).
  - apply dl_minus; [exact TV|]. exact (changes_dot _ _ _ _ PU QV).
  - ring.
Qed.
Lemma curl_unique A rs Lu Lv a b e : near (fun v => lag A (fun u => rs u v) (Lu v)) -> near (fun u => lag A (fun v => rs u v) (Lv u)) ->
  derivable_pt_lim Lu 0 a -> derivable_pt_lim Lv 0 b -> twice_smooth A rs -> etendue A rs e -> a - b = e.
Proof.
  intros NU NV DU DV T E. destruct (curl A rs e T E) as (Lu' & Lv' & a' & b' & NU' & NV' & DU' & DV' & <-). f_equal.
  - eapply uniqueness_limite; [exact DU|]. eapply dl_near_ext; [|exact DU']. eapply near_imp; [|exact (near_and _ _ NU NU')].
    intros v (X & Y). eapply lag_unique; eassumption.
  - f_equal. eapply uniqueness_limite; [exact DV|]. eapply dl_near_ext; [|exact DV']. eapply near_imp; [|exact (near_and _ _ NV NV')].
    intros v (X & Y). eapply lag_unique; eassumption.
Qed.
Lemma momentum_changes A (rs : R -> ray R) : good_frame A -> smooth_rays rs -> vel (rs 0) <> zeroR -> exists p, changes (fun t => momentum A (rs t)) p.
Proof.
  intros G (_ & (dv & V) & _) Nz. assert (GV : changes (fun t => ray_global_vel A (rs t)) (applyR (rot A) dv)) by exact (changes_apply (rot A) _ _ V).
  pose proof (changes_dot _ _ _ _ GV GV) as D. cbv beta in D. set (d := dotR _ _ + dotR _ _) in D.
  assert (Z : dotR (ray_global_vel A (rs 0)) (ray_global_vel A (rs 0)) <> 0) by (rewrite global_light by exact G; pose proof (dot_pos _ Nz); lra).
  assert (I : derivable_pt_lim (fun t => / dotR (ray_global_vel A (rs t)) (ray_global_vel A (rs t))) 0
    (- d / (dotR (ray_global_vel A (rs 0)) (ray_global_vel A (rs 0)) * dotR (ray_global_vel A (rs 0)) (ray_global_vel A (rs 0))))).
  { set (f := fun t => dotR (ray_global_vel A (rs t)) (ray_global_vel A (rs t))) in *.
    pose proof (derivable_pt_lim_div (fct_cte 1) f 0 0 d (derivable_pt_lim_const 1 0) D Z) as Q.
    eapply dl_near_ext; [|eapply dl_val; [exact Q|]].
    - exists 1. split; [lra|]. intros t _. unfold div_fct, fct_cte. unfold f, Rdiv. apply Rmult_1_l.
    - unfold fct_cte, Rsqr. change (dotR (ray_global_vel A (rs 0)) (ray_global_vel A (rs 0))) with (f 0) in *. field. exact Z. }
  destruct GV as (X & Y & W). eexists. unfold momentum, slowness, changes; cbn [cx cy cz timesR].
  split; [|split]; (eapply dl_val; [apply dl_mult; [exact I|eassumption]|]).
  - instantiate (1 := V3 _ _ _). cbn [cx]. reflexivity.
  - cbn [cy]. reflexivity.
  - cbn [cz]. reflexivity.
Qed.
Lemma has_etendue A rs : good_frame A -> smooth_rays (fun u => rs u 0) -> smooth_rays (fun v => rs 0 v) -> vel (rs 0 0) <> zeroR -> exists e, etendue A rs e.
Proof.
  intros G S S' Nz. destruct (momentum_changes A (fun u => rs u 0) G S Nz) as (pu & PU). destruct (momentum_changes A (fun v => rs 0 v) G S' Nz) as (pv & PV).
  destruct S as ((qu & QU) & _), S' as ((qv & QV) & _). eexists. exists pu, pv, (global_dir A qu), (global_dir A qv).
  split; [exact PU|]. split; [exact PV|]. split; [apply changes_global, QU|]. split; [apply changes_global, QV|reflexivity].
Qed.
Lemma etendue_unique A rs e e' : etendue A rs e -> etendue A rs e' -> e = e'.
Proof.
  intros (a & b & c & d & A1 & A2 & A3 & A4 & ->) (a' & b' & c' & d' & B1 & B2 & B3 & B4 & ->).
  rewrite (changes_unique _ _ _ A1 B1), (changes_unique _ _ _ A2 B2), (changes_unique _ _ _ A3 B3), (changes_unique _ _ _ A4 B4). reflexivity.
Qed.
Theorem etendue_conserved niter (o : optic XR) b A rs B rs1 : good_frame A ->
  near (fun v => carries niter b o A (fun u => rs u v) B (fun u => rs1 u v)) -> near (fun u => carries niter b o A (fun v => rs u v) B (fun v => rs1 u v)) ->
  twice_smooth A rs -> twice_smooth B rs1 -> forall e, etendue A rs e <-> etendue B rs1 e.
Proof.
  intros G NU NV TA TB.
  pose proof (near_0 _ NU) as CU. pose proof (near_0 _ NV) as CV. cbv beta in CU, CV.
  destruct (carries_good _ _ _ _ _ _ _ G CU) as (GB & S1 & L1). destruct (carries_good _ _ _ _ _ _ _ G CV) as (_ & S2 & _).
  destruct (has_etendue A rs G (proj1 CU) (proj1 CV) (proj1 (proj1 (proj2 CU)))) as (e0 & E0).
  destruct (has_etendue B rs1 GB S1 S2 (proj1 L1)) as (e1 & E1).
  destruct (curl A rs e0 TA E0) as (Lu & Lv & a & c & DU & DV & DA & DC & E).
  assert (E01 : a - c = e1).
  { apply (curl_unique B rs1 Lu Lv a c e1); try assumption.
    - eapply near_imp; [|exact (near_and _ _ NU DU)]. intros v (C & L). apply (carries_lag _ _ _ _ _ _ _ _ G C L).
    - eapply near_imp; [|exact (near_and _ _ NV DV)]. intros u (C & L). apply (carries_lag _ _ _ _ _ _ _ _ G C L). }
  intros e. split; intros H.
  - rewrite (etendue_unique _ _ _ _ H E0), <- E, E01. exact E1.
  - rewrite (etendue_unique _ _ _ _ H E1), <- E01, E. exact E0.
Qed.

(** ** Sharp images *)
Lemma image_rate B rs tau I dI m : good_frame B -> smooth_rays rs -> one_light rs -> lag B rs m ->
  near (fun t => later B (rs t) (tau t) = I t) -> changes I dI ->
  derivable_pt_lim (fun t => time (rs t) + tau t) 0 (m + dotR (momentum B (rs 0)) dI).
Proof.
  intros G (_ & (dv & V) & _) L (dp & dt & P & T & <-) N HI.
  pose proof (turns_only rs dv L V) as Tz. destruct L as (Nz & LN).
  assert (GV : changes (fun t => ray_global_vel B (rs t)) (applyR (rot B) dv)) by exact (changes_apply (rot B) _ _ V).
  set (w := dotR (vel (rs 0)) (vel (rs 0))) in *. assert (W0 : 0 < w) by (apply dot_pos, Nz).
  assert (Cm : changes (fun t => minusR (I t) (ray_global_pos B (rs t))) (minusR dI dp)).
  { destruct P as (X & Y & Z), HI as (X' & Y' & Z'). unfold changes, minusR; cbn. repeat split; apply dl_minus; assumption. }
  pose proof (changes_dot _ _ _ _ GV Cm) as D. cbv beta in D. set (d := dotR _ _ + dotR _ _) in D.
  assert (Tau : near (fun t => dotR (ray_global_vel B (rs t)) (minusR (I t) (ray_global_pos B (rs t))) * / w = tau t)).
  { eapply near_imp; [|exact (near_and _ _ N LN)]. cbv beta. intros t (E & _ & S). rewrite <- E. unfold later.
    replace (dotR (ray_global_vel B (rs t)) (minusR (plusR (ray_global_pos B (rs t)) (timesR (tau t) (ray_global_vel B (rs t)))) (ray_global_pos B (rs t))))
      with (tau t * dotR (ray_global_vel B (rs t)) (ray_global_vel B (rs t))) by (unfold dotR; cbn; ring).
    rewrite (global_light B rs G), S. fold w. field. lra. }
  assert (Dtau : derivable_pt_lim tau 0 (d * / w)).
  { eapply dl_near_ext; [exact Tau|]. eapply dl_val; [apply dl_mult; [exact D|apply (dl_const (/ w))]|]. cbv beta. ring. }
  eapply dl_val; [apply dl_plus; [exact T|exact Dtau]|].
  set (v0 := ray_global_vel B (rs 0)) in *.
  pose proof (near_0 _ N) as E. assert (Em : minusR (I 0) (ray_global_pos B (rs 0)) = timesR (tau 0) v0) by (rewrite <- E; unfold later, v0; apply vec3_eq; cbn; ring).
  assert (Ed : d = dotR v0 dI - dotR v0 dp).
  { unfold d. rewrite Em. replace (dotR (applyR (rot B) dv) (timesR (tau 0) v0)) with (tau 0 * dotR v0 (applyR (rot B) dv)) by (unfold dotR; cbn; ring).
    unfold v0 at 1, ray_global_vel, global_dir. rewrite orth_dot by exact G. rewrite Tz. unfold dotR; cbn; ring. }
  unfold momentum. fold v0. rewrite !slow_dot. replace (dotR v0 v0) with w by (symmetry; apply (global_light B rs G)).
  rewrite Ed. field. lra.
Qed.
Theorem cosine_theorem niter (o : optic XR) b A rs B rs1 O I dO dI T0 tau lo hi : good_frame A ->
  near (fun v => forall u, lo < u < hi ->
    carries niter b o A (from u (fun x => rs x v)) B (from u (fun x => rs1 x v)) /\
    ray_global_pos A (rs u v) = O v /\ time (rs u v) = T0 v /\ later B (rs1 u v) (tau u v) = I v) ->
  (forall u, lo < u < hi -> carries niter b o A (fun v => rs u v) B (fun v => rs1 u v)) ->
  changes O dO -> changes I dI -> forall u1 u2, lo < u1 < hi -> lo < u2 < hi ->
  dotR (momentum B (rs1 u1 0)) dI - dotR (momentum A (rs u1 0)) dO = dotR (momentum B (rs1 u2 0)) dI - dotR (momentum A (rs u2 0)) dO.
Proof.
  intros G N C DO DI u1 u2 H1 H2.
  assert (GB : good_frame B) by exact (proj1 (carries_good _ _ _ _ _ _ _ G (C u1 H1))).
  (* one time for all the rays of one point *)
  assert (Eq : near (fun v => time (rs1 u1 v) + tau u1 v = time (rs1 u2 v) + tau u2 v)).
  { eapply near_imp; [|exact N]. intros v K.
    apply (focus_equal_times niter o b A (fun x => rs x v) B (fun x => rs1 x v) (fun x => tau x v) (I v) lo hi G); try assumption.
    intros s Hs. destruct (K s Hs) as ((S & L & W) & _ & _ & E). split; [exact S|]. split; [exact L|]. split; [|split; [exact W|exact E]].
    exists zeroR, 0. split; [|split].
    - apply (changes_near (fun _ => O v)); [|repeat split; apply dl_const]. apply (near_at (fun x => O v = ray_global_pos A (rs x v)) lo hi s Hs).
      intros x Hx. symmetry. apply (K x Hx).
    - eapply dl_near_ext; [|apply (dl_const (T0 v))]. apply (near_at (fun x => T0 v = time (rs x v)) lo hi s Hs). intros x Hx. symmetry. apply (K x Hx).
    - unfold dotR, zeroR; cbn. ring. }
  assert (K : forall u, lo < u < hi -> exists t0, derivable_pt_lim T0 0 t0 /\
     derivable_pt_lim (fun v => time (rs1 u v) + tau u v) 0 (t0 - dotR (momentum A (rs u 0)) dO + dotR (momentum B (rs1 u 0)) dI)).
  { intros u Hu. pose proof (C u Hu) as Cu. destruct Cu as ((_ & _ & (t0 & Dt)) & _ & _). pose proof (C u Hu) as Cu. exists t0. split.
    - eapply dl_near_ext; [|exact Dt]. eapply near_imp; [|exact N]. intros v Kv. apply (Kv u Hu).
    - assert (L : lag A (fun v => rs u v) (t0 - dotR (momentum A (rs u 0)) dO)).
      { exists dO, t0. split; [|split; [exact Dt|reflexivity]]. eapply changes_near; [|exact DO]. eapply near_imp; [|exact N]. intros v Kv. symmetry. apply (Kv u Hu). }
      destruct (carries_lag _ _ _ _ _ _ _ _ G Cu L) as (L1 & _ & S1 & O1).
      apply (image_rate B (fun v => rs1 u v) (fun v => tau u v) I dI); try assumption.
      eapply near_imp; [|exact N]. intros v Kv. apply (Kv u Hu). }
  destruct (K u1 H1) as (t1 & Dt1 & D1). destruct (K u2 H2) as (t2 & Dt2 & D2).
  pose proof (uniqueness_limite _ _ _ _ Dt1 Dt2) as Et.
  assert (E : t1 - dotR (momentum A (rs u1 0)) dO + dotR (momentum B (rs1 u1 0)) dI = t2 - dotR (momentum A (rs u2 0)) dO + dotR (momentum B (rs1 u2 0)) dI).
  { eapply uniqueness_limite; [exact D1|]. eapply dl_near_ext; [|exact D2]. eapply near_imp; [|exact Eq]. intros v e. symmetry. exact e. }
  lra.
Qed.
