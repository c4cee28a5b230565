(** C41: the generated rays form a plane wave aimed at the stop points. *)
From Coq Require Import Reals String List ZArith Bool Lra Psatz Lia.
From Verif Require Import Num NumR Vec CoordSys Surface Medium Ray Bundle Spec OpticsSpec XRFacts CoordFacts RayFacts
  Trig Optic Field RayGen GenSpec.
Import ListNotations.
Open Scope R_scope.

Lemma lenR_pos d : d <> zeroR -> 0 < lenR d.
Proof.
  intros H. unfold lenR. apply sqrt_lt_R0. destruct d as [a b c]. unfold dotR; cbn.
  destruct (Req_dec a 0); [destruct (Req_dec b 0); [destruct (Req_dec c 0)|]|]; [|nra..].
  exfalso. apply H. subst. reflexivity.
Qed.
Lemma unitR_unit d : d <> zeroR -> dotR (unitR d) (unitR d) = 1.
Proof.
  intros H. pose proof (lenR_pos d H) as L. unfold unitR.
  transitivity (/ lenR d * / lenR d * dotR d d); [destruct d; unfold dotR, timesR; cbn; ring|].
  assert (E : dotR d d = lenR d * lenR d) by (unfold lenR; rewrite sqrt_sqrt; [reflexivity|unfold dotR; nra]).
  rewrite E. field. lra.
Qed.
Lemma finish_vel_F d n : d <> zeroR -> n <> 0 -> finish_vel (F3 d) (Fin n) = F3 (timesR (/ n) (unitR d)).
Proof.
  intros Hd Hn. pose proof (lenR_pos d Hd) as L. unfold finish_vel. rewrite dot3_F.
  assert (0 <= dotR d d) by (unfold dotR; nra). xunf. rewrite xsqrt_fin by assumption. fold (lenR d). cbn [xmul].
  assert (HL : n * lenR d <> 0) by (apply Rmult_integral_contrapositive_currified; lra).
  rewrite !xdiv_fin by exact HL. unfold unitR, timesR; cbn [cx cy cz]. f_equal; f_equal; field; split; lra.
Qed.
(** The frame of the plane. *)
Definition plane_rot (z : vR) : mat3 R :=
  let k := sqrt (cy z * cy z + cz z * cz z) in
  M3 0 (- k) (cx z) (- cz z / k) (cy z * cx z / k) (cy z) (cy z / k) (cz z * cx z / k) (cz z).
Lemma finish_frame_F bd n v z : z = timesR (- n) v -> (cy z <> 0 \/ cz z <> 0) ->
  finish_frame (Fin bd) (Fin n) (F3 v) = (F3 (timesR bd z), FM (plane_rot z)).
Proof.
  intros Hz Hn.
  assert (HK : 0 < cy z * cy z + cz z * cz z) by (destruct Hn; nra).
  assert (HS : 0 < sqrt (cy z * cy z + cz z * cz z)) by (apply sqrt_lt_R0, HK).
  assert (HSS : sqrt (cy z * cy z + cz z * cz z) * sqrt (cy z * cy z + cz z * cz z) = cy z * cy z + cz z * cz z) by (apply sqrt_sqrt; lra).
  unfold finish_frame, cross3, dot3. xunf.
  replace (- n * cx v) with (cx z) by (rewrite Hz; cbn; ring).
  replace (- n * cy v) with (cy z) by (rewrite Hz; cbn; ring).
  replace (- n * cz v) with (cz z) by (rewrite Hz; cbn; ring).
  replace ((0 * cz z - 0 * cy z) * (0 * cz z - 0 * cy z) + (0 * cx z - 1 * cz z) * (0 * cx z - 1 * cz z) + (1 * cy z - 0 * cx z) * (1 * cy z - 0 * cx z))
    with (cy z * cy z + cz z * cz z) by ring.
  rewrite xsqrt_fin by lra. unfold plane_rot. set (k := sqrt (cy z * cy z + cz z * cz z)) in *.
  rewrite !xdiv_fin by lra. xunf. unfold timesR; cbn [cx cy cz].
  f_equal; [f_equal; f_equal; ring|]. f_equal; f_equal; try (field; lra).
  apply (Rmult_eq_reg_r k); [|lra]. replace (- k * k) with (- (cy z * cy z + cz z * cz z)) by lra. field. lra.
Qed.
Lemma plane_rot_orth z : dotR z z = 1 -> (cy z <> 0 \/ cz z <> 0) -> orthonormal (plane_rot z) /\ col2 (plane_rot z) = z.
Proof.
  intros Hz Hn.
  assert (HK : 0 < cy z * cy z + cz z * cz z) by (destruct Hn; nra).
  assert (HS : 0 < sqrt (cy z * cy z + cz z * cz z)) by (apply sqrt_lt_R0, HK).
  assert (HSS : sqrt (cy z * cy z + cz z * cz z) * sqrt (cy z * cy z + cz z * cz z) = cy z * cy z + cz z * cz z) by (apply sqrt_sqrt; lra).
  split; [|destruct z; reflexivity].
  unfold plane_rot. set (k := sqrt (cy z * cy z + cz z * cz z)) in *. destruct z as [a b c]. unfold dotR in Hz. cbn [cx cy cz] in *.
  unfold orthonormal, col0, col1, col2, dotR. cbn [cx cy cz m00 m01 m02 m10 m11 m12 m20 m21 m22].
  assert (HI : (b * b + c * c) / (k * k) = 1) by (rewrite HSS; field; lra).
  repeat split.
  - transitivity ((b * b + c * c) / (k * k)); [field; lra|exact HI].
  - transitivity (k * k + a * a * ((b * b + c * c) / (k * k))); [field; lra|]. rewrite HI, HSS. lra.
  - exact Hz.
  - field. lra.
  - field. lra.
  - apply (Rmult_eq_reg_r k); [|lra].
    replace ((- k * a + b * a / k * b + c * a / k * c) * k) with (a * (b * b + c * c) - a * (k * k)) by (field; lra). rewrite HSS. ring.
Qed.
Lemma finishParallel_F m z n bd p : orthonormal m -> col2 m = z -> n <> 0 ->
  finishParallel (F3 (timesR bd z)) (FM m) (F3 (timesR (- / n) z)) (F3 p) = F3 (plusR p (timesR (bd - dotR z p) z)).
Proof.
  intros Ho Hc Hn. unfold finishParallel. rewrite fwd_point_F.
  set (q := applyR (transR m) (minusR p (timesR bd z))).
  assert (Hq : cz q = dotR z p - bd).
  { unfold q. destruct Ho as (_ & _ & H2 & _). rewrite Hc in H2.
    assert (E : cz (applyR (transR m) (minusR p (timesR bd z))) = dotR z p - bd * dotR z z).
    { rewrite <- Hc. destruct m, p. unfold applyR, transR, minusR, timesR, plusR, col0, col1, col2, dotR. cbn. ring. }
    rewrite E, H2. ring. }
  assert (Hl : applyR (transR m) z = V3 0 0 1).
  { destruct Ho as (_ & _ & H2 & _ & H02 & H12). rewrite <- Hc. apply vec3_eq.
    - rewrite <- H02. destruct m. unfold applyR, transR, timesR, plusR, col0, col1, col2, dotR. cbn. ring.
    - rewrite <- H12. destruct m. unfold applyR, transR, timesR, plusR, col0, col1, col2, dotR. cbn. ring.
    - rewrite <- H2. destruct m. unfold applyR, transR, timesR, plusR, col0, col1, col2, dotR. cbn. ring. }
  assert (Hx : cx z * m00 m + cy z * m10 m + cz z * m20 m = 0).
  { transitivity (cx (applyR (transR m) z)); [|rewrite Hl; reflexivity].
    destruct m, z. unfold applyR, transR, timesR, plusR, col0, col1, col2. cbn. ring. }
  assert (Hy : cx z * m01 m + cy z * m11 m + cz z * m21 m = 0).
  { transitivity (cy (applyR (transR m) z)); [|rewrite Hl; reflexivity].
    destruct m, z. unfold applyR, transR, timesR, plusR, col0, col1, col2. cbn. ring. }
  assert (Hz : cx z * m02 m + cy z * m12 m + cz z * m22 m = 1).
  { transitivity (cz (applyR (transR m) z)); [|rewrite Hl; reflexivity].
    destruct m, z. unfold applyR, transR, timesR, plusR, col0, col1, col2. cbn. ring. }
  assert (E1 : (- cx (F3 (timesR (- / n) z)) * m00 (FM m) - cy (F3 (timesR (- / n) z)) * m10 (FM m) - cz (F3 (timesR (- / n) z)) * m20 (FM m))%num = Fin 0).
  { xunf. cbn [timesR cx cy cz]. f_equal.
    transitivity (/ n * (cx z * m00 m + cy z * m10 m + cz z * m20 m)); [unfold timesR; cbn; ring|rewrite Hx; ring]. }
  assert (E2 : (- cx (F3 (timesR (- / n) z)) * m01 (FM m) - cy (F3 (timesR (- / n) z)) * m11 (FM m) - cz (F3 (timesR (- / n) z)) * m21 (FM m))%num = Fin 0).
  { xunf. cbn [timesR cx cy cz]. f_equal.
    transitivity (/ n * (cx z * m01 m + cy z * m11 m + cz z * m21 m)); [unfold timesR; cbn; ring|rewrite Hy; ring]. }
  assert (E3 : (- cx (F3 (timesR (- / n) z)) * m02 (FM m) - cy (F3 (timesR (- / n) z)) * m12 (FM m) - cz (F3 (timesR (- / n) z)) * m22 (FM m))%num = Fin (/ n)).
  { xunf. cbn [timesR cx cy cz]. f_equal.
    transitivity (/ n * (cx z * m02 m + cy z * m12 m + cz z * m22 m)); [unfold timesR; cbn; ring|rewrite Hz; ring]. }
  rewrite E1, E2, E3. assert (Hni : / n <> 0) by (apply Rinv_neq_0_compat, Hn).
  assert (E4 : V3 (cx (F3 q) + - cz (F3 q) / Fin (/ n) * Fin 0)%num (cy (F3 q) + - cz (F3 q) / Fin (/ n) * Fin 0)%num
                  (cz (F3 q) + - cz (F3 q) / Fin (/ n) * Fin (/ n))%num = F3 (V3 (cx q) (cy q) 0)).
  { xunf. rewrite xdiv_fin by exact Hni. cbn [xmul xadd]. f_equal; f_equal; try ring. field. exact Hn. }
  rewrite E4, rev_point_F. f_equal.
  assert (E5 : V3 (cx q) (cy q) 0 = minusR q (timesR (cz q) (V3 0 0 1))) by (unfold minusR, timesR; cbn; f_equal; ring).
  rewrite E5, applyR_minus, applyR_times. unfold q at 1. rewrite orth_apply_rl by exact Ho.
  assert (E6 : applyR m (V3 0 0 1) = z) by (rewrite <- Hc; destruct m; unfold applyR, timesR, plusR, col0, col1, col2; cbn; f_equal; ring).
  rewrite E6, Hq. destruct p, z. unfold plusR, minusR, timesR; cbn. f_equal; ring.
Qed.

(** Where the plane wave starts. *)
Definition start (bd : R) (d p : vR) : vR := plusR p (timesR (- (bd + dotR (unitR d) p)) (unitR d)).
Lemma finish_F bd d n w (fl : list R) (pts : list vR) cs : (cy d <> 0 \/ cz d <> 0) -> n <> 0 ->
  finish (Fin bd) (F3 d) (Fin n) (Fin w) (map Fin fl) (map F3 pts) (Fcs cs) =
  Frv (RV (map (fun fp => Ray (start bd d (snd fp)) (timesR (/ n) (unitR d)) 0 w (fst fp) false false) (combine fl pts)) cs).
Proof.
  intros Hd Hn. assert (Hd0 : d <> zeroR) by (intros ->; cbn in Hd; destruct Hd as [H|H]; apply H; reflexivity).
  unfold finish. rewrite finish_vel_F by assumption.
  set (z := timesR (-1) (unitR d)).
  pose proof (lenR_pos d Hd0) as L.
  assert (Hz1 : dotR z z = 1).
  { unfold z. rewrite <- (unitR_unit d Hd0). destruct (unitR d). unfold dotR, timesR; cbn. ring. }
  assert (Hz2 : cy z <> 0 \/ cz z <> 0).
  { assert (HI : / lenR d <> 0) by (apply Rinv_neq_0_compat; lra).
    unfold z, unitR, timesR; cbn. destruct Hd as [H|H]; [left|right]; intros E; apply H;
      apply (Rmult_eq_reg_l (/ lenR d)); try exact HI; lra. }
  rewrite (finish_frame_F bd n _ z); [|unfold z; destruct (unitR d); unfold timesR; cbn; f_equal; field; exact Hn|exact Hz2].
  destruct (plane_rot_orth z Hz1 Hz2) as [Ho Hc].
  unfold Frv; cbn [rays rvcs]. f_equal. rewrite map_map.
  revert pts. induction fl as [|f fl IH]; intros [|p pts]; try reflexivity. cbn [map combine]. rewrite IH. f_equal.
  cbn [fst snd]. unfold Fray; cbn [pos vel time Ray.wavelength flux vignetted failed].
  replace (timesR (/ n) (unitR d)) with (timesR (- / n) z) by (unfold z; destruct (unitR d); unfold timesR; cbn; f_equal; ring).
  rewrite (finishParallel_F _ z) by assumption.
  assert (E : plusR p (timesR (bd - dotR z p) z) = start bd d p); [|rewrite E; reflexivity].
  unfold start, z. destruct (unitR d) as [u1 u2 u3], p as [p1 p2 p3]. unfold plusR, timesR, dotR; cbn. f_equal; ring.
Qed.
Lemma start_aimed bd d n p : (cy d <> 0 \/ cz d <> 0) -> n <> 0 ->
  timesR n (timesR (/ n) (unitR d)) = unitR d /\
  dotR (start bd d p) (unitR d) = - bd /\
  on_line (start bd d p) (timesR (/ n) (unitR d)) (n * (bd + dotR (unitR d) p)) = p.
Proof.
  intros Hd Hn. assert (Hd0 : d <> zeroR) by (intros ->; cbn in Hd; destruct Hd as [H|H]; apply H; reflexivity).
  pose proof (unitR_unit d Hd0) as HU. unfold start. destruct (unitR d) as [a b c], p as [x y z].
  unfold timesR, dotR, plusR, on_line in *. cbn [cx cy cz] in *. repeat split.
  - f_equal; field; exact Hn.
  - transitivity ((a * x + b * y + c * z) - (bd + (a * x + b * y + c * z)) * (a * a + b * b + c * c)); [ring|rewrite HU; ring].
  - unfold plusR, timesR; cbn. f_equal; field; exact Hn.
Qed.

Definition settled_of (b : beam) (m : medium XR) : settled XR :=
  Settled (Fin (b_dist b)) m (b_surf b, Fcs (b_sframe b)) (Fcs (b_frame b)) (F3 (b_dir b)) (Fin (b_w b)).
Lemma launch_plane_wave b m fl xys : proper b xys -> getN m (Fin (b_w b)) = Fin (b_n b) -> List.length fl = List.length xys ->
  plane_wave b fl xys (launch (settled_of b m) (map Fin fl) (map (fun p => (Fin (fst p), Fin (snd p))) xys)).
Proof.
  intros (HF & HS & Hn & Hd & Hsag) Hm Hlen. unfold launch, settled_of. cbn [s_backDist s_medium s_stop s_cs s_dir s_w]. rewrite Hm.
  assert (Hpts : exists pts, map (stop_point (b_surf b, Fcs (b_sframe b)) (Fcs (b_frame b))) (map (fun p => (Fin (fst p), Fin (snd p))) xys) = map F3 pts /\
    Forall2 (fun xy p => exists z, sag (b_surf b) (Fin (fst xy)) (Fin (snd xy)) = Fin z /\
       global_point (b_frame b) p = global_point (b_sframe b) (V3 (fst xy) (snd xy) z)) xys pts).
  { clear Hlen. induction Hsag as [|xy xys (z & Hz) _ IH].
    - exists []. split; [reflexivity|constructor].
    - destruct IH as (pts & E & HF2). exists (chg_pt (b_sframe b) (b_frame b) (V3 (fst xy) (snd xy) z) :: pts). split.
      + cbn [map]. rewrite E. f_equal. unfold stop_point. cbn [fst snd]. rewrite Hz, mkCT_F. cbn [ct_dr ct_drot].
        change (V3 (Fin (fst xy)) (Fin (snd xy)) (Fin z)) with (F3 (V3 (fst xy) (snd xy) z)). rewrite fwd_point_F. reflexivity.
      + constructor; [|exact HF2]. exists z. split; [exact Hz|]. apply chg_pt_global; assumption. }
  destruct Hpts as (pts & -> & HF2). assert (Hn0 : b_n b <> 0) by lra. rewrite finish_F by assumption.
  eexists. split; [reflexivity|].
  assert (HL : List.length pts = List.length xys) by (clear -HF2; induction HF2; cbn; congruence).
  split; [rewrite map_length, combine_length; lia|]. split.
  - rewrite map_map. cbn [flux]. clear -Hlen HL. rewrite <- HL in Hlen. clear HL. revert pts Hlen.
    induction fl as [|f fl IH]; intros [|p pts] H; try discriminate; [reflexivity|]. cbn. f_equal. apply IH. injection H; auto.
  - intros i x y r Hi Hr. rewrite nth_error_map in Hr.
    destruct (nth_error (combine fl pts) i) as [[f p]|] eqn:Ec; [|discriminate]. injection Hr as <-.
    assert (Hp : nth_error pts i = Some p).
    { clear -Ec. revert pts i Ec. induction fl as [|f0 fl IH]; intros [|p0 pts] [|i] H; try discriminate; cbn in *; [congruence|eauto]. }
    assert (Hg : exists z, sag (b_surf b) (Fin x) (Fin y) = Fin z /\ global_point (b_frame b) p = global_point (b_sframe b) (V3 x y z)).
    { clear -HF2 Hi Hp. revert i Hi Hp. induction HF2 as [|xy q xys pts Hq _ IH]; intros [|i] Hi Hp; try discriminate; cbn in *.
      - injection Hi as ->. injection Hp as ->. exact Hq.
      - eauto. }
    destruct Hg as (z & Hz & Hg). destruct (start_aimed (b_dist b) (b_dir b) (b_n b) p Hd Hn0) as (A1 & A2 & A3).
    unfold aimed. cbn [pos vel time Ray.wavelength flux vignetted failed fst snd].
    repeat split; try assumption. eexists _, z. split; [exact Hz|]. rewrite A3. exact Hg.
Qed.
