(** doubleZernike: quadrature over the field of the coefficients of the wavefront. *)
From Coq Require Import Reals String List ZArith Bool Lra Lia Psatz.
From Verif Require Import Num NumR Vec CoordSys Surface Medium Ray Bundle Trig Optic Ops Field RayGen Spec OpticsSpec GenSpec AnalysisSpec
  Analysis XRFacts CoordFacts RayFacts AnalysisProofs PatternSpec PatternProofs ArrayProofs GenProofs GenMore GenLast GenQuad DiscSpec DiscProofs ZernSpec ZernProofs Fit FitSpec.
Import ListNotations.
Open Scope R_scope.

Lemma all_ok_map {A B C} (f : B -> res C) (g : A -> B) (h : A -> C) l : (forall a, In a l -> f (g a) = Ok (h a)) -> all_ok f (map g l) = Ok (map h l).
Proof.
  induction l as [|a l IH]; intros H; [reflexivity|]. cbn [map all_ok]. rewrite (H a) by (left; reflexivity). cbn [bind].
  rewrite IH by (intros; apply H; right; assumption). reflexivity.
Qed.
Lemma ndot_double (fl : list R) (pts : list (R * R)) (p a : poly2) : List.length fl = List.length pts ->
  ndot (map (fun u => Fin (at2 p (fst u) (snd u))) pts) (map (fun uw => nmul (Fin (at2 a (fst (fst uw)) (snd (fst uw)))) (Fin (snd uw))) (combine pts fl))
  = Fin (weighted fl pts (at2 (mul2 p a))).
Proof.
  intros L. unfold ndot, weighted. match goal with |- nsum ?a = Fin (sumR ?b) => replace a with (map Fin b); [apply nsum_F|] end.
  revert fl L. induction pts as [|u pts IH]; intros [|w fl] L; try discriminate; [reflexivity|]. cbn [map combine fst snd]. f_equal; [|apply IH; injection L; auto].
  rewrite at2_mul. change (Fin (w * (at2 p (fst u) (snd u) * at2 a (fst u) (snd u))) = Fin (at2 p (fst u) (snd u) * (at2 a (fst u) (snd u) * w))). f_equal. ring.
Qed.
Lemma rule_nonempty N rule : (0 < N)%nat -> exact_rule N rule -> rule <> [].
Proof.
  intros HN H ->. specialize (H (fun x => (0 + 1 * x) ^ 0) (fun x => x) (poly_below_le 1 N _ ltac:(lia) (poly_power 0 1 0)) derivable_pt_lim_id). cbn in H. lra.
Qed.
Lemma nth_map_in {A} (l : list A) (f : A -> XR) j a : nth_error l j = Some a -> nth j (map f l) (Fin 0) = f a.
Proof. intros E. apply nth_error_nth. rewrite nth_error_map, E. reflexivity. Qed.
Theorem double_value : forall niter lg basis tel field lam rings spokes m N kmax projection sphereRadius reference jmax eps Zf As,
  0 < field -> (0 < N)%nat -> gauss_rule lg rings N -> spoke_count rings spokes m ->
  (forall x y, field_node lg rings m x y ->
     zernikeGQ niter lg basis tel (Fin (field * x)) (Fin (field * y)) (Fin lam) projection rings (Some m) sphereRadius reference jmax eps
     = Ok (map (fun a => Fin (at2 a x y)) As)) ->
  evaluates basis kmax field 0 Zf ->
  exists fl pts,
    doubleZernike niter lg basis tel (Fin field) (Fin lam) rings spokes kmax projection sphereRadius reference jmax eps
    = Ok (map (fun p => map (fun a => Fin (weighted fl pts (at2 (mul2 p a)) / PI)) As) Zf) /\
    forall p d, degree2 d p -> (d < 2 * N)%nat -> (d < m)%nat -> annulus_integral 0 (at2 p) (weighted fl pts (at2 p)).
Proof.
  intros niter lg basis tel field lam rings spokes m N kmax projection sphereRadius reference jmax eps Zf As Hf HN (rule & Hlg & Hr & He) (Hm & Hs) HG Hev.
  set (angles := map (fun j => 2 * PI * (INR j / INR m)) (seq 0 m)).
  set (fl := flat_map (fun _ => map (fun lw => gq_flux 0 m (snd lw)) rule) angles).
  set (pol := flat_map (fun th => map (fun lw => (sqrt (0 * 0 + (1 + fst lw) * (1 - 0 * 0) / 2), th)) rule) angles).
  pose proof (gq_moments 0 N m rule ltac:(lra) Hm Hr He) as MM. cbv zeta in MM. fold angles in MM. fold fl in MM. fold pol in MM. destruct MM as (RAD & ANG).
  set (pts := map cartesian pol).
  assert (HM : INR m <> 0) by (apply not_0_INR; lia).
  assert (Lfp : List.length fl = List.length pts).
  { unfold fl, pts, pol. rewrite map_length, !(flat_map_len _ _ (List.length rule)); [reflexivity| |]; intros; apply map_length. }
  assert (Npts : pts <> []).
  { intros E. apply (f_equal (@List.length _)) in E. rewrite <- Lfp in E. unfold fl in E. rewrite (flat_map_len _ _ (List.length rule)) in E by (intros; apply map_length).
    unfold angles in E. rewrite map_length, seq_length in E. cbn in E. pose proof (rule_nonempty N rule HN He). destruct rule; [congruence|cbn in E; lia]. }
  assert (Hin : forall u, In u pts -> field_node lg rings m (fst u) (snd u)).
  { intros u Hu. unfold pts in Hu. apply in_map_iff in Hu. destruct Hu as (q & <- & Hq). unfold pol in Hq. apply in_flat_map in Hq. destruct Hq as (th & Ht & Hq).
    apply in_map_iff in Hq. destruct Hq as (lw & <- & Hl). unfold angles in Ht. apply in_map_iff in Ht. destruct Ht as (j & <- & Hj). apply in_seq in Hj.
    exists (fst lw), (snd lw), j. split; [rewrite Hlg; apply (in_map (fun lw => (Fin (fst lw), Fin (snd lw)))), Hl|]. split; [lia|].
    unfold cartesian; cbn [fst snd]. replace (0 * 0 + (1 + fst lw) * (1 - 0 * 0) / 2) with ((1 + fst lw) / 2) by field. split; reflexivity. }
  exists fl, pts. split.
  2:{ intros p d HD H1 H2. unfold pts. rewrite weighted_cartesian. apply (weighted_poly fl pol 0 N m RAD ANG p d); assumption. }
  assert (Hsp : or_else spokes (2 * rings + 1)%nat = m) by (destruct Hs as [-> | (-> & ->)]; reflexivity).
  unfold doubleZernike. rewrite Hsp. destruct (m =? 0)%nat eqn:Em; [apply Nat.eqb_eq in Em; lia|].
  change (linspace n0 (nmul n2 npi) m false) with (spoke_list (CInt m)). rewrite spoke_angles. fold angles. rewrite Hlg, !map_map. cbn [fst snd].
  assert (E1 : map (fun x => (nsqrt ((n1 + Fin (fst x)) / n2) * Fin field)%num) rule = map Fin (map (fun lw => sqrt ((1 + fst lw) / 2) * field) rule)).
  { rewrite map_map. apply map_ext_in. intros lw Hl. rewrite Forall_forall in Hr. specialize (Hr lw Hl). xunf. rewrite xdiv_fin by lra. rewrite xsqrt_fin by lra. reflexivity. }
  rewrite E1, spoke_xy. clear E1.
  assert (E2 : spoke_points (map (fun lw => sqrt ((1 + fst lw) / 2) * field) rule) angles = map (fun u => (field * fst u, field * snd u)) pts).
  { unfold spoke_points, pts, pol. rewrite !map_flat_map. apply flat_map_ext. intros th. rewrite !map_map. apply map_ext. intros lw. unfold cartesian; cbn [fst snd].
    replace (0 * 0 + (1 + fst lw) * (1 - 0 * 0) / 2) with ((1 + fst lw) / 2) by field. f_equal; ring. }
  rewrite E2. clear E2. rewrite map_map.
  rewrite (all_ok_map _ _ (fun u => map (fun a => Fin (at2 a (fst u) (snd u))) As)).
  2:{ intros u Hu. unfold Fxy; cbn [fst snd]. apply HG, Hin, Hu. }
  cbn [bind]. pose proof (Hev (map (fun u => (field * fst u, field * snd u)) pts)) as HB. rewrite map_map in HB.
  change (n0 : XR) with (Fin 0). unfold Fxy. rewrite HB. clear HB. f_equal. rewrite map_map. apply map_ext. intros p.
  match goal with |- context[combine (map _ pts) ?w] => assert (E3 : w = map Fin fl) end.
  { unfold meshgrid, fl. rewrite !map_flat_map. rewrite flat_map_map. apply flat_map_ext. intros th. rewrite !map_map. apply map_ext. intros lw. cbn [fst].
    unfold gq_flux. xunf. rewrite <- INR_IZR_INZ. cbn [npi TrigXR]. rewrite mult_INR. cbn [INR]. rewrite xdiv_fin by lra. cbn [xmul]. f_equal. field. exact HM. }
  rewrite E3. clear E3.
  assert (E4 : hd [] (map (fun u => map (fun a => Fin (at2 a (fst u) (snd u))) As) pts) = map (fun a => Fin (at2 a (fst (hd (0, 0) pts)) (snd (hd (0, 0) pts)))) As).
  { destruct pts; [congruence|reflexivity]. }
  rewrite E4, map_length. clear E4.
  assert (E5 : forall X (g : poly2 -> X) (f : nat -> X), (forall j a, nth_error As j = Some a -> f j = g a) -> map f (seq 0 (List.length As)) = map g As).
  { clear. intros X g. induction As as [|a As IH]; intros f H; [reflexivity|]. cbn [List.length seq map]. f_equal; [apply (H 0%nat); reflexivity|].
    rewrite <- seq_shift, map_map. apply IH. intros j b E. apply (H (S j)). exact E. }
  apply E5. clear E5. intros j a Ej.
  rewrite map_map. cbn [fst snd].
  assert (E6 : map (fun x => (Fin (at2 p (fst x) (snd x)))) pts = map (fun x => Fin (at2 p (field * fst x / field) (field * snd x / field))) pts).
  { apply map_ext. intros u. do 2 f_equal; field; lra. }
  match goal with |- context[ndot ?r ?c] => replace (ndot r c) with (Fin (weighted fl pts (at2 (mul2 p a)))) end.
  { cbn [npi TrigXR]. change (xdiv (Fin (weighted fl pts (at2 (mul2 p a)))) (Fin PI) = Fin (weighted fl pts (at2 (mul2 p a)) / PI)). apply xdiv_fin. pose proof PI_RGT_0. lra. }
  rewrite <- (ndot_double fl pts p a Lfp), E6. f_equal. clear E6 Npts Hin RAD ANG.
  clearbody fl pts. clear -Ej Lfp. revert fl Lfp. induction pts as [|u pts IH]; intros [|w fl] L; try discriminate; [reflexivity|]. cbn [map combine fst snd]. f_equal; [|apply IH; injection L; auto].
  rewrite map_map. symmetry. apply (nth_map_in As (fun x => nmul (Fin (at2 x (fst u) (snd u))) (Fin w)) j a Ej).
Qed.
Theorem double_projects : forall niter lg basis tel field lam rings spokes m N kmax projection sphereRadius reference jmax eps Zf As k e,
  0 < field -> gauss_rule lg rings N -> spoke_count rings spokes m ->
  (forall x y, field_node lg rings m x y ->
     zernikeGQ niter lg basis tel (Fin (field * x)) (Fin (field * y)) (Fin lam) projection rings (Some m) sphereRadius reference jmax eps
     = Ok (map (fun a => Fin (at2 a x y)) As)) ->
  evaluates basis kmax field 0 Zf ->
  Forall (degree2 k) Zf -> Forall (degree2 e) As -> (k + e < 2 * N)%nat -> (k + e < m)%nat ->
  exists M, doubleZernike niter lg basis tel (Fin field) (Fin lam) rings spokes kmax projection sphereRadius reference jmax eps = Ok (map (map Fin) M) /\
    Forall2 (fun p row => Forall2 (fun a v => annulus_integral 0 (fun x y => at2 p x y * at2 a x y) (v * PI)) As row) Zf M.
Proof.
  intros niter lg basis tel field lam rings spokes m N kmax projection sphereRadius reference jmax eps Zf As k e Hf Hg Hs HG Hev Hk He H1 H2.
  destruct (double_value niter lg basis tel field lam rings spokes m N kmax projection sphereRadius reference jmax eps Zf As Hf ltac:(lia) Hg Hs HG Hev) as (fl & pts & E & X).
  exists (map (fun p => map (fun a => weighted fl pts (at2 (mul2 p a)) / PI) As) Zf). split.
  { rewrite E, map_map. f_equal. apply map_ext. intros p. rewrite map_map. reflexivity. }
  clear E HG Hev. induction Hk as [|p Zf Hp Hk IH]; [constructor|]. constructor; [|exact IH]. clear IH.
  induction He as [|a As Ha He IH]; [constructor|]. constructor; [|exact IH].
  replace (weighted fl pts (at2 (mul2 p a)) / PI * PI) with (weighted fl pts (at2 (mul2 p a))) by (field; pose proof PI_RGT_0; lra).
  apply (annulus_ext 0 (at2 (mul2 p a))); [intros; apply at2_mul|]. apply (X _ (k + e)%nat); [apply degree_mul; assumption|exact H1|exact H2].
Qed.
(** *** Coefficients that depend on the field as combinations of the basis come back *)
Theorem double_recovers : forall niter lg basis tel field lam rings spokes m N kmax projection sphereRadius reference jmax eps Z C k,
  0 < field -> gauss_rule lg rings N -> spoke_count rings spokes m ->
  (forall x y, field_node lg rings m x y ->
     zernikeGQ niter lg basis tel (Fin (field * x)) (Fin (field * y)) (Fin lam) projection rings (Some m) sphereRadius reference jmax eps
     = Ok (map (fun c => Fin (combination c Z x y)) C)) ->
  Forall (fun c => List.length c = List.length Z) C ->
  evaluates basis kmax field 0 ([] :: Z) -> orthonormal_family 0 Z ->
  Forall (degree2 k) Z -> (2 * k < 2 * N)%nat -> (2 * k < m)%nat ->
  doubleZernike niter lg basis tel (Fin field) (Fin lam) rings spokes kmax projection sphereRadius reference jmax eps
  = Ok (map (fun c => Fin 0) C :: map (fun i => map (fun c => Fin (nth i c 0)) C) (seq 0 (List.length Z))).
Proof.
  intros niter lg basis tel field lam rings spokes m N kmax projection sphereRadius reference jmax eps Z C k Hf Hg Hs HG HC Hev HO HZ H1 H2.
  destruct (double_value niter lg basis tel field lam rings spokes m N kmax projection sphereRadius reference jmax eps ([] :: Z) (map (fun c => combine2 c Z) C) Hf ltac:(lia) Hg Hs) as (fl & pts & E & X); [|exact Hev|].
  { intros x y Hxy. rewrite HG by exact Hxy. rewrite map_map. f_equal. apply map_ext. intros c. rewrite at2_combine. reflexivity. }
  assert (P : PI <> 0) by (pose proof PI_RGT_0; lra).
  rewrite E. cbn [map]. f_equal. f_equal.
  - rewrite map_map. apply map_ext. intros c. f_equal. replace 0 with (0 / PI) at 1 by (unfold Rdiv; ring).
    assert (W : weighted fl pts (at2 (mul2 [] (combine2 c Z))) = 0); [|rewrite W; reflexivity].
    change (mul2 [] (combine2 c Z)) with (@nil (R * nat * nat)). refine (annulus_unique 0 _ _ _ (X [] 0%nat (Forall_nil _) ltac:(lia) ltac:(lia)) _).
    apply (annulus_ext 0 (fun x y => 0)); [reflexivity|apply annulus_zero].
  - assert (K : forall Z' n, (forall i p, nth_error Z' i = Some p -> nth_error Z (n + i) = Some p) ->
      map (fun p => map (fun a => Fin (weighted fl pts (at2 (mul2 p a)) / PI)) (map (fun c => combine2 c Z) C)) Z' = map (fun i => map (fun c => Fin (nth i c 0)) C) (seq n (List.length Z'))).
    { induction Z' as [|p Z' IH]; intros n Hn; [reflexivity|]. cbn [map List.length seq]. f_equal.
      - rewrite map_map. apply map_ext_in. intros c Hc. f_equal. rewrite Forall_forall in HC, HZ. specialize (HC c Hc).
        assert (Ep : nth_error Z n = Some p) by (rewrite <- (Nat.add_0_r n); apply Hn; reflexivity).
        apply (Rmult_eq_reg_r PI); [|exact P]. replace (weighted fl pts (at2 (mul2 p (combine2 c Z))) / PI * PI) with (weighted fl pts (at2 (mul2 p (combine2 c Z)))) by (field; exact P).
        refine (annulus_unique 0 (at2 (mul2 p (combine2 c Z))) _ _ (X _ (k + k)%nat _ ltac:(lia) ltac:(lia)) _).
        { apply degree_mul; [apply HZ, (nth_error_In _ _ Ep)|apply degree_combine, Forall_forall, HZ]. }
        apply (annulus_ext 0 (fun x y => at2 p x y * combination c Z x y)). { intros. rewrite at2_mul, at2_combine. reflexivity. }
        apply annulus_project; [exact HC|]. intros i q Ei. pose proof (HO n i p q Ep Ei) as O. replace (PI * (1 - 0 * 0)) with PI in O by ring. exact O.
      - apply IH. intros i q Ei. replace (S n + i)%nat with (n + S i)%nat by lia. apply Hn. exact Ei. }
    apply (K Z 0%nat). intros i p Ei. exact Ei.
Qed.
(** *** From the wavefronts to the double coefficients *)
Theorem double_wavefronts : forall niter lg basis tel field lam rings spokes m N kmax projection sphereRadius radius reference jmax eps D Zp Z C k,
  0 < field -> gauss_rule lg rings N -> spoke_count rings spokes m ->
  (forall x y, field_node lg rings m x y -> exists d b rs0 rs A P t0,
     gq_setting niter lg tel (Fin (field * x)) (Fin (field * y)) lam projection rings (Some m) sphereRadius radius reference eps D d b m N rs0 rs A P t0 /\
     wavefront_is b (D / 2) P radius t0 lam rs0 rs (combination (map (fun c => combination c Z x y) C) Zp)) ->
  List.length C = List.length Zp -> Forall (fun c => List.length c = List.length Z) C ->
  evaluates basis jmax (D / 2) (eps * D / 2) ([] :: Zp) -> orthonormal_family eps Zp ->
  evaluates basis kmax field 0 ([] :: Z) -> orthonormal_family 0 Z ->
  Forall (degree2 k) Zp -> Forall (degree2 k) Z -> (2 * k < 2 * N)%nat -> (2 * k < m)%nat ->
  doubleZernike niter lg basis tel (Fin field) (Fin lam) rings spokes kmax projection sphereRadius reference jmax (Fin eps)
  = Ok (map Fin (0 :: map (fun c => 0) C) :: map (fun i => map Fin (0 :: map (fun c => nth i c 0) C)) (seq 0 (List.length Z))).
Proof.
  intros niter lg basis tel field lam rings spokes m N kmax projection sphereRadius radius reference jmax eps D Zp Z C k Hf Hg Hs HW LC HC Hevp HOp Hev HO HZp HZ H1 H2.
  assert (R0 : forall x y, combination (repeat 0 (List.length Z)) Z x y = 0).
  { intros x y. clear. induction Z as [|p Z IH]; [reflexivity|]. cbn [List.length repeat]. rewrite combination_cons, IH. ring. }
  rewrite (double_recovers niter lg basis tel field lam rings spokes m N kmax projection sphereRadius reference jmax (Fin eps) Z (repeat 0 (List.length Z) :: C) k); try assumption.
  - cbn [map]. f_equal. f_equal; [rewrite map_map; reflexivity|]. apply map_ext. intros i. rewrite map_map. f_equal. f_equal. apply nth_repeat.
  - intros x y Hxy. destruct (HW x y Hxy) as (d & b & rs0 & rs & A & P & t0 & HS & Hwf). cbn [map]. rewrite R0.
    rewrite (zernikeGQ_recovers niter lg basis tel _ _ lam projection rings (Some m) sphereRadius radius reference jmax eps D d b m N Zp rs0 rs A P t0 (map (fun c => combination c Z x y) C) k); try assumption.
    + cbn [map]. rewrite map_map. reflexivity.
    + rewrite map_length. exact LC.
  - constructor; [apply repeat_length|exact HC].
Qed.
