(** C80: drdth, dthdr and focalLength. *)
From Coq Require Import Reals String List ZArith Bool Lra Psatz Lia.
From Verif Require Import Num NumR Vec CoordSys Surface Medium Ray Bundle Trig Optic Field RayGen Spec XRFacts StructProofs WaveSpec
  AnalysisSpec Analysis AnalysisProofs JacSpec.
Import ListNotations.
Open Scope R_scope.

(** ** Bundles at different field angles have as many rays, in the same frame *)
Lemma polar_alike {T} {NT : Num T} {TT : Trig T} (tel : telescope T) (w : T) d d' outer inner nrad naz k f rv :
  asPolar (Gen (Some (tl_attr tel)) None None None None (Some w) (DirCos d)) outer inner nrad naz k f None = Ok rv ->
  exists rv', asPolar (Gen (Some (tl_attr tel)) None None None None (Some w) (DirCos d')) outer inner nrad naz k f None = Ok rv' /\
    rvcs rv' = rvcs rv /\ List.length (rays rv') = List.length (rays rv).
Proof.
  unfold asPolar, settle; cbn [g_backDist g_medium g_stop g_cs g_optic g_dir g_wavelength].
  destruct (from_optic None (Some (tl_attr tel)) oa_backDist) as [bd|e]; [|discriminate]. cbn [bind].
  destruct (from_optic None (Some (tl_attr tel)) (fun o => Some (oa_in o))) as [m|e]; [|discriminate]. cbn [bind].
  destruct (match from_optic None (Some (tl_attr tel)) oa_stop with Err AttributeError => _ | r => r end) as [st|e]; [|discriminate]. cbn [bind].
  destruct (from_optic None (Some (tl_attr tel)) (fun o => Some (oa_cs o))) as [cs|e]; [|discriminate]. cbn [bind].
  destruct (polar_radii _ _ _) as [[o i]|e]; [|discriminate]. cbn [bind].
  destruct (hexapolar_rth _ _ _ _ _) as [rth|e]; [|discriminate]. cbn [bind].
  intros E. eexists. split; [reflexivity|]. injection E as <-.
  unfold launch_flux, launch, finish; cbn [s_backDist s_medium s_stop s_cs s_dir s_w].
  repeat match goal with |- context [finish_frame ?a ?b ?c] => destruct (finish_frame a b c) end. cbn [rvcs rays]. split; [reflexivity|].
  rewrite !map_length, !combine_length, !map_length. reflexivity.
Qed.

(** ** The means *)
Lemma firstn_app_l {A} (a b : list A) n : n = List.length a -> firstn n (a ++ b) = a.
Proof. intros ->. rewrite firstn_app, Nat.sub_diag, firstn_all. cbn. apply app_nil_r. Qed.
Lemma skipn_app_l {A} (a b : list A) n : n = List.length a -> skipn n (a ++ b) = b.
Proof. intros ->. rewrite skipn_app, Nat.sub_diag, skipn_all. reflexivity. Qed.
Lemma select_zip {A B} (f : B -> A) (g : B -> bool) (l : list B) (k : list B) : List.length k = List.length l ->
  select (map f k) (map g l) = map (fun t => f (snd t)) (filter (fun t => g (fst t)) (combine l k)).
Proof.
  unfold select. revert k. induction l as [|b l IH]; intros [|c k] L; try discriminate; [reflexivity|].
  cbn [map combine filter fst snd]. injection L as L. specialize (IH k L). destruct (g b); cbn [map fst snd]; rewrite IH; reflexivity.
Qed.
Lemma filter_pair {A B} (g : A -> bool) (l : list A) (k : list B) : List.length k = List.length l ->
  map fst (filter (fun t => g (fst t)) (combine l k)) = filter g l.
Proof.
  revert k. induction l as [|b l IH]; intros [|c k] L; try discriminate; [reflexivity|]. cbn [combine filter fst]. injection L as L.
  destruct (g b); cbn [map fst]; rewrite IH by exact L; reflexivity.
Qed.
Lemma filter_triple_l {A B C} (g : A -> bool) (l : list A) (k : list B) (m : list C) : List.length k = List.length l -> List.length m = List.length l ->
  map fst (filter (fun t => g (fst (fst t))) (combine (combine l k) m)) = filter (fun t => g (fst t)) (combine l k).
Proof. intros L1 L2. apply (filter_pair (fun t => g (fst t))). rewrite combine_length. lia. Qed.
Lemma filter_triple_r {A B C} (g : A -> bool) (l : list A) (k : list B) (m : list C) : List.length k = List.length l -> List.length m = List.length l ->
  map (fun t => (fst (fst t), snd t)) (filter (fun t => g (fst (fst t))) (combine (combine l k) m)) = filter (fun t => g (fst t)) (combine l m).
Proof.
  revert k m. induction l as [|b l IH]; intros [|c k] [|e m] L1 L2; try discriminate; [reflexivity|]. cbn [combine filter fst snd]. injection L1 as L1. injection L2 as L2.
  destruct (g b); cbn [map fst snd]; rewrite IH by assumption; reflexivity.
Qed.
Lemma triple_means l0 lx ly q (f : ray XR -> XR) (g : vR -> R) : List.length lx = List.length l0 -> List.length ly = List.length l0 ->
  (forall r, f (Fray r) = Fin (g (pos r))) -> lit_triples l0 lx ly q ->
  select (map f l0) (map (fun r => negb (vignetted r)) l0) = map Fin (map (fun t => g (pos (fst (fst t)))) q) /\
  select (map f lx) (map (fun r => negb (vignetted r)) l0) = map Fin (map (fun t => g (pos (by_x t))) q) /\
  select (map f ly) (map (fun r => negb (vignetted r)) l0) = map Fin (map (fun t => g (pos (by_y t))) q).
Proof.
  intros Lx Ly Hf Hq. unfold lit_triples in Hq. rewrite !select_zip by (assumption || reflexivity).
  rewrite <- (filter_triple_l (fun r => negb (vignetted r)) l0 lx ly Lx Ly), Hq.
  rewrite <- (filter_triple_r (fun r => negb (vignetted r)) l0 lx ly Lx Ly), Hq.
  rewrite !map_map. cbn [fst snd].
  split; [|split].
  - assert (E : map (fun t : ray XR * ray XR => f (snd t)) (filter (fun t => negb (vignetted (fst t))) (combine l0 l0))
      = map f (filter (fun r => negb (vignetted r)) l0)).
    { clear. induction l0 as [|r l IH]; [reflexivity|]. cbn [combine filter fst snd map]. destruct (negb (vignetted r)); cbn [map snd]; rewrite IH; reflexivity. }
    rewrite E, <- (filter_pair (fun r => negb (vignetted r)) l0 lx Lx), <- (filter_triple_l (fun r => negb (vignetted r)) l0 lx ly Lx Ly), Hq.
    rewrite !map_map. apply map_ext. intros t. apply Hf.
  - apply map_ext. intros t. apply Hf.
  - apply map_ext. intros t. apply Hf.
Qed.
Lemma average_rate {A} (f h : A -> R) l : l <> [] -> (averageR (map f l) - averageR (map h l)) / dtheta = averageR (map (fun t => (f t - h t) / dtheta) l).
Proof.
  intros Ne. unfold averageR. rewrite !map_length. assert (HN : INR (List.length l) <> 0) by (apply INR_pos_ne; destruct l; [congruence|discriminate]).
  assert (E : sumR (map (fun t => (f t - h t) / dtheta) l) = (sumR (map f l) - sumR (map h l)) / dtheta).
  { clear Ne HN. induction l as [|a l IH]; [cbn; unfold dtheta; field|]. cbn [map]. rewrite !sumR_cons, IH. unfold dtheta. field. }
  rewrite E. unfold dtheta. field. exact HN.
Qed.
Lemma average_const {A} (l : list A) (f : A -> R) c : l <> [] -> (forall t, In t l -> f t = c) -> averageR (map f l) = c.
Proof.
  intros Ne H. unfold averageR. rewrite map_length. assert (HN : INR (List.length l) <> 0) by (apply INR_pos_ne; destruct l; [congruence|discriminate]).
  assert (E : sumR (map f l) = INR (List.length l) * c).
  { clear Ne HN. induction l as [|a l IH]; [cbn; ring|]. cbn [map]. rewrite sumR_cons, IH by (intros; apply H; right; assumption).
    rewrite (H a) by (left; reflexivity). cbn [List.length]. rewrite S_INR. ring. }
  rewrite E. field. exact HN.
Qed.

Theorem drdth_value : forall niter tel tx ty lam nrad naz projection q,
  moved_rays niter tel tx ty lam nrad naz projection q ->
  (q <> [] -> drdth niter tel (Fin tx) (Fin ty) (Fin lam) nrad naz projection =
     Ok (Fin (mean_rate cx by_x q), Fin (mean_rate cx by_y q), Fin (mean_rate cy by_x q), Fin (mean_rate cy by_y q))) /\
  (q = [] -> drdth niter tel (Fin tx) (Fin ty) (Fin lam) nrad naz projection = Ok (NaN, NaN, NaN, NaN)).
Proof.
  intros niter tel tx ty lam nrad naz projection q (r0 & rx & ry & (a0 & b0 & c0 & D0 & E0) & (ax & bx & cx_ & Dx & Ex) & (ay & by_ & cy_ & Dy & Ey) & Hq).
  destruct (polar_alike tel (Fin lam) (V3 a0 b0 c0) (V3 ax bx cx_) _ _ _ _ _ _ _ E0) as (rx' & Ex' & Cx & Lx). rewrite Ex in Ex'. injection Ex' as <-.
  destruct (polar_alike tel (Fin lam) (V3 a0 b0 c0) (V3 ay by_ cy_) _ _ _ _ _ _ _ E0) as (ry' & Ey' & Cy & Ly). rewrite Ey in Ey'. injection Ey' as <-.
  destruct (maplike_trace niter (tl_optic tel) false (rvcs r0)) as (F & c & HF).
  assert (T0 : trace niter (tl_optic tel) false r0 = RV (map F (rays r0)) c) by (destruct r0; apply HF).
  assert (Tx : trace niter (tl_optic tel) false rx = RV (map F (rays rx)) c) by (rewrite <- Cx in HF; destruct rx; apply HF).
  assert (Ty : trace niter (tl_optic tel) false ry = RV (map F (rays ry)) c) by (rewrite <- Cy in HF; destruct ry; apply HF).
  rewrite T0, Tx, Ty in Hq. cbn [rays] in Hq.
  assert (ED : (@nfrac XR NumXR 1 100000) = Fin dtheta).
  { reflexivity. }
  assert (Hd : dtheta <> 0) by (unfold dtheta; lra).
  assert (EQ : drdth niter tel (Fin tx) (Fin ty) (Fin lam) nrad naz projection =
    let l0 := map F (rays r0) in let lx := map F (rays rx) in let ly := map F (rays ry) in
    let v := map (fun r => negb (vignetted r)) l0 in
    let mx l := mean (select (map (fun r => cx (pos r)) l) v) in
    let my l := mean (select (map (fun r => cy (pos r)) l) v) in
    Ok (((mx lx - mx l0) / Fin dtheta)%num, ((mx ly - mx l0) / Fin dtheta)%num, ((my lx - my l0) / Fin dtheta)%num, ((my ly - my l0) / Fin dtheta)%num)).
  { unfold drdth. cbv zeta. rewrite ED. change (Fin tx + Fin dtheta)%num with (Fin (tx + dtheta)). change (Fin ty + Fin dtheta)%num with (Fin (ty + dtheta)).
    rewrite D0, Dx, Dy. cbn [bind generator]. change (@n1 XR NumXR) with (Fin 1). rewrite E0, Ex, Ey. cbn [bind].
    rewrite HF. cbn [rays]. rewrite !map_app. 
    rewrite (firstn_app_l _ _ (List.length (rays r0))) by (symmetry; apply map_length).
    rewrite (skipn_app_l _ _ (List.length (rays r0))) by (symmetry; apply map_length).
    rewrite (firstn_app_l _ _ (List.length (rays r0))) by (rewrite map_length; symmetry; exact Lx).
    replace (2 * List.length (rays r0))%nat with (List.length (map F (rays r0) ++ map F (rays rx))) by (rewrite app_length, !map_length; lia).
    rewrite app_assoc, (skipn_app_l _ (map F (rays ry))) by reflexivity.
    rewrite <- (app_nil_r (map F (rays ry))) at 1. rewrite (firstn_app_l _ [] (List.length (rays r0))) by (rewrite map_length; symmetry; exact Ly).
    rewrite <- (app_nil_r (map F (rays ry))) at 2. rewrite (firstn_app_l _ [] (List.length (rays r0))) by (rewrite map_length; symmetry; exact Ly).
    reflexivity. }
  rewrite EQ. cbv zeta. clear EQ.
  assert (LX : List.length (map F (rays rx)) = List.length (map F (rays r0))) by (rewrite !map_length; exact Lx).
  assert (LY : List.length (map F (rays ry)) = List.length (map F (rays r0))) by (rewrite !map_length; exact Ly).
  destruct (triple_means _ _ _ q (fun r => cx (pos r)) cx LX LY (fun r => eq_refl) Hq) as (X0 & X1 & X2).
  destruct (triple_means _ _ _ q (fun r => cy (pos r)) cy LX LY (fun r => eq_refl) Hq) as (Y0 & Y1 & Y2).
  rewrite X0, X1, X2, Y0, Y1, Y2. split.
  - intros Ne. assert (N : forall f : ray R * ray R * ray R -> R, map f q <> []) by (intros f E; apply map_eq_nil in E; congruence).
    rewrite !mean_F by apply N. xunf. rewrite !xdiv_fin by exact Hd.
    unfold mean_rate. rewrite !average_rate by exact Ne. reflexivity.
  - intros ->. assert (M : mean (@nil XR) = NaN).
    { cbn. destruct (Req_EM_T 0 0); [|congruence]. unfold xsgn. destruct (Rlt_dec 0 0); [lra|]. destruct (Rlt_dec 0 0); [lra|]. reflexivity. }
    cbn [map]. rewrite M. reflexivity.
Qed.

Theorem drdth_linear : forall niter tel tx ty lam nrad naz projection q a b c d,
  moved_rays niter tel tx ty lam nrad naz projection q -> q <> [] -> Forall (moves_by a b c d) q ->
  drdth niter tel (Fin tx) (Fin ty) (Fin lam) nrad naz projection = Ok (Fin a, Fin b, Fin c, Fin d).
Proof.
  intros niter tel tx ty lam nrad naz projection q a b c d Hq Ne HJ. destruct (drdth_value _ _ _ _ _ _ _ _ _ Hq) as (E & _). rewrite (E Ne).
  rewrite Forall_forall in HJ. assert (Hd : dtheta <> 0) by (unfold dtheta; lra).
  assert (K : forall (g : vR -> R) w k, (forall t, In t q -> g (pos (w t)) - g (pos (fst (fst t))) = k * dtheta) -> mean_rate g w q = k).
  { intros g w k H. apply average_const; [exact Ne|]. intros t Ht. rewrite (H t Ht). field. exact Hd. }
  rewrite (K cx by_x a), (K cx by_y b), (K cy by_x c), (K cy by_y d); [reflexivity|..]; intros t Ht; apply (HJ t Ht).
Qed.

(** ** The inverse and the focal length *)
Theorem dthdr_inverse : forall niter tel tx ty lam nrad naz projection a b c d,
  drdth niter tel tx ty lam nrad naz projection = Ok (Fin a, Fin b, Fin c, Fin d) ->
  (a * d - b * c <> 0 -> exists a' b' c' d', dthdr niter tel tx ty lam nrad naz projection = Ok (Fin a', Fin b', Fin c', Fin d') /\
     times2 (a, b, c, d) (a', b', c', d') = (1, 0, 0, 1) /\ times2 (a', b', c', d') (a, b, c, d) = (1, 0, 0, 1)) /\
  (a * d - b * c = 0 -> dthdr niter tel tx ty lam nrad naz projection = Err LinAlgError).
Proof.
  intros niter tel tx ty lam nrad naz projection a b c d E. unfold dthdr. rewrite E. cbn [bind]. xunf. split; intros H.
  - rewrite xeqb_f by exact H. rewrite !xdiv_fin by exact H. do 4 eexists. split; [reflexivity|].
    split; cbn; (f_equal; [f_equal; [f_equal|]|]); field; exact H.
  - rewrite xeqb_t by exact H. reflexivity.
Qed.
Theorem focal_length : forall niter tel tx ty lam nrad naz projection a b c d,
  drdth niter tel tx ty lam nrad naz projection = Ok (Fin a, Fin b, Fin c, Fin d) ->
  (0 <= a * d - b * c -> exists f, focalLength niter tel tx ty lam nrad naz projection = Ok (Fin f) /\ 0 <= f /\ f * f = a * d - b * c) /\
  (a * d - b * c < 0 -> focalLength niter tel tx ty lam nrad naz projection = Ok NaN).
Proof.
  intros niter tel tx ty lam nrad naz projection a b c d E. unfold focalLength. rewrite E. cbn [bind]. xunf. split; intros H.
  - rewrite xsqrt_fin by exact H. eexists. split; [reflexivity|]. split; [apply sqrt_pos|apply sqrt_sqrt, H].
  - cbn. destruct (Rlt_dec _ 0) as [_|L]; [reflexivity|contradiction].
Qed.
Theorem jacobian_errors : forall T (NT : Num T) (TT : Trig T) niter (tel : telescope T) tx ty lam nrad naz projection e,
  drdth niter tel tx ty lam nrad naz projection = Err e ->
  dthdr niter tel tx ty lam nrad naz projection = Err e /\ focalLength niter tel tx ty lam nrad naz projection = Err e.
Proof. intros T NT TT niter tel tx ty lam nrad naz projection e E. unfold dthdr, focalLength. rewrite E. auto. Qed.
