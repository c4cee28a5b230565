(** C28: splitting traces. *)
From Coq Require Import Reals List Bool String Lra Psatz Lia.
From Verif Require Import Num NumR Vec CoordSys Surface Medium Obscuration Ray Bundle Optic StructProofs XRFacts SplitSpec.
Import ListNotations.

(** *** Only live rays, for every number type *)
Section Live.
  Context {T : Type} {NT : Num T}.
  Variables (niter : nat) (minFlux : T).
  Definition lively (r : ray T) : Prop := vignetted r = false /\ (minFlux <=? flux r)%num = true.
  Lemma prune_lively x : Forall lively (rays (p_rv (prune minFlux x))).
  Proof.
    apply Forall_forall. intros r Hr. cbn in Hr. apply filter_In in Hr. destruct Hr as (_ & H). unfold alive in H. apply andb_true_iff in H.
    destruct H as (H1 & H2). split; [destruct (vignetted r); [discriminate|reflexivity]|exact H2].
  Qed.
  Lemma pruned_lively l x : In x (filter nonempty (map (prune minFlux) l)) -> Forall lively (rays (p_rv x)).
  Proof. intros H. apply filter_In in H. destruct H as (H & _). apply in_map_iff in H. destruct H as (y & <- & _). apply prune_lively. Qed.
  Lemma split_loop_lively fs fuel : forall queue outF outR f r, split_loop fs minFlux fuel queue outF outR = Ok (f, r) ->
    (forall x, In x outF \/ In x outR -> Forall lively (rays (p_rv x))) ->
    forall x, In x f \/ In x r -> Forall lively (rays (p_rv x)).
  Proof.
    induction fuel as [|fuel IH]; intros [|[[x0 rv] idx] queue] outF outR f r; cbn [split_loop].
    - intros E H. injection E as <- <-. exact H.
    - discriminate.
    - intros E H. injection E as <- <-. exact H.
    - destruct (nth_error fs idx) as [g|]; [|discriminate]. destruct (g rv x0) as [[fo re|? ?]|]; cbn [bind]; try discriminate.
      set (fo' := filter nonempty (map (prune minFlux) (keep_some fo))). set (re' := filter nonempty (map (prune minFlux) (keep_some re))).
      destruct (Nat.eqb (S idx) (List.length fs)); destruct (Nat.eqb idx 0); intros E H; apply (IH _ _ _ _ _ E); intros x [Hx|Hx];
        try (apply in_app_or in Hx; destruct Hx as [Hx|Hx]); try (apply H; auto; fail); eapply pruned_lively; eassumption.
  Qed.
  Theorem split_live : forall fuel a items reverse x f r,
    traceSplit niter minFlux fuel (Compound a items) reverse x = Ok (Lists f r) ->
    Forall lively (all_rays f ++ all_rays r).
  Proof.
    intros fuel a items reverse x f r. cbn [traceSplit]. destruct (c_skip a); [destruct reverse; discriminate|].
    destruct (split_loop _ _ _ _ _ _) as [[f' r']|] eqn:E; [|discriminate]. cbn [bind]. intros K. injection K as <- <-.
    pose proof (split_loop_lively _ _ _ _ _ _ _ E) as H. specialize (H ltac:(intros ? [[]|[]])).
    apply Forall_forall. intros q Hq. apply in_app_or in Hq.
    assert (K : forall l, In q (all_rays (map Some l)) -> exists y, In y l /\ In q (rays (p_rv y))).
    { intros l Hl. unfold all_rays in Hl. apply in_flat_map in Hl. destruct Hl as (o & Ho & Hl). apply in_map_iff in Ho. destruct Ho as (y & <- & Hy). eauto. }
    destruct Hq as [Hq|Hq]; destruct (K _ Hq) as (y & Hy & Hr); specialize (H y); [specialize (H (or_introl Hy))|specialize (H (or_intror Hy))];
      rewrite Forall_forall in H; apply H, Hr.
  Qed.
End Live.

Open Scope R_scope.
(** *** Flux *)
Definition rflux (r : ray XR) : R := if vignetted r then 0 else match flux r with Fin v => v | _ => 0 end.
Lemma live_cons r l : live_flux (r :: l) = rflux r + live_flux l.
Proof. reflexivity. Qed.
Lemma live_app a b : live_flux (a ++ b) = live_flux a + live_flux b.
Proof. induction a as [|r a IH]; cbn [app]; [unfold live_flux; cbn; lra|]. rewrite !live_cons, IH. lra. Qed.
Lemma rflux_nonneg b r : sound b r -> 0 <= rflux r.
Proof. intros [H|(_ & v & H & Hv)]; unfold rflux; [rewrite H; lra|]. destruct (vignetted r); [lra|]. rewrite H. lra. Qed.
Lemma live_nonneg b l : Forall (sound b) l -> 0 <= live_flux l.
Proof. induction 1 as [|r l Hr _ IH]; [unfold live_flux; cbn; lra|]. rewrite live_cons. pose proof (rflux_nonneg b r Hr). lra. Qed.
Lemma live_filter b p l : Forall (sound b) l -> live_flux (filter p l) <= live_flux l.
Proof.
  induction 1 as [|r l Hr _ IH]; [unfold live_flux; cbn; lra|]. cbn [filter]. pose proof (rflux_nonneg b r Hr).
  destruct (p r); rewrite ?live_cons; lra.
Qed.
Lemma sound_le a b r : a <= b -> sound a r -> sound b r.
Proof. intros H [K|(F & v & E & Hv)]; [left; exact K|right]. split; [exact F|]. exists v. split; [exact E|lra]. Qed.
Lemma sound_vig r b : vignetted r = true -> sound b r.
Proof. left. assumption. Qed.

(** One ray at an interface: the two results. *)
Definition pair_ok (rho b : R) (r r1 r2 : ray XR) : Prop := sound b r1 /\ sound (rho * b) r2 /\ rflux r1 + rflux r2 <= rflux r.
Lemma rsplit_pair rho s dr d m2 c niter b r : 0 <= rho <= 1 -> passive rho c -> sound b r ->
  pair_ok rho b r (fst (ray_rsplit s dr d m2 c niter r)) (snd (ray_rsplit s dr d m2 c niter r)).
Proof.
  intros Hrho (a & t & -> & Ha & Ht & Hat) Hs. unfold ray_rsplit.
  destruct Hs as [Hv|(Hf & v & Hfl & Hvb)].
  - assert (K : forall r1 r2 : ray XR, vignetted r1 = true -> vignetted r2 = true -> pair_ok rho b r r1 r2).
    { intros r1 r2 H1 H2. repeat split; try (apply sound_vig; assumption). unfold rflux. rewrite H1, H2, Hv. lra. }
    destruct (failed r); [apply K; exact Hv|]. destruct (hit _ _ _ _) as [[|] dt]; [|apply K; reflexivity].
    destruct (orient _ _) as [n alpha]. cbn [getCoefs reflectivity transmissivity]. destruct (refract_vel _ _ _ _ _); apply K; cbn; auto.
  - rewrite Hf. destruct (hit _ _ _ _) as [[|] dt].
    + destruct (orient _ _) as [n alpha]. cbn [getCoefs reflectivity transmissivity].
      destruct (vignetted r) eqn:Ev.
      * destruct (refract_vel _ _ _ _ _); repeat split; try (apply sound_vig; cbn; assumption || reflexivity); unfold rflux; cbn; rewrite ?Ev; lra.
      * assert (E2 : (flux r * Fin a)%num = Fin (v * a)) by (rewrite Hfl; reflexivity). assert (E1 : (flux r * Fin t)%num = Fin (v * t)) by (rewrite Hfl; reflexivity).
        rewrite E1, E2.
        assert (H1 : 0 <= v * t <= b) by nra. assert (H2 : 0 <= v * a <= rho * b) by nra. assert (H3 : v * t + v * a <= v) by nra.
        destruct (refract_vel _ _ _ _ _); split; [right; cbn; split; [reflexivity|eexists; split; [reflexivity|exact H1]]| |left; reflexivity|];
          (split; [right; cbn; split; [reflexivity|eexists; split; [reflexivity|exact H2]]|]); unfold rflux; cbn; rewrite ?Ev, Hfl; lra.
    + repeat split; try (left; reflexivity). unfold rflux at 1 2; cbn. unfold rflux. destruct (vignetted r); [lra|]. rewrite Hfl. lra.
Qed.
Lemma keep_pair (f : ray XR -> ray XR) b r : sound b r ->
  (vignetted r = true -> vignetted (f r) = true) -> (failed r = false -> vignetted (f r) = true \/ failed (f r) = false /\ vignetted (f r) = vignetted r /\ flux (f r) = flux r) ->
  sound b (f r) /\ rflux (f r) <= rflux r.
Proof.
  intros Hs H1 H2. pose proof (rflux_nonneg b r Hs) as Hn. destruct Hs as [Hv|(Hf & v & Hfl & Hv)].
  - split; [left; auto|]. unfold rflux at 1. rewrite (H1 Hv). exact Hn.
  - destruct (H2 Hf) as [K|(K1 & K2 & K3)].
    + split; [left; exact K|]. unfold rflux at 1. rewrite K. exact Hn.
    + split; [right; split; [exact K1|exists v; split; [congruence|exact Hv]]|]. unfold rflux. rewrite K2, K3. lra.
Qed.
Lemma keep_list (f : ray XR -> ray XR) b l : (forall r, sound b r -> sound b (f r) /\ rflux (f r) <= rflux r) -> Forall (sound b) l ->
  Forall (sound b) (map f l) /\ live_flux (map f l) <= live_flux l.
Proof.
  intros H. induction 1 as [|r l Hr _ (I1 & I2)]; [split; [apply Forall_nil|cbn [map]; lra]|]. cbn [map]. rewrite !live_cons. destruct (H r Hr).
  split; [constructor; assumption|lra].
Qed.
Lemma obscure_keep o b rv : Forall (sound b) (rays rv) ->
  Forall (sound b) (rays (apply_obsc o rv)) /\ live_flux (rays (apply_obsc o rv)) <= live_flux (rays rv).
Proof.
  intros H. destruct o as [o|]; [|split; [exact H|cbn; lra]]. cbn [apply_obsc rv_obscure rays]. apply keep_list; [|exact H]. intros r Hr.
  apply keep_pair; [exact Hr| |].
  - cbn. intros ->. reflexivity.
  - cbn. intros Hf. destruct (vignetted r); [left; reflexivity|]. destruct (contains _ _ _); [left; reflexivity|right; auto].
Qed.
Lemma reflect_keep niter s cs b rv : Forall (sound b) (rays rv) ->
  Forall (sound b) (rays (rv_reflect niter s cs None rv)) /\ live_flux (rays (rv_reflect niter s cs None rv)) <= live_flux (rays rv).
Proof.
  intros H. cbn [rv_reflect batch rays]. apply keep_list; [|exact H]. intros r Hr. apply keep_pair; [exact Hr| |]; unfold ray_reflect.
  - intros Hv. destruct (failed r); [exact Hv|]. destruct (hit _ _ _ _) as [[|] dt]; [exact Hv|reflexivity].
  - intros ->. destruct (hit _ _ _ _) as [[|] dt]; [right; cbn; auto|left; reflexivity].
Qed.
Lemma intersect_keep niter s cs b rv : Forall (sound b) (rays rv) ->
  Forall (sound b) (rays (rv_intersect niter s cs None rv)) /\ live_flux (rays (rv_intersect niter s cs None rv)) <= live_flux (rays rv).
Proof.
  intros H. cbn [rv_intersect batch rays]. apply keep_list; [|exact H]. intros r Hr. apply keep_pair; [exact Hr| |]; unfold ray_intersect.
  - intros Hv. destruct (failed r); [exact Hv|]. destruct (hit _ _ _ _) as [[|] dt]; [exact Hv|reflexivity].
  - intros ->. destruct (hit _ _ _ _) as [[|] dt]; [right; cbn; auto|left; reflexivity].
Qed.
Lemma rsplit_keep rho niter s m1 m2 c cs b rv : 0 <= rho <= 1 -> passive rho c -> Forall (sound b) (rays rv) ->
  let out := rv_rsplit niter s m1 m2 c cs rv in
  Forall (sound b) (rays (fst out)) /\ Forall (sound (rho * b)) (rays (snd out)) /\ live_flux (rays (fst out)) + live_flux (rays (snd out)) <= live_flux (rays rv).
Proof.
  intros Hrho Hc H. cbn [rv_rsplit fst snd rays]. induction H as [|r l Hr _ (I1 & I2 & I3)]; [repeat split; [apply Forall_nil|apply Forall_nil|unfold live_flux; cbn; lra]|].
  cbn [map]. rewrite !live_cons. destruct (rsplit_pair rho s (ct_dr (mkCT (rvcs rv) (dest cs rv))) (ct_drot (mkCT (rvcs rv) (dest cs rv))) m2 c niter b r Hrho Hc Hr) as (J1 & J2 & J3).
  split; [constructor; assumption|]. split; [constructor; assumption|lra].
Qed.

Definition tame (rho : R) (f : bool -> prv XR -> res (split_out XR)) : Prop :=
  forall reverse x b fo re, 0 <= b -> Forall (sound b) (rays (p_rv x)) -> f reverse x = Ok (Lists fo re) ->
    Forall (sound b) (all_rays (if reverse then re else fo)) /\ Forall (sound (rho * b)) (all_rays (if reverse then fo else re)) /\
    live_flux (all_rays fo) + live_flux (all_rays re) <= live_flux (rays (p_rv x)).
Lemma iface_tame rho niter i : 0 <= rho <= 1 -> passive_coats rho i -> tame rho (iface_split niter i).
Proof.
  intros Hrho (Hf & Hr) reverse x b fo re Hb H E. unfold iface_split in E. destruct (i_skip i); [destruct reverse; discriminate|].
  assert (Hl0 : live_flux [] = 0) by reflexivity.
  set (fin := option_map (fun rv : rayvec XR => PRV (apply_obsc (i_obsc i) rv) (Some (add_path (p_path x) (i_name i))))) in E.
  assert (SP : forall c m1 m2, passive rho c -> let out := rv_rsplit niter (i_surf i) m1 m2 c (Some (i_cs i)) (p_rv x) in
    Forall (sound b) (all_rays [fin (Some (fst out))]) /\ Forall (sound (rho * b)) (all_rays [fin (Some (snd out))]) /\
    live_flux (all_rays [fin (Some (fst out))]) + live_flux (all_rays [fin (Some (snd out))]) <= live_flux (rays (p_rv x))).
  { intros c m1 m2 Hc out. destruct (rsplit_keep rho niter (i_surf i) m1 m2 c (Some (i_cs i)) b (p_rv x) Hrho Hc H) as (J1 & J2 & J3). fold out in J1, J2, J3.
    destruct (obscure_keep (i_obsc i) _ _ J1) as (K1 & K2). destruct (obscure_keep (i_obsc i) _ _ J2) as (K3 & K4).
    unfold all_rays, fin; cbn [flat_map option_map p_rv]. rewrite !app_nil_r. split; [exact K1|]. split; [exact K3|lra]. }
  assert (ON : forall rv, Forall (sound b) (rays rv) -> live_flux (rays rv) <= live_flux (rays (p_rv x)) ->
    Forall (sound b) (all_rays [fin (Some rv)]) /\ live_flux (all_rays [fin (Some rv)]) <= live_flux (rays (p_rv x))).
  { intros rv J1 J2. destruct (obscure_keep (i_obsc i) _ _ J1) as (K1 & K2). unfold all_rays, fin; cbn [flat_map option_map p_rv]. rewrite !app_nil_r. split; [exact K1|lra]. }
  assert (NI : Forall (sound (rho * b)) (all_rays [fin None])) by constructor.
  assert (NL : live_flux (all_rays [fin None]) = 0) by reflexivity.
  unfold rSplit in E. destruct (i_kind i) eqn:Ek; try discriminate.
  - (* refractive *)
    destruct reverse.
    + destruct (i_fwd i) as [c|] eqn:Ec; [|discriminate]. specialize (SP c (i_out i) (i_in i) (Hf c eq_refl)).
      destruct (rv_rsplit _ _ _ _ _ _ _) as [p q]. cbn [bind fst snd] in *. injection E as <- <-. destruct SP as (S1 & S2 & S3). split; [exact S1|]. split; [exact S2|]. rewrite Rplus_comm. exact S3.
    + destruct (i_rev i) as [c|] eqn:Ec; [|discriminate]. specialize (SP c (i_in i) (i_out i) (Hr c eq_refl)).
      destruct (rv_rsplit _ _ _ _ _ _ _) as [p q]. cbn [bind fst snd] in *. injection E as <- <-. exact SP.
  - (* mirror *)
    destruct (reflect_keep niter (i_surf i) (Some (i_cs i)) b (p_rv x) H) as (J1 & J2). destruct (ON _ J1 J2) as (K1 & K2).
    cbn [bind] in E. destruct reverse; injection E as <- <-; (split; [exact K1|]; split; [exact NI|]); [rewrite Rplus_comm|]; (eapply Rle_trans; [apply Rplus_le_compat; [exact K2|right; exact NL]|lra]).
  - (* detector *)
    destruct reverse; [discriminate|]. destruct (i_fwd i) as [c|] eqn:Ec; [|discriminate]. specialize (SP c (i_in i) (i_out i) (Hf c eq_refl)).
    destruct (rv_rsplit _ _ _ _ _ _ _) as [p q]. cbn [bind fst snd] in *. injection E as <- <-. exact SP.
  - (* baffle *)
    destruct (intersect_keep niter (i_surf i) (Some (i_cs i)) b (p_rv x) H) as (J1 & J2). destruct (ON _ J1 J2) as (K1 & K2).
    cbn [bind] in E. destruct reverse; injection E as <- <-; (split; [exact K1|]; split; [exact NI|]); [rewrite Rplus_comm|]; (eapply Rle_trans; [apply Rplus_le_compat; [exact K2|right; exact NL]|lra]).
Qed.

(** What is kept of the results of an item. *)
Definition kept (minFlux : XR) (l : list (option (prv XR))) : list (prv XR) := filter nonempty (map (prune minFlux) (keep_some l)).
Definition prays (l : list (prv XR)) : list (ray XR) := flat_map (fun x => rays (p_rv x)) l.
Lemma prays_app a b : prays (a ++ b) = prays a ++ prays b.
Proof. unfold prays. apply flat_map_app. Qed.
Lemma kept_one mf x : prays (kept mf [Some x]) = filter (alive mf) (rays (p_rv x)).
Proof.
  unfold kept, keep_some. cbn [flat_map]. rewrite app_nil_r. destruct (rays (p_rv x)) as [|r rs] eqn:E; [reflexivity|]. cbn [map].
  change (prays (if nonempty (prune mf x) then [prune mf x] else []) = filter (alive mf) (r :: rs)). unfold nonempty. cbn [prune p_rv rays]. rewrite E. destruct (filter (alive mf) (r :: rs)) eqn:E2; [reflexivity|].
  unfold prays. cbn [flat_map prune p_rv rays]. rewrite E, E2. apply app_nil_r.
Qed.
Lemma kept_cons mf o l : kept mf (o :: l) = kept mf [o] ++ kept mf l.
Proof. unfold kept, keep_some. rewrite <- filter_app, <- map_app, <- flat_map_app. reflexivity. Qed.
Lemma kept_rays mf l : prays (kept mf l) = filter (alive mf) (all_rays l).
Proof.
  induction l as [|o l IH]; [reflexivity|]. rewrite kept_cons, prays_app, IH. unfold all_rays at 2. cbn [flat_map]. rewrite filter_app.
  destruct o as [x|]; [rewrite kept_one|]; reflexivity.
Qed.
Lemma Forall_prays (P : ray XR -> Prop) l : Forall P (prays l) <-> Forall (fun x => Forall P (rays (p_rv x))) l.
Proof.
  unfold prays. induction l as [|x l IH]; [split; constructor|]. cbn [flat_map]. rewrite Forall_app, IH. split.
  - intros (H1 & H2). constructor; assumption.
  - intros H. inversion H; auto.
Qed.
Lemma Forall_filter {A} (P : A -> Prop) p l : Forall P l -> Forall P (filter p l).
Proof. induction 1; cbn; [constructor|]. destruct (p x); [constructor|]; assumption. Qed.

(** The state of the work loop that started in the direction d with the bound b. *)
Definition fits_dir (rho b : R) (d rev : bool) : R := if Bool.eqb rev d then b else rho * b.
Definition inv (rho b F : R) (d : bool) (q : list (prv XR * bool * nat)) (outF outR : list (prv XR)) : Prop :=
  Forall (fun e => Forall (sound (fits_dir rho b d (snd (fst e)))) (rays (p_rv (fst (fst e))))) q /\
  Forall (sound (fits_dir rho b d false)) (prays outF) /\ Forall (sound (fits_dir rho b d true)) (prays outR) /\
  live_flux (prays (map (fun e => fst (fst e)) q)) + live_flux (prays outF) + live_flux (prays outR) <= F.
Lemma live_rev l : live_flux (prays (rev l)) = live_flux (prays l).
Proof. induction l as [|x l IH]; [reflexivity|]. cbn [rev]. rewrite prays_app, live_app, IH. cbn [prays flat_map]. rewrite app_nil_r, live_app. fold (prays l). lra. Qed.
Lemma loop_inv rho b F d fs mf : 0 <= rho <= 1 -> 0 <= b -> Forall (tame rho) fs -> forall fuel q outF outR f r,
  inv rho b F d q outF outR -> split_loop fs mf fuel q outF outR = Ok (f, r) -> inv rho b F d [] f r.
Proof.
  intros Hrho Hb Hfs. induction fuel as [|fuel IH]; intros [|[[x rv] idx] q] outF outR f r HI; cbn [split_loop].
  - intros E; injection E as <- <-; exact HI.
  - discriminate.
  - intros E; injection E as <- <-; exact HI.
  - destruct (nth_error fs idx) as [g|] eqn:Eg; [|discriminate]. apply nth_error_In in Eg. rewrite Forall_forall in Hfs. specialize (Hfs g Eg).
    destruct (g rv x) as [[fo re|? ?]|] eqn:Ex; cbn [bind]; try discriminate. fold (kept mf fo). fold (kept mf re).
    destruct HI as (I1 & I2 & I3 & I4). inversion I1 as [|? ? Hx Hq]; subst. cbn [fst snd] in Hx. cbn [map fst snd] in I4. cbn [prays flat_map] in I4. rewrite live_app in I4. fold (prays (map (fun e : prv XR * bool * nat => fst (fst e)) q)) in I4.
    set (bb := fits_dir rho b d rv) in *. assert (Hbb : 0 <= bb) by (unfold bb, fits_dir; destruct (Bool.eqb rv d); nra).
    destruct (Hfs rv x bb fo re Hbb Hx Ex) as (T1 & T2 & T3).
    assert (Hopp : rho * bb <= fits_dir rho b d (negb rv)) by (assert (0 <= rho * b <= b) by nra; assert (0 <= rho * (rho * b) <= rho * b) by nra; unfold bb, fits_dir; destruct rv, d; cbn; lra).
    assert (SF : Forall (sound (fits_dir rho b d false)) (prays (kept mf fo))).
    { rewrite kept_rays. apply Forall_filter. destruct rv; [|exact T1]. revert T2. apply Forall_impl. intros z. apply sound_le. exact Hopp. }
    assert (SR : Forall (sound (fits_dir rho b d true)) (prays (kept mf re))).
    { rewrite kept_rays. apply Forall_filter. destruct rv; [exact T1|]. revert T2. apply Forall_impl. intros z. apply sound_le. exact Hopp. }
    assert (LF : live_flux (prays (kept mf fo)) <= live_flux (all_rays fo)).
    { rewrite kept_rays. destruct rv; eapply live_filter; eassumption. }
    assert (LR : live_flux (prays (kept mf re)) <= live_flux (all_rays re)).
    { rewrite kept_rays. destruct rv; eapply live_filter; eassumption. }
    assert (MF : forall k l, map (fun e : prv XR * bool * nat => fst (fst e)) (rev (map (fun x0 => (x0, k, 0%nat)) l)) = rev l).
    { intros k l. rewrite map_rev, map_map. cbn. rewrite map_id. reflexivity. }
    assert (MF' : forall (k : bool) (n : nat) l, map (fun e : prv XR * bool * nat => fst (fst e)) (rev (map (fun x0 => (x0, k, n)) l)) = rev l).
    { intros k n l. rewrite map_rev, map_map. cbn. rewrite map_id. reflexivity. }
    assert (FQ : forall (k : bool) (n : nat) l, Forall (sound (fits_dir rho b d k)) (prays l) ->
      Forall (fun e : prv XR * bool * nat => Forall (sound (fits_dir rho b d (snd (fst e)))) (rays (p_rv (fst (fst e))))) (rev (map (fun x0 => (x0, k, n)) l))).
    { intros k n l Hl. apply Forall_rev. apply Forall_prays in Hl. rewrite Forall_forall in *. intros e He. apply in_map_iff in He. destruct He as (y & <- & Hy). cbn. apply Hl, Hy. }
    destruct (Nat.eqb (S idx) (List.length fs)); destruct (Nat.eqb idx 0); apply IH; unfold inv; rewrite ?map_app, ?MF', ?prays_app, ?live_app, ?live_rev, ?Forall_app;
      repeat split; try assumption; try (apply FQ; assumption); lra.
Qed.
Lemma prays_some l : all_rays (map Some l) = prays l.
Proof. unfold all_rays, prays. induction l; cbn; congruence. Qed.
Lemma optic_tame rho niter mf fuel o : 0 <= rho <= 1 -> passive_optic rho o -> tame rho (traceSplit niter mf fuel o).
Proof.
  intros Hrho. induction o as [i|a items IH] using optic_ind2; intros Hp.
  - exact (iface_tame rho niter i Hrho Hp).
  - intros reverse x b fo re Hb H. cbn [traceSplit]. destruct (c_skip a); [destruct reverse; discriminate|].
    destruct (split_loop _ _ _ _ _ _) as [[f r]|] eqn:E; [|discriminate]. cbn [bind]. intros K. injection K as <- <-.
    assert (HF : Forall (tame rho) (map (fun it => traceSplit niter mf fuel it) items)).
    { cbn [passive_optic] in Hp. clear E. induction IH as [|it items Hit _ IHl]; [constructor|]. cbn [map fold_right] in Hp. destruct Hp. constructor; auto. }
    assert (I0 : inv rho b (live_flux (rays (p_rv x))) reverse [(x, reverse, if reverse then (List.length items - 1)%nat else 0%nat)] [] []).
    { unfold inv, prays; cbn [map flat_map fst snd]. rewrite app_nil_r. assert (live_flux [] = 0) by reflexivity. split; [|split; [apply Forall_nil|split; [apply Forall_nil|lra]]].
      apply Forall_cons; [|apply Forall_nil]. unfold fits_dir. cbn [fst snd]. rewrite eqb_reflx. exact H. }
    destruct (loop_inv rho b (live_flux (rays (p_rv x))) reverse _ mf Hrho Hb HF _ _ _ _ _ _ I0 E) as (_ & J1 & J2 & J3).
    cbn [map prays flat_map] in J3. assert (Z : live_flux [] = 0) by reflexivity. rewrite Z in J3.
    unfold fits_dir in *. destruct reverse; cbn [Bool.eqb] in *; rewrite !prays_some; (split; [assumption|]; split; [assumption|lra]).
Qed.

(** *** Termination *)
Section Term.
  Variables (rho m : R) (F : list (nat -> bool -> prv XR -> res (split_out XR))).
  Hypothesis Hrho : 0 <= rho < 1.
  Hypothesis Hm : 0 < m.
  Hypothesis HF : Forall (fun f => (forall k, tame rho (f k)) /\
    forall reverse x b, 0 <= b -> Forall (sound b) (rays (p_rv x)) -> settles (fun k => f k reverse x)) F.
  Definition at_fuel (k : nat) := map (fun f => f k) F.
  Definition term (q : list (prv XR * bool * nat)) : Prop :=
    forall outF outR, exists N r, r <> Err OutOfFuel /\
      forall k fuel, (N <= k)%nat -> (N <= fuel)%nat -> split_loop (at_fuel k) (Fin m) fuel q outF outR = r.
  Definition ends (e : prv XR * bool * nat) : Prop := forall q, term q -> term (e :: q).
  Lemma term_nil : term [].
  Proof. intros f r. exists 0%nat, (Ok (f, r)). split; [discriminate|]. intros k [|fuel] _ _; reflexivity. Qed.
  Lemma term_app l q : Forall ends l -> term q -> term (l ++ q).
  Proof. induction 1 as [|e l He _ IH]; intros Hq; [exact Hq|]. apply He, IH, Hq. Qed.
  Lemma dead b l : Forall (sound b) (all_rays l) -> b < m -> kept (Fin m) l = [].
  Proof.
    intros H Hb. assert (E : prays (kept (Fin m) l) = []).
    { rewrite kept_rays. induction H as [|r rs Hr _ IH]; [reflexivity|]. cbn [filter]. assert (D : alive (Fin m) r = false).
      { unfold alive. destruct Hr as [-> | (_ & v & -> & Hv)]; [reflexivity|]. destruct (vignetted r); [reflexivity|]. cbn [negb andb nleb NumXR xleb]. destruct (Rle_dec m v); [lra|reflexivity]. }
      rewrite D. exact IH. }
    unfold kept in *. destruct (filter nonempty (map (prune (Fin m)) (keep_some l))) as [|y ys] eqn:K; [reflexivity|].
    assert (Hy : In y (filter nonempty (map (prune (Fin m)) (keep_some l)))) by (rewrite K; left; reflexivity). apply filter_In in Hy. destruct Hy as (_ & Hy).
    unfold prays in E. cbn [flat_map] in E. apply app_eq_nil in E. unfold nonempty in Hy. destruct E as (E & _). rewrite E in Hy. discriminate.
  Qed.
  Lemma kept_sound b l : Forall (sound b) (all_rays l) -> Forall (fun x => Forall (sound b) (rays (p_rv x))) (kept (Fin m) l).
  Proof. intros H. apply Forall_prays. rewrite kept_rays. apply Forall_filter, H. Qed.
  Lemma entry_step x (rv : bool) idx b : 0 <= b -> Forall (sound b) (rays (p_rv x)) ->
    (forall fo re, Forall (sound b) (all_rays (if rv then re else fo)) -> Forall (sound (rho * b)) (all_rays (if rv then fo else re)) -> (idx < List.length F)%nat ->
      (S idx <> List.length F -> Forall (fun y => ends (y, false, S idx)) (kept (Fin m) fo)) /\
      (idx <> 0%nat -> Forall (fun y => ends (y, true, (idx - 1)%nat)) (kept (Fin m) re))) ->
    ends (x, rv, idx).
  Proof.
    intros Hb Hx Hch q Hq outF outR. destruct (nth_error F idx) as [f|] eqn:Ef.
    2:{ exists 1%nat, (Err IndexError). split; [discriminate|]. intros k [|fuel] _ Hfu; [lia|]. cbn [split_loop]. unfold at_fuel. rewrite nth_error_map, Ef. reflexivity. }
    assert (Hidx : (idx < List.length F)%nat) by (apply nth_error_Some; congruence).
    rewrite Forall_forall in HF. destruct (HF f (nth_error_In _ _ Ef)) as (Ht & Hs). destruct (Hs rv x b Hb Hx) as (N1 & r1 & Hr1 & H1).
    assert (ST : forall k fuel, (N1 <= k)%nat -> split_loop (at_fuel k) (Fin m) (S fuel) ((x, rv, idx) :: q) outF outR =
      bind r1 (fun so => match so with Skipped _ _ => Err TypeError | Lists fo re =>
        let fo := kept (Fin m) fo in let re := kept (Fin m) re in
        let '(queue, outF) := if Nat.eqb (S idx) (List.length F) then (q, outF ++ fo) else (rev (map (fun x => (x, false, S idx)) fo) ++ q, outF) in
        let '(queue, outR) := if Nat.eqb idx 0 then (queue, outR ++ re) else (rev (map (fun x => (x, true, (idx - 1)%nat)) re) ++ queue, outR) in
        split_loop (at_fuel k) (Fin m) fuel queue outF outR end)).
    { intros k fuel Hk. cbn [split_loop]. unfold at_fuel at 1. rewrite nth_error_map, Ef. cbn [option_map]. rewrite (H1 k Hk). unfold at_fuel at 1. rewrite map_length. reflexivity. }
    destruct r1 as [[fo re|? ?]|e1].
    - specialize (Ht N1 rv x b fo re Hb Hx (H1 N1 (le_n _))). destruct Ht as (T1 & T2 & _). destruct (Hch fo re T1 T2 Hidx) as (C1 & C2).
      assert (LA : forall (k : bool) n l q', Forall (fun y => ends (y, k, n)) l -> term q' -> term (rev (map (fun y => (y, k, n)) l) ++ q')).
      { intros k n l q' Hl Hq'. apply term_app; [|exact Hq']. apply Forall_rev. apply Forall_forall. intros e He. apply in_map_iff in He. destruct He as (y & <- & Hy).
        rewrite Forall_forall in Hl. apply Hl, Hy. }
      cbn [bind] in ST. cbv zeta in ST.
      destruct (Nat.eqb_spec (S idx) (List.length F)) as [E1|E1]; destruct (Nat.eqb_spec idx 0) as [E2|E2];
        match type of ST with forall k fuel, _ -> _ = split_loop _ _ _ ?qq ?oF ?oR => assert (TQ : term qq); [|destruct (TQ oF oR) as (N2 & r2 & Hr2 & H2)] end;
        try (repeat apply LA; auto; fail);
        (exists (S (max N1 N2)), r2; split; [exact Hr2|]; intros k [|fuel] Hk Hfu; [lia|]; rewrite ST by lia; apply H2; lia).
    - exists (S N1), (Err TypeError). split; [discriminate|]. intros k [|fuel] Hk Hfu; [lia|]. rewrite ST by lia. reflexivity.
    - exists (S N1), (Err e1). split; [congruence|]. intros k [|fuel] Hk Hfu; [lia|]. rewrite ST by lia. reflexivity.
  Qed.
  Lemma entry_ends : forall K d x (rv : bool) idx b, 0 <= b -> rho ^ K * b < m -> Forall (sound b) (rays (p_rv x)) ->
    ((if rv then idx else List.length F - idx) <= d)%nat -> ends (x, rv, idx).
  Proof.
    induction K as [|K IHK].
    - intros d x rv idx b Hb HK Hx _. cbn in HK. apply (entry_step x rv idx b Hb Hx). intros fo re T1 T2 _.
      assert (D1 : kept (Fin m) (if rv then re else fo) = []) by (apply (dead b); [exact T1|lra]).
      assert (D2 : kept (Fin m) (if rv then fo else re) = []) by (apply (dead (rho * b)); [exact T2|nra]).
      destruct rv; rewrite D1, D2; split; constructor.
    - induction d as [|d IHd]; intros x rv idx b Hb HK Hx Hd; apply (entry_step x rv idx b Hb Hx); intros fo re T1 T2 Hidx.
      + assert (Hb' : 0 <= rho * b) by nra. assert (HK' : rho ^ K * (rho * b) < m) by (cbn in HK; lra).
        apply kept_sound in T1. apply kept_sound in T2.
        destruct rv; [|lia]. split; [|lia]. intros _. revert T2. apply Forall_impl. intros y Hy. apply (IHK _ _ _ _ (rho * b) Hb' HK' Hy (le_n _)).
      + assert (Hb' : 0 <= rho * b) by nra. assert (HK' : rho ^ K * (rho * b) < m) by (cbn in HK; lra).
        apply kept_sound in T1. apply kept_sound in T2.
        destruct rv; split; intros Hne.
        * revert T2. apply Forall_impl. intros y Hy. apply (IHK _ _ _ _ (rho * b) Hb' HK' Hy (le_n _)).
        * revert T1. apply Forall_impl. intros y Hy. apply (IHd _ _ _ b Hb HK Hy). lia.
        * revert T1. apply Forall_impl. intros y Hy. apply (IHd _ _ _ b Hb HK Hy). lia.
        * revert T2. apply Forall_impl. intros y Hy. apply (IHK _ _ _ _ (rho * b) Hb' HK' Hy (le_n _)).
  Qed.
  Lemma shrink b : 0 <= b -> exists K, rho ^ K * b < m.
  Proof.
    intros Hb. destruct (pow_lt_1_zero rho) with (y := m / (b + 1)) as (K & HK).
    - rewrite Rabs_pos_eq; lra.
    - apply Rdiv_lt_0_compat; lra.
    - exists K. specialize (HK K (le_n _)). assert (P : 0 <= rho ^ K) by (apply pow_le; lra). rewrite Rabs_pos_eq in HK by exact P.
      apply (Rmult_lt_compat_r (b + 1)) in HK; [|lra]. unfold Rdiv in HK. rewrite Rmult_assoc, Rinv_l, Rmult_1_r in HK by lra. nra.
  Qed.
  Lemma loop_settles x rv idx b : 0 <= b -> Forall (sound b) (rays (p_rv x)) -> forall outF outR,
    settles (fun k => split_loop (at_fuel k) (Fin m) k [(x, rv, idx)] outF outR).
  Proof.
    intros Hb Hx outF outR. destruct (shrink b Hb) as (K & HK). destruct (entry_ends K _ x rv idx b Hb HK Hx (le_n _) [] term_nil outF outR) as (N & r & Hr & H).
    exists N, r. split; [exact Hr|]. intros k Hk. apply H; exact Hk.
  Qed.
End Term.
Theorem split_settles : forall rho m niter o, 0 <= rho < 1 -> 0 < m -> passive_optic rho o ->
  forall reverse x b, 0 <= b -> Forall (sound b) (rays (p_rv x)) -> settles (fun fuel => traceSplit niter (Fin m) fuel o reverse x).
Proof.
  intros rho m niter o Hrho Hm. induction o as [i|a items IH] using optic_ind2; intros Hp reverse x b Hb Hx.
  - exists 0%nat, (iface_split niter i reverse x). split; [|intros; reflexivity].
    unfold iface_split. destruct (i_skip i); [discriminate|]. unfold rSplit. destruct (i_kind i), reverse, (i_fwd i), (i_rev i); cbn [bind]; try discriminate;
      destruct (rv_rsplit _ _ _ _ _ _ _); discriminate.
  - cbn [traceSplit]. destruct (c_skip a); [eexists 0%nat, _; split; [|reflexivity]; discriminate|].
    assert (HF : Forall (fun f => (forall k, tame rho (f k)) /\
      forall reverse x b, 0 <= b -> Forall (sound b) (rays (p_rv x)) -> settles (fun k => f k reverse x)) (map (fun it k => traceSplit niter (Fin m) k it) items)).
    { cbn [passive_optic] in Hp. induction IH as [|it items Hit _ IHl]; [constructor|]. cbn [map fold_right] in Hp. destruct Hp as (Hp1 & Hp2). constructor; [|auto].
      split; [|intros; eapply Hit; eassumption]. intros k. apply optic_tame; [lra|exact Hp1]. }
    destruct (loop_settles rho m _ Hrho Hm HF x reverse (if reverse then (List.length items - 1)%nat else 0%nat) b Hb Hx [] []) as (N & r & Hr & H).
    exists N, (do (f, r) <- r; Ok (Lists (map Some f) (map Some r))). split; [destruct r as [[? ?]|]; cbn; congruence|].
    intros k Hk. specialize (H k Hk). unfold at_fuel in H. rewrite map_map in H. rewrite H. reflexivity.
Qed.
