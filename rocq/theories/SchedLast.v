(** From single iterations to whole loops; the reduction. *)
From Coq Require Import Reals List Arith Bool Lia Permutation.
From Verif Require Import Num NumR Vec CoordSys Surface Medium Obscuration Ray Bundle Spec Trig Wave WaveSpec WaveProofs
  Sched SchedSpec SchedProofs SchedKernels SchedEffect.
Import ListNotations.
Local Open Scope nat_scope.

Lemma FOP_app {X} (R : X -> X -> Prop) l1 l2 : ForallOrdPairs R (l1 ++ l2) ->
  ForallOrdPairs R l1 /\ ForallOrdPairs R l2 /\ (forall x y, In x l1 -> In y l2 -> R x y).
Proof.
  induction l1 as [|x l1 IH]; cbn; intros H.
  - split; [constructor|]. split; [exact H|]. intros x y [].
  - inversion H; subst. destruct (IH H3) as (A & B & C). rewrite Forall_app in H2. destruct H2 as [H2 H2'].
    split; [constructor; assumption|]. split; [exact B|].
    intros u v [->|Hu] Hv; [|apply C; assumption]. rewrite Forall_forall in H2'. auto.
Qed.
Lemma apart_at n i l : i < n -> Forall (fun b => snd b = n) l -> ForallOrdPairs apart l ->
  distinct (map (fun b => fst b + i) l).
Proof.
  intros Hi HF H. induction H as [|b l Hb H IH]; cbn; [constructor|].
  inversion HF; subst. constructor; [|apply IH; assumption].
  clear IH H. induction Hb as [|b' l Hb' Hb IH]; cbn; constructor.
  - unfold apart in Hb'. inversion H3; subst. lia.
  - apply IH; [|inversion H3; assumption]. constructor; [reflexivity|]. inversion H3; assumption.
Qed.
Lemma sound_at P n i : i < n -> ForallOrdPairs apart (rv_nums P n) -> ForallOrdPairs apart (rv_bools P n) ->
  sound (elem P i).
Proof.
  intros Hi H1 H2. split.
  - apply (apart_at n i) in H1; [exact H1|exact Hi|repeat constructor].
  - apply (apart_at n i) in H2; [|exact Hi|repeat constructor]. cbn in H2. inversion H2; subst. inversion H3; subst.
    exact H5.
Qed.

Section Leaves.
  Context {T : Type} {NT : Num T} {TT : Trig T}.
  Implicit Types (k : kernel T) (P : rvptr) (m : mem T).
  Lemma agree_ray F m m' E : agree F m m' -> incl (rv_cells E) F -> cell_ray m E = cell_ray m' E.
  Proof.
    intros H I.
    assert (HN : forall a, In (NumAt a) (rv_cells E) -> nums m a = nums m' a)
      by (intros a Ha; specialize (H (NumAt a) (I _ Ha)); cbn in H; congruence).
    assert (HB : forall a, In (BoolAt a) (rv_cells E) -> bools m a = bools m' a)
      by (intros a Ha; specialize (H (BoolAt a) (I _ Ha)); cbn in H; congruence).
    unfold cell_ray. rewrite !HN, !HB by (cbn; tauto). reflexivity.
  Qed.
  Lemma agree_num F m m' a : agree F m m' -> In (NumAt a) F -> nums m a = nums m' a.
  Proof. intros H I. specialize (H _ I). cbn in H. congruence. Qed.
  Lemma in_place k P n m f : separate k P n -> (forall i, cells k P i = rv_cells (elem P i)) ->
    num_arrays k P n = rv_nums P n -> bool_arrays k P n = rv_bools P n ->
    (forall E i, E = elem P i -> sound E -> cell_ray (fst (run (iteration k P i) m)) E = f (cell_ray m E)) ->
    rays_at (loop (iteration k P) n m) P n = map f (rays_at m P n).
  Proof.
    intros S HC HN HB H. unfold rays_at. rewrite map_map. apply map_ext_in. intros i Hi. apply in_seq in Hi.
    change (cell_ray (loop (iteration k P) n m) (elem P i) = f (cell_ray m (elem P i))).
    rewrite <- (H (elem P i) i eq_refl).
    - eapply agree_ray; [apply kernel_at; [exact S|lia]|]. rewrite HC. apply incl_refl.
    - destruct S as [S1 S2]. rewrite HN in S1. rewrite HB in S2. apply (sound_at P n); auto; lia.
  Qed.
  Lemma combine_map2 {X Y Z} (f : X -> Y) (g : X -> Z) l : combine (map f l) (map g l) = map (fun x => (f x, g x)) l.
  Proof. induction l; cbn; congruence. Qed.
  Lemma addr_at P n i a : In a (rv_addr (elem P i)) ->
    exists x, In x (rv_nums P n) /\ a = fst x + i /\ snd x = n.
  Proof.
    unfold rv_addr, elem. cbn.
    intros [<-|[<-|[<-|[<-|[<-|[<-|[<-|[<-|[<-|[]]]]]]]]]];
      [exists (xptr P, n)|exists (yptr P, n)|exists (zptr P, n)|exists (vxptr P, n)|exists (vyptr P, n)
      |exists (vzptr P, n)|exists (tptr P, n)|exists (wptr P, n)|exists (fluxptr P, n)]; cbn; tauto.
  Qed.
  Lemma new_at P n b i o : i < n -> (forall x, In x (rv_nums P n) -> apart x b) ->
    fst b <= o < fst b + snd b -> new_cell (elem P i) o.
  Proof.
    intros Hi H Ho. unfold new_cell. apply Forall_forall. intros a Ha.
    destruct (addr_at P n i a Ha) as (x & Hx & -> & Hn).
    specialize (H x Hx). unfold apart in H. lia.
  Qed.
  Lemma kernel_leaves k P n m : separate k P n -> leaves k P n m (loop (iteration k P) n m).
  Proof.
    intros S. destruct k.
    - cbn [leaves]; cbv zeta. rewrite map_map. apply map_ext_in. intros i Hi. apply in_seq in Hi.
      assert (K := kernel_at _ P n m i S ltac:(lia)). destruct S as [S _]. cbn in S.
      apply (apart_at n i) in S; [|lia|repeat constructor]. cbn in S.
      unfold point_at. erewrite !(agree_num _ _ _ _ K) by (cbn; tauto).
      cbn [iteration]. unfold prog_forwardArrays, load_point, store3. cbn [run fst elem xptr yptr zptr].
      spread. look. rewrite v3_eta. reflexivity.
    - cbn [leaves]; cbv zeta. rewrite map_map. apply map_ext_in. intros i Hi. apply in_seq in Hi.
      assert (K := kernel_at _ P n m i S ltac:(lia)). destruct S as [S _]. cbn in S.
      apply (apart_at n i) in S; [|lia|repeat constructor]. cbn in S.
      unfold point_at. erewrite !(agree_num _ _ _ _ K) by (cbn; tauto).
      cbn [iteration]. unfold prog_reverseArrays, load_rev, store3. cbn [run fst elem xptr yptr zptr].
      spread. look. rewrite v3_eta. reflexivity.
    - apply in_place; [exact S|reflexivity|reflexivity|reflexivity|]. intros E i -> HE. exact (run_forward dr d (elem P i) m HE).
    - apply in_place; [exact S|reflexivity|reflexivity|reflexivity|]. intros E i -> HE. exact (run_reverse dr d (elem P i) m HE).
    - apply in_place; [exact S|reflexivity|reflexivity|reflexivity|]. intros E i -> HE. exact (run_obscure o (elem P i) m HE).
    - apply in_place; [exact S|reflexivity|reflexivity|reflexivity|]. intros E i -> HE. exact (run_intersect s dr d c niter (elem P i) m HE).
    - apply in_place; [exact S|reflexivity|reflexivity|reflexivity|]. intros E i -> HE. exact (run_reflect s dr d c niter (elem P i) m HE).
    - apply in_place; [exact S|reflexivity|reflexivity|reflexivity|]. intros E i -> HE. exact (run_refract s dr d m2 c niter (elem P i) m HE).
    - apply in_place; [exact S|reflexivity|reflexivity|reflexivity|]. intros E i -> HE. exact (run_screen s screen dr d niter (elem P i) m HE).
    - apply in_place; [exact S|reflexivity|reflexivity|reflexivity|]. intros E i -> HE. exact (run_propagate t (elem P i) m HE).
    - cbn [leaves]; cbv zeta. intros HC. unfold rays_at. rewrite combine_map2, map_map. apply map_ext_in. intros i Hi.
      assert (HC' : cell_ray m (elem split i) = cell_ray m (elem P i)).
      { unfold rays_at in HC. exact (ext_in_map HC i Hi). }
      apply in_seq in Hi.
      assert (K := kernel_at _ P n m i S ltac:(lia)).
      change ((cell_ray (loop (iteration (KSplit s dr d m2 c niter split) P) n m) (elem P i),
               cell_ray (loop (iteration (KSplit s dr d m2 c niter split) P) n m) (elem split i)) =
              ray_rsplit s dr d m2 c niter (cell_ray m (elem P i))).
      destruct S as [S1 S2]. cbn [num_arrays bool_arrays] in S1, S2.
      apply FOP_app in S1, S2. destruct S1 as (A1 & A2 & A3), S2 as (B1 & B2 & B3).
      rewrite <- (run_rsplit s dr d m2 c niter (elem P i) (elem split i) m).
      + f_equal; eapply agree_ray; try exact K; [apply incl_appl, incl_refl|apply incl_appr, incl_refl].
      + apply (sound_at P n); auto; lia.
      + apply (sound_at split n); auto; lia.
      + split.
        * intros a b Ha Hb. assert (N : new_cell (elem P i) b).
          { destruct (addr_at split n i b Hb) as (x & Hx & -> & Hn).
            apply (new_at P n x i); [lia|intros u Hu; apply A3; assumption|lia]. }
          unfold new_cell in N. rewrite Forall_forall in N. apply N, Ha.
        * cbn [elem vigptr failptr].
          assert (X : forall u v, In (u, n) (rv_bools P n) -> In (v, n) (rv_bools split n) -> u + i <> v + i).
          { intros u v Hu Hv. specialize (B3 _ _ Hu Hv). unfold apart in B3. cbn in B3. lia. }
          split; [|split; [|split]]; apply X; cbn; tauto.
      + exact HC'.
    - cbn [leaves]; cbv zeta. assert (X : forall i, In i (seq 0 n) ->
        cell_ray (loop (iteration (KPosition t xo yo zo) P) n m) (elem P i) = cell_ray m (elem P i) /\
        V3 (nums (loop (iteration (KPosition t xo yo zo) P) n m) (xo + i))
           (nums (loop (iteration (KPosition t xo yo zo) P) n m) (yo + i))
           (nums (loop (iteration (KPosition t xo yo zo) P) n m) (zo + i)) = ray_positionAtTime t (cell_ray m (elem P i))).
      { intros i Hi. apply in_seq in Hi. assert (K := kernel_at _ P n m i S ltac:(lia)).
        destruct S as [S1 S2]. cbn [num_arrays] in S1. apply FOP_app in S1. destruct S1 as (A1 & A2 & A3).
        rewrite (agree_ray _ _ _ _ K) by (apply incl_appl, incl_refl).
        rewrite !(agree_num _ _ _ _ K) by (apply in_app_iff; right; cbn; tauto). cbn [iteration].
        apply run_position.
        - apply (new_at P n (xo, n) i); [lia|intros u Hu; apply A3; cbn; tauto|cbn; lia].
        - apply (new_at P n (yo, n) i); [lia|intros u Hu; apply A3; cbn; tauto|cbn; lia].
        - apply (new_at P n (zo, n) i); [lia|intros u Hu; apply A3; cbn; tauto|cbn; lia].
        - apply (apart_at n i) in A2; [exact A2|lia|repeat constructor]. }
      split; unfold rays_at; rewrite ?map_map; apply map_ext_in; intros i Hi; apply X, Hi.
    - cbn [leaves]; cbv zeta. assert (X : forall i, In i (seq 0 n) ->
        cell_ray (loop (iteration (KPhase r t out) P) n m) (elem P i) = cell_ray m (elem P i) /\
        nums (loop (iteration (KPhase r t out) P) n m) (out + i) = ray_phase r t (cell_ray m (elem P i))).
      { intros i Hi. apply in_seq in Hi. assert (K := kernel_at _ P n m i S ltac:(lia)).
        destruct S as [S1 S2]. cbn [num_arrays] in S1. apply FOP_app in S1. destruct S1 as (A1 & A2 & A3).
        rewrite (agree_ray _ _ _ _ K) by (apply incl_appl, incl_refl).
        rewrite !(agree_num _ _ _ _ K) by (apply in_app_iff; right; cbn; tauto). cbn [iteration].
        apply run_phase. apply (new_at P n (out, n) i); [lia|intros u Hu; apply A3; cbn; tauto|cbn; lia]. }
      split; unfold rays_at; rewrite ?map_map; apply map_ext_in; intros i Hi; apply X, Hi.
    - cbn [leaves]; cbv zeta. assert (X : forall i, In i (seq 0 n) ->
        cell_ray (loop (iteration (KAmplitude r t out) P) n m) (elem P i) = cell_ray m (elem P i) /\
        (nums (loop (iteration (KAmplitude r t out) P) n m) (out + 2 * i),
         nums (loop (iteration (KAmplitude r t out) P) n m) (out + (2 * i + 1)))
        = ray_amplitude r t (cell_ray m (elem P i))).
      { intros i Hi. apply in_seq in Hi. assert (K := kernel_at _ P n m i S ltac:(lia)).
        destruct S as [S1 S2]. cbn [num_arrays] in S1. apply FOP_app in S1. destruct S1 as (A1 & A2 & A3).
        rewrite (agree_ray _ _ _ _ K) by (apply incl_appl, incl_refl).
        rewrite !(agree_num _ _ _ _ K) by (apply in_app_iff; right; cbn; tauto). cbn [iteration].
        apply run_amplitude.
        - apply (new_at P n (out, 2 * n) i); [lia|intros u Hu; apply A3; cbn; tauto|cbn; lia].
        - apply (new_at P n (out, 2 * n) i); [lia|intros u Hu; apply A3; cbn; tauto|cbn; lia].
        - lia. }
      split; unfold rays_at; rewrite ?map_map; apply map_ext_in; intros i Hi; apply X, Hi.
  Qed.
End Leaves.

(** The reduction of sumAmplitude. *)
Section Reduce.
  Context {T : Type} {NT : Num T} {TT : Trig T}.
  Lemma private_amplitude (r : vec3 T) t ign P m its c :
    private_sum (map (fun i => snd (run (prog_sum r t ign (elem P i)) m)) its)
    = sumAmplitude r t ign (RV (map (ray_at m P) its) c).
  Proof.
    unfold private_sum, sumAmplitude. cbn [rays]. generalize (n0, n0). induction its as [|i its IH]; intros acc; [reflexivity|].
    cbn [map fold_left]. rewrite IH. f_equal. rewrite run_sum. cbn [snd]. unfold add_to, add_amplitude.
    change (cell_ray m (elem P i)) with (ray_at m P i).
    destruct (negb (failed (ray_at m P i)) && negb (ign && vignetted (ray_at m P i))); reflexivity.
  Qed.
  Lemma rv_disjoint P n : ForallOrdPairs apart (rv_nums P n) -> ForallOrdPairs apart (rv_bools P n) ->
    forall i j l, i < n -> j < n -> i <> j -> In l (rv_cells (elem P i)) -> ~ In l (rv_cells (elem P j)).
  Proof. intros H1 H2. exact (cells_disjoint (T := T) (KPropagate n0) P n (conj H1 H2)). Qed.
  Lemma sum_finish (r : vec3 T) t ign P n m deal c c0 : ForallOrdPairs apart (rv_nums P n) ->
    ForallOrdPairs apart (rv_bools P n) -> Permutation (concat deal) (seq 0 n) ->
    steps (start (fun i => prog_sum r t ign (elem P i)) deal m) c -> finished c ->
    same (fst c) m /\
    map (fun t => private_sum (fst t)) (snd c)
    = map (fun its => sumAmplitude r t ign (RV (map (ray_at m P) its) c0)) deal.
  Proof.
    intros S1 S2 G H E.
    destruct (final_cells (fun i => prog_sum r t ign (elem P i)) (fun i => rv_cells (elem P i)) n
      (fun i _ => sum_confined r t ign P i) (rv_disjoint P n S1 S2) m deal c G H E) as (A1 & A2 & A3).
    split.
    - apply same_get. intros l. destruct (in_footprint (fun i => rv_cells (elem P i)) n l) as [(i & Hi & Hl)|N]; [|auto].
      rewrite (A1 i Hi l Hl), run_sum. reflexivity.
    - rewrite <- map_map with (f := fst) (g := private_sum), A3, map_map. apply map_ext. intros its. apply private_amplitude.
  Qed.
End Reduce.

Lemma combines_F l v : combines (map Fin l) v -> v = Fin (sumR l).
Proof.
  intros H. remember (map Fin l) as L eqn:E. revert l E.
  induction H as [v|L l1 l2 a b P H1 IH1 H2 IH2]; intros l E.
  - destruct l as [|x [|y l]]; try discriminate. inversion E. unfold sumR. cbn. f_equal. ring.
  - subst L. apply Permutation_sym, Permutation_map_inv in P. destruct P as (l' & E & P).
    apply Permutation_sym in P. symmetry in E. apply map_eq_app in E. destruct E as (k1 & k2 & -> & <- & <-).
    rewrite (IH1 k1 eq_refl), (IH2 k2 eq_refl). rewrite <- (sumR_perm _ _ P), sumR_app. reflexivity.
Qed.
Lemma wave_sum_concat ign (deal : list (list nat)) (f : nat -> ray R) p t :
  sumR (map (fun its => fst (wave_sum ign (map f its) p t)) deal) = fst (wave_sum ign (map f (concat deal)) p t) /\
  sumR (map (fun its => snd (wave_sum ign (map f its) p t)) deal) = snd (wave_sum ign (map f (concat deal)) p t).
Proof.
  induction deal as [|its deal [IH1 IH2]]; [split; reflexivity|]. cbn [concat map].
  unfold wave_sum in *. cbn [fst snd] in *. rewrite map_app, filter_app, !map_app, !sumR_app, <- IH1, <- IH2.
  split; reflexivity.
Qed.
Lemma wave_sum_perm ign l l' p t : Permutation l l' -> wave_sum ign l p t = wave_sum ign l' p t.
Proof.
  intros H. unfold wave_sum. apply (filter_perm (counted ign)) in H.
  f_equal; apply sumR_perm, Permutation_map, H.
Qed.
Lemma sum_any_schedule ign (l : list (ray R)) (c0 : frame) (p : vR) (t : R) P m deal c r :
  Forall has_wave (filter (counted ign) l) -> rays_at m P (length l) = map Fray l ->
  ForallOrdPairs apart (rv_nums P (length l)) -> ForallOrdPairs apart (rv_bools P (length l)) ->
  Permutation (concat deal) (seq 0 (length l)) ->
  steps (start (fun i => prog_sum (F3 p) (Fin t) ign (elem P i)) deal m) c -> finished c -> reduces c r ->
  same (fst c) m /\ r = sumAmplitude (F3 p) (Fin t) ign (Frv (RV l c0)).
Proof.
  intros HW HR S1 S2 G H E [R1 R2].
  destruct (sum_finish _ _ _ _ _ _ _ _ (Fcs c0) S1 S2 G H E) as [M HS]. split; [exact M|].
  rewrite HS in R1, R2. clear HS. rewrite sum_F by exact HW.
  set (f := fun i => nth i l (Ray zeroR zeroR 0%R 0%R 0%R false false)).
  assert (Hf : forall i, i < length l -> ray_at m P i = Fray (f i)).
  { intros i Hi. unfold rays_at in HR. assert (X := f_equal (fun q => nth i q (ray_at m P 0)) HR). cbn beta in X.
    rewrite (map_nth (ray_at m P)) in X. rewrite seq_nth in X by exact Hi. cbn in X. rewrite X.
    rewrite (nth_indep _ _ (Fray (Ray zeroR zeroR 0%R 0%R 0%R false false))) by (rewrite map_length; exact Hi).
    rewrite map_nth. reflexivity. }
  assert (Hl : map f (seq 0 (length l)) = l).
  { apply (nth_ext _ _ (f 0) (f 0)); rewrite map_length, seq_length; [reflexivity|]. intros i Hi.
    rewrite (map_nth f), seq_nth by exact Hi. unfold f. apply nth_indep. exact Hi. }
  assert (PW : Permutation (map f (concat deal)) l) by (eapply Permutation_trans; [apply Permutation_map, G|rewrite Hl; apply Permutation_refl]).
  assert (HD : Forall (fun its => Forall has_wave (filter (counted ign) (map f its)) /\
      map (ray_at m P) its = map Fray (map f its)) deal).
  { assert (W : Forall has_wave (filter (counted ign) (map f (concat deal)))).
    { apply Forall_forall. intros x Hx. rewrite Forall_forall in HW. apply HW.
      eapply Permutation_in; [apply filter_perm, PW|exact Hx]. }
    assert (L : Forall (fun i => i < length l) (concat deal)).
    { apply Forall_forall. intros i Hi. assert (In i (seq 0 (length l))) by (eapply Permutation_in; eauto).
      apply in_seq in H0. lia. }
    clear - W L Hf. induction deal as [|its deal IH]; constructor.
    - cbn in W, L. rewrite map_app, filter_app in W. apply Forall_app in W, L. split; [tauto|].
      rewrite map_map. apply map_ext_in. intros i Hi. apply Hf. destruct L as [L _]. rewrite Forall_forall in L. auto.
    - cbn in W, L. rewrite map_app, filter_app in W. apply Forall_app in W, L. apply IH; tauto. }
  assert (HM : map (fun its => sumAmplitude (F3 p) (Fin t) ign (RV (map (ray_at m P) its) (Fcs c0))) deal =
    map (fun its => (Fin (fst (wave_sum ign (map f its) p t)), Fin (snd (wave_sum ign (map f its) p t)))) deal).
  { clear - HD. induction HD as [|its deal [W E] HD IH]; [reflexivity|]. cbn [map]. rewrite IH. f_equal.
    rewrite E. apply (sum_F ign (map f its) p t c0 W). }
  rewrite HM in R1, R2. rewrite map_map in R1, R2. cbn [fst snd] in R1, R2.
  rewrite <- (map_map (fun its => fst (wave_sum ign (map f its) p t)) Fin) in R1.
  rewrite <- (map_map (fun its => snd (wave_sum ign (map f its) p t)) Fin) in R2.
  change (n0 :: map Fin ?x) with (map Fin (0%R :: x)) in R1, R2.
  change (@n0 XR _) with (Fin 0) in R1, R2.
  apply (combines_F (0%R :: _)) in R1. apply (combines_F (0%R :: _)) in R2.
  destruct (wave_sum_concat ign deal f p t) as [C1 C2]. unfold sumR in R1, R2. cbn [fold_right] in R1, R2.
  fold (sumR (map (fun its => fst (wave_sum ign (map f its) p t)) deal)) in R1.
  fold (sumR (map (fun its => snd (wave_sum ign (map f its) p t)) deal)) in R2.
  rewrite C1 in R1. rewrite C2 in R2. rewrite (wave_sum_perm ign _ _ p t PW) in R1, R2.
  rewrite Rplus_0_l in R1, R2. destruct r as [r1 r2]. cbn [fst snd] in R1, R2. congruence.
Qed.

Section Final.
  Context {T : Type} {NT : Num T} {TT : Trig T}.
  Implicit Types (k : kernel T) (P : rvptr) (m : mem T).
  Lemma same_rays m m' P n : same m m' -> rays_at m P n = rays_at m' P n.
  Proof.
    intros [H1 H2]. unfold rays_at. apply map_ext. intros i. unfold ray_at, point_at. rewrite !H1, !H2. reflexivity.
  Qed.
  Lemma same_leaves k P n m m' m'' : same m'' m' -> leaves k P n m m' -> leaves k P n m m''.
  Proof.
    intros S. assert (HR := fun P => same_rays m'' m' P n S).
    assert (HP : map (point_at m'' P) (seq 0 n) = map (point_at m' P) (seq 0 n)).
    { apply map_ext. intros i. unfold point_at. destruct S as [S1 S2]. rewrite !S1. reflexivity. }
    destruct S as [S1 S2]. destruct k; cbn [leaves]; cbv zeta; rewrite ?HR, ?HP; auto.
    - intros [H1 H2]. split; [exact H1|]. rewrite <- H2. apply map_ext. intros i. rewrite !S1. reflexivity.
    - intros [H1 H2]. split; [exact H1|]. rewrite <- H2. apply map_ext. intros i. rewrite !S1. reflexivity.
    - intros [H1 H2]. split; [exact H1|]. rewrite <- H2. apply map_ext. intros i. rewrite !S1. reflexivity.
  Qed.
  Lemma kernel_effect k P n m deal c : separate k P n -> Permutation (concat deal) (seq 0 n) ->
    steps (start (iteration k P) deal m) c -> finished c ->
    leaves k P n m (fst c) /\ elsewhere k P n m (fst c).
  Proof.
    intros S G H E. assert (K := kernel_schedule k P n m deal c S G H E). split.
    - eapply same_leaves; [exact K|]. apply kernel_leaves, S.
    - destruct (kernel_elsewhere k P n m S) as [E1 E2]. destruct K as [K1 K2].
      split; intros a Ha; [rewrite K1|rewrite K2]; auto.
  Qed.
End Final.
Lemma can_finish {T A} (c : state T A) : exists c', steps c c' /\ finished c'.
Proof.
  induction (step_acc c) as [c _ IH]. destruct (progress c) as [H|[c' H]].
  - exists c. split; [apply no_steps|exact H].
  - destruct (IH c' H) as (c'' & S & E). exists c''. split; [eapply steps_first; eauto|exact E].
Qed.
Lemma ends_well {T A} (body : nat -> prog T A) deal m c : steps (start body deal m) c ->
  Acc (fun c' c => step c c') c /\ (finished c \/ exists c', step c c') /\ exists c', steps c c' /\ finished c'.
Proof. intros _. split; [apply step_acc|split; [apply progress|apply can_finish]]. Qed.
