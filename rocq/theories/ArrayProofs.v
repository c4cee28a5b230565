(** Proofs about bundles as arrays (C44-C46, C54). *)
From Coq Require Import Reals String List ZArith Bool Lia.
From Verif Require Import Num NumR Vec CoordSys Surface Medium Obscuration Ray Bundle Optic Spec TreeSpec
  XRFacts CoordFacts FrameProofs Arrays ArraySpec.
Import ListNotations.
Open Scope nat_scope.

Lemma filter_seq_slice lo hi a n :
  filter (fun j => (lo <=? Z.of_nat j)%Z && (Z.of_nat j <? hi)%Z) (seq a n) =
  seq (Z.to_nat (Z.max lo (Z.of_nat a)))
      (Z.to_nat (Z.min hi (Z.of_nat (a + n)) - Z.max lo (Z.of_nat a))).
Proof.
  revert a. induction n as [|n IH]; intros a; cbn [seq filter].
  - replace (Z.to_nat (Z.min hi (Z.of_nat (a + 0)) - Z.max lo (Z.of_nat a))) with 0 by lia. reflexivity.
  - rewrite IH. destruct (Z.leb_spec lo (Z.of_nat a)); cbn [andb].
    + destruct (Z.ltb_spec (Z.of_nat a) hi).
      * replace (Z.to_nat (Z.min hi (Z.of_nat (a + S n)) - Z.max lo (Z.of_nat a)))
          with (S (Z.to_nat (Z.min hi (Z.of_nat (S a + n)) - Z.max lo (Z.of_nat (S a))))) by lia.
        cbn [seq]. f_equal; [lia|]. f_equal; lia.
      * replace (Z.to_nat (Z.min hi (Z.of_nat (a + S n)) - Z.max lo (Z.of_nat a))) with 0 by lia.
        replace (Z.to_nat (Z.min hi (Z.of_nat (S a + n)) - Z.max lo (Z.of_nat (S a)))) with 0 by lia. reflexivity.
    + f_equal; lia.
Qed.
Lemma pick_seq {A} (l : list A) k m : pick (seq k m) l = firstn m (skipn k l).
Proof.
  revert k. induction m as [|m IH]; intros k; [reflexivity|].
  unfold pick in *. cbn [seq flat_map]. rewrite IH. clear IH. revert l. induction k as [|k IHk]; intros l.
  - destruct l as [|a l]; cbn; [rewrite firstn_nil; reflexivity|reflexivity].
  - destruct l as [|a l]; cbn [nth_error skipn].
    + rewrite !firstn_nil. reflexivity.
    + apply IHk.
Qed.
Lemma slice_spec {A} start stop (l : list A) :
  py_slice start stop l = pick (filter (in_slice (List.length l) start stop) (seq 0 (List.length l))) l.
Proof.
  unfold py_slice. set (n := List.length l).
  assert (E : exists lo hi, (forall j, In j (seq 0 n) -> in_slice n start stop j = ((lo <=? Z.of_nat j)%Z && (Z.of_nat j <? hi)%Z))
     /\ match start with None => 0%Z | Some i => py_bound (Z.of_nat n) i end = Z.min (Z.max lo 0) (Z.of_nat n)
     /\ match stop with None => Z.of_nat n | Some i => py_bound (Z.of_nat n) i end = Z.max 0 (Z.min hi (Z.of_nat n))).
  { exists (match start with None => 0%Z | Some i => meant (Z.of_nat n) i end),
           (match stop with None => Z.of_nat n | Some i => meant (Z.of_nat n) i end).
    split; [|split].
    - intros j Hj. apply in_seq in Hj. unfold in_slice. f_equal.
      + destruct start; [reflexivity|]. symmetry. apply Z.leb_le. lia.
      + destruct stop; [reflexivity|]. symmetry. apply Z.ltb_lt. lia.
    - destruct start as [i|]; [|lia]. unfold py_bound, meant. destruct (Z.ltb_spec i 0); lia.
    - destruct stop as [i|]; [|lia]. unfold py_bound, meant. destruct (Z.ltb_spec i 0); lia. }
  destruct E as (lo & hi & E1 & -> & ->).
  rewrite (filter_ext_in _ _ _ E1), filter_seq_slice, pick_seq. cbn [plus].
  destruct (Z.le_gt_cases (Z.max lo 0) (Z.of_nat n)).
  - f_equal; [lia|]. f_equal; lia.
  - rewrite !skipn_all2 by (fold n; lia). rewrite !firstn_nil. reflexivity.
Qed.
Lemma mask_spec {A} m (l : list A) : np_mask m l = map snd (filter fst (combine m l)).
Proof.
  revert l. induction m as [|b m IH]; intros l; [reflexivity|]. destruct l as [|a l]; [reflexivity|].
  cbn [np_mask combine filter fst]. destruct b; cbn [map snd]; rewrite IH; reflexivity.
Qed.
Lemma mask_map {A B} (g : A -> B) m l : np_mask m (map g l) = map g (np_mask m l).
Proof.
  revert l. induction m as [|b m IH]; intros l; [reflexivity|]. destruct l as [|a l]; [reflexivity|].
  cbn. destruct b; cbn; rewrite IH; reflexivity.
Qed.
Lemma np_slice_map {A B} (g : A -> B) a b l : np_slice a b (map g l) = map g (np_slice a b l).
Proof. unfold np_slice. rewrite map_length, skipn_map, firstn_map. reflexivity. Qed.
Lemma py_slice_map {A B} (g : A -> B) a b l : py_slice a b (map g l) = map g (py_slice a b l).
Proof. unfold py_slice. rewrite map_length, skipn_map, firstn_map. reflexivity. Qed.

Section Gen.
  Context {T : Type} {NT : Num T}.
  Lemma index_rays f (rv : rayvec T) : (forall A B (g : A -> B) l, f B (map g l) = map g (f A l)) ->
    index_all f (to_arrays rv) = to_arrays (RV (f _ (rays rv)) (rvcs rv)).
  Proof. intros H. unfold index_all, to_arrays; cbn. rewrite !H. reflexivity. Qed.
  Lemma len_t (rv : rayvec T) : List.length (a_t (to_arrays rv)) = List.length (rays rv).
  Proof. apply map_length. Qed.
  Lemma one_slice {A} (l : list A) k r : nth_error l k = Some r ->
    np_slice (Z.of_nat k) (Z.of_nat k + 1) l = [r].
  Proof.
    intros H. assert (L : (k < List.length l)%nat) by (apply nth_error_Some; congruence).
    unfold np_slice. rewrite !Z.min_l by lia. replace (Z.to_nat (Z.of_nat k + 1 - Z.of_nat k)) with 1 by lia.
    rewrite Nat2Z.id. apply nth_error_split in H. destruct H as (l1 & l2 & -> & <-).
    rewrite skipn_app, skipn_all, Nat.sub_diag. reflexivity.
  Qed.
  Lemma getitem_at (rv : rayvec T) k r : nth_error (rays rv) k = Some r ->
    getitem_rv (to_arrays rv) (IInt (Z.of_nat k)) = Ok (to_arrays (RV [r] (rvcs rv))).
  Proof.
    intros H. assert (L : (k < List.length (rays rv))%nat) by (apply nth_error_Some; congruence).
    unfold getitem_rv. rewrite len_t. replace (0 <=? Z.of_nat k)%Z with true by (symmetry; apply Z.leb_le; lia).
    replace (Z.of_nat (List.length (rays rv)) <=? Z.of_nat k)%Z with false by (symmetry; apply Z.leb_gt; lia).
    rewrite index_rays by (intros; apply np_slice_map). rewrite (one_slice _ _ _ H). reflexivity.
  Qed.
  Lemma getitem_neg (rv : rayvec T) i : (- Z.of_nat (List.length (rays rv)) <= i < 0)%Z ->
    getitem_rv (to_arrays rv) (IInt i) =
      Ok (to_arrays (RV (skipn (Z.to_nat (Z.of_nat (List.length (rays rv)) + i)) (rays rv)) (rvcs rv))).
  Proof.
    intros H. unfold getitem_rv. rewrite len_t. set (n := List.length (rays rv)) in *.
    replace (0 <=? i)%Z with false by (symmetry; apply Z.leb_gt; lia).
    replace (i <? - Z.of_nat n)%Z with false by (symmetry; apply Z.ltb_ge; lia).
    rewrite index_rays by (intros; apply np_slice_map). do 3 f_equal.
    unfold np_slice. fold n. rewrite (Z.min_l (Z.of_nat n + i)) by lia. apply firstn_all2.
    rewrite skipn_length. fold n. lia.
  Qed.
  Lemma getitem_last (rv : rayvec T) l r : rays rv = l ++ [r] ->
    getitem_rv (to_arrays rv) (IInt (-1)) = Ok (to_arrays (RV [r] (rvcs rv))).
  Proof.
    intros H. rewrite getitem_neg by (rewrite H, app_length; cbn; lia).
    rewrite H, app_length. cbn [List.length].
    replace (Z.to_nat (Z.of_nat (List.length l + 1) + -1)) with (List.length l) by lia.
    rewrite skipn_app, skipn_all, Nat.sub_diag. reflexivity.
  Qed.
  Lemma getitem_out (rv : rayvec T) i :
    (i < - Z.of_nat (List.length (rays rv)) \/ Z.of_nat (List.length (rays rv)) <= i)%Z ->
    getitem_rv (to_arrays rv) (IInt i) = Err IndexError.
  Proof.
    intros H. unfold getitem_rv. rewrite len_t. set (n := List.length (rays rv)) in *.
    destruct (Z.leb_spec 0 i).
    - destruct (Z.leb_spec (Z.of_nat n) i); [reflexivity|lia].
    - destruct (Z.ltb_spec i (- Z.of_nat n)); [reflexivity|lia].
  Qed.
  Lemma getitem_slice (rv : rayvec T) start stop :
    getitem_rv (to_arrays rv) (ISlice start stop) =
      Ok (to_arrays (RV (pick (filter (in_slice (List.length (rays rv)) start stop)
                                      (seq 0 (List.length (rays rv)))) (rays rv)) (rvcs rv))).
  Proof.
    unfold getitem_rv. rewrite index_rays by (intros; apply py_slice_map). rewrite slice_spec. reflexivity.
  Qed.
  Lemma getitem_mask (rv : rayvec T) m :
    getitem_rv (to_arrays rv) (IMask m) =
      if Nat.eqb (List.length m) (List.length (rays rv))
      then Ok (to_arrays (RV (map snd (filter fst (combine m (rays rv)))) (rvcs rv)))
      else Err IndexError.
  Proof.
    unfold getitem_rv. rewrite len_t. rewrite index_rays by (intros; apply mask_map). rewrite mask_spec. reflexivity.
  Qed.

  Lemma flat_map_map {A B C} (f : B -> list C) (g : A -> B) l : flat_map f (map g l) = flat_map (fun a => f (g a)) l.
  Proof. induction l; cbn; congruence. Qed.
  Lemma map_flat_map {A B C} (f : B -> C) (g : A -> list B) l : map f (flat_map g l) = flat_map (fun a => map f (g a)) l.
  Proof. induction l; cbn; [reflexivity|]. rewrite map_app. congruence. Qed.
  Lemma concat_rays (rv : rayvec T) l :
    concatenateRayVectors (map to_arrays (rv :: l)) = Ok (to_arrays (RV (flat_map rays (rv :: l)) (rvcs rv))).
  Proof.
    change (map to_arrays (rv :: l)) with (to_arrays rv :: map to_arrays l) at 1. unfold concatenateRayVectors.
    change (to_arrays rv :: map to_arrays l) with (map to_arrays (rv :: l)).
    f_equal. unfold hstack. rewrite !flat_map_map. set (l' := rv :: l). unfold to_arrays at 12; cbn [a_cs].
    unfold to_arrays; cbn [a_x a_y a_z a_vx a_vy a_vz a_t a_w a_flux a_vig a_fail rays rvcs].
    rewrite !map_flat_map. reflexivity.
  Qed.
  Lemma concat_one_frame (rvs : list (rayvec T)) c : rvs <> [] -> Forall (fun rv => rvcs rv = c) rvs ->
    concatenateRayVectors (map to_arrays rvs) = Ok (to_arrays (RV (flat_map rays rvs) c)).
  Proof.
    destruct rvs as [|rv l]; [congruence|]. intros _ H. inversion H; subst. apply concat_rays.
  Qed.
  Lemma copy_same (a : arrays T) : copy_rv a = a.
  Proof. destruct a; reflexivity. Qed.
  Lemma to_arrays_inj (a b : rayvec T) : to_arrays a = to_arrays b -> a = b.
  Proof.
    destruct a as [la ca], b as [lb cb]. unfold to_arrays; cbn [rays rvcs]. intros H.
    assert (Hc := f_equal a_cs H). cbn in Hc. subst cb. f_equal.
    assert (H1 := f_equal a_x H). assert (H2 := f_equal a_y H). assert (H3 := f_equal a_z H).
    assert (H4 := f_equal a_vx H). assert (H5 := f_equal a_vy H). assert (H6 := f_equal a_vz H).
    assert (H7 := f_equal a_t H). assert (H8 := f_equal a_w H). assert (H9 := f_equal a_flux H).
    assert (H10 := f_equal a_vig H). assert (H11 := f_equal a_fail H). clear H.
    cbn [a_x a_y a_z a_vx a_vy a_vz a_t a_w a_flux a_vig a_fail] in *.
    revert lb H1 H2 H3 H4 H5 H6 H7 H8 H9 H10 H11. induction la as [|a la IH]; intros [|b lb]; cbn [map]; intros; try discriminate.
    - reflexivity.
    - f_equal.
      + destruct a as [[ax ay az] [bx by_ bz] t w f v fl], b as [[ax' ay' az'] [bx' by_' bz'] t' w' f' v' fl'].
        cbn in *. congruence.
      + apply IH; congruence.
  Qed.

  Lemma dv_eq_spec {A B} (eqb : B -> B -> bool) (f : A -> B) l r : List.length l = List.length r ->
    dv_eq eqb (map f l) (map f r) = Some (forallb (fun p => eqb (f (fst p)) (f (snd p))) (combine l r)).
  Proof.
    revert r. induction l as [|a l IH]; intros [|b r] H; try discriminate; [reflexivity|].
    cbn [map dv_eq combine forallb fst snd]. rewrite IH by (cbn in H; lia). reflexivity.
  Qed.
  Lemma forallb_Forall2 {A} (p : A -> A -> bool) l r : List.length l = List.length r ->
    (forallb (fun q => p (fst q) (snd q)) (combine l r) = true <-> Forall2 (fun a b => p a b = true) l r).
  Proof.
    revert r. induction l as [|a l IH]; intros [|b r] H; try discriminate.
    - split; [constructor|reflexivity].
    - cbn [combine forallb fst snd]. rewrite andb_true_iff, IH by (cbn in H; lia). split.
      + intros [? ?]; constructor; assumption.
      + intros F; inversion F; subst; auto.
  Qed.
  Lemma and_then_Some x y : and_then (Some x) (Some y) = Some (x && y).
  Proof. destruct x; reflexivity. Qed.
  Lemma Forall2_and {A} (P Q : A -> A -> Prop) l r : Forall2 (fun a b => P a b /\ Q a b) l r <-> Forall2 P l r /\ Forall2 Q l r.
  Proof.
    split.
    - intros F; induction F; split; constructor; tauto.
    - intros [F G]. induction F; [constructor|]. inversion G; subst. constructor; auto.
  Qed.
  Lemma eq_same_ray (a b : rayvec T) : List.length (rays a) = List.length (rays b) ->
    exists x, eq_rv (to_arrays a) (to_arrays b) = Some x /\ (x = true <-> Forall2 same_ray (rays a) (rays b)).
  Proof.
    intros H. unfold eq_rv, to_arrays; cbn [a_x a_y a_z a_vx a_vy a_vz a_t a_w a_flux a_vig a_fail].
    rewrite !dv_eq_spec by exact H. rewrite !and_then_Some. eexists; split; [reflexivity|].
    rewrite !andb_true_iff.
    rewrite (forallb_Forall2 (fun r s => neqb (cx (pos r)) (cx (pos s)))) by exact H.
    rewrite (forallb_Forall2 (fun r s => neqb (cy (pos r)) (cy (pos s)))) by exact H.
    rewrite (forallb_Forall2 (fun r s => neqb (cz (pos r)) (cz (pos s)))) by exact H.
    rewrite (forallb_Forall2 (fun r s => neqb (cx (vel r)) (cx (vel s)))) by exact H.
    rewrite (forallb_Forall2 (fun r s => neqb (cy (vel r)) (cy (vel s)))) by exact H.
    rewrite (forallb_Forall2 (fun r s => neqb (cz (vel r)) (cz (vel s)))) by exact H.
    rewrite (forallb_Forall2 (fun r s => neqb (time r) (time s))) by exact H.
    rewrite (forallb_Forall2 (fun r s => neqb (wavelength r) (wavelength s))) by exact H.
    rewrite (forallb_Forall2 (fun r s => neqb (flux r) (flux s))) by exact H.
    rewrite (forallb_Forall2 (fun r s => Bool.eqb (vignetted r) (vignetted s))) by exact H.
    rewrite (forallb_Forall2 (fun r s => Bool.eqb (failed r) (failed s))) by exact H.
    rewrite <- !Forall2_and. clear H. split; intros F; induction F as [|r s l1 l2 Hrs F IH]; constructor; try assumption;
      unfold same_ray in *; rewrite !eqb_true_iff in *; tauto.
  Qed.
End Gen.

Section Real.
  Lemma same_real (a b : ray R) : same_ray (Fray a) (Fray b) <-> a = b.
  Proof.
    destruct a as [[ax ay az] [bx by_ bz] t w f v fl], b as [[ax' ay' az'] [bx' by_' bz'] t' w' f' v' fl'].
    unfold same_ray, Fray, F3, vmap. cbn [pos vel time wavelength flux vignetted failed cx cy cz].
    change (@neqb XR _) with xeqb. rewrite !xeqb_fin. split.
    - intros (-> & -> & -> & -> & -> & -> & -> & -> & -> & -> & ->). reflexivity.
    - intros H. injection H; intros; subst. tauto.
  Qed.
  Lemma eq_real (a b : rayvec R) : List.length (rays a) = List.length (rays b) ->
    exists x, eq_rv (to_arrays (Frv a)) (to_arrays (Frv b)) = Some x /\ (x = true <-> rays a = rays b).
  Proof.
    intros H. destruct (eq_same_ray (Frv a) (Frv b)) as (x & E & Hx).
    { cbn. rewrite !map_length. exact H. }
    exists x. split; [exact E|]. rewrite Hx. clear E Hx. destruct a as [la ca], b as [lb cb].
    cbn [rays Frv] in *. revert lb H. induction la as [|r la IH]; intros [|s lb] H; try discriminate.
    - split; [reflexivity|constructor].
    - cbn [map]. split.
      + intros F. inversion F; subst. apply same_real in H3. subst s. f_equal. apply IH; [cbn in H; lia|assumption].
      + intros E. injection E as -> ->. constructor; [apply same_real; reflexivity|]. apply IH; reflexivity.
  Qed.
  Lemma eq_trace (a b : rayvec R) : List.length (rays a) = List.length (rays b) -> rvcs a = rvcs b ->
    eq_rv (to_arrays (Frv a)) (to_arrays (Frv b)) = Some true ->
    forall niter o reverse, trace niter o reverse (Frv a) = trace niter o reverse (Frv b).
  Proof.
    intros H C E niter o reverse. destruct (eq_real a b H) as (x & E' & Hx). rewrite E in E'. injection E' as <-.
    assert (Er : rays a = rays b) by (apply Hx; reflexivity). destruct a, b; cbn in *; subst. reflexivity.
  Qed.
End Real.

(** ** Comparison of doubles *)
From Coq Require Import SpecFloat.
From Verif Require Import NumF.
Lemma pos_cont_eq m n : Pos.compare_cont Eq m n = Eq -> m = n.
Proof. intros H. apply Pos.compare_eq. exact H. Qed.
Definition zero_sf (x : spec_float) : Prop := match x with S754_zero _ => True | _ => False end.
Lemma SFeqb_true x y : SFeqb x y = true <-> x <> S754_nan /\ (x = y \/ zero_sf x /\ zero_sf y).
Proof.
  unfold SFeqb. split.
  - destruct x as [sx|sx| |sx mx ex], y as [sy|sy| |sy my ey]; cbn [SFcompare]; intros H;
      (split; [discriminate|]); try discriminate; try (right; split; exact I).
    all: destruct sx; try destruct sy; try discriminate; try (left; reflexivity).
    all: destruct (Z.compare_spec ex ey); try discriminate; destruct (Pos.compare_cont Eq mx my) eqn:E;
      try discriminate; apply pos_cont_eq in E; subst; left; reflexivity.
  - intros [Hn [<-|[Hx Hy]]].
    + destruct x as [s|s| |s m e]; cbn [SFcompare]; try congruence; destruct s; try reflexivity.
      * rewrite Z.compare_refl. change (Pos.compare_cont Eq m m) with (Pos.compare m m). rewrite Pos.compare_refl. reflexivity.
      * rewrite Z.compare_refl. change (Pos.compare_cont Eq m m) with (Pos.compare m m). rewrite Pos.compare_refl. reflexivity.
    + destruct x, y; try contradiction. reflexivity.
Qed.
Lemma SFeqb_sym x y : SFeqb x y = true -> SFeqb y x = true.
Proof. rewrite !SFeqb_true. intros [Hn [<-|[Hx Hy]]]; [tauto|]. split; [destruct y; try contradiction; discriminate|tauto]. Qed.
Lemma SFeqb_trans x y z : SFeqb x y = true -> SFeqb y z = true -> SFeqb x z = true.
Proof. rewrite !SFeqb_true. intros [Hn [<-|[Hx Hy]]] [Hm [<-|[Hz Hw]]]; tauto. Qed.
Lemma same_ray_sym (a b : ray F64) : same_ray a b -> same_ray b a.
Proof.
  unfold same_ray. intros (H1 & H2 & H3 & H4 & H5 & H6 & H7 & H8 & H9 & H10 & H11).
  repeat split; try (apply SFeqb_sym; assumption); congruence.
Qed.
Lemma same_ray_trans (a b c : ray F64) : same_ray a b -> same_ray b c -> same_ray a c.
Proof.
  unfold same_ray. intros (H1 & H2 & H3 & H4 & H5 & H6 & H7 & H8 & H9 & H10 & H11)
    (K1 & K2 & K3 & K4 & K5 & K6 & K7 & K8 & K9 & K10 & K11).
  repeat split; try (eapply SFeqb_trans; eassumption); congruence.
Qed.
Lemma eq_sym_trans (a b c : rayvec F64) :
  List.length (rays a) = List.length (rays b) -> List.length (rays b) = List.length (rays c) ->
  eq_rv (to_arrays a) (to_arrays b) = eq_rv (to_arrays b) (to_arrays a) /\
  (eq_rv (to_arrays a) (to_arrays b) = Some true -> eq_rv (to_arrays b) (to_arrays c) = Some true ->
   eq_rv (to_arrays a) (to_arrays c) = Some true).
Proof.
  intros H1 H2. destruct (eq_same_ray a b H1) as (x & Ex & Hx). destruct (eq_same_ray b a (eq_sym H1)) as (y & Ey & Hy).
  destruct (eq_same_ray b c H2) as (z & Ez & Hz). destruct (eq_same_ray a c (eq_trans H1 H2)) as (w & Ew & Hw).
  rewrite Ex, Ey, Ez, Ew. split.
  - f_equal. assert (x = true <-> y = true).
    { rewrite Hx, Hy. clear. split.
      - intros F; induction F; constructor; auto using same_ray_sym.
      - intros F; induction F; constructor; auto using same_ray_sym. }
    destruct x, y; try reflexivity; [symmetry|]; tauto || (apply H; reflexivity).
  - intros E1 E2. injection E1 as ->. injection E2 as ->. f_equal. apply Hw.
    assert (F1 : Forall2 same_ray (rays a) (rays b)) by (apply Hx; reflexivity).
    assert (F2 : Forall2 same_ray (rays b) (rays c)) by (apply Hz; reflexivity).
    clear - F1 F2. revert F2. generalize (rays c). induction F1; intros l0 F2; inversion F2; subst; constructor.
    + eapply same_ray_trans; eassumption.
    + auto.
Qed.
