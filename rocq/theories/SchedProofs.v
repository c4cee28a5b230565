(** Loops whose iterations touch disjoint cells: every interleaving gives the same memory. *)
From Coq Require Import List Arith Bool Lia Permutation.
From Verif Require Import Num Sched SchedSpec.
Import ListNotations.
Local Open Scope nat_scope.

Lemma loc_dec (l l' : loc) : {l = l'} + {l <> l'}.
Proof. decide equality; apply Nat.eq_dec. Qed.

Section Generic.
  Context {T A : Type}.
  Implicit Types (m : mem T) (p : prog T A).
  Definition get m (l : loc) : T + bool :=
    match l with NumAt a => inl (nums m a) | BoolAt a => inr (bools m a) end.
  Definition agree (F : list loc) m m' : Prop := forall l, In l F -> get m l = get m' l.
  Fixpoint confined (F : list loc) p : Prop :=
    match p with
    | Done _ => True
    | LoadN a k => In (NumAt a) F /\ forall v, confined F (k v)
    | LoadB a k => In (BoolAt a) F /\ forall v, confined F (k v)
    | StoreN a v k => In (NumAt a) F /\ confined F k
    | StoreB a v k => In (BoolAt a) F /\ confined F k
    end.
  Lemma get_set_num m a v l : get (set_num m a v) l = if loc_dec (NumAt a) l then inl v else get m l.
  Proof.
    destruct l; cbn; [|destruct loc_dec; [discriminate|reflexivity]].
    destruct (Nat.eqb_spec a a0), loc_dec; try reflexivity; congruence.
  Qed.
  Lemma get_set_bool m a v l : get (set_bool m a v) l = if loc_dec (BoolAt a) l then inr v else get m l.
  Proof.
    destruct l; cbn; [destruct loc_dec; [discriminate|reflexivity]|].
    destruct (Nat.eqb_spec a a0), loc_dec; try reflexivity; congruence.
  Qed.
  Lemma run_agree F p : forall m m', confined F p -> agree F m m' ->
    agree F (fst (run p m)) (fst (run p m')) /\ snd (run p m) = snd (run p m').
  Proof.
    induction p as [a|a k IH|a k IH|a v k IH|a v k IH]; intros m m' C H; cbn in *.
    - auto.
    - destruct C as [C1 C2]. assert (E : nums m a = nums m' a) by (specialize (H _ C1); cbn in H; congruence).
      rewrite E. apply IH; auto.
    - destruct C as [C1 C2]. assert (E : bools m a = bools m' a) by (specialize (H _ C1); cbn in H; congruence).
      rewrite E. apply IH; auto.
    - destruct C as [C1 C2]. apply IH; auto. intros l Hl. rewrite !get_set_num.
      destruct loc_dec; auto.
    - destruct C as [C1 C2]. apply IH; auto. intros l Hl. rewrite !get_set_bool.
      destruct loc_dec; auto.
  Qed.
  Lemma act_confined F p m p' m' : confined F p -> act p m = Some (p', m') ->
    confined F p' /\ run p m = run p' m' /\ (forall l, ~ In l F -> get m' l = get m l).
  Proof.
    destruct p as [a|a k|a k|a v k|a v k]; cbn; intros C H; inversion H; subst; clear H; destruct C as [C1 C2].
    - auto.
    - auto.
    - split; [|split]; auto. intros l Hl. rewrite get_set_num. destruct loc_dec; [subst; tauto|reflexivity].
    - split; [|split]; auto. intros l Hl. rewrite get_set_bool. destruct loc_dec; [subst; tauto|reflexivity].
  Qed.
  Lemma run_outside F p : forall m l, confined F p -> ~ In l F -> get (fst (run p m)) l = get m l.
  Proof.
    induction p as [a|a k IH|a k IH|a v k IH|a v k IH]; intros m l C H; cbn in *;
      [reflexivity|apply IH; [apply C|exact H]|apply IH; [apply C|exact H]| |].
    - rewrite IH by tauto. rewrite get_set_num. destruct loc_dec; [subst; tauto|reflexivity].
    - rewrite IH by tauto. rewrite get_set_bool. destruct loc_dec; [subst; tauto|reflexivity].
  Qed.

  Context (body : nat -> prog T A) (F : nat -> list loc) (n : nat).
  Context (F_confined : forall i, i < n -> confined (F i) (body i)).
  Context (F_disjoint : forall i j l, i < n -> j < n -> i <> j -> In l (F i) -> ~ In l (F j)).
  Context (m0 : mem T).

  (** A program under way for iteration i will still do what the iteration does alone. *)
  Definition on_course m (i : nat) p : Prop :=
    confined (F i) p /\ agree (F i) (fst (run p m)) (fst (run (body i) m0)) /\
    snd (run p m) = snd (run (body i) m0).
  Definition thread_ok m (its : list nat) (t : thread T A) : Prop :=
    exists its1 its2, its = its1 ++ its2 /\
      Forall2 (fun i a => on_course m i (Done a)) its1 (fst t) /\ Forall2 (on_course m) its2 (snd t).
  Definition config_ok (deal : list (list nat)) (c : state T A) : Prop :=
    Forall2 (thread_ok (fst c)) deal (snd c) /\
    (forall l, (forall i, i < n -> ~ In l (F i)) -> get (fst c) l = get m0 l).

  Lemma on_course_kept m m' i j p : i < n -> j < n -> i <> j ->
    (forall l, ~ In l (F i) -> get m' l = get m l) -> on_course m j p -> on_course m' j p.
  Proof.
    intros Hi Hj N H (C & Hm & Hr). destruct (run_agree (F j) p m' m C) as [A1 A2].
    { intros l Hl. apply H. intros Hl'. exact (F_disjoint i j l Hi Hj N Hl' Hl). }
    split; [exact C|split; [|congruence]]. intros l Hl. rewrite A1 by exact Hl. apply Hm, Hl.
  Qed.
  Lemma Forall2_impl2 {X Y} (P Q : X -> Y -> Prop) l l' :
    (forall x y, In x l -> P x y -> Q x y) -> Forall2 P l l' -> Forall2 Q l l'.
  Proof. intros H HF. induction HF; constructor; [apply H; [left|]; auto|apply IHHF; intros; apply H; [right|]; auto]. Qed.
  Lemma thread_kept m m' i its t : i < n -> Forall (fun j => j < n) its -> ~ In i its ->
    (forall l, ~ In l (F i) -> get m' l = get m l) -> thread_ok m its t -> thread_ok m' its t.
  Proof.
    intros Hi HF N H (its1 & its2 & -> & H1 & H2). rewrite Forall_forall in HF.
    exists its1, its2. split; [reflexivity|split].
    - eapply Forall2_impl2; [|exact H1]. intros j a Hj. apply (on_course_kept m m' i j); auto.
      + apply HF, in_app_iff; auto.
      + intros ->. apply N, in_app_iff; auto.
    - eapply Forall2_impl2; [|exact H2]. intros j a Hj. apply (on_course_kept m m' i j); auto.
      + apply HF, in_app_iff; auto.
      + intros ->. apply N, in_app_iff; auto.
  Qed.
  Definition good_deal (deal : list (list nat)) : Prop := Permutation (concat deal) (seq 0 n).
  Lemma good_deal_facts deal : good_deal deal -> NoDup (concat deal) /\ Forall (fun j => j < n) (concat deal).
  Proof.
    intros H. split.
    - eapply Permutation_NoDup; [apply Permutation_sym, H|apply seq_NoDup].
    - apply Forall_forall. intros j Hj. assert (In j (seq 0 n)) by (eapply Permutation_in; eauto).
      apply in_seq in H0. lia.
  Qed.

  Lemma config_step deal c c' : good_deal deal -> config_ok deal c -> step c c' -> config_ok deal c'.
  Proof.
    intros G [H1 H2] S. apply good_deal_facts in G. destruct G as [ND LT].
    inversion S as [m m' t t' before after TS]; subst c c'. cbn [fst snd] in *.
    apply Forall2_app_inv_r in H1. destruct H1 as (d1 & d2 & HB & HA & ->).
    inversion HA as [|its ? d3 ? Ht Ha]; subst. clear HA.
    inversion TS; subst; clear TS; destruct Ht as (its1 & its2 & -> & O1 & O2); cbn [fst snd] in *.
    - inversion O2 as [|i ? its3 ? Hp Hps]; subst. clear O2.
      assert (Hi : i < n).
      { rewrite Forall_forall in LT. apply LT. rewrite concat_app. cbn. rewrite !in_app_iff. cbn. tauto. }
      destruct Hp as (C & Hm & Hr). pose proof (act_confined _ _ _ _ _ C H) as (C' & HR & HO).
      rewrite concat_app in ND, LT. cbn in ND, LT.
      assert (N1 : ~ In i (concat d1)).
      { intros X. apply NoDup_remove_2 with (l := concat d1 ++ its1) (l' := its3 ++ concat d3) (a := i).
        - rewrite <- !app_assoc. rewrite <- app_assoc in ND. cbn in ND. exact ND.
        - rewrite !in_app_iff. tauto. }
      assert (N2 : ~ In i (its1 ++ its3 ++ concat d3)).
      { intros X. apply NoDup_remove_2 with (l := concat d1 ++ its1) (l' := its3 ++ concat d3) (a := i).
        - rewrite <- !app_assoc. rewrite <- app_assoc in ND. cbn in ND. exact ND.
        - rewrite !in_app_iff in *. tauto. }
      rewrite !in_app_iff in N2. rewrite !Forall_app in LT. destruct LT as (L1 & (L2 & L3) & L4).
      apply Forall_inv_tail in L3.
      split; cbn [fst snd].
      + apply Forall2_app; [|constructor].
        * clear - HB N1 L1 Hi HO F_disjoint. induction HB; constructor.
          -- cbn in *. rewrite in_app_iff in N1. apply Forall_app in L1.
             apply (thread_kept m m' i); tauto.
          -- cbn in *. rewrite in_app_iff in N1. apply Forall_app in L1. apply IHHB; tauto.
        * exists its1, (i :: its3). split; [reflexivity|split; cbn [fst snd]].
          -- eapply Forall2_impl2; [|exact O1]. intros j a Hj. apply (on_course_kept m m' i j); auto.
             ++ rewrite Forall_forall in L2. auto.
             ++ intros ->. tauto.
          -- constructor.
             ++ split; [exact C'|]. rewrite <- HR. auto.
             ++ eapply Forall2_impl2; [|exact Hps]. intros j a Hj. apply (on_course_kept m m' i j); auto.
                ** rewrite Forall_forall in L3. auto.
                ** intros ->. tauto.
        * assert (N3 : ~ In i (concat d3)) by tauto.
          clear - Ha N3 L4 Hi HO F_disjoint. induction Ha; constructor.
          -- cbn in *. rewrite in_app_iff in N3. apply Forall_app in L4.
             apply (thread_kept m m' i); tauto.
          -- cbn in *. rewrite in_app_iff in N3. apply Forall_app in L4. apply IHHa; tauto.
      + intros l Hl. rewrite HO by (apply Hl, Hi). apply H2, Hl.
    - inversion O2 as [|i ? its3 ? Hp Hps]; subst. clear O2.
      split; cbn [fst snd]; [|exact H2].
      apply Forall2_app; [exact HB|constructor; [|exact Ha]].
      exists (its1 ++ [i]), its3. split; [rewrite <- app_assoc; reflexivity|split; cbn [fst snd]; [|exact Hps]].
      apply Forall2_app; [exact O1|constructor; [exact Hp|constructor]].
  Qed.
  Lemma config_start deal : good_deal deal -> config_ok deal (start body deal m0).
  Proof.
    intros G. apply good_deal_facts in G. destruct G as [ND LT]. split; [|reflexivity]. cbn.
    clear ND. induction deal as [|its deal IH]; cbn in *; constructor.
    - apply Forall_app in LT. destruct LT as [LT _]. exists [], its. split; [reflexivity|split; [constructor|]]. cbn.
      clear IH. induction its as [|i its IH]; constructor; inversion LT; subst; auto.
      split; [auto|split; [intros l Hl; reflexivity|reflexivity]].
    - apply IH. apply Forall_app in LT. tauto.
  Qed.
  Lemma config_steps deal c : good_deal deal -> steps (start body deal m0) c -> config_ok deal c.
  Proof.
    intros G S. remember (start body deal m0) as c0 eqn:E. revert E.
    induction S; intros ->; [apply config_start, G|]. eapply config_step; eauto.
  Qed.

  (** The memory and the contributions at the end. *)
  Lemma final_cells deal c : good_deal deal -> steps (start body deal m0) c -> finished c ->
    (forall i, i < n -> agree (F i) (fst c) (fst (run (body i) m0))) /\
    (forall l, (forall i, i < n -> ~ In l (F i)) -> get (fst c) l = get m0 l) /\
    map fst (snd c) = map (map (fun i => snd (run (body i) m0))) deal.
  Proof.
    intros G S Fin. apply config_steps in S; [|exact G]. destruct S as [H1 H2]. unfold finished in Fin.
    assert (HT : Forall2 (fun its t => Forall2 (fun i a => on_course (fst c) i (Done a)) its (fst t)) deal (snd c)).
    { clear - H1 Fin. induction H1; constructor; inversion Fin; subst; auto.
      destruct H as (its1 & its2 & -> & O1 & O2). rewrite H3 in O2. inversion O2; subst. rewrite app_nil_r. exact O1. }
    split; [|split; [exact H2|]].
    - intros i Hi. assert (HI : In i (concat deal)).
      { eapply Permutation_in; [apply Permutation_sym, G|apply in_seq; lia]. }
      clear - HT HI. induction HT; cbn in HI; [tauto|]. rewrite in_app_iff in HI. destruct HI as [HI|HI]; [|auto].
      clear - H HI. induction H; cbn in HI; [tauto|]. destruct HI as [->|HI]; [|auto].
      destruct H as (_ & HA & _). exact HA.
    - clear - HT. induction HT; cbn; f_equal; auto.
      clear - H. induction H; cbn; f_equal; auto. destruct H as (_ & _ & HR). exact HR.
  Qed.
  Lemma final_outs deal c : good_deal deal -> steps (start body deal m0) c -> finished c ->
    map fst (snd c) = map (map (fun i => snd (run (body i) m0))) deal.
  Proof. intros. eapply final_cells; eauto. Qed.

End Generic.

(** One thread, in index order. *)
Section Loop.
  Context {T A : Type}.
  Implicit Types (m : mem T) (p : prog T A).
  Lemma steps_trans (c c' c'' : state T A) : steps c c' -> steps c' c'' -> steps c c''.
  Proof. intros H1 H2. induction H2; [exact H1|]. eapply more_steps; [apply IHsteps, H1|exact H]. Qed.
  Lemma steps_first (c c' c'' : state T A) : step c c' -> steps c' c'' -> steps c c''.
  Proof. intros H. apply steps_trans. eapply more_steps; [apply no_steps|exact H]. Qed.
  Lemma one_iteration p : forall (outs : list A) ps m,
    steps (m, [(outs, p :: ps)]) (fst (run p m), [(outs ++ [snd (run p m)], ps)]).
  Proof.
    induction p as [b|b k IH|b k IH|b v k IH|b v k IH]; intros outs ps m; cbn.
    1: eapply more_steps; [apply no_steps|]; apply (one_thread m m _ _ [] []); apply next.
    all: eapply steps_first; [|apply IH]; apply (one_thread m _ _ _ [] []); apply access; reflexivity.
  Qed.
  Lemma iterations (body : nat -> prog T A) its : forall outs m, exists outs',
    steps (m, [(outs, map body its)]) (fold_left (fun m i => fst (run (body i) m)) its m, [(outs', [])]).
  Proof.
    induction its as [|i its IH]; intros outs m; cbn.
    - exists outs. apply no_steps.
    - destruct (IH (outs ++ [snd (run (body i) m)]) (fst (run (body i) m))) as [o H].
      exists o. eapply steps_trans; [apply one_iteration|exact H].
  Qed.
  Lemma loop_steps (body : nat -> prog T A) n m : exists c,
    steps (start body [seq 0 n] m) c /\ finished c /\ fst c = loop body n m.
  Proof.
    destruct (iterations body (seq 0 n) [] m) as [o H]. eexists. split; [exact H|].
    split; [repeat constructor|reflexivity].
  Qed.

  Context (body : nat -> prog T A) (F : nat -> list loc) (n : nat).
  Context (F_confined : forall i, i < n -> confined (F i) (body i)).
  Context (F_disjoint : forall i j l, i < n -> j < n -> i <> j -> In l (F i) -> ~ In l (F j)).
  Lemma one_deal : good_deal n [seq 0 n].
  Proof. unfold good_deal. cbn. rewrite app_nil_r. apply Permutation_refl. Qed.
  Lemma same_get m m' : (forall l, get m l = get m' l) -> same m m'.
  Proof.
    intros H. split; intros a; [specialize (H (NumAt a))|specialize (H (BoolAt a))]; cbn in H; congruence.
  Qed.
  Lemma in_footprint l : (exists i, i < n /\ In l (F i)) \/ (forall i, i < n -> ~ In l (F i)).
  Proof.
    clear. induction n as [|k IH]; [right; lia|].
    destruct IH as [(i & Hi & Hl)|IH]; [left; exists i; split; [lia|exact Hl]|].
    destruct (in_dec loc_dec l (F k)) as [H|H]; [left; exists k; split; [lia|exact H]|].
    right. intros i Hi. destruct (Nat.eq_dec i k) as [->|N]; [exact H|apply IH; lia].
  Qed.
  Lemma any_schedule m deal c : good_deal n deal -> steps (start body deal m) c -> finished c ->
    same (fst c) (loop body n m).
  Proof.
    intros G S E. destruct (loop_steps body n m) as (c' & S' & E' & <-).
    destruct (final_cells body F n F_confined F_disjoint m deal c G S E) as (A1 & A2 & _).
    destruct (final_cells body F n F_confined F_disjoint m _ c' one_deal S' E') as (B1 & B2 & _).
    apply same_get. intros l. destruct (in_footprint l) as [(i & Hi & Hl)|H].
    - rewrite (A1 i Hi l Hl), (B1 i Hi l Hl). reflexivity.
    - rewrite A2, B2 by exact H. reflexivity.
  Qed.
  Lemma loop_cells m :
    (forall i, i < n -> agree (F i) (loop body n m) (fst (run (body i) m))) /\
    (forall l, (forall i, i < n -> ~ In l (F i)) -> get (loop body n m) l = get m l).
  Proof.
    destruct (loop_steps body n m) as (c' & S' & E' & <-).
    destruct (final_cells body F n F_confined F_disjoint m _ c' one_deal S' E') as (B1 & B2 & _). auto.
  Qed.

  (** No two threads ever compete for a cell. *)
  Lemma touches_confined G p l w : confined G p -> touches p = Some (l, w) -> In l G.
  Proof. destruct p; cbn; intros C H; inversion H; subst; tauto. Qed.
  Lemma about_in m m0 its t l w : thread_ok body F m0 m its t -> about_to t (l, w) ->
    exists i, In i its /\ In l (F i).
  Proof.
    intros (its1 & its2 & -> & _ & H) (p & ps & Ht & Hp). rewrite Ht in H. inversion H; subst.
    exists x. split; [apply in_app_iff; right; left; reflexivity|].
    destruct H3 as [C _]. eapply touches_confined; eauto.
  Qed.
  Lemma no_race m deal c : good_deal n deal -> steps (start body deal m) c -> ~ race c.
  Proof.
    intros G S (l1 & t1 & l2 & t2 & l3 & l & w1 & w2 & E & A1 & A2 & _).
    pose proof (config_steps body F n F_confined F_disjoint m deal c G S) as [H _]. rewrite E in H.
    apply Forall2_app_inv_r in H. destruct H as (d1 & dr & H1 & Hr & ->).
    inversion Hr as [|i1 ? dr' ? O1 Hr']; subst.
    apply Forall2_app_inv_r in Hr'. destruct Hr' as (d2 & dr'' & H2 & Hr'' & ->).
    inversion Hr'' as [|i2 ? d3 ? O2 H3]; subst.
    destruct (about_in _ _ _ _ _ _ O1 A1) as (i & Hi & Fi).
    destruct (about_in _ _ _ _ _ _ O2 A2) as (j & Hj & Fj).
    apply good_deal_facts in G. destruct G as [ND LT].
    rewrite concat_app in ND, LT. cbn in ND, LT. rewrite concat_app in ND, LT. cbn in ND, LT.
    rewrite !Forall_app in LT. destruct LT as (_ & L1 & _ & L2 & _).
    rewrite Forall_forall in L1, L2.
    apply (F_disjoint i j l); auto. intros ->.
    apply in_split in Hi. destruct Hi as (u & v & ->). rewrite <- app_assoc in ND. cbn in ND.
    rewrite app_assoc in ND. apply NoDup_remove_2 in ND. apply ND. rewrite !in_app_iff. tauto.
  Qed.
End Loop.

(** Every execution comes to an end, and it can only stop when all iterations are done. *)
Section Ends.
  Context {T A : Type}.
  Implicit Types (m : mem T) (p : prog T A).
  Lemma progress (c : state T A) : finished c \/ exists c', step c c'.
  Proof.
    destruct c as [m ts]. unfold finished. cbn [snd].
    induction ts as [|[outs ps] ts IH]; [left; constructor|].
    destruct ps as [|p ps].
    - destruct IH as [IH|[c' IH]]; [left; constructor; auto|right].
      inversion IH; subst. eexists. apply (one_thread m m' t t' (_ :: before) after). exact H2.
    - right. destruct (act p m) as [[p' m']|] eqn:E.
      + exists (m', (outs, p' :: ps) :: ts). apply (one_thread m m' (outs, p :: ps) (outs, p' :: ps) [] ts). apply access. exact E.
      + destruct p as [a| | | |]; try discriminate. exists (m, (outs ++ [a], ps) :: ts).
        apply (one_thread m m (outs, Done a :: ps) (outs ++ [a], ps) [] ts). apply next.
  Qed.

  (** One step of one thread, whatever the memory. *)
  Definition tlt (t' t : thread T A) : Prop := exists m m', thread_step t m t' m'.
  Lemma thread_acc (ps : list (prog T A)) : forall outs, Acc tlt (outs, ps).
  Proof.
    induction ps as [|p ps IH]; intros outs.
    - constructor. intros t (m & m' & H). inversion H.
    - induction p as [a|a k IHp|a k IHp|a v k IHp|a v k IHp]; constructor; intros t (m & m' & H);
        inversion H; subst; try (cbn in *; match goal with E : Some _ = Some _ |- _ => inversion E; subst; clear E end);
        try discriminate; auto.
  Qed.
  Inductive lstep : list (thread T A) -> list (thread T A) -> Prop :=
  | lstep_one t t' before after : tlt t' t -> lstep (before ++ t' :: after) (before ++ t :: after).
  Lemma lstep_acc ts : Forall (Acc tlt) ts -> Acc lstep ts.
  Proof.
    induction ts as [|t ts IH]; intros H.
    - constructor. intros ts' S. inversion S as [u u' before after U E1 E2]. destruct before; discriminate.
    - inversion H as [|? ? Ht Hts]; subst. specialize (IH Hts). clear H Hts. revert ts IH.
      induction Ht as [t _ IHt]. intros ts Hts. induction Hts as [ts Hts IHts].
      constructor. intros ts' S. inversion S as [u u' before after U E1 E2]. destruct before as [|b before]; cbn in *.
      + inversion E2; subst. apply IHt; [exact U|]. constructor. exact Hts.
      + inversion E2; subst. apply IHts. constructor. exact U.
  Qed.
  Lemma step_acc (c : state T A) : Acc (fun c' c => step c c') c.
  Proof.
    destruct c as [m ts].
    assert (H : Acc lstep ts) by (apply lstep_acc, Forall_forall; intros [outs ps] _; apply thread_acc).
    revert m. induction H as [ts _ IH]. intros m. constructor. intros c' S.
    inversion S; subst. apply IH. constructor. exists m, m'. assumption.
  Qed.
End Ends.
