(** Proofs about name lookup (C29). *)
From Coq Require Import String Ascii List Bool Arith Lia.
From Verif Require Import Num CoordSys Surface Medium Optic StructProofs TreeProofs PathProofs NameSpec.
Import ListNotations.
Open Scope string_scope.

(** ** Strings *)
Lemma split_dotless a : dotless a -> split_dots a = [a].
Proof.
  induction a as [|c a IH]; cbn [split_dots dotless]; [reflexivity|]. intros [H1 H2].
  destruct (Ascii.eqb_spec c "."%char); [congruence|]. rewrite IH by exact H2. reflexivity.
Qed.
Lemma split_dot a s : dotless a -> split_dots (a ++ "." ++ s) = a :: split_dots s.
Proof.
  induction a as [|c a IH]; cbn [dotless].
  - intros _. reflexivity.
  - intros [H1 H2]. change ((String c a) ++ "." ++ s) with (String c (a ++ "." ++ s)). cbn [split_dots].
    destruct (Ascii.eqb_spec c "."%char); [congruence|]. rewrite IH by exact H2. reflexivity.
Qed.
Lemma split_join p : p <> [] -> Forall dotless p -> split_dots (join p) = p.
Proof.
  intros Hne H. induction H as [|a p Ha Hp IH]; [congruence|]. destruct p as [|b p].
  - apply split_dotless, Ha.
  - change (join (a :: b :: p)) with (a ++ "." ++ join (b :: p)). rewrite split_dot by exact Ha.
    rewrite IH by discriminate. reflexivity.
Qed.
Lemma join_inj p q : p <> [] -> q <> [] -> Forall dotless p -> Forall dotless q -> join p = join q -> p = q.
Proof. intros. rewrite <- (split_join p), <- (split_join q) by assumption. congruence. Qed.
Lemma join_cons a p : p <> [] -> join (a :: p) = dot a (join p).
Proof. destruct p; [congruence|reflexivity]. Qed.

(** ** Short names *)
Fixpoint sufs (ts q : list string) : list (list string) :=
  match ts with [] => [] | t :: ts => (t :: q) :: sufs ts (t :: q) end.
Lemma short_loop_sufs ts q acc : q <> [] -> short_loop ts (join q) acc = (acc ++ map join (sufs ts q))%list.
Proof.
  revert q acc. induction ts as [|t ts IH]; intros q acc Hq; cbn [short_loop sufs map].
  - symmetry; apply app_nil_r.
  - rewrite <- join_cons by exact Hq. rewrite IH by discriminate. rewrite <- app_assoc. reflexivity.
Qed.
Lemma in_sufs ts q x : In x (sufs ts q) <-> exists s1 s2, ts = (s1 ++ s2)%list /\ s1 <> [] /\ x = (rev s1 ++ q)%list.
Proof.
  revert q. induction ts as [|t ts IH]; intros q; cbn [sufs].
  - split; [intros []|]. intros (s1 & s2 & E & Hn & _). destruct s1; [congruence|discriminate].
  - split.
    + intros [<-|H].
      * exists [t], ts. repeat split; discriminate.
      * apply IH in H. destruct H as (s1 & s2 & -> & Hn & ->). exists (t :: s1), s2.
        split; [reflexivity|]. split; [discriminate|]. cbn. rewrite <- app_assoc. reflexivity.
    + intros (s1 & s2 & E & Hn & ->). destruct s1 as [|t' s1]; [congruence|]. cbn in E. injection E as <- ->.
      destruct s1 as [|u s1]; [left; reflexivity|]. right. apply IH. exists (u :: s1), s2.
      split; [reflexivity|]. split; [discriminate|]. cbn. rewrite <- !app_assoc. reflexivity.
Qed.
Lemma sufs_length ts q x : In x (sufs ts q) -> List.length q < List.length x.
Proof.
  intros H. apply in_sufs in H. destruct H as (s1 & s2 & _ & Hn & ->). rewrite app_length, rev_length.
  destruct s1; [congruence|cbn; lia].
Qed.
Lemma sufs_nodup ts q : NoDup (sufs ts q).
Proof.
  revert q. induction ts as [|t ts IH]; intros q; cbn [sufs]; constructor; [|apply IH].
  intros H. apply sufs_length in H. lia.
Qed.
Definition suffixes (p : list string) : list (list string) :=
  match rev p with [] => [] | l :: ts => [l] :: sufs ts [l] end.
Lemma in_suffixes p x : In x (suffixes p) <-> x <> [] /\ exists p1, p = (p1 ++ x)%list.
Proof.
  unfold suffixes. destruct (rev p) as [|l ts] eqn:E.
  - assert (p = []) by (rewrite <- (rev_involutive p), E; reflexivity). subst p. cbn. split; [intros []|].
    intros [H [p1 E1]]. symmetry in E1. apply app_eq_nil in E1. tauto.
  - assert (Ep : p = (rev ts ++ [l])%list) by (rewrite <- (rev_involutive p), E; reflexivity). subst p. clear E.
    cbn [In]. rewrite in_sufs. split.
    + intros [<-|(s1 & s2 & -> & Hn & ->)].
      * split; [discriminate|]. exists (rev ts). reflexivity.
      * split; [destruct (rev s1); discriminate|]. exists (rev s2). rewrite rev_app_distr, <- app_assoc. reflexivity.
    + intros [Hx [p1 E1]]. destruct (exists_last Hx) as (x' & l' & ->).
      rewrite app_assoc in E1. apply app_inj_tail in E1. destruct E1 as [E1 <-].
      destruct x' as [|u x'']; [left; reflexivity|]. right. exists (rev (u :: x'')), (rev p1).
      split; [|split].
      * rewrite <- rev_app_distr, <- E1, rev_involutive. reflexivity.
      * intros E. apply (f_equal (@List.length _)) in E. rewrite rev_length in E. discriminate.
      * rewrite rev_involutive. reflexivity.
Qed.
Lemma suffixes_nodup p : NoDup (suffixes p).
Proof.
  unfold suffixes. destruct (rev p) as [|l ts]; constructor; [|apply sufs_nodup].
  intros H. apply sufs_length in H. lia.
Qed.
Lemma shortNames_join p : p <> [] -> Forall dotless p -> shortNames (join p) = map join (suffixes p).
Proof.
  intros Hn Hd. unfold shortNames, suffixes. rewrite split_join by assumption.
  destruct (rev p) as [|l ts]; [reflexivity|].
  change l with (join [l]) at 1. rewrite short_loop_sufs by discriminate. reflexivity.
Qed.
Lemma suffix_dotless p x : Forall dotless p -> In x (suffixes p) -> Forall dotless x.
Proof.
  intros H Hx. apply in_suffixes in Hx. destruct Hx as [_ [p1 ->]]. apply Forall_app in H. tauto.
Qed.
Lemma NoDup_map_in {A B} (f : A -> B) l : (forall x y, In x l -> In y l -> f x = f y -> x = y) ->
  NoDup l -> NoDup (map f l).
Proof.
  intros Hf H. induction H as [|a l Ha Hl IH]; cbn; constructor.
  - intros Hin. apply in_map_iff in Hin. destruct Hin as (b & E & Hb).
    apply Ha. rewrite <- (Hf b a); [exact Hb|right; exact Hb|left; reflexivity|exact E].
  - apply IH. intros x y Hx Hy. apply Hf; right; assumption.
Qed.
Lemma shortNames_nodup p : p <> [] -> Forall dotless p -> NoDup (shortNames (join p)).
Proof.
  intros Hn Hd. rewrite shortNames_join by assumption. apply NoDup_map_in; [|apply suffixes_nodup].
  intros x y Hx Hy. apply join_inj; try (apply (proj1 (in_suffixes p _)); assumption); eapply suffix_dotless; eassumption.
Qed.
Lemma in_shortNames p n : p <> [] -> Forall dotless p -> (In n (shortNames (join p)) <-> trailing n p).
Proof.
  intros Hn Hd. rewrite shortNames_join by assumption. rewrite in_map_iff. unfold trailing. split.
  - intros (x & <- & Hx). apply in_suffixes in Hx. destruct Hx as [Hx [p1 ->]]. exists p1, x. auto.
  - intros (p1 & p2 & -> & H2 & ->). exists p2. split; [reflexivity|]. apply in_suffixes. split; [exact H2|].
    exists p1; reflexivity.
Qed.

(** ** The dictionary of short names *)
Definition eqk (n : string) (x : string * string) : bool := String.eqb (fst x) n.
Lemma dict_get_set {V} k k' (v : V) d :
  dict_get k (dict_set k' v d) = if String.eqb k k' then Some v else dict_get k d.
Proof.
  induction d as [|[k2 v2] d IH]; cbn [dict_set dict_get]; [destruct (String.eqb k k'); reflexivity|].
  destruct (String.eqb_spec k' k2) as [<-|N]; cbn [dict_get].
  - destruct (String.eqb k k'); reflexivity.
  - rewrite IH. destruct (String.eqb_spec k k2) as [->|]; [|reflexivity].
    destruct (String.eqb_spec k2 k'); [congruence|reflexivity].
Qed.
Lemma dict_get_del {V} k k' (d : list (string * V)) :
  dict_get k (dict_del k' d) = if String.eqb k k' then None else dict_get k d.
Proof.
  unfold dict_del.
  induction d as [|[k2 v2] d IH]; cbn; [destruct (String.eqb k k'); reflexivity|].
  destruct (String.eqb_spec k' k2) as [<-|N]; cbn [negb dict_get].
  - rewrite IH. destruct (String.eqb k k'); reflexivity.
  - cbn [dict_get]. rewrite IH. destruct (String.eqb_spec k k2) as [->|]; [|reflexivity].
    destruct (String.eqb_spec k2 k'); [congruence|reflexivity].
Qed.
Lemma dict_get_dels {V} k dup (d : list (string * V)) :
  dict_get k (fold_left (fun d n => dict_del n d) dup d) = if existsb (String.eqb k) dup then None else dict_get k d.
Proof.
  revert d. induction dup as [|n dup IH]; intros d; cbn; [reflexivity|]. rewrite IH, dict_get_del.
  destruct (String.eqb k n); cbn; [destruct (existsb _ dup); reflexivity|reflexivity].
Qed.
Definition pair_step (st : list (string * string) * list string) (x : string * string) :=
  names_step (snd x) st (fst x).
Definition inv (seen : list (string * string)) (st : list (string * string) * list string) : Prop :=
  forall n, dict_get n (fst st) = option_map snd (hd_error (filter (eqk n) seen)) /\
            (existsb (String.eqb n) (snd st) = true <-> 2 <= List.length (filter (eqk n) seen)).
Lemma inv_step seen st x : inv seen st -> inv (seen ++ [x]) (pair_step st x).
Proof.
  intros H n. destruct x as [sn k], st as [d dup]. unfold pair_step, names_step; cbn [fst snd].
  assert (Hs := H sn). destruct Hs as [Hs1 Hs2]. destruct (H n) as [H1 H2]. cbn [fst snd] in *.
  rewrite filter_app. cbn [filter eqk fst]. unfold eqk at 2 4. cbn [fst].
  rewrite app_length. rewrite Hs1.
  destruct (filter (eqk sn) seen) as [|y l] eqn:Fs; cbn [hd_error option_map].
  - (* new *)
    cbn [fst snd]. rewrite dict_get_set. destruct (String.eqb_spec n sn) as [->|N].
    + rewrite Fs. rewrite String.eqb_refl. cbn. split; [reflexivity|]. rewrite Hs2. cbn. lia.
    + destruct (String.eqb_spec sn n); [congruence|]. rewrite app_nil_r. cbn. rewrite H1, H2. split; [reflexivity|lia].
  - cbn [fst snd existsb]. destruct (String.eqb_spec n sn) as [->|N].
    + rewrite Fs. rewrite String.eqb_refl. cbn. split; [rewrite Hs1; reflexivity|]. split; [lia|reflexivity].
    + destruct (String.eqb_spec sn n); [congruence|]. rewrite app_nil_r. cbn. rewrite H1, H2. split; [reflexivity|lia].
Qed.
Lemma inv_steps l seen st : inv seen st -> inv (seen ++ l) (fold_left pair_step l st).
Proof.
  revert seen st. induction l as [|x l IH]; intros seen st H; cbn [fold_left]; [now rewrite app_nil_r|].
  replace (seen ++ x :: l)%list with ((seen ++ [x]) ++ l)%list by (rewrite <- app_assoc; reflexivity).
  apply IH, inv_step, H.
Qed.
Definition pairs (keys : list string) : list (string * string) :=
  flat_map (fun k => map (fun sn => (sn, k)) (shortNames k)) keys.
Lemma names_fold keys st :
  fold_left (fun st k => fold_left (names_step k) (shortNames k) st) keys st = fold_left pair_step (pairs keys) st.
Proof.
  revert st. induction keys as [|k keys IH]; intros st; cbn; [reflexivity|].
  rewrite fold_left_app. rewrite IH. f_equal. generalize (shortNames k). intros l. revert st.
  induction l as [|sn l IHl]; intros st; cbn; [reflexivity|]. apply IHl.
Qed.
Lemma names_get keys n :
  dict_get n (names_of_keys keys) =
  match filter (eqk n) (pairs keys) with [x] => Some (snd x) | _ => None end.
Proof.
  unfold names_of_keys. rewrite names_fold.
  assert (I : inv (pairs keys) (fold_left pair_step (pairs keys) ([], []))).
  { apply (inv_steps (pairs keys) []). intros m. cbn. split; [reflexivity|]. split; [discriminate|lia]. }
  destruct (fold_left pair_step (pairs keys) ([], [])) as [d dup].
  rewrite dict_get_dels. destruct (I n) as [I1 I2]. cbn [fst snd] in *.
  destruct (existsb (String.eqb n) dup) eqn:E.
  - assert (L : 2 <= List.length (filter (eqk n) (pairs keys))) by (apply I2; reflexivity).
    destruct (filter (eqk n) (pairs keys)) as [|x [|y l]]; cbn in L; try lia. reflexivity.
  - rewrite I1. destruct (filter (eqk n) (pairs keys)) as [|x [|y l]]; try reflexivity.
    assert (F : false = true) by (apply I2; cbn; lia). discriminate.
Qed.

(** ** The dictionary of full names *)
Lemma nodup_app {A} (l1 l2 : list A) : NoDup l1 -> NoDup l2 -> (forall x, In x l1 -> In x l2 -> False) -> NoDup (l1 ++ l2).
Proof.
  induction 1 as [|a l Ha Hl IH]; cbn; [auto|]. intros H2 Hd. constructor.
  - intros Hin. apply in_app_or in Hin. destruct Hin as [Hin|Hin]; [auto|]. apply (Hd a); [left; reflexivity|exact Hin].
  - apply IH; [exact H2|]. intros x Hx. apply Hd. right; exact Hx.
Qed.
Lemma get_in {V} k (v : V) d : NoDup (map fst d) -> (In (k, v) d <-> dict_get k d = Some v).
Proof.
  induction d as [|[k2 v2] d IH]; cbn [map fst dict_get In]; intros HN.
  - split; [intros []|discriminate].
  - inversion HN as [|? ? Hn Hd]; subst. destruct (String.eqb_spec k k2) as [->|N].
    + split.
      * intros [E|H]; [congruence|]. exfalso. apply Hn. change k2 with (fst (k2, v)). apply in_map, H.
      * intros E. injection E as ->. left; reflexivity.
    + rewrite <- IH by exact Hd. split; [intros [E|H]; [congruence|exact H]|auto].
Qed.
Section Tree.
  Context {T : Type}.
  Fixpoint paths (o : optic T) : list (list string * optic T) :=
    ([o_name o], o) ::
    match o with
    | Iface _ => []
    | Compound a items => flat_map (fun it => map (fun x => (c_name a :: fst x, snd x)) (paths it)) items
    end.
  Lemma in_paths o p x : In (p, x) (paths o) <-> at_path o p x.
  Proof.
    revert p x. induction o as [i|a items IH] using optic_ind2; intros p x; cbn [paths In].
    - split.
      + intros [E|[]]. injection E as <- <-. exact (at_root (Iface i)).
      + intros H. inversion H; subst. left; reflexivity.
    - rewrite Forall_forall in IH. split.
      + intros [E|H]; [injection E as <- <-; exact (at_root (Compound a items))|].
        apply in_flat_map in H. destruct H as (it & Hit & H). apply in_map_iff in H.
        destruct H as ([q y] & E & Hq). cbn in E. injection E as <- <-.
        apply at_below with it; [exact Hit|]. apply IH; assumption.
      + intros H. inversion H as [o|a' items' it q y Hit Hq]; subst; [left; reflexivity|]. right.
        apply in_flat_map. exists it. split; [exact Hit|]. apply in_map_iff. exists (q, x).
        split; [reflexivity|]. apply IH; assumption.
  Qed.
  Lemma paths_ne o p x : In (p, x) (paths o) -> p <> [].
  Proof. intros H. apply in_paths in H. destruct H; discriminate. Qed.
  Lemma paths_dotless o p x : tidy o -> In (p, x) (paths o) -> Forall dotless p.
  Proof.
    intros Ht H. apply in_paths in H. revert Ht. induction H as [o|a items it q y Hit Hq IH]; intros Ht.
    - constructor; [|constructor]. destruct Ht; assumption.
    - inversion Ht as [|? ? Ha Hn Hi]; subst. constructor; [exact Ha|]. apply IH, Hi, Hit.
  Qed.
  Lemma paths_hd o p x : In (p, x) (paths o) -> exists q, p = o_name o :: q.
  Proof. intros H. apply in_paths in H. destruct H; eexists; reflexivity. Qed.
  Lemma paths_nodup o : tidy o -> NoDup (map fst (paths o)).
  Proof.
    induction 1 as [i Hd|a items Hd Hn Ht IH].
    - cbn. repeat constructor. intros [].
    - cbn [paths map fst o_name]. constructor.
      + intros H. apply in_map_iff in H. destruct H as ([q y] & E & H). cbn in E. subst q.
        apply in_flat_map in H. destruct H as (it & Hit & H). apply in_map_iff in H.
        destruct H as ([q y'] & E & Hq). cbn in E. injection E as E _. apply paths_ne in Hq. congruence.
      + clear Hd. induction items as [|it items IHl]; cbn [flat_map map]; [constructor|].
        cbn [map] in Hn. inversion Hn as [|? ? Hni Hn']; subst.
        assert (IHl' : NoDup (map fst (flat_map (fun it => map (fun x => (c_name a :: fst x, snd x)) (paths it)) items))).
        { apply IHl; [exact Hn'| |]; intros x Hx; [apply Ht|apply IH]; right; exact Hx. }
        rewrite map_app. apply nodup_app; [|exact IHl'|].
        * rewrite map_map. cbn [fst]. rewrite <- (map_map fst (cons (c_name a))).
          apply NoDup_map_in; [intros ? ? _ _ E; injection E; auto|]. apply IH; left; reflexivity.
        * intros p H1 H2. rewrite map_map in H1. cbn [fst] in H1. apply in_map_iff in H1.
          destruct H1 as ([q y] & <- & Hq). cbn [fst] in H2. apply in_map_iff in H2.
          destruct H2 as ([q2 y2] & E & H2). cbn [fst] in E. subst q2. apply in_flat_map in H2.
          destruct H2 as (it2 & Hit2 & H2). apply in_map_iff in H2. destruct H2 as ([q3 y3] & E & H3).
          cbn in E. injection E as -> _.
          destruct (paths_hd _ _ _ Hq) as [q1 E1]. destruct (paths_hd _ _ _ H3) as [q2 E2].
          rewrite E1 in E2. injection E2 as E2 _. apply Hni. rewrite E2. apply in_map, Hit2.
  Qed.

  Definition keyed (x : list string * optic T) : string * optic T := (join (fst x), snd x).
  Definition sets {V} (l d : list (string * V)) : list (string * V) :=
    fold_left (fun d kv => dict_set (fst kv) (snd kv) d) l d.
  Lemma sets_new {V} (l d : list (string * V)) : NoDup (map fst (d ++ l)) -> sets l d = (d ++ l)%list.
  Proof.
    revert d. induction l as [|[k v] l IH]; intros d H; cbn [sets fold_left]; [now rewrite app_nil_r|].
    rewrite dict_set_new.
    - change (sets l (d ++ [(k, v)]) = (d ++ (k, v) :: l)%list). rewrite IH; rewrite <- app_assoc; [reflexivity|exact H].
    - rewrite map_app in H. cbn [map fst] in H. apply NoDup_remove_2 in H. intros Hk. apply H, in_or_app. left; exact Hk.
  Qed.
  Lemma dict_set_twice {V} k (v : V) d : dict_set k v (dict_set k v d) = dict_set k v d.
  Proof.
    induction d as [|[k2 v2] d IH]; cbn [dict_set]; [now rewrite String.eqb_refl|].
    destruct (String.eqb k k2) eqn:E; cbn [dict_set]; [now rewrite String.eqb_refl|]. rewrite E, IH. reflexivity.
  Qed.
  Lemma keyed_nodup o : tidy o -> NoDup (map fst (map keyed (paths o))).
  Proof.
    intros Ht. rewrite map_map. unfold keyed; cbn [fst]. rewrite <- (map_map fst join).
    apply NoDup_map_in; [|apply paths_nodup, Ht].
    intros x y Hx Hy. apply in_map_iff in Hx. apply in_map_iff in Hy.
    destruct Hx as ([p u] & <- & Hp). destruct Hy as ([q w] & <- & Hq). cbn [fst].
    apply join_inj; eauto using paths_ne, paths_dotless.
  Qed.
  Lemma itemDict_paths o : tidy o -> match o with Iface _ => True | _ => itemDict o = map keyed (paths o) end.
  Proof.
    intros Ht. assert (HN := keyed_nodup o Ht). revert HN.
    induction Ht as [i Hd|a items Hd Hn Ht IH]; intros HN; [exact I|].
    cbn [itemDict paths map o_name]. set (o := Compound a items) in *.
    assert (E : forall l out, (forall it, In it l -> In it items) ->
      fold_left (fun out item =>
          let out := dict_set (dot (c_name a) (o_name item)) item out in
          fold_left (fun out kv => dict_set (dot (c_name a) (fst kv)) (snd kv) out) (itemDict item) out) l out
      = sets (map keyed (flat_map (fun it => map (fun x => (c_name a :: fst x, snd x)) (paths it)) l)) out).
    { induction l as [|it l IHl]; intros out Hl; cbn [fold_left flat_map]; [reflexivity|].
      rewrite IHl by (intros; apply Hl; right; assumption).
      rewrite map_app. unfold sets at 2. rewrite fold_left_app. fold (sets (V:=optic T)). f_equal.
      assert (Hit : In it items) by (apply Hl; left; reflexivity).
      assert (Hp : forall p x, In (p, x) (paths it) -> p <> []) by (intros; eapply paths_ne; eassumption).
      destruct it as [i|b its].
      - reflexivity.
      - rewrite (IH _ Hit) by (apply keyed_nodup, Ht, Hit). cbv zeta.
        cbn [paths map fold_left keyed fst snd o_name]. change (join [c_name b]) with (c_name b).
        change (join [c_name a; c_name b]) with (dot (c_name a) (c_name b)). rewrite dict_set_twice.
        generalize (dict_set (dot (c_name a) (c_name b)) (Compound b its) out).
        cbn [paths] in Hp.
        assert (Hp' : forall p x, In (p, x) (flat_map (fun it => map (fun x => (c_name b :: fst x, snd x)) (paths it)) its) -> p <> [])
          by (intros; eapply Hp; right; eassumption).
        clear Hp. revert Hp'.
        generalize (flat_map (fun it => map (fun x => (c_name b :: fst x, snd x)) (paths it)) its).
        intros lp Hp. induction lp as [|[q y] lp IHp]; intros d; cbn [map fold_left fst snd keyed]; [reflexivity|].
        rewrite IHp by (intros; eapply Hp; right; eassumption). rewrite join_cons; [reflexivity|].
        eapply Hp; left; reflexivity. }
    rewrite E by auto. rewrite sets_new; [reflexivity|]. exact HN.
  Qed.
  Lemma itemDict_get a (items : list (optic T)) n : let o := Compound a items in tidy o ->
    forall x, dict_get n (itemDict o) = Some x <-> exists p, at_path o p x /\ n = join p.
  Proof.
    intros o Ht x. rewrite (itemDict_paths o Ht). assert (HN := keyed_nodup o Ht).
    rewrite <- (get_in n x _ HN). rewrite in_map_iff. split.
    - intros ([p y] & E & H). unfold keyed in E; cbn in E. injection E as <- <-. exists p. split; [apply in_paths, H|reflexivity].
    - intros (p & H & ->). exists (p, x). split; [reflexivity|apply in_paths, H].
  Qed.

  (** ** Resolution of names *)
  Definition trailingb (n : string) (p : list string) : bool := existsb (String.eqb n) (shortNames (join p)).
  Lemma trailingb_spec n p : p <> [] -> Forall dotless p -> (trailingb n p = true <-> trailing n p).
  Proof.
    intros Hn Hd. rewrite <- in_shortNames by assumption. unfold trailingb. rewrite existsb_exists. split.
    - intros (x & Hx & E). apply String.eqb_eq in E. subst x. exact Hx.
    - intros H. exists n. split; [exact H|apply String.eqb_refl].
  Qed.
  Lemma filter_one n k l : NoDup l ->
    filter (eqk n) (map (fun sn => (sn, k)) l) = if existsb (String.eqb n) l then [(n, k)] else [].
  Proof.
    induction 1 as [|a l Ha Hl IH]; cbn; [reflexivity|]. unfold eqk at 1; cbn [fst].
    rewrite String.eqb_sym. destruct (String.eqb_spec n a) as [->|N]; cbn [orb]; [|exact IH].
    change (fun x : string * string => fst x =? a) with (eqk a).
    rewrite IH. destruct (existsb (String.eqb a) l) eqn:E; [|reflexivity].
    apply existsb_exists in E. destruct E as (x & Hx & E). apply String.eqb_eq in E. congruence.
  Qed.
  Lemma filter_pairs n (P : list (list string)) : Forall (fun p => p <> [] /\ Forall dotless p) P ->
    filter (eqk n) (pairs (map join P)) = map (fun p => (n, join p)) (filter (trailingb n) P).
  Proof.
    induction 1 as [|p P [Hn Hd] HP IH]; [reflexivity|]. unfold pairs in *. cbn [map flat_map filter].
    rewrite filter_app, IH, filter_one by (apply shortNames_nodup; assumption).
    unfold trailingb at 2. destruct (existsb (String.eqb n) (shortNames (join p))); reflexivity.
  Qed.
  Lemma paths_ok o : tidy o -> Forall (fun p => p <> [] /\ Forall dotless p) (map fst (paths o)).
  Proof.
    intros Ht. apply Forall_forall. intros p Hp. apply in_map_iff in Hp. destruct Hp as ([q y] & <- & Hq).
    split; [eapply paths_ne; exact Hq|eapply paths_dotless; eassumption].
  Qed.
  Lemma in_paths_fst o p : In p (map fst (paths o)) <-> exists x, at_path o p x.
  Proof.
    rewrite in_map_iff. split.
    - intros ([q y] & <- & H). exists y. apply in_paths, H.
    - intros (x & H). exists (p, x). split; [reflexivity|apply in_paths, H].
  Qed.
  Lemma filter_single {A} (f : A -> bool) l a : NoDup l ->
    (filter f l = [a] <-> In a l /\ f a = true /\ forall b, In b l -> f b = true -> b = a).
  Proof.
    intros HN. split.
    - intros E. assert (Ha : In a (filter f l)) by (rewrite E; left; reflexivity). apply filter_In in Ha.
      split; [tauto|]. split; [tauto|]. intros b Hb Fb.
      assert (Hb' : In b (filter f l)) by (apply filter_In; auto). rewrite E in Hb'. destruct Hb' as [->|[]]; reflexivity.
    - intros (Ha & Fa & Hu).
      assert (Ha' : In a (filter f l)) by (apply filter_In; auto).
      assert (HN' : NoDup (filter f l)) by (apply NoDup_filter, HN).
      assert (Hu' : forall b, In b (filter f l) -> b = a) by (intros b Hb; apply filter_In in Hb; apply Hu; tauto).
      destruct (filter f l) as [|b [|c r]]; [destruct Ha'| |].
      + f_equal. apply Hu'. left; reflexivity.
      + exfalso. inversion HN' as [|? ? Hn _]; subst. apply Hn. left.
        rewrite (Hu' b), (Hu' c); [reflexivity|right; left; reflexivity|left; reflexivity].
  Qed.
  Variables (a : cattr T) (items : list (optic T)).
  Let o : optic T := Compound a items.
  Hypothesis Ht : tidy o.
  Lemma names_spec n k : dict_get n (names o) = Some k <->
    exists p x, at_path o p x /\ k = join p /\ trailing n p /\
      (forall p' x', at_path o p' x' -> trailing n p' -> p' = p).
  Proof.
    unfold names. rewrite (itemDict_paths o Ht), map_map, names_get. unfold keyed; cbn [fst].
    rewrite <- (map_map fst join), filter_pairs by (apply paths_ok, Ht).
    assert (HN := paths_nodup o Ht). assert (HO := paths_ok o Ht). rewrite Forall_forall in HO. split.
    - intros E. destruct (filter (trailingb n) (map fst (paths o))) as [|p [|q r]] eqn:F; try discriminate.
      cbn in E. injection E as <-. apply filter_single in F; [|exact HN]. destruct F as (Hp & Fp & Hu).
      destruct (HO p Hp) as [Hn Hd]. apply trailingb_spec in Fp; try assumption.
      apply in_paths_fst in Hp. destruct Hp as [x Hx]. exists p, x. split; [exact Hx|]. split; [reflexivity|]. split; [exact Fp|].
      intros p' x' Hp' Tp'. assert (Hin : In p' (map fst (paths o))) by (apply in_paths_fst; eauto).
      apply Hu; [exact Hin|]. destruct (HO p' Hin). apply trailingb_spec; assumption.
    - intros (p & x & Hp & -> & Tp & Hu).
      assert (Hin : In p (map fst (paths o))) by (apply in_paths_fst; eauto). destruct (HO p Hin) as [Hn Hd].
      assert (F : filter (trailingb n) (map fst (paths o)) = [p]).
      { apply filter_single; [exact HN|]. split; [exact Hin|]. split; [apply trailingb_spec; assumption|].
        intros b Hb Tb. destruct (HO b Hb). apply trailingb_spec in Tb; try assumption.
        apply in_paths_fst in Hb. destruct Hb as [y Hy]. eapply Hu; eassumption. }
      rewrite F. reflexivity.
  Qed.
  Lemma trailing_self p : p <> [] -> trailing (join p) p.
  Proof. intros H. exists [], p. auto. Qed.
  Lemma at_path_ne o' p (x : optic T) : at_path o' p x -> p <> [].
  Proof. destruct 1; discriminate. Qed.
  Lemma at_path_join p q x y : at_path o p x -> at_path o q y -> join p = join q -> p = q /\ x = y.
  Proof.
    intros Hp Hq E.
    assert (G : dict_get (join p) (itemDict o) = Some x) by (apply (itemDict_get a items _ Ht); eauto).
    assert (G' : dict_get (join p) (itemDict o) = Some y) by (apply (itemDict_get a items _ Ht); eauto).
    split; [|congruence]. apply join_inj; try assumption.
    - eapply at_path_ne; eassumption.
    - eapply at_path_ne; eassumption.
    - eapply paths_dotless; [exact Ht|apply in_paths; exact Hp].
    - eapply paths_dotless; [exact Ht|apply in_paths; exact Hq].
  Qed.
  Definition resolved (n : string) : string := match dict_get n (names o) with Some m => m | None => n end.
  Lemma resolved_full n p x : at_path o p x -> n = join p -> resolved n = join p.
  Proof.
    intros Hp ->. unfold resolved. destruct (dict_get (join p) (names o)) as [k|] eqn:E; [|reflexivity].
    apply names_spec in E. destruct E as (q & y & Hq & -> & Tq & Hu).
    rewrite (Hu p x Hp (trailing_self p (at_path_ne _ _ _ Hp))). reflexivity.
  Qed.
  Lemma resolved_spec n p x : at_path o p x -> (resolved n = join p <-> denotes o n p).
  Proof.
    intros Hp. split.
    - unfold resolved. destruct (dict_get n (names o)) as [k|] eqn:E; [|left; exact H || (intros ->; left; reflexivity)].
      intros ->. apply names_spec in E. destruct E as (q & y & Hq & Ek & Tq & Hu).
      destruct (at_path_join p q x y Hp Hq Ek) as [<- <-].
      destruct (dict_get n (itemDict o)) as [z|] eqn:G.
      + apply (itemDict_get a items n Ht) in G. destruct G as (r & Hr & ->). left.
        rewrite (Hu r z Hr (trailing_self r (at_path_ne _ _ _ Hr))). reflexivity.
      + right. split; [exact Tq|]. split; [intros; eapply Hu; eassumption|].
        intros r z Hr ->. assert (G' : dict_get (join r) (itemDict o) = Some z) by (apply (itemDict_get a items _ Ht); eauto).
        congruence.
    - intros [->|(Tn & Hu & Hk)]; [eapply resolved_full; [exact Hp|reflexivity]|].
      unfold resolved. assert (E : dict_get n (names o) = Some (join p)).
      { apply names_spec. exists p, x. auto. }
      rewrite E. reflexivity.
  Qed.
  Lemma resolved_get n x : dict_get (resolved n) (itemDict o) = Some x <-> exists p, at_path o p x /\ denotes o n p.
  Proof.
    split.
    - intros G. apply (itemDict_get a items _ Ht) in G. destruct G as (p & Hp & E). exists p. split; [exact Hp|].
      apply (resolved_spec n p x Hp), E.
    - intros (p & Hp & D). apply (resolved_spec n p x Hp) in D. rewrite D. apply (itemDict_get a items _ Ht). eauto.
  Qed.
  Lemma getitem_resolved n : getitem o n =
    match dict_get (resolved n) (itemDict o) with Some x => Ok x | None => Err ValueError end.
  Proof.
    unfold getitem. change (match o with Iface _ => _ | Compound _ _ => ?e end) with e. cbv beta.
    fold o. destruct (dict_get n (itemDict o)) as [x|] eqn:G.
    - assert (G2 := G). apply (itemDict_get a items _ Ht) in G2. destruct G2 as (p & Hp & E).
      rewrite (resolved_full n p x Hp E), <- E. fold o. rewrite G. reflexivity.
    - unfold resolved. fold o. destruct (dict_get n (names o)) as [k|]; [|fold o; rewrite G; reflexivity]. reflexivity.
  Qed.
  Lemma lookup n : (forall x, getitem o n = Ok x <-> exists p, at_path o p x /\ denotes o n p) /\
    (forall e, getitem o n = Err e -> e = ValueError).
  Proof.
    rewrite getitem_resolved. split.
    - intros x. rewrite <- resolved_get. destruct (dict_get (resolved n) (itemDict o)); split; congruence.
    - intros e. destruct (dict_get (resolved n) (itemDict o)); congruence.
  Qed.
End Tree.
