(** Proofs about inserting and removing named items (C63). *)
From Coq Require Import String Ascii List Bool Arith Lia.
From Verif Require Import Num Vec CoordSys Surface Medium Obscuration Optic NameSpec NameProofs WithProofs.
Import ListNotations.
Open Scope string_scope.

Section Insert.
  Context {T : Type} {NT : Num T}.
  Variables (a : cattr T) (items : list (optic T)).
  Let o : optic T := Compound a items.
  Hypothesis Ht : tidy o.
  Hypothesis Hown : own_names a items.

  Lemma child_path c : In c items -> at_path o [c_name a; o_name c] c.
  Proof. intros H. eapply at_below; [exact H|apply at_root]. Qed.
  Lemma child_name c : In c items -> dict_get (o_name c) (names o) = Some (join [c_name a; o_name c]).
  Proof.
    intros H. apply (names_spec a items Ht). exists [c_name a; o_name c], c.
    split; [apply child_path, H|]. split; [reflexivity|]. split.
    - exists [c_name a], [o_name c]. repeat split. discriminate.
    - intros p x Hp Htr. eapply Hown; eassumption.
  Qed.
  Lemma child_full c : In c items ->
    dict_get (join [c_name a; o_name c]) (names o) = Some (join [c_name a; o_name c]).
  Proof.
    intros H. apply (names_spec a items Ht). exists [c_name a; o_name c], c.
    split; [apply child_path, H|]. split; [reflexivity|]. split.
    - exists [], [c_name a; o_name c]. repeat split. discriminate.
    - intros p x Hp (p1 & p2 & E & Hne & J). eapply Hown; [exact H|exact Hp|].
      assert (Ep : p2 = [c_name a; o_name c]).
      { symmetry. apply join_inj; try assumption; try discriminate.
        - inversion Ht as [|? ? Ha HN Hti]; subst. constructor; [exact Ha|]. constructor; [|constructor].
          specialize (Hti c H). destruct Hti; assumption.
        - assert (D : Forall dotless p) by (eapply paths_dotless; [exact Ht|apply in_paths, Hp]).
          rewrite E, Forall_app in D. tauto. }
      subst p2. exists (p1 ++ [c_name a])%list, [o_name c]. split; [rewrite <- app_assoc; exact E|].
      split; [discriminate|reflexivity].
  Qed.
  Lemma child_differs c it : In c items -> In it items ->
    String.eqb (join [c_name a; o_name c]) (join [c_name a; o_name it]) = String.eqb (o_name c) (o_name it).
  Proof.
    intros Hc Hi. inversion Ht as [|? ? Ha HN Hti]; subst.
    assert (Dc : dotless (o_name c)) by (specialize (Hti c Hc); destruct Hti; assumption).
    assert (Di : dotless (o_name it)) by (specialize (Hti it Hi); destruct Hti; assumption).
    destruct (String.eqb (o_name c) (o_name it)) eqn:E.
    - apply String.eqb_eq in E. rewrite E. apply String.eqb_refl.
    - apply String.eqb_neq in E. apply String.eqb_neq. intros J. apply join_inj in J; try discriminate.
      + injection J as J. congruence.
      + repeat constructor; assumption.
      + repeat constructor; assumption.
  Qed.
  Variables (l1 l2 : list (optic T)) (it : optic T) (n : string).
  Hypothesis El : items = (l1 ++ it :: l2)%list.
  Hypothesis Hn : denotes o n [c_name a; o_name it].
  Lemma it_in : In it items.
  Proof. rewrite El. apply in_or_app. right; left; reflexivity. Qed.
  Lemma names_apart c : In c (l1 ++ l2) -> o_name c <> o_name it.
  Proof.
    intros H. inversion Ht as [|? ? Ha HN Hti]; subst. rewrite map_app in HN. cbn [map] in HN.
    apply NoDup_remove_2 in HN. intros E. apply HN. rewrite <- map_app, <- E. apply in_map, H.
  Qed.
  Let nm := names o.
  Let target := dict_get (join [c_name a; o_name it]) nm.
  Lemma target_eq : target = Some (join [c_name a; o_name it]).
  Proof. apply child_full, it_in. Qed.
  Lemma insert_others l new : incl l (l1 ++ l2) -> insert_loop nm target new l = Ok l.
  Proof.
    rewrite target_eq. induction l as [|c l IH]; intros Hi; [reflexivity|]. cbn [insert_loop].
    assert (Hc : In c (l1 ++ l2)) by (apply Hi; left; reflexivity).
    assert (Hc' : In c items) by (rewrite El; apply in_app_iff in Hc; apply in_app_iff; cbn [In]; tauto).
    unfold nm at 1. rewrite (child_name c Hc'). rewrite IH by (intros z Hz; apply Hi; right; exact Hz).
    cbn [bind]. rewrite (child_differs c it Hc' it_in).
    assert (Ne := names_apart c Hc). apply String.eqb_neq in Ne. rewrite Ne. reflexivity.
  Qed.
  Lemma remove_others l : incl l (l1 ++ l2) -> remove_loop nm target l = Ok l.
  Proof.
    rewrite target_eq. induction l as [|c l IH]; intros Hi; [reflexivity|]. cbn [remove_loop].
    assert (Hc : In c (l1 ++ l2)) by (apply Hi; left; reflexivity).
    assert (Hc' : In c items) by (rewrite El; apply in_app_iff in Hc; apply in_app_iff; cbn [In]; tauto).
    unfold nm at 1. rewrite (child_name c Hc'). rewrite IH by (intros z Hz; apply Hi; right; exact Hz).
    cbn [bind]. rewrite (child_differs c it Hc' it_in).
    assert (Ne := names_apart c Hc). apply String.eqb_neq in Ne. rewrite Ne. reflexivity.
  Qed.
  Lemma insert_all new l : incl l l1 -> insert_loop nm target new (l ++ it :: l2) = Ok (l ++ new :: it :: l2)%list.
  Proof.
    induction l as [|c l IH]; intros Hi.
    - cbn [app insert_loop]. rewrite (insert_others l2 new) by (intros z Hz; apply in_or_app; right; exact Hz).
      rewrite target_eq. unfold nm. rewrite (child_name it it_in). cbn [bind]. rewrite String.eqb_refl. reflexivity.
    - assert (Hc : In c (l1 ++ l2)) by (apply in_or_app; left; apply Hi; left; reflexivity).
      assert (Hc' : In c items) by (rewrite El; apply in_app_iff in Hc; apply in_app_iff; cbn [In]; tauto).
      cbn [app insert_loop]. rewrite IH by (intros z Hz; apply Hi; right; exact Hz).
      rewrite target_eq. unfold nm. rewrite (child_name c Hc'). cbn [bind]. rewrite (child_differs c it Hc' it_in).
      assert (Ne := names_apart c Hc). apply String.eqb_neq in Ne. rewrite Ne. reflexivity.
  Qed.
  Lemma remove_all l : incl l l1 -> remove_loop nm target (l ++ it :: l2) = Ok (l ++ l2)%list.
  Proof.
    induction l as [|c l IH]; intros Hi.
    - cbn [app remove_loop]. rewrite (remove_others l2) by (intros z Hz; apply in_or_app; right; exact Hz).
      rewrite target_eq. unfold nm. rewrite (child_name it it_in). cbn [bind]. rewrite String.eqb_refl. reflexivity.
    - assert (Hc : In c (l1 ++ l2)) by (apply in_or_app; left; apply Hi; left; reflexivity).
      assert (Hc' : In c items) by (rewrite El; apply in_app_iff in Hc; apply in_app_iff; cbn [In]; tauto).
      cbn [app remove_loop]. rewrite IH by (intros z Hz; apply Hi; right; exact Hz).
      rewrite target_eq. unfold nm. rewrite (child_name c Hc'). cbn [bind]. rewrite (child_differs c it Hc' it_in).
      assert (Ne := names_apart c Hc). apply String.eqb_neq in Ne. rewrite Ne. reflexivity.
  Qed.
  Hypothesis Hskip : c_skip a = false.
  Hypothesis Hlens : c_lens a = false.
  Lemma rebuild_any l : mkCompound a l = Ok (Compound (T:=T) a l).
  Proof. unfold mkCompound. destruct a as [ln nn cs mi mo sk st]; cbn in *. subst. reflexivity. Qed.
  Lemma inserted new : withInsertedOptic o n new = Ok (Compound a (l1 ++ new :: it :: l2)).
  Proof.
    assert (R := resolves a items Ht n [c_name a; o_name it] it (child_path it it_in) Hn).
    assert (F := found a items Ht n [c_name a; o_name it] it (child_path it it_in) Hn).
    unfold resolved in R, F. unfold withInsertedOptic, o. cbv zeta. rewrite R in F |- *. rewrite F.
    assert (I := insert_all new l1 (incl_refl _)). unfold target, nm, o in I. rewrite <- El in I. rewrite I.
    apply rebuild_any.
  Qed.
  Lemma removed : withRemovedOptic o n = Ok (Compound a (l1 ++ l2)).
  Proof.
    assert (R := resolves a items Ht n [c_name a; o_name it] it (child_path it it_in) Hn).
    assert (F := found a items Ht n [c_name a; o_name it] it (child_path it it_in) Hn).
    unfold resolved in R, F. unfold withRemovedOptic, o. cbv zeta. rewrite R in F |- *. rewrite F.
    assert (I := remove_all l1 (incl_refl _)). unfold target, nm, o in I. rewrite <- El in I. rewrite I.
    apply rebuild_any.
  Qed.
End Insert.
Lemma insert_unknown {T} {NT : Num T} a (items : list (optic T)) n new : tidy (Compound a items) ->
  (forall p x, at_path (Compound a items) p x -> ~ denotes (Compound a items) n p) ->
  withInsertedOptic (Compound a items) n new = Err ValueError /\ withRemovedOptic (Compound a items) n = Err ValueError.
Proof.
  intros Ht H. assert (G := unknown_none a items Ht n H). unfold resolved in G.
  unfold withInsertedOptic, withRemovedOptic. cbv zeta. rewrite G. split; reflexivity.
Qed.
