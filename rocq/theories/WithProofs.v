(** Proofs that editing a named element changes that element only (C30). *)
From Coq Require Import String Ascii List Bool Arith Lia.
From Verif Require Import MoveSpec Num Vec CoordSys Surface Medium Obscuration Optic StructProofs TreeProofs PathProofs
  NameSpec NameProofs.
Import ListNotations.
Open Scope string_scope.

Lemma sapp_nil_r a : a ++ "" = a.
Proof. induction a; cbn; congruence. Qed.
Lemma sapp_assoc a b c : (a ++ b) ++ c = a ++ b ++ c.
Proof. induction a; cbn; congruence. Qed.
Lemma prefix_app a s : String.prefix a (a ++ s) = true.
Proof.
  induction a as [|c a IH]; cbn; [destruct s; reflexivity|].
  destruct (Ascii.ascii_dec c c); [exact IH|congruence].
Qed.
Lemma prefix_spec a b : String.prefix a b = true -> exists s, b = a ++ s.
Proof.
  revert b. induction a as [|c a IH]; intros b H; [exists b; reflexivity|].
  destruct b as [|c' b]; cbn in H; [discriminate|]. destruct (Ascii.ascii_dec c c') as [<-|]; [|discriminate].
  destruct (IH b H) as [s ->]. exists s. reflexivity.
Qed.
Lemma substring_skip a s : substring (String.length a) (String.length s) (a ++ s) = s.
Proof.
  induction a as [|c a IH]; cbn.
  - induction s as [|c s IHs]; cbn; [reflexivity|]. rewrite IHs. reflexivity.
  - exact IH.
Qed.
Lemma slength_app a b : String.length (a ++ b) = String.length a + String.length b.
Proof. induction a; cbn; congruence. Qed.
Lemma dotless_prefix a b s r : dotless a -> a ++ s = b ++ "." ++ r -> exists s', b = a ++ s'.
Proof.
  revert b. induction a as [|c a IH]; intros b Hd E; [exists b; reflexivity|].
  cbn in Hd. destruct Hd as [Hc Hd]. destruct b as [|c' b].
  - cbn in E. injection E as -> _. congruence.
  - cbn in E. injection E as -> E. destruct (IH b Hd E) as [s' ->]. exists s'. reflexivity.
Qed.

Section With.
  Context {T : Type} {NT : Num T}.

  Lemma at_path_here (o : optic T) x : at_path o [o_name o] x -> x = o.
  Proof.
    intros H. inversion H as [|a items it p y Hit Hp E1 E2]; subst; [reflexivity|].
    exfalso. apply at_path_ne in Hp. congruence.
  Qed.
  Lemma rebuild_plain a (items items' : list (optic T)) : c_skip a = false -> (c_lens a = true -> List.length items = 2) ->
    List.length items' = List.length items -> mkCompound a items' = Ok (Compound (T:=T) a items').
  Proof.
    intros Hs Hl E. unfold mkCompound. destruct a as [l n cs mi mo sk st]; cbn in *. subst sk.
    destruct l; cbn; [|reflexivity]. rewrite E, Hl by reflexivity. reflexivity.
  Qed.
  Variables (f : optic T -> optic T) (op : optic T -> res (optic T))
            (on_self : option (optic T -> res (optic T))) (missing : exn).

  Lemma withNamed_changed o p x n : tidy o -> prefix_free o -> plain o -> at_path o p x ->
    op x = Ok (f x) -> (p = [o_name o] -> on_self = Some op) ->
    match o with
    | Iface _ => False
    | Compound a items => resolved a items n = join p
    end -> exists o', withNamed op on_self missing o n = Ok o' /\ changed f p o o'.
  Proof.
    intros Ht Hf Hp Hx Hop. revert Ht Hf Hp n. 
    induction Hx as [o|a items it q x Hit Hq IH]; intros Ht Hf Hp n Hself Hn.
    - (* the optic itself *)
      destruct o as [i|a items]; [destruct Hn|]. cbn [o_name] in *. cbn [join] in Hn.
      exists (f (Compound a items)). split; [|exact (changed_here f (Compound a items))].
      cbn [withNamed]. fold (resolved a items n). rewrite Hn.
      assert (G : dict_get (c_name a) (itemDict (Compound a items)) = Some (Compound a items)).
      { apply (itemDict_get a items _ Ht). exists [c_name a]. split; [exact (at_root (Compound a items))|reflexivity]. }
      rewrite G, (Hself eq_refl), String.eqb_refl. exact Hop.
    - inversion Ht as [|? ? Ha HN Hti]; subst. inversion Hf as [|? ? Hpf Hfi]; subst.
      inversion Hp as [|? ? Hs Hl Hpi]; subst.
      assert (Hqn : q <> []) by (eapply at_path_ne; exact Hq).
      assert (Hqd : Forall dotless q) by (eapply paths_dotless; [apply Hti, Hit|apply in_paths, Hq]).
      cbn [withNamed]. unfold resolved in Hn. rewrite Hn. rewrite join_cons by exact Hqn.
      assert (G : dict_get (dot (c_name a) (join q)) (itemDict (Compound a items)) = Some x).
      { apply (itemDict_get a items _ Ht). exists (c_name a :: q). split; [eapply at_below; eassumption|].
        rewrite join_cons by exact Hqn. reflexivity. }
      rewrite G.
      assert (Ne : String.eqb (dot (c_name a) (join q)) (c_name a) = false).
      { apply String.eqb_neq. intros E.
        assert (E' : c_name a :: q = [c_name a]).
        { apply join_inj; try discriminate; [constructor; assumption|constructor; [assumption|constructor]|].
          rewrite join_cons by exact Hqn. exact E. }
        injection E' as E'. congruence. }
      rewrite Ne.
      assert (Pr : String.prefix (c_name a ++ ".") (dot (c_name a) (join q)) = true).
      { unfold dot. rewrite <- sapp_assoc. apply prefix_app. }
      rewrite Pr. cbn [negb].
      assert (Sub : substring (String.length (c_name a) + 1)
                (String.length (dot (c_name a) (join q)) - (String.length (c_name a) + 1)) (dot (c_name a) (join q)) = join q).
      { unfold dot. rewrite <- sapp_assoc, slength_app.
        replace (String.length (c_name a) + 1) with (String.length (c_name a ++ ".")) by (rewrite slength_app; reflexivity).
        replace (String.length (c_name a ++ ".") + String.length (join q) - String.length (c_name a ++ "."))
          with (String.length (join q)) by lia.
        apply substring_skip. }
      cbv zeta. rewrite Sub.
      destruct (in_split _ _ Hit) as (l1 & l2 & El).
      assert (Hq1 : exists q', q = o_name it :: q').
      { destruct (paths_hd it q x) as [q' E']; [apply in_paths, Hq|]. exists q'; exact E'. }
      destruct Hq1 as [q' Eq'].
      assert (Hrec : exists it', (if String.eqb (join q) (o_name it) then op it
                                  else withNamed op on_self missing it (join q)) = Ok it' /\ changed f q it it').
      { destruct q' as [|m q''].
        - subst q. apply at_path_here in Hq. subst x. cbn [join]. rewrite String.eqb_refl.
          exists (f it). split; [exact Hop|apply changed_here].
        - assert (Ne2 : String.eqb (join q) (o_name it) = false).
          { apply String.eqb_neq. intros E.
            assert (E' : q = [o_name it]).
            { apply join_inj; try assumption; try discriminate.
              constructor; [|constructor]. rewrite Eq' in Hqd. inversion Hqd; assumption. }
            rewrite E' in Eq'. discriminate. }
          rewrite Ne2. apply IH.
          + exact Hop.
          + apply Hti, Hit.
          + apply Hfi, Hit.
          + apply Hpi, Hit.
          + intros E. rewrite E in Eq'. discriminate.
          + destruct it as [i|b its].
            * inversion Hq; subst; discriminate.
            * eapply (resolved_full b its); [apply Hti, Hit|exact Hq|reflexivity]. }
      destruct Hrec as (it' & Erec & Hch).
      assert (Pit : String.prefix (o_name it) (join q) = true).
      { rewrite Eq'. destruct q' as [|m q'']; [cbn [join]; rewrite <- (sapp_nil_r (o_name it)) at 2; apply prefix_app|].
        change (join (o_name it :: m :: q'')) with (o_name it ++ "." ++ join (m :: q'')). apply prefix_app. }
      assert (Pl1 : forall y, In y l1 -> String.prefix (o_name y) (join q) = false).
      { intros y Hy. destruct (String.prefix (o_name y) (join q)) eqn:E; [|reflexivity]. exfalso.
        assert (Hyi : In y items) by (rewrite El; apply in_or_app; left; exact Hy).
        apply prefix_spec in E. destruct E as [s Es].
        assert (B : exists s', o_name it = o_name y ++ s').
        { rewrite Eq' in Es. destruct q' as [|m q'']; [exists s; exact Es|].
          change (join (o_name it :: m :: q'')) with (o_name it ++ "." ++ join (m :: q'')) in Es.
          symmetry in Es. eapply dotless_prefix; [|exact Es].
          specialize (Hti y Hyi). destruct Hti; assumption. }
        destruct B as [s' B]. assert (S0 := Hpf y it s' Hyi Hit B). subst s'. rewrite sapp_nil_r in B.
        rewrite El, map_app in HN. cbn [map] in HN. apply NoDup_remove_2 in HN. apply HN.
        apply in_or_app. left. rewrite B. apply in_map, Hy. }
      exists (Compound a (l1 ++ it' :: l2)%list). split; [|rewrite El; apply changed_below, Hch].
      match goal with |- context [bind (?g items) _] => set (go := g) end.
      assert (Go : go items = Ok (l1 ++ it' :: l2)%list).
      { rewrite El. clear - Erec Pit Pl1. induction l1 as [|y l1 IHl].
        - cbn [app]. unfold go. rewrite Pit, Erec. reflexivity.
        - cbn [app]. unfold go. rewrite (Pl1 y (or_introl eq_refl)). fold go. rewrite IHl; [reflexivity|].
          intros z Hz. apply Pl1. right; exact Hz. }
      assert (Len : List.length (l1 ++ it' :: l2)%list = List.length items).
      { rewrite El, !app_length. reflexivity. }
      destruct on_self; rewrite Go; cbn [bind]; apply (rebuild_plain a items); assumption.
  Qed.
  Lemma withNamed_unknown o n :
    match o with Iface _ => False | Compound a items => dict_get (resolved a items n) (itemDict o) = None end ->
    withNamed op on_self missing o n = Err ValueError.
  Proof.
    destruct o as [i|a items]; [intros []|]. intros G. cbn [withNamed]. unfold resolved in G. rewrite G. reflexivity.
  Qed.
End With.

Section Edits.
  Context {T : Type} {NT : Num T}.
  Variables (a : cattr T) (items : list (optic T)).
  Let o : optic T := Compound a items.
  Hypothesis Ht : tidy o.
  Lemma unknown_none n : (forall p x, at_path o p x -> ~ denotes o n p) -> dict_get (resolved a items n) (itemDict o) = None.
  Proof.
    intros H. destruct (dict_get (resolved a items n) (itemDict o)) as [x|] eqn:G; [|reflexivity].
    apply (resolved_get a items Ht) in G. destruct G as (p & Hp & D). exfalso. eapply H; eassumption.
  Qed.
  Lemma edits_unknown n : (forall p x, at_path o p x -> ~ denotes o n p) ->
    (forall d, withGloballyShiftedOptic o n d = Err ValueError) /\
    (forall d, withLocallyShiftedOptic o n d = Err ValueError) /\
    (forall r c k, withLocallyRotatedOptic o n r c k = Err ValueError) /\
    (forall s, withSurface o n s = Err ValueError) /\
    (forall s, withPerturbedSurface o n s = Err KeyError).
  Proof.
    intros H. assert (G := unknown_none n H).
    split; [|split; [|split; [|split]]].
    - intros d. apply withNamed_unknown. exact G.
    - intros d. unfold withLocallyShiftedOptic. unfold resolved in G. fold o in G. rewrite G. reflexivity.
    - intros r c k. unfold withLocallyRotatedOptic. unfold resolved in G. fold o in G. rewrite G. reflexivity.
    - intros s. apply withNamed_unknown. exact G.
    - intros s. unfold withPerturbedSurface. unfold resolved in G. fold o in G. rewrite G. reflexivity.
  Qed.
  Hypothesis Hf : prefix_free o.
  Hypothesis Hp : plain o.
  Variables (n : string) (p : list string) (x : optic T).
  Hypothesis Hx : at_path o p x.
  Hypothesis Hn : denotes o n p.
  Lemma resolves : resolved a items n = join p.
  Proof. apply (resolved_spec a items Ht n p x Hx), Hn. Qed.
  Lemma full_resolves : resolved a items (join p) = join p.
  Proof. eapply (resolved_full a items Ht); [exact Hx|reflexivity]. Qed.
  Lemma found : dict_get (resolved a items n) (itemDict o) = Some x.
  Proof. rewrite resolves. apply (itemDict_get a items _ Ht). eauto. Qed.
  Lemma edit_global_shift d : exists o', withGloballyShiftedOptic o n d = Ok o' /\ changed (withGlobalShift d) p o o'.
  Proof.
    unfold withGloballyShiftedOptic. apply withNamed_changed with (x := x); auto. exact resolves.
  Qed.
  Lemma edit_local_shift d : exists o', withLocallyShiftedOptic o n d = Ok o' /\ changed (withLocalShift d) p o o'.
  Proof.
    unfold withLocallyShiftedOptic. assert (F := found). assert (R := resolves). unfold resolved in F, R. fold o in F, R.
    rewrite F. rewrite R. unfold withGloballyShiftedOptic.
    apply withNamed_changed with (x := x); auto. exact full_resolves.
  Qed.
  Lemma edit_local_rotation r c k : exists o', withLocallyRotatedOptic o n r c k = Ok o' /\
    changed (withLocalRotation r c k) p o o'.
  Proof.
    unfold withLocallyRotatedOptic. assert (F := found). unfold resolved in F. fold o in F.
    rewrite F. apply withNamed_changed with (x := x); auto; [|exact resolves].
    f_equal. destruct k as [k|]; [reflexivity|]. destruct x; reflexivity.
  Qed.
  Definition resurface (s : surface T) (it : optic T) : optic T :=
    match it with Iface i => Iface (i_withSurface s i) | c => c end.
  Lemma not_root i : x = Iface i -> p <> [o_name o].
  Proof. intros E H. rewrite H in Hx. apply at_path_here in Hx. unfold o in Hx. congruence. Qed.
  Lemma edit_surface s i : x = Iface i -> exists o', withSurface o n s = Ok o' /\
    changed (resurface s) p o o'.
  Proof.
    intros E. unfold withSurface. apply withNamed_changed with (x := x); auto.
    - rewrite E. reflexivity.
    - intros H. exfalso. apply (not_root i E H).
    - exact resolves.
  Qed.
End Edits.
Section Perturb.
  Context {T : Type} {NT : Num T}.
  Variables (a : cattr T) (items : list (optic T)).
  Let o : optic T := Compound a items.
  Lemma edit_perturb n p i s : tidy o -> prefix_free o -> plain o -> at_path o p (Iface i) -> denotes o n p ->
    exists o', withPerturbedSurface o n s = Ok o' /\ changed (resurface (Sum [i_surf i; s])) p o o'.
  Proof.
    intros Ht Hf Hp Hx Hn. unfold withPerturbedSurface.
    assert (F := found a items Ht n p _ Hx Hn). assert (R := resolves a items Ht n p _ Hx Hn).
    unfold resolved in F, R. fold o in F, R. rewrite F, R.
    apply (edit_surface a items Ht Hf Hp (join p) p (Iface i) Hx (or_introl eq_refl)) with (i := i). reflexivity.
  Qed.
End Perturb.

Section Shape.
  Context {T : Type} {NT : Num T}.
  Lemma reshape s (i : iface T) : bare (resurface s (Iface i)) = bare (Iface (with_shape s i)) /\
    (i_built i -> resurface s (Iface i) = Iface (with_shape s i)).
  Proof.
    split.
    - destruct i as [k su n cs ob mi mo fw rv sk]. unfold resurface, i_withSurface, i_rebuild, mkIface, with_shape.
      destruct k; reflexivity.
    - intros (k & su & n & cs & ob & mi & mo & fw & rv & sk & ->).
      unfold resurface, i_withSurface, i_rebuild, mkIface, with_shape. destruct k; reflexivity.
  Qed.
  Variables (a : cattr T) (items : list (optic T)).
  Let o : optic T := Compound a items.
  Lemma edit_shape n p i s : tidy o -> prefix_free o -> plain o -> at_path o p (Iface i) -> denotes o n p ->
    exists o' f, withSurface o n s = Ok o' /\ changed f p o o' /\
      bare (f (Iface i)) = bare (Iface (with_shape s i)) /\ (i_built i -> f (Iface i) = Iface (with_shape s i)).
  Proof.
    intros Ht Hf Hp Hx Hn. destruct (edit_surface a items Ht Hf Hp n p _ Hx Hn s i eq_refl) as (o' & E & C).
    exists o', (resurface s). split; [exact E|]. split; [exact C|]. apply reshape.
  Qed.
  Lemma edit_perturbation n p i s : tidy o -> prefix_free o -> plain o -> at_path o p (Iface i) -> denotes o n p ->
    exists o' f, withPerturbedSurface o n s = Ok o' /\ changed f p o o' /\
      bare (f (Iface i)) = bare (Iface (with_shape (Sum [i_surf i; s]) i)) /\
      (i_built i -> f (Iface i) = Iface (with_shape (Sum [i_surf i; s]) i)).
  Proof.
    intros Ht Hf Hp Hx Hn. destruct (edit_perturb a items n p i s Ht Hf Hp Hx Hn) as (o' & E & C).
    exists o', (resurface (Sum [i_surf i; s])). split; [exact E|]. split; [exact C|]. apply reshape.
  Qed.
  Lemma by_full_name p x : tidy o -> at_path o p x -> getitem o (join p) = Ok x.
  Proof. intros Ht Hx. apply (lookup a items Ht). exists p. split; [exact Hx|left; reflexivity]. Qed.
End Shape.
