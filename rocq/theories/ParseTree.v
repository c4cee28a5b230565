(** Proofs about parse.py: nested descriptions. *)
From Coq Require Import Reals String Ascii List ZArith Bool Lia Arith.
From Verif Require Import Num NumR Vec CoordSys Surface Medium Obscuration Trig Optic PyObj Parse Spec ParseSpec ParseProofs.
Import ListNotations.
Local Open Scope list_scope.
Local Open Scope string_scope.
Local Open Scope nat_scope.
Local Open Scope list_scope.
Local Open Scope string_scope.

(** ** Names *)
Lemma prefix_S a s b t : String.prefix (String a s) (String b t) = if ascii_dec a b then String.prefix s t else false.
Proof. reflexivity. Qed.
Lemma clear_prefix t : String.prefix "Clear" t = true <-> exists X, t = "Clear" ++ X.
Proof.
  split.
  - intros H. do 5 (destruct t as [|? t]; [discriminate|]; rewrite prefix_S in H;
      match type of H with (if ascii_dec ?a ?b then _ else _) = _ => destruct (ascii_dec a b) as [<- |]; [|discriminate] end).
    exists t. reflexivity.
  - intros (X & ->). destruct X; reflexivity.
Qed.
Lemma prefix_clear X : String.prefix "Clear" ("Clear" ++ X) = true.
Proof. destruct X; reflexivity. Qed.
Fixpoint has_obsc (s : string) : bool :=
  String.prefix "Obsc" s || match s with String _ s => has_obsc s | EmptyString => false end.
Lemma replace_id X : has_obsc (replace_clear 0 X) = false -> replace_clear 0 X = X.
Proof.
  induction X as [|c X IH]; [reflexivity|]. cbn [replace_clear].
  destruct (String.prefix "Clear" (String c X)).
  - intros H. destruct (replace_clear 4 X); discriminate.
  - cbn [has_obsc]. intros H. apply orb_false_iff in H as [_ H]. rewrite IH by exact H. reflexivity.
Qed.
Lemma replace_head X : replace_clear 0 ("Clear" ++ X) = "Obsc" ++ replace_clear 0 X.
Proof. destruct X; reflexivity. Qed.
Lemma replace_shape X : In (replace_clear 0 X) shapes -> replace_clear 0 X = X.
Proof.
  intros H. apply replace_id.
  cbn in H. repeat (destruct H as [H | H]; [rewrite <- H; reflexivity|]). destruct H.
Qed.
Lemma shape_replace X : In X shapes -> replace_clear 0 X = X.
Proof. intros H. cbn in H. repeat (destruct H as [<- | H]; [reflexivity|]). destruct H. Qed.
Lemma obsc_inj (X Y : string) : "Obsc" ++ X = "Obsc" ++ Y -> X = Y.
Proof. intros H. injection H. auto. Qed.

Lemma do_err {A B} (r : res A) (k : A -> res B) e :
  (do x <- r; k x) = Err e <-> r = Err e \/ exists a, r = Ok a /\ k a = Err e.
Proof.
  destruct r as [a|e']; cbn; split.
  - intros H. right. exists a. auto.
  - intros [H | (a' & H & H')]; congruence.
  - intros H. left. congruence.
  - intros [H | (a' & H & _)]; [congruence | discriminate].
Qed.
Lemma mapM_err {A B} (f : A -> res B) l e : mapM f l = Err e -> exists a, In a l /\ f a = Err e.
Proof.
  induction l as [|a l IH]; cbn [mapM]; [discriminate|]. intros H.
  apply do_err in H as [H | (b & Hb & H)]; [exists a; split; [left; reflexivity | exact H]|].
  apply do_err in H as [H | (m & _ & H)]; [|discriminate]. destruct (IH H) as (c & Hc & E).
  exists c. split; [right; exact Hc | exact E].
Qed.
Lemma need_err {A} e e' (o : option A) : need e o = Err e' -> e' = e.
Proof. destruct o; cbn; congruence. Qed.

Section Tree.
  Context {T : Type} {NT : Num T} {TT : Trig T}.
  Context (rep : pobsc T -> string).
  Implicit Types l d : dict T.

  (** ** Dictionaries up to order *)
  Definition same l l' : Prop := (forall k, lookup k l = lookup k l') /\ (forall ks, keys l ks <-> keys l' ks).
  Lemma lookup_retype t l k : lookup k (retype t l) =
    if (k =? "type")%string then match lookup "type" l with Some _ => Some (YStr t) | None => None end else lookup k l.
  Proof.
    induction l as [|[k' v] l IH]; [destruct (k =? "type")%string; reflexivity|]. cbn [retype map fst].
    destruct (String.eqb_spec k' "type") as [->|N]; cbn [lookup].
    - cbn [lookup String.eqb Ascii.eqb Bool.eqb]. destruct (k =? "type")%string eqn:E; [reflexivity|]. exact IH.
    - fold (retype t l). rewrite IH. clear IH. destruct (String.eqb_spec k "type") as [E | N'].
      + rewrite E. destruct (String.eqb_spec "type" k'); [congruence | reflexivity].
      + reflexivity.
  Qed.
  Lemma without_retype t l : without "type" (retype t l) = without "type" l.
  Proof.
    induction l as [|[k' v] l IH]; [reflexivity|]. cbn [retype map fst].
    destruct (String.eqb_spec k' "type") as [->|N]; cbn [without].
    - exact IH.
    - fold (retype t l). rewrite IH. reflexivity.
  Qed.
  Lemma lookup_app k l l' : lookup k (l ++ l')%list = match lookup k l with Some v => Some v | None => lookup k l' end.
  Proof. induction l as [|[k' v] l IH]; [reflexivity|]. cbn. destruct (k =? k')%string; [reflexivity | exact IH]. Qed.
  Lemma lookup_self k l : lookup k (without k l) = None.
  Proof.
    induction l as [|[k' v] l IH]; [reflexivity|]. cbn. destruct (k =? k')%string eqn:E; [exact IH|].
    cbn. rewrite E. exact IH.
  Qed.
  Lemma without_none k l : lookup k l = None -> without k l = l.
  Proof.
    induction l as [|[k' v] l IH]; [reflexivity|]. cbn. destruct (k =? k')%string; [discriminate|].
    intros H. rewrite IH by exact H. reflexivity.
  Qed.
  Lemma without_app k l l' : without k (l ++ l')%list = (without k l ++ without k l')%list.
  Proof. induction l as [|[k' v] l IH]; [reflexivity|]. cbn. destruct (k =? k')%string; [exact IH|]. cbn. rewrite IH. reflexivity. Qed.
  Lemma pop_put t l : pop "type" (put "type" (YStr t) (without "type" l)) = Some (YStr t, without "type" l).
  Proof.
    apply pop_ok. unfold put. rewrite lookup_app, lookup_self, without_app. cbn.
    rewrite app_nil_r. split; [reflexivity|]. symmetry. apply without_none, lookup_self.
  Qed.
  Lemma pop_retype t t' l : typed l t' -> pop "type" (retype t l) = Some (YStr t, without "type" l).
  Proof.
    intros H. apply pop_ok. rewrite lookup_retype, H, without_retype. auto.
  Qed.
  Lemma parse_obsc_pop f l l' : pop "type" l = pop "type" l' -> parse_obsc rep f l = parse_obsc rep f l'.
  Proof. intros H. destruct f; [reflexivity|]. cbn [parse_obsc]. rewrite H. reflexivity. Qed.
  Lemma parse_put_retype f l t t' : typed l t ->
    parse_obsc rep f (put "type" (YStr t') (without "type" l)) = parse_obsc rep f (retype t' l).
  Proof. intros H. apply parse_obsc_pop. rewrite pop_put, (pop_retype t' t l H). reflexivity. Qed.

  (** ** Sizes *)
  Lemma size_lookup k l c : lookup k l = Some c -> S (ysize c) <= ysize (YMap l).
  Proof.
    cbn [ysize]. induction l as [|[k' v] l IH]; [discriminate|]. cbn. destruct (k =? k')%string.
    - intros H. injection H as ->. lia.
    - intros H. specialize (IH H). unfold list_sum in *. lia.
  Qed.
  Lemma size_item (c : yaml T) cs : In c cs -> S (ysize c) <= ysize (YSeq cs).
  Proof.
    cbn [ysize]. induction cs as [|c' cs IH]; intros H; [destruct H|]. destruct H as [-> | H]; cbn; [lia|].
    specialize (IH H). unfold list_sum in *. lia.
  Qed.
  Lemma ysize_pos (c : yaml T) : 1 <= ysize c.
  Proof. destruct c; cbn; lia. Qed.
  Lemma size_retype t l : ysize (YMap (retype t l)) <= ysize (YMap l).
  Proof.
    cbn [ysize]. induction l as [|[k v] l IH]; [cbn; lia|]. cbn [retype map fst].
    destruct (k =? "type")%string; cbn in *; fold (retype t l); pose proof (ysize_pos v); unfold list_sum in *; cbn in *; lia.
  Qed.

  (** ** Obscurations *)
  Definition is_clear l : bool :=
    match lookup "type" l with Some (YStr t) => String.prefix "Clear" t | _ => false end.
  Definition fuel_for l : nat := 2 * ysize (YMap l) - (if is_clear l then 0 else 1).
  Lemma fuel_for_le l : fuel_for l <= 2 * ysize (YMap l).
  Proof. unfold fuel_for. destruct (is_clear l); lia. Qed.

  Definition obsc_step (fuel : nat) (typ : string) l : res (pobsc T) :=
    if known_in typ obsc_names then simple_obsc typ l
    else if typ =? "ObscNegation" then
      do c <- need KeyError (lookup "original" l);
      do d <- as_dict c;
      do o <- parse_obsc rep fuel d;
      Ok (PyNegation o)
    else if known_in typ ["ObscUnion"; "ObscIntersection"] then
      do c <- need KeyError (lookup "items" l);
      do cs <- as_seq c;
      do items <- mapM (fun c => do d <- as_dict c; parse_obsc rep fuel d) cs;
      Ok (if typ =? "ObscUnion" then mk_union rep items else mk_intersection rep items)
    else if String.prefix "Clear" typ then
      do o <- parse_obsc rep fuel (put "type" (YStr (replace_clear 0 typ)) l);
      Ok (PyNegation o)
    else Err ValueError.
  Lemma parse_obsc_S f l o : parse_obsc rep (S f) l = Ok o <->
    exists t, typed l t /\ obsc_step f t (without "type" l) = Ok o.
  Proof. exact (start_ok l _ (obsc_step f) o (fun _ _ => eq_refl)). Qed.

  Lemma says_type l o : obsc_says rep l o -> exists X, In X shapes /\ (typed l ("Obsc" ++ X) \/ typed l ("Clear" ++ X)).
  Proof.
    intros H. inversion H as [? t ? Ht Hp | ? d ? Ht | ? ? ? Ht | ? ? ? Ht | ? X ? Ht HX]; subst.
    - inversion Hp; subst; [exists "Circle" | exists "Annulus" | exists "Ray" | exists "Rectangle" | exists "Polygon"];
        (split; [cbn; tauto | left; exact Ht]).
    - exists "Negation". split; [cbn; tauto | left; exact Ht].
    - exists "Union". split; [cbn; tauto | left; exact Ht].
    - exists "Intersection". split; [cbn; tauto | left; exact Ht].
    - exists X. split; [exact HX | right; exact Ht].
  Qed.

  Lemma parse_obsc_sound f : forall l o, parse_obsc rep f l = Ok o -> obsc_says rep l o.
  Proof.
    induction f as [|f IH]; [discriminate|]. intros l o H. apply parse_obsc_S in H as (t & Ht & H).
    unfold obsc_step in H. destruct (known_in t obsc_names) eqn:E1.
    { apply known_in_ok in E1. apply simple_obsc_ok in H; [|exact E1]. econstructor; eassumption. }
    destruct (String.eqb_spec t "ObscNegation") as [->|].
    { apply do_ok in H as (c & Hc & H). apply need_ok in Hc. rewrite lookup_without in Hc by discriminate.
      apply do_ok in H as (d & Hd & H). apply as_dict_ok in Hd as ->.
      apply do_ok in H as (o' & Ho & H). injection H as <-. eapply os_negation; eauto. }
    destruct (known_in t ["ObscUnion"; "ObscIntersection"]) eqn:E2.
    { apply do_ok in H as (c & Hc & H). apply need_ok in Hc. rewrite lookup_without in Hc by discriminate.
      apply do_ok in H as (cs & Hs & H). apply as_seq_ok in Hs as ->.
      apply do_ok in H as (os & Ho & H). apply mapM_ok in Ho.
      assert (Hi : obscs_say rep cs os).
      { clear - IH Ho. induction Ho as [|c o cs os H Ho IHo]; constructor || idtac.
        apply do_ok in H as (d & Hd & H). apply as_dict_ok in Hd as ->. constructor; [apply IH, H | exact IHo]. }
      injection H as <-. apply known_in_ok in E2. destruct E2 as [<- | [<- | []]]; cbn [String.eqb Ascii.eqb Bool.eqb].
      - eapply os_union; eassumption.
      - eapply os_intersection; eassumption. }
    destruct (String.prefix "Clear" t) eqn:E3; [|discriminate].
    apply clear_prefix in E3 as (X & ->). apply do_ok in H as (o' & H & E). injection E as <-.
    rewrite replace_head, (parse_put_retype f l _ _ Ht) in H. apply IH in H. 
    destruct (says_type _ _ H) as (Y & HY & [E | E]); unfold typed in E; rewrite lookup_retype, Ht in E; cbn in E;
      injection E as E; [|discriminate].
    assert (EX : replace_clear 0 X = X) by (apply replace_shape; rewrite E; exact HY).
    apply (os_clear rep l X); [exact Ht | rewrite <- EX, E; exact HY | rewrite <- EX at 1; exact H].
  Qed.

  Scheme obsc_says_mut := Minimality for obsc_says Sort Prop
    with obscs_say_mut := Minimality for obscs_say Sort Prop.

  Lemma typed_clear l t : typed l t -> is_clear l = String.prefix "Clear" t.
  Proof. intros H. unfold is_clear. rewrite H. reflexivity. Qed.
  Lemma parse_obsc_complete l o : obsc_says rep l o -> forall f, fuel_for l <= f -> parse_obsc rep f l = Ok o.
  Proof.
    intros H0.
    refine (obsc_says_mut T NT rep (fun l o => forall f, fuel_for l <= f -> parse_obsc rep f l = Ok o)
      (fun ds os => forall f, 2 * list_sum (map ysize ds) <= f ->
                      Forall2 (fun c o => (do d <- as_dict c; parse_obsc rep f d) = Ok o) ds os) _ _ _ _ _ _ _ l o H0);
      clear l o H0.
    - intros l t o Ht Hp f Hf. pose proof (size_lookup _ _ _ Ht). cbn [ysize] in H.
      destruct f as [|f]; [exfalso; unfold fuel_for in Hf; destruct (is_clear l); cbn [ysize] in Hf; lia|].
      apply parse_obsc_S. exists t. split; [exact Ht|].
      assert (Hn : In t obsc_names) by (inversion Hp; subst; cbn; tauto).
      unfold obsc_step. rewrite (proj2 (known_in_ok t obsc_names) Hn). apply simple_obsc_ok; assumption.
    - intros l d o Ht Hd _ IH f Hf. unfold fuel_for in Hf. rewrite (typed_clear _ _ Ht) in Hf.
      change (String.prefix "Clear" "ObscNegation") with false in Hf. pose proof (size_lookup _ _ _ Hd).
      destruct f as [|f]; [lia|]. apply parse_obsc_S. eexists. split; [exact Ht|].
      unfold obsc_step. cbn [known_in existsb obsc_names String.eqb Ascii.eqb Bool.eqb orb].
      rewrite lookup_without by discriminate. rewrite Hd. cbn [need bind as_dict]. rewrite IH; [reflexivity|].
      pose proof (fuel_for_le d). lia.
    - intros l ds os Ht Hd _ IH f Hf. unfold fuel_for in Hf. rewrite (typed_clear _ _ Ht) in Hf.
      change (String.prefix "Clear" "ObscUnion") with false in Hf. pose proof (size_lookup _ _ _ Hd) as Hs. cbn [ysize] in Hs, Hf.
      destruct f as [|f]; [lia|]. apply parse_obsc_S. eexists. split; [exact Ht|].
      unfold obsc_step. cbn [known_in existsb obsc_names String.eqb Ascii.eqb Bool.eqb orb].
      rewrite lookup_without by discriminate. rewrite Hd. cbn [need bind as_seq].
      apply do_ok. exists os. split; [apply mapM_ok, IH; lia | reflexivity].
    - intros l ds os Ht Hd _ IH f Hf. unfold fuel_for in Hf. rewrite (typed_clear _ _ Ht) in Hf.
      change (String.prefix "Clear" "ObscIntersection") with false in Hf. pose proof (size_lookup _ _ _ Hd) as Hs. cbn [ysize] in Hs, Hf.
      destruct f as [|f]; [lia|]. apply parse_obsc_S. eexists. split; [exact Ht|].
      unfold obsc_step. cbn [known_in existsb obsc_names String.eqb Ascii.eqb Bool.eqb orb].
      rewrite lookup_without by discriminate. rewrite Hd. cbn [need bind as_seq].
      apply do_ok. exists os. split; [apply mapM_ok, IH; lia | reflexivity].
    - intros l X o Ht HX _ IH f Hf. unfold fuel_for in Hf. rewrite (typed_clear _ _ Ht) in Hf.
      rewrite prefix_clear in Hf.
      pose proof (ysize_pos (YMap l)).
      destruct f as [|f]; [lia|]. apply parse_obsc_S. eexists. split; [exact Ht|].
      unfold obsc_step.
      assert (E : known_in ("Clear" ++ X) obsc_names = false) by reflexivity. rewrite E.
      change (("Clear" ++ X) =? "ObscNegation")%string with false. cbn iota.
      assert (E2 : known_in ("Clear" ++ X) ["ObscUnion"; "ObscIntersection"] = false) by reflexivity. rewrite E2.
      rewrite prefix_clear.
      rewrite replace_head, (shape_replace X HX), (parse_put_retype f l _ _ Ht), IH; [reflexivity|].
      unfold fuel_for. pose proof (size_retype ("Obsc" ++ X) l).
      assert (E3 : is_clear (retype ("Obsc" ++ X) l) = false).
      { unfold is_clear. rewrite lookup_retype, Ht. reflexivity. }
      rewrite E3. lia.
    - intros f _. constructor.
    - intros d ds o os _ IH _ IHs f Hf. cbn in Hf. constructor.
      + cbn [as_dict bind]. apply IH. pose proof (fuel_for_le d). cbn [ysize] in H. lia.
      + apply IHs. unfold list_sum in *. lia.
  Qed.
  Theorem parse_obscuration_says l o : parse_obscuration rep l = Ok o <-> obsc_says rep l o.
  Proof.
    split; [apply parse_obsc_sound|]. intros H. apply parse_obsc_complete; [exact H | apply fuel_for_le].
  Qed.

  (** ** Surfaces *)
  Definition surf_step (fuel : nat) (typ : string) l : res (psurf T) :=
    if typ =? "Sum" then
      do c <- need KeyError (lookup "items" l);
      do cs <- as_seq c;
      do items <- mapM (fun c => do d <- as_dict c; parse_surf fuel d) cs;
      Ok (PySum items)
    else if known_in typ surf_names then simple_surf typ l
    else if unmodelled_name typ then Err TypeError
    else Err AttributeError.
  Lemma parse_surf_S f l s : parse_surf (S f) l = Ok s <->
    exists t, typed l t /\ surf_step f t (without "type" l) = Ok s.
  Proof. exact (start_ok l _ (surf_step f) s (fun _ _ => eq_refl)). Qed.
  Lemma parse_surf_sound f : forall l s, parse_surf f l = Ok s -> surf_says l s.
  Proof.
    induction f as [|f IH]; [discriminate|]. intros l s H. apply parse_surf_S in H as (t & Ht & H).
    unfold surf_step in H. destruct (String.eqb_spec t "Sum") as [->|].
    { apply do_ok in H as (c & Hc & H). apply need_ok in Hc. rewrite lookup_without in Hc by discriminate.
      apply do_ok in H as (cs & Hs & H). apply as_seq_ok in Hs as ->.
      apply do_ok in H as (os & Ho & H). apply mapM_ok in Ho. injection H as <-.
      eapply ss_sum; [exact Ht | exact Hc|]. clear - IH Ho.
      induction Ho as [|c o cs os H Ho IHo]; constructor || idtac.
      apply do_ok in H as (d & Hd & H). apply as_dict_ok in Hd as ->. constructor; [apply IH, H | exact IHo]. }
    destruct (known_in t surf_names) eqn:E1; [|destruct (unmodelled_name t); discriminate].
    apply known_in_ok in E1. apply simple_surf_ok in H; [|exact E1]. econstructor; eassumption.
  Qed.
  Scheme surf_says_mut := Minimality for surf_says Sort Prop
    with surfs_say_mut := Minimality for surfs_say Sort Prop.
  Lemma parse_surf_complete l s : surf_says l s -> forall f, ysize (YMap l) <= f -> parse_surf f l = Ok s.
  Proof.
    intros H0.
    refine (surf_says_mut T NT (fun l s => forall f, ysize (YMap l) <= f -> parse_surf f l = Ok s)
      (fun ds os => forall f, list_sum (map ysize ds) <= f ->
                      Forall2 (fun c o => (do d <- as_dict c; parse_surf f d) = Ok o) ds os) _ _ _ _ l s H0);
      clear l s H0.
    - intros l t s Ht Hp f Hf. destruct f as [|f]; [cbn [ysize] in Hf; lia|].
      apply parse_surf_S. exists t. split; [exact Ht|].
      assert (Hn : In t surf_names) by (inversion Hp; subst; cbn; tauto).
      assert (N : (t =? "Sum")%string = false) by (inversion Hp; subst; reflexivity).
      unfold surf_step. rewrite N, (proj2 (known_in_ok t surf_names) Hn). apply simple_surf_ok; assumption.
    - intros l ds os Ht Hd _ IH f Hf. pose proof (size_lookup _ _ _ Hd) as Hs. cbn [ysize] in Hs, Hf.
      destruct f as [|f]; [lia|]. apply parse_surf_S. eexists. split; [exact Ht|].
      unfold surf_step. cbn [String.eqb Ascii.eqb Bool.eqb].
      rewrite lookup_without by discriminate. rewrite Hd. cbn [need bind as_seq].
      apply do_ok. exists os. split; [apply mapM_ok, IH; lia | reflexivity].
    - intros f _. constructor.
    - intros d ds o os _ IH _ IHs f Hf. cbn in Hf. constructor.
      + cbn [as_dict bind]. apply IH. cbn [ysize]. unfold list_sum in *. lia.
      + apply IHs. unfold list_sum in *. lia.
  Qed.
  Theorem parse_surface_says l s : parse_surface l = Ok s <-> surf_says l s.
  Proof. split; [apply parse_surf_sound|]. intros H. apply parse_surf_complete; [exact H | lia]. Qed.

  (** ** Optics *)
  Context (galsim : list T -> T -> T -> list T * list T * list T * nat * nat).
  Lemma surface_at_ok k l s : surface_at galsim k l = Ok s <-> surface_says galsim l k s.
  Proof.
    unfold surface_at, surface_says. split.
    - intros H. apply do_ok in H as (c & Hc & H). apply need_ok in Hc.
      apply do_ok in H as (d & Hd & H). apply as_dict_ok in Hd as ->.
      apply do_ok in H as (p & Hp & H). apply parse_surface_says in Hp. apply need_ok in H. eauto.
    - intros (d & p & Hc & Hp & H). rewrite Hc. cbn [need bind as_dict]. apply do_ok. exists p.
      split; [apply parse_surface_says, Hp | apply need_ok, H].
  Qed.
  Lemma mask_ok l m : (match lookup "obscuration" l with
      | Some c => do d <- as_dict c; do o <- parse_obscuration rep d; Ok (Some (build_obsc o))
      | None => Ok None end) = Ok m <-> mask_says rep l m.
  Proof.
    unfold mask_says. destruct (lookup "obscuration" l) as [c|].
    - rewrite do_ok. split.
      + intros (d & Hd & H). apply as_dict_ok in Hd as ->. apply do_ok in H as (o & Ho & H).
        apply parse_obscuration_says in Ho. injection H as <-. right. eauto.
      + intros [[H _] | (d & p & H & Hp & ->)]; [discriminate|]. injection H as ->. exists d. split; [reflexivity|].
        apply do_ok. exists p. split; [apply parse_obscuration_says, Hp | reflexivity].
    - split.
      + intros H. injection H as <-. auto.
      + intros [[_ ->] | (d & p & H & _)]; [reflexivity | discriminate].
  Qed.
  Lemma name_ok l s : (match lookup "name" l with Some c => as_str c | None => Ok "" end) = Ok s <-> name_says l s.
  Proof.
    unfold name_says. destruct (lookup "name" l) as [c|].
    - rewrite as_str_ok. split; [intros ->; auto|]. intros [[H _] | H]; [discriminate | injection H; auto].
    - split; [intros H; injection H as <-; auto|]. intros [[_ ->] | H]; [reflexivity | discriminate].
  Qed.
  Lemma frame_ok l cs c : (match lookup "coordSys" l with
      | Some c => do d <- as_dict c; parse_coordSys d cs
      | None => Ok cs end) = Ok c <-> frame_says l cs c.
  Proof.
    unfold frame_says. destruct (lookup "coordSys" l) as [c'|].
    - rewrite do_ok. split.
      + intros (d & Hd & H). apply as_dict_ok in Hd as ->. eauto.
      + intros [[H _] | (d & H & Hp)]; [discriminate|]. injection H as ->. exists d. auto.
    - split; [intros H; injection H as <-; auto|]. intros [[_ ->] | (d & H & _)]; [reflexivity | discriminate].
  Qed.
  Lemma in_ok l i m : (match lookup "inMedium" l with
      | Some c => do m <- parse_medium c; need TypeError m
      | None => Ok i end) = Ok m <-> in_says l i m.
  Proof.
    unfold in_says. destruct (lookup "inMedium" l) as [c|].
    - rewrite do_ok. split.
      + intros (m' & Hm & H). apply need_ok in H as ->. apply parse_medium_ok in Hm. eauto.
      + intros [[H _] | (c' & H & Hm)]; [discriminate|]. injection H as ->. exists (Some m).
        split; [apply parse_medium_ok, Hm | reflexivity].
    - split; [intros H; injection H as <-; auto|]. intros [[_ ->] | (d & H & _)]; [reflexivity | discriminate].
  Qed.
  Lemma out_ok l o i m :
    (exists x, match lookup "outMedium" l with Some c => parse_medium c | None => Ok o end = Ok x /\
               m = match x with Some m => m | None => i end) <-> out_says l o i m.
  Proof.
    unfold out_says. destruct (lookup "outMedium" l) as [c|].
    - split.
      + intros ([m'|] & H & ->); [left; apply parse_medium_ok in H; eauto|].
        apply parse_medium_none in H as ->. auto.
      + intros [(c' & H & Hm) | [[H ->] | [H _]]]; [|injection H as ->|discriminate].
        * injection H as ->. exists (Some m). split; [apply parse_medium_ok, Hm | reflexivity].
        * exists None. split; [apply parse_medium_none; reflexivity | reflexivity].
    - split.
      + intros (x & H & ->). injection H as <-. auto.
      + intros [(c' & H & _) | [[H _] | [_ ->]]]; [discriminate | discriminate|]. eauto.
  Qed.
  Lemma kind_ok l t k : In t iface_names -> (iface_kind galsim t l = Ok k <-> kind_says galsim l t k).
  Proof.
    intros Ht. cbn in Ht. destruct Ht as [<- | [<- | [<- | [<- | [<- | []]]]]]; unfold iface_kind; cbn [String.eqb Ascii.eqb Bool.eqb].
    - split; [intros H; injection H as <-; constructor | intros H; inversion H; reflexivity].
    - split; [intros H; injection H as <-; constructor | intros H; inversion H; reflexivity].
    - rewrite do_ok. split.
      + intros (s & Hs & H). injection H as <-. constructor. apply surface_at_ok, Hs.
      + intros H. inversion H; subst. exists s. split; [apply surface_at_ok; assumption | reflexivity].
    - split; [intros H; injection H as <-; constructor | intros H; inversion H; reflexivity].
    - split; [intros H; injection H as <-; constructor | intros H; inversion H; reflexivity].
  Qed.
  Lemma kind_name l t k : kind_says galsim l t k -> In t iface_names.
  Proof. intros H; inversion H; subst; cbn; tauto. Qed.

  Definition opt_step (fuel : nat) (typ : string) l (ob : option (obsc T)) (name : string) (cs : coordsys T)
      (inM outM : medium T) (stop : option (iface T)) : res (optic T) :=
    let sub inM outM c := do d <- as_dict c; parse_opt rep galsim fuel d cs inM (Some outM) in
    if known_in typ iface_names then
      do s <- surface_at galsim "surface" l;
      do k <- iface_kind galsim typ l;
      if (typ =? "OPDScreen") && negb (med_eq inM outM) then Err AssertionError
      else Ok (Iface (mkIface k s name cs ob inM outM None None false))
    else if typ =? "Lens" then
      do c <- need KeyError (lookup "medium" l);
      do m <- parse_medium c;
      do m <- need TypeError m;
      do c <- need KeyError (lookup "items" l);
      do items <- as_seq c;
      do c0 <- need IndexError (nth_error items 0);
      do i0 <- sub inM m c0;
      do c1 <- need IndexError (nth_error items 1);
      do i1 <- sub m outM c1;
      if med_eq (o_out i0) (o_in i1)
      then mkCompound (CA true name cs inM outM false stop) [i0; i1]
      else Err AssertionError
    else if typ =? "CompoundOptic" then
      do c <- need KeyError (lookup "items" l);
      do items <- as_seq c;
      do items <- mapM (sub inM outM) items;
      mkCompound (CA false name cs inM outM false stop) items
    else if typ =? "Interface" then
      do s <- surface_at galsim "surface" l;
      Ok (Iface (mkIface KInterface s name cs None vacuum vacuum None None false))
    else Err ValueError.
  Definition stop_step fuel l : res (option (iface T)) :=
    match lookup "stopSurface" l with
    | Some c => do d <- as_dict c;
                do o <- parse_opt rep galsim fuel d cs_default vacuum None;
                match o with Iface i => Ok (Some i) | Compound _ _ => Err TypeError end
    | None => Ok None
    end.
  Lemma parse_opt_S f l cs i o x : parse_opt rep galsim (S f) l cs i o = Ok x <->
    exists m n c i' o' st t, mask_says rep l m /\ name_says l n /\ frame_says l cs c /\ in_says l i i' /\
      out_says l o i' o' /\ stop_step f l = Ok st /\ typed l t /\ opt_step f t l m n c i' o' st = Ok x.
  Proof.
    cbn [parse_opt]. split.
    - intros H. apply do_ok in H as (m & Hm & H). apply mask_ok in Hm.
      apply do_ok in H as (n & Hn & H). apply name_ok in Hn.
      apply do_ok in H as (c & Hc & H). apply frame_ok in Hc.
      apply do_ok in H as (i' & Hi & H). apply in_ok in Hi.
      apply do_ok in H as (o0 & Ho & H).
      apply do_ok in H as (st & Hst & H).
      apply do_ok in H as (t & Ht & H). apply need_ok in Ht.
      apply do_ok in H as (t' & Ht' & H). apply as_str_ok in Ht' as ->.
      exists m, n, c, i', (match o0 with Some m => m | None => i' end), st, t'.
      do 4 (split; [assumption|]). split; [apply out_ok; eauto|]. split; [exact Hst|]. split; [exact Ht | exact H].
    - intros (m & n & c & i' & o' & st & t & Hm & Hn & Hc & Hi & Ho & Hst & Ht & H).
      apply do_ok. exists m. split; [apply mask_ok, Hm|].
      apply do_ok. exists n. split; [apply name_ok, Hn|].
      apply do_ok. exists c. split; [apply frame_ok, Hc|].
      apply do_ok. exists i'. split; [apply in_ok, Hi|].
      apply out_ok in Ho as (o0 & Ho & ->).
      apply do_ok. exists o0. split; [exact Ho|].
      apply do_ok. exists st. split; [exact Hst|].
      apply do_ok. exists (YStr t). split; [apply need_ok, Ht|]. cbn [as_str bind]. exact H.
  Qed.

  Lemma parse_opt_sound f : forall l cs i o x, parse_opt rep galsim f l cs i o = Ok x -> optic_says rep galsim l cs i o x.
  Proof.
    induction f as [|f IH]; [discriminate|]. intros l cs i o x H.
    apply parse_opt_S in H as (m & n & c & i' & o' & st & t & Hm & Hn & Hc & Hi & Ho & Hst & Ht & H).
    assert (Hs : stop_says rep galsim l st).
    { unfold stop_step in Hst. destruct (lookup "stopSurface" l) as [sc|] eqn:E.
      - apply do_ok in Hst as (d & Hd & Hst). apply as_dict_ok in Hd as ->.
        apply do_ok in Hst as ([f'|] & Hx & Hst); [|discriminate]. injection Hst as <-.
        eapply stop_some; eauto.
      - injection Hst as <-. constructor. exact E. }
    clear Hst. assert (Hr : mask_read rep l) by (exists m; exact Hm).
    unfold opt_step in H. destruct (known_in t iface_names) eqn:E1.
    { apply known_in_ok in E1. apply do_ok in H as (s & Hss & H). apply surface_at_ok in Hss.
      apply do_ok in H as (k & Hk & H). apply kind_ok in Hk; [|exact E1].
      destruct ((t =? "OPDScreen")%string && negb (med_eq i' o')) eqn:E2; [discriminate|]. injection H as <-.
      econstructor; try eassumption. intros ->. cbn in E2. destruct (med_eq i' o'); [reflexivity | discriminate]. }
    destruct (String.eqb_spec t "Lens") as [->|].
    { apply do_ok in H as (g & Hg & H). apply need_ok in Hg.
      apply do_ok in H as (gm & Hgm & H). apply do_ok in H as (gm' & Hgm' & H). apply need_ok in Hgm' as ->.
      apply parse_medium_ok in Hgm.
      apply do_ok in H as (ci & Hci & H). apply need_ok in Hci. apply do_ok in H as (its & Hits & H). apply as_seq_ok in Hits as ->.
      apply do_ok in H as (c0 & Hc0 & H). apply need_ok in Hc0.
      apply do_ok in H as (x0 & Hx0 & H). apply do_ok in H as (c1 & Hc1 & H). apply need_ok in Hc1.
      apply do_ok in H as (x1 & Hx1 & H).
      destruct (med_eq (o_out x0) (o_in x1)) eqn:E2; [|discriminate]. cbn in H. injection H as <-.
      apply do_ok in Hx0 as (d0 & Hd0 & Hx0). apply as_dict_ok in Hd0 as ->.
      apply do_ok in Hx1 as (d1 & Hd1 & Hx1). apply as_dict_ok in Hd1 as ->.
      destruct its as [|? [|? ds]]; [discriminate | discriminate|]. cbn in Hc0, Hc1. injection Hc0 as ->. injection Hc1 as ->.
      eapply says_lens; eauto. }
    destruct (String.eqb_spec t "CompoundOptic") as [->|].
    { apply do_ok in H as (ci & Hci & H). apply need_ok in Hci. apply do_ok in H as (its & Hits & H). apply as_seq_ok in Hits as ->.
      apply do_ok in H as (xs & Hxs & H). cbn in H. injection H as <-. apply mapM_ok in Hxs.
      eapply says_compound; eauto. clear - IH Hxs.
      induction Hxs as [|d x ds xs H Hxs IHx]; constructor || idtac.
      apply do_ok in H as (d' & Hd & H). apply as_dict_ok in Hd as ->. constructor; [apply IH, H | exact IHx]. }
    destruct (String.eqb_spec t "Interface") as [->|]; [|discriminate].
    apply do_ok in H as (s & Hss & H). apply surface_at_ok in Hss. injection H as <-.
    eapply says_interface; eauto.
  Qed.

  Scheme optic_says_mut := Minimality for optic_says Sort Prop
    with optics_say_mut := Minimality for optics_say Sort Prop
    with stop_says_mut := Minimality for stop_says Sort Prop.
  Lemma parse_opt_complete l cs i o x : optic_says rep galsim l cs i o x ->
    forall f, ysize (YMap l) <= f -> parse_opt rep galsim f l cs i o = Ok x.
  Proof.
    intros H0.
    refine (optic_says_mut T NT TT rep galsim
      (fun l cs i o x => forall f, ysize (YMap l) <= f -> parse_opt rep galsim f l cs i o = Ok x)
      (fun ds c i o xs => forall f, list_sum (map ysize ds) <= f ->
         Forall2 (fun e x => (do d <- as_dict e; parse_opt rep galsim f d c i (Some o)) = Ok x) ds xs)
      (fun l st => forall f, ysize (YMap l) <= S f -> stop_step f l = Ok st) _ _ _ _ _ _ _ _ l cs i o x H0);
      clear l cs i o x H0.
    - intros l cs i o t k s n c m i' o' st Ht Hk Hs Hn Hc Hm Hi Ho _ Hst Hscr f Hf.
      destruct f as [|f]; [cbn [ysize] in Hf; lia|].
      apply parse_opt_S. exists m, n, c, i', o', st, t. do 5 (split; [assumption|]).
      split; [apply Hst, Hf|]. split; [exact Ht|]. pose proof (kind_name _ _ _ Hk) as Hin.
      unfold opt_step. rewrite (proj2 (known_in_ok t iface_names) Hin).
      rewrite (proj2 (surface_at_ok _ _ _) Hs). cbn [bind]. rewrite (proj2 (kind_ok _ _ _ Hin) Hk). cbn [bind].
      destruct (String.eqb_spec t "OPDScreen") as [E|]; [rewrite (Hscr E)|]; reflexivity.
    - intros l cs i o s n c i' o' st Ht Hs Hn Hc [m Hm] Hi Ho _ Hst f Hf.
      destruct f as [|f]; [cbn [ysize] in Hf; lia|].
      apply parse_opt_S. exists m, n, c, i', o', st, "Interface". do 5 (split; [assumption|]).
      split; [apply Hst, Hf|]. split; [exact Ht|].
      unfold opt_step. cbn [known_in existsb iface_names String.eqb Ascii.eqb Bool.eqb orb].
      rewrite (proj2 (surface_at_ok _ _ _) Hs). reflexivity.
    - intros l cs i o n c i' o' st g m d0 d1 ds x0 x1 Ht Hn Hc [mk Hm] Hi Ho _ Hst Hg Hgm Hit _ IH0 _ IH1 He f Hf.
      destruct f as [|f]; [cbn [ysize] in Hf; lia|].
      pose proof (size_lookup _ _ _ Hit) as Hz.
      apply parse_opt_S. exists mk, n, c, i', o', st, "Lens". do 5 (split; [assumption|]).
      split; [apply Hst, Hf|]. split; [exact Ht|].
      unfold opt_step. cbn [known_in existsb iface_names String.eqb Ascii.eqb Bool.eqb orb].
      rewrite Hg. cbn [need bind]. rewrite (proj2 (parse_medium_ok _ _) Hgm). cbn [need bind].
      rewrite Hit. cbn [need bind as_seq nth_error as_dict].
      assert (S0 : ysize (YMap d0) <= f /\ ysize (YMap d1) <= f).
      { cbn in Hz, Hf. cbn [ysize]. unfold list_sum in *. split; lia. }
      rewrite IH0 by apply S0. cbn [bind]. rewrite IH1 by apply S0. cbn [bind]. rewrite He. reflexivity.
    - intros l cs i o n c i' o' st ds xs Ht Hn Hc [mk Hm] Hi Ho _ Hst Hit _ IH f Hf.
      destruct f as [|f]; [cbn [ysize] in Hf; lia|].
      pose proof (size_lookup _ _ _ Hit) as Hz.
      apply parse_opt_S. exists mk, n, c, i', o', st, "CompoundOptic". do 5 (split; [assumption|]).
      split; [apply Hst, Hf|]. split; [exact Ht|].
      unfold opt_step. cbn [known_in existsb iface_names String.eqb Ascii.eqb Bool.eqb orb].
      rewrite Hit. cbn [need bind as_seq].
      apply do_ok. exists xs. split; [|reflexivity]. apply mapM_ok, IH.
      cbn [ysize] in Hz, Hf. lia.
    - intros c i o f _. constructor.
    - intros d ds c i o x xs _ IH _ IHs f Hf. cbn in Hf. constructor.
      + cbn [as_dict bind]. apply IH. cbn [ysize]. unfold list_sum in *. lia.
      + apply IHs. unfold list_sum in *. lia.
    - intros l H f _. unfold stop_step. rewrite H. reflexivity.
    - intros l d f' H _ IH f Hf. unfold stop_step. rewrite H. cbn [as_dict bind].
      rewrite IH; [reflexivity|]. pose proof (size_lookup _ _ _ H). lia.
  Qed.
  Theorem parse_optic_says l cs i o x : parse_optic rep galsim l cs i o = Ok x <-> optic_says rep galsim l cs i o x.
  Proof. split; [apply parse_opt_sound|]. intros H. apply parse_opt_complete; [exact H | lia]. Qed.
End Tree.
