(** Proofs about parse.py: rejected descriptions, termination, frames. *)
From Coq Require Import Reals String Ascii List ZArith Bool Lia Arith Lra Psatz.
From Verif Require Import Num NumR Vec CoordSys Surface Medium Obscuration Trig Optic PyObj Parse Spec XRFacts CoordFacts FrameProofs
  ParseSpec ParseProofs ParseTree.
Import ListNotations.
Local Open Scope nat_scope.
Local Open Scope list_scope.
Local Open Scope string_scope.

Definition fine {A} (r : res A) : Prop := r <> Err OutOfFuel.
Lemma fine_ok {A} (a : A) : fine (Ok a).
Proof. discriminate. Qed.
Lemma fine_do {A B} (r : res A) (k : A -> res B) : fine r -> (forall a, r = Ok a -> fine (k a)) -> fine (do x <- r; k x).
Proof. destruct r as [a|e]; cbn; intros H H'; [apply H'; reflexivity | intros E; apply H; congruence]. Qed.
Lemma fine_map {A B} (f : A -> res B) l : (forall a, In a l -> fine (f a)) -> fine (mapM f l).
Proof.
  intros H E. apply mapM_err in E as (a & Ha & E). apply (H a Ha E).
Qed.
Lemma fine_need {A} e (o : option A) : e <> OutOfFuel -> fine (need e o).
Proof. intros N H. apply need_err in H. congruence. Qed.

Section Last.
  Context {T : Type} {NT : Num T} {TT : Trig T}.
  Implicit Types l d : dict T.

  Lemma fine_str (c : yaml T) : fine (as_str c). Proof. destruct c; discriminate. Qed.
  Lemma fine_seq (c : yaml T) : fine (as_seq c). Proof. destruct c; discriminate. Qed.
  Lemma fine_dict (c : yaml T) : fine (as_dict c). Proof. destruct c; discriminate. Qed.
  Lemma fine_num (c : yaml T) : fine (num c). Proof. destruct c; discriminate. Qed.
  Lemma fine_whole (c : yaml T) : fine (whole c). Proof. destruct c; discriminate. Qed.
  Lemma fine_nums (c : yaml T) : fine (nums c).
  Proof. apply fine_do; [apply fine_seq|]. intros l _. apply fine_map. intros; apply fine_num. Qed.
  Lemma fine_call sig l : fine (call sig l).
  Proof.
    unfold call. destruct (forallb _ _); [|discriminate]. apply fine_map. intros p _.
    destruct (lookup (fst p) l); [discriminate | apply fine_need; discriminate].
  Qed.
  Ltac fine_t := repeat first
    [ apply fine_ok | apply fine_str | apply fine_seq | apply fine_dict | apply fine_num | apply fine_nums | apply fine_whole
    | apply fine_call | apply fine_need; discriminate | (apply fine_map; intros ? ?) | (apply fine_do; [|intros ? ?])
    | match goal with |- fine (if ?b then _ else _) => destruct b end
    | match goal with |- fine (match ?x with _ => _ end) => destruct x end
    | discriminate ].
  Lemma fine_simple_obsc t l : fine (simple_obsc t l). Proof. unfold simple_obsc. fine_t. Qed.
  Lemma fine_simple_surf t l : fine (simple_surf t l). Proof. unfold simple_surf. fine_t. Qed.
  Lemma fine_simple_medium t l : fine (simple_medium t l). Proof. unfold simple_medium, coef6. fine_t. Qed.
  Lemma fine_parse_medium (c : yaml T) : fine (parse_medium c).
  Proof.
    destruct c; cbn [parse_medium]; try discriminate. apply fine_do; [apply fine_need; discriminate|].
    intros [t d] _. apply fine_do; [apply fine_str|]. intros s _.
    destruct (known_in s medium_names); [|destruct (unmodelled_name s); discriminate].
    apply fine_do; [apply fine_simple_medium|]. intros m _. fine_t.
  Qed.
  Lemma fine_coordSys l : forall c, fine (parse_coordSys l c).
  Proof.
    induction l as [|[k v] l IH]; intros c; cbn [parse_coordSys]; [apply fine_ok|].
    apply fine_do; [|intros; apply IH]. unfold cs_entry. fine_t.
  Qed.

  Context (rep : pobsc T -> string).
  Lemma fine_obsc f : forall l, fuel_for l <= f -> fine (parse_obsc rep f l).
  Proof.
    induction f as [|f IH]; intros l Hf.
    { exfalso. unfold fuel_for in Hf. destruct (is_clear l); cbn [ysize] in Hf; lia. }
    cbn [parse_obsc]. apply fine_do; [apply fine_need; discriminate|]. intros [t d] Hp.
    apply need_ok, pop_ok in Hp as [Ht ->]. apply fine_do; [apply fine_str|]. intros s Hs. apply as_str_ok in Hs as ->.
    fold (typed l s) in Ht. unfold fuel_for in Hf. rewrite (typed_clear _ _ Ht) in Hf.
    assert (Sub : forall k c, k <> "type" -> lookup k (without "type" l) = Some c -> 2 * ysize c <= f).
    { intros k c N H. rewrite lookup_without in H by exact N. pose proof (size_lookup _ _ _ H).
      destruct (String.prefix "Clear" s); lia. }
    destruct (known_in s obsc_names); [apply fine_simple_obsc|].
    destruct (s =? "ObscNegation")%string.
    { apply fine_do; [apply fine_need; discriminate|]. intros c Hc. apply need_ok in Hc.
      apply fine_do; [apply fine_dict|]. intros d Hd. apply as_dict_ok in Hd as ->.
      apply fine_do; [|intros; apply fine_ok]. apply IH. apply Sub in Hc; [|discriminate].
      pose proof (fuel_for_le d). lia. }
    destruct (known_in s ["ObscUnion"; "ObscIntersection"]).
    { apply fine_do; [apply fine_need; discriminate|]. intros c Hc. apply need_ok in Hc.
      apply fine_do; [apply fine_seq|]. intros cs Hd. apply as_seq_ok in Hd as ->.
      apply fine_do; [|intros; apply fine_ok]. apply fine_map. intros c Hi.
      apply fine_do; [apply fine_dict|]. intros d Hd. apply as_dict_ok in Hd as ->. apply IH.
      apply Sub in Hc; [|discriminate]. pose proof (size_item _ _ Hi). pose proof (fuel_for_le d). lia. }
    destruct (String.prefix "Clear" s) eqn:E; [|discriminate].
    apply fine_do; [|intros; apply fine_ok]. apply clear_prefix in E as (X & ->).
    rewrite replace_head, (parse_put_retype rep f l _ _ Ht). apply IH.
    unfold fuel_for. assert (E3 : is_clear (retype ("Obsc" ++ replace_clear 0 X) l) = false).
    { unfold is_clear. rewrite lookup_retype, Ht. reflexivity. }
    rewrite E3. pose proof (size_retype ("Obsc" ++ replace_clear 0 X) l). lia.
  Qed.
  Lemma fine_obscuration l : fine (parse_obscuration rep l).
  Proof. apply fine_obsc, fuel_for_le. Qed.
  Lemma fine_surf f : forall l, ysize (YMap l) <= f -> fine (parse_surf f l).
  Proof.
    induction f as [|f IH]; intros l Hf; [cbn [ysize] in Hf; lia|].
    cbn [parse_surf]. apply fine_do; [apply fine_need; discriminate|]. intros [t d] Hp.
    apply need_ok, pop_ok in Hp as [Ht ->]. apply fine_do; [apply fine_str|]. intros s _.
    destruct (s =? "Sum")%string.
    { apply fine_do; [apply fine_need; discriminate|]. intros c Hc. apply need_ok in Hc.
      rewrite lookup_without in Hc by discriminate.
      apply fine_do; [apply fine_seq|]. intros cs Hd. apply as_seq_ok in Hd as ->.
      apply fine_do; [|intros; apply fine_ok]. apply fine_map. intros c Hi.
      apply fine_do; [apply fine_dict|]. intros d Hd. apply as_dict_ok in Hd as ->. apply IH.
      pose proof (size_lookup _ _ _ Hc). pose proof (size_item _ _ Hi). lia. }
    destruct (known_in s surf_names); [apply fine_simple_surf|]. destruct (unmodelled_name s); discriminate.
  Qed.
  Lemma fine_surface l : fine (parse_surface l).
  Proof. apply fine_surf. lia. Qed.
  (** ** Clear *)
  Lemma clear_says l X o : typed l ("Clear" ++ X) -> In X shapes ->
    (parse_obscuration rep l = Ok o <->
     exists p, o = PyNegation p /\ parse_obscuration rep (retype ("Obsc" ++ X) l) = Ok p).
  Proof.
    intros Ht HX. rewrite parse_obscuration_says. split.
    - intros H. inversion H as [? t ? Ht' Hp | ? d ? Ht' | ? ? ? Ht' | ? ? ? Ht' | ? X' p Ht' HX' Hp]; subst;
        unfold typed in *; rewrite Ht in Ht'; try discriminate.
      + injection Ht' as <-. inversion Hp.
      + injection Ht' as ->. exists p. split; [reflexivity | apply parse_obscuration_says, Hp].
    - intros (p & -> & H). apply parse_obscuration_says in H. eapply os_clear; eassumption.
  Qed.
  Lemma clear_points l X o p : typed l ("Clear" ++ X) -> In X shapes ->
    parse_obscuration rep l = Ok o -> parse_obscuration rep (retype ("Obsc" ++ X) l) = Ok p ->
    forall x y, contains (build_obsc o) x y = negb (contains (build_obsc p) x y).
  Proof.
    intros Ht HX Ho Hp x y. apply (clear_says l X o Ht HX) in Ho as (p' & -> & Hp').
    assert (p' = p) by congruence. subst. reflexivity.
  Qed.

  (** ** Unknown types *)
  Lemma not_obsc t : ~ In t (map (append "Obsc") shapes) ->
    known_in t obsc_names = false /\ (t =? "ObscNegation")%string = false /\
    known_in t ["ObscUnion"; "ObscIntersection"] = false.
  Proof.
    intros N. cbn in N. split; [|split].
    - destruct (known_in t obsc_names) eqn:E; [|reflexivity]. apply known_in_ok in E. cbn in E. exfalso. tauto.
    - destruct (String.eqb_spec t "ObscNegation") as [E|]; [|reflexivity]. exfalso. rewrite E in N. tauto.
    - destruct (known_in t ["ObscUnion"; "ObscIntersection"]) eqn:E; [|reflexivity]. apply known_in_ok in E. cbn in E. exfalso. tauto.
  Qed.
  Lemma parse_obsc_unknown f l t : 2 <= f -> typed l t ->
    ~ In t (map (append "Obsc") shapes) -> ~ In t (map (append "Clear") shapes) ->
    parse_obsc rep f l = Err ValueError.
  Proof.
    intros Hf Ht N1 N2. destruct f as [|[|f]]; [lia | lia|]. 
    assert (U : forall g l t, typed l t -> ~ In t (map (append "Obsc") shapes) -> String.prefix "Clear" t = false ->
              parse_obsc rep (S g) l = Err ValueError).
    { intros g l' t' Ht' N E. destruct (not_obsc _ N) as (A & B & C). cbn [parse_obsc].
      unfold pop. rewrite Ht'. cbn [need bind as_str]. rewrite A, B, C, E. reflexivity. }
    destruct (String.prefix "Clear" t) eqn:E; [|apply (U _ _ t); assumption].
    destruct (not_obsc _ N1) as (A & B & C). remember (S f) as g. cbn [parse_obsc].
    unfold pop. rewrite Ht. cbn [need bind as_str]. rewrite A, B, C, E.
    apply clear_prefix in E as (X & ->). rewrite replace_head, (parse_put_retype rep g l _ _ Ht), Heqg.
    rewrite (U f _ ("Obsc" ++ replace_clear 0 X)); [reflexivity | | |].
    - unfold typed. rewrite lookup_retype, Ht. reflexivity.
    - intros H. apply N2. apply in_map_iff in H as (Y & E & HY). apply obsc_inj in E. subst.
      rewrite (replace_shape _ HY) in HY. apply in_map, HY.
    - reflexivity.
  Qed.
  Lemma obscuration_unknown l t : typed l t ->
    ~ In t (map (append "Obsc") shapes) -> ~ In t (map (append "Clear") shapes) ->
    parse_obscuration rep l = Err ValueError.
  Proof. intros Ht N1 N2. apply (parse_obsc_unknown _ l t); try assumption. pose proof (size_lookup _ _ _ Ht). lia. Qed.
  Lemma surface_unknown l t : typed l t -> unmodelled_name t = false -> parse_surface l = Err AttributeError.
  Proof.
    intros Ht U. unfold parse_surface. destruct (ysize (YMap l)) as [|n] eqn:E; [cbn in E; discriminate|].
    cbn [parse_surf]. unfold pop. rewrite Ht. cbn [need bind as_str]. rewrite U.
    assert (M : known_in t module_names = false).
    { unfold unmodelled_name in U. apply orb_false_iff in U as [U _]. apply orb_false_iff in U as [U _]. exact U. }
    destruct (String.eqb_spec t "Sum") as [Et|]; [exfalso; rewrite Et in M; discriminate|].
    destruct (known_in t surf_names) eqn:K; [|reflexivity]. exfalso. apply known_in_ok in K.
    assert (X : known_in t module_names = true); [|congruence]. apply known_in_ok. cbn in K |- *. tauto.
  Qed.
  Lemma medium_unknown l t : typed l t -> unmodelled_name t = false -> parse_medium (YMap l) = Err AttributeError.
  Proof.
    intros Ht U. cbn [parse_medium]. unfold pop. rewrite Ht. cbn [need bind as_str]. rewrite U.
    assert (M : known_in t module_names = false).
    { unfold unmodelled_name in U. apply orb_false_iff in U as [U _]. apply orb_false_iff in U as [U _]. exact U. }
    destruct (known_in t medium_names) eqn:K; [|reflexivity]. exfalso. apply known_in_ok in K.
    assert (X : known_in t module_names = true); [|congruence]. apply known_in_ok. cbn in K |- *. tauto.
  Qed.
  (** The dictionary that is left after parsing cannot be parsed again. *)
  Lemma spent l v d : pop "type" l = Some (v, d) -> parse_obscuration rep d = Err KeyError /\ parse_surface d = Err KeyError.
  Proof.
    intros H. apply pop_ok in H as [_ ->].
    assert (P : pop "type" (without "type" l) = None) by (unfold pop; rewrite lookup_self; reflexivity).
    split.
    - unfold parse_obscuration. destruct (2 * ysize (YMap (without "type" l))) eqn:E; [cbn in E; discriminate|].
      cbn [parse_obsc]. rewrite P. reflexivity.
    - unfold parse_surface. destruct (ysize (YMap (without "type" l))) eqn:E; [cbn in E; discriminate|].
      cbn [parse_surf]. rewrite P. reflexivity.
  Qed.
  Context (galsim : list T -> T -> T -> list T * list T * list T * nat * nat).
  Lemma fine_surface_at k l : fine (surface_at galsim k l).
  Proof.
    unfold surface_at. apply fine_do; [apply fine_need; discriminate|]. intros c _.
    apply fine_do; [apply fine_dict|]. intros d _. apply fine_do; [apply fine_surface|]. intros; apply fine_need; discriminate.
  Qed.
  Lemma fine_opt f : forall l cs i o, ysize (YMap l) <= f -> fine (parse_opt rep galsim f l cs i o).
  Proof.
    induction f as [|f IH]; intros l cs i o Hf; [cbn [ysize] in Hf; lia|].
    assert (Sub : forall k c, lookup k l = Some c -> ysize c <= f).
    { intros k c H. pose proof (size_lookup _ _ _ H). lia. }
    cbn [parse_opt].
    apply fine_do.
    { destruct (lookup "obscuration" l); [|apply fine_ok]. apply fine_do; [apply fine_dict|]. intros d _.
      apply fine_do; [apply fine_obscuration|]. intros; apply fine_ok. }
    intros m _. apply fine_do; [fine_t|]. intros n _. apply fine_do.
    { destruct (lookup "coordSys" l); [|apply fine_ok]. apply fine_do; [apply fine_dict|]. intros; apply fine_coordSys. }
    intros c _. apply fine_do.
    { destruct (lookup "inMedium" l); [|apply fine_ok]. apply fine_do; [apply fine_parse_medium|]. intros; apply fine_need; discriminate. }
    intros i' _. apply fine_do; [destruct (lookup "outMedium" l); [apply fine_parse_medium | apply fine_ok]|].
    intros o0 _. apply fine_do.
    { destruct (lookup "stopSurface" l) as [c'|] eqn:E; [|apply fine_ok].
      apply fine_do; [apply fine_dict|]. intros d Hd. apply as_dict_ok in Hd as ->.
      apply fine_do; [|intros [?|] _; discriminate]. apply IH, (Sub _ _ E). }
    intros st _. apply fine_do; [apply fine_need; discriminate|]. intros t _.
    apply fine_do; [apply fine_str|]. intros s _. cbn zeta.
    destruct (known_in s iface_names).
    { apply fine_do; [apply fine_surface_at|]. intros s' _. apply fine_do.
      - unfold iface_kind. repeat match goal with |- fine (if ?b then _ else _) => destruct b end; try apply fine_ok.
        apply fine_do; [apply fine_surface_at | intros; apply fine_ok].
      - intros k _. fine_t. }
    destruct (s =? "Lens")%string.
    { apply fine_do; [apply fine_need; discriminate|]. intros g _. apply fine_do; [apply fine_parse_medium|]. intros gm _.
      apply fine_do; [apply fine_need; discriminate|]. intros gm' _. apply fine_do; [apply fine_need; discriminate|].
      intros ci Hc. apply need_ok in Hc. apply fine_do; [apply fine_seq|]. intros cs' Hd. apply as_seq_ok in Hd as ->.
      pose proof (Sub _ _ Hc) as Hz.
      apply fine_do; [apply fine_need; discriminate|]. intros c0 Hc0. apply need_ok, nth_error_In in Hc0.
      apply fine_do.
      { apply fine_do; [apply fine_dict|]. intros d Hd. apply as_dict_ok in Hd as ->. apply IH.
        pose proof (size_item _ _ Hc0). lia. }
      intros x0 _. apply fine_do; [apply fine_need; discriminate|]. intros c1 Hc1. apply need_ok, nth_error_In in Hc1.
      apply fine_do.
      { apply fine_do; [apply fine_dict|]. intros d Hd. apply as_dict_ok in Hd as ->. apply IH.
        pose proof (size_item _ _ Hc1). lia. }
      intros x1 _. destruct (med_eq _ _); discriminate. }
    destruct (s =? "CompoundOptic")%string.
    { apply fine_do; [apply fine_need; discriminate|].
      intros ci Hc. apply need_ok in Hc. apply fine_do; [apply fine_seq|]. intros cs' Hd. apply as_seq_ok in Hd as ->.
      pose proof (Sub _ _ Hc) as Hz. apply fine_do; [|intros; discriminate]. apply fine_map. intros c' Hi.
      apply fine_do; [apply fine_dict|]. intros d Hd. apply as_dict_ok in Hd as ->. apply IH.
      pose proof (size_item _ _ Hi). lia. }
    destruct (s =? "Interface")%string; [|discriminate]. apply fine_do; [apply fine_surface_at | intros; apply fine_ok].
  Qed.
  Lemma parse_total l cs i o :
    parse_obscuration rep l <> Err OutOfFuel /\ parse_surface l <> Err OutOfFuel /\
    parse_optic rep galsim l cs i o <> Err OutOfFuel.
  Proof. split; [apply fine_obscuration|]. split; [apply fine_surface | apply fine_opt; lia]. Qed.

  Lemma optic_unknown l cs i o t x : typed l t -> ~ In t optic_types -> parse_optic rep galsim l cs i o <> Ok x.
  Proof.
    intros Ht N H. apply parse_optic_says in H. apply N.
    inversion H as [? ? ? ? t' k ? ? ? ? ? ? ? Ht' Hk | ? ? ? ? ? ? ? ? ? ? Ht' | ? ? ? ? ? ? ? ? ? ? ? ? ? ? ? ? Ht'
                   | ? ? ? ? ? ? ? ? ? ? ? Ht']; subst; unfold typed in *; rewrite Ht in Ht'; injection Ht' as ->; try (cbn; tauto).
    inversion Hk; subst; cbn; tauto.
  Qed.
  Lemma optic_unknown_error l cs i o t m n c i' o' : typed l t -> ~ In t optic_types ->
    mask_says rep l m -> name_says l n -> frame_says l cs c -> in_says l i i' -> out_says l o i' o' ->
    lookup "stopSurface" l = None -> parse_optic rep galsim l cs i o = Err ValueError.
  Proof.
    intros Ht N Hm Hn Hc Hi Ho Hs. unfold parse_optic. destruct (ysize (YMap l)) as [|f] eqn:E; [cbn in E; discriminate|].
    cbn [parse_opt]. rewrite (proj2 (mask_ok rep l m) Hm). cbn [bind]. rewrite (proj2 (name_ok l n) Hn). cbn [bind].
    rewrite (proj2 (frame_ok l cs c) Hc). cbn [bind]. rewrite (proj2 (in_ok l i i') Hi). cbn [bind].
    apply out_ok in Ho as (o0 & Ho & _). rewrite Ho. cbn [bind]. rewrite Hs. cbn [bind]. rewrite Ht. cbn [need bind as_str].
    assert (K : known_in t iface_names = false).
    { destruct (known_in t iface_names) eqn:K; [|reflexivity]. apply known_in_ok in K. exfalso. apply N. cbn in *. tauto. }
    rewrite K. cbn in N.
    destruct (String.eqb_spec t "Lens") as [Et|]; [exfalso; rewrite Et in N; tauto|].
    destruct (String.eqb_spec t "CompoundOptic") as [Et|]; [exfalso; rewrite Et in N; tauto|].
    destruct (String.eqb_spec t "Interface") as [Et|]; [exfalso; rewrite Et in N; tauto|]. reflexivity.
  Qed.
End Last.

(** ** Frames over the reals *)
Local Open Scope R_scope.
Lemma num_F c v : num (ymap Fin c) = Ok v -> v = Fin (real c).
Proof. destruct c; cbn; intros H; try discriminate; injection H as <-; reflexivity. Qed.
Lemma puts_shift D d : rotation (rot D) -> puts (fun p => global_point D (plusR p d)) (shiftLocal (Fcs D) (F3 d)).
Proof.
  intros HD. rewrite shiftLocal_F. eexists. split; [reflexivity|]. split; [exact HD|]. intros p. unfold global_point. cbn [origin rot shiftG].
  apply vec3_eq; unfR; cbn; ring.
Qed.
Lemma puts_turn D m : rotation (rot D) -> rotation m -> puts (fun p => global_point D (applyR m p)) (rotateLocal (Fcs D) (FM m) vzero None).
Proof.
  intros HD Hm. change (@vzero XR _) with (F3 zeroR). change (@None (coordsys XR)) with (option_map Fcs None).
  rewrite rotateLocal_F. eexists. split; [reflexivity|]. split; [apply rotation_mul; assumption|]. intros p. unfold rotL.
  assert (E : global_point D zeroR = origin D) by (unfold global_point; apply vec3_eq; unfR; cbn; ring).
  rewrite E. assert (Z : minusR (origin D) (origin D) = zeroR) by (apply vec3_eq; unfR; cbn; ring). rewrite Z.
  assert (A : forall M, applyR M zeroR = zeroR) by (intros; apply vec3_eq; unfR; cbn; ring). rewrite A.
  unfold global_point; cbn [origin rot]. rewrite applyR_mul. apply vec3_eq; unfR; cbn; ring.
Qed.
Lemma puts_ext f g c : (forall p, f p = g p) -> puts f c -> puts g c.
Proof. intros E (D & -> & HD & H). exists D. split; [reflexivity|]. split; [exact HD|]. intros p. rewrite <- E. apply H. Qed.
Lemma rotX_F a : rotX (Fin a) = FM (M3 1 0 0 0 (cos a) (- sin a) 0 (sin a) (cos a)).
Proof. reflexivity. Qed.
Lemma rotY_F a : rotY (Fin a) = FM (M3 (cos a) 0 (sin a) 0 1 0 (- sin a) 0 (cos a)).
Proof. reflexivity. Qed.
Lemma rotZ_F a : rotZ (Fin a) = FM (M3 (cos a) (- sin a) 0 (sin a) (cos a) 0 0 0 1).
Proof. reflexivity. Qed.
Lemma trig1 a : cos a * cos a + sin a * sin a = 1.
Proof. pose proof (sin2_cos2 a) as H. unfold Rsqr in H. rewrite <- H. ring. Qed.
Ltac turn_t a := pose proof (trig1 a); unfold rotation, orthonormal, right_handed; unfR; cbn;
  split; [repeat apply conj | f_equal]; nra.
Lemma rotX_rot a : rotation (M3 1 0 0 0 (cos a) (- sin a) 0 (sin a) (cos a)).
Proof. turn_t a. Qed.
Lemma rotY_rot a : rotation (M3 (cos a) 0 (sin a) 0 1 0 (- sin a) 0 (cos a)).
Proof. turn_t a. Qed.
Lemma rotZ_rot a : rotation (M3 (cos a) (- sin a) 0 (sin a) (cos a) 0 0 0 1).
Proof. turn_t a. Qed.
Lemma moved_other k v p : k <> "x" -> k <> "y" -> k <> "z" -> k <> "shift" -> k <> "rotX" -> k <> "rotY" -> k <> "rotZ" ->
  moved_by (k, v) p = p.
Proof.
  intros. unfold moved_by. cbn [fst snd].
  repeat match goal with |- context [(k =? ?s)%string] => destruct (String.eqb_spec k s); [contradiction|] end. reflexivity.
Qed.
Lemma frame_entry kv D c : rotation (rot D) -> cs_entry (Fcs D) (fst kv, ymap Fin (snd kv)) = Ok c ->
  puts (fun p => global_point D (moved_by kv p)) c.
Proof.
  intros HD. destruct kv as [k v]. cbn [fst snd]. unfold cs_entry.
  destruct (String.eqb_spec k "x") as [->|]; [|destruct (String.eqb_spec k "y") as [->|];
    [|destruct (String.eqb_spec k "z") as [->|]; [|destruct (String.eqb_spec k "shift") as [->|];
    [|destruct (String.eqb_spec k "rotX") as [->|]; [|destruct (String.eqb_spec k "rotY") as [->|];
    [|destruct (String.eqb_spec k "rotZ") as [->|]]]]]]].
  - intros H. apply do_ok in H as (a & Ha & H). apply num_F in Ha as ->. injection H as <-.
    refine (puts_ext _ _ _ _ (puts_shift D (V3 (real v) 0 0) HD)). intros p. f_equal. unfold moved_by; cbn [fst snd String.eqb Ascii.eqb Bool.eqb]. apply vec3_eq; unfR; cbn; ring.
  - intros H. apply do_ok in H as (a & Ha & H). apply num_F in Ha as ->. injection H as <-.
    refine (puts_ext _ _ _ _ (puts_shift D (V3 0 (real v) 0) HD)). intros p. f_equal. unfold moved_by; cbn [fst snd String.eqb Ascii.eqb Bool.eqb]. apply vec3_eq; unfR; cbn; ring.
  - intros H. apply do_ok in H as (a & Ha & H). apply num_F in Ha as ->. injection H as <-.
    refine (puts_ext _ _ _ _ (puts_shift D (V3 0 0 (real v)) HD)). intros p. f_equal. unfold moved_by; cbn [fst snd String.eqb Ascii.eqb Bool.eqb]. apply vec3_eq; unfR; cbn; ring.
  - intros H. apply do_ok in H as (vs & Hv & H). apply nums_ok in Hv as (cs & E & Hv).
    destruct v; cbn in E; try discriminate. injection E as <-.
    destruct l as [|a [|b [|e [|]]]]; cbn in Hv; inv2; try discriminate.
    injection H as <-. repeat match goal with X : number _ _ |- _ => apply num_ok, num_F in X as -> end.
    exact (puts_shift D (V3 (real a) (real b) (real e)) HD).
  - intros H. apply do_ok in H as (a & Ha & H). apply num_F in Ha as ->. injection H as <-. rewrite rotX_F.
    refine (puts_ext _ _ _ _ (puts_turn D _ HD (rotX_rot _))). intros p. f_equal. unfold moved_by; cbn [fst snd String.eqb Ascii.eqb Bool.eqb]. apply vec3_eq; unfR; cbn; ring.
  - intros H. apply do_ok in H as (a & Ha & H). apply num_F in Ha as ->. injection H as <-. rewrite rotY_F.
    refine (puts_ext _ _ _ _ (puts_turn D _ HD (rotY_rot _))). intros p. f_equal. unfold moved_by; cbn [fst snd String.eqb Ascii.eqb Bool.eqb]. apply vec3_eq; unfR; cbn; ring.
  - intros H. apply do_ok in H as (a & Ha & H). apply num_F in Ha as ->. injection H as <-. rewrite rotZ_F.
    refine (puts_ext _ _ _ _ (puts_turn D _ HD (rotZ_rot _))). intros p. f_equal. unfold moved_by; cbn [fst snd String.eqb Ascii.eqb Bool.eqb]. apply vec3_eq; unfR; cbn; ring.
  - intros H. injection H as <-. exists D. split; [reflexivity|]. split; [exact HD|]. intros p. rewrite moved_other by assumption. reflexivity.
Qed.
Lemma frame_all l : forall D c, rotation (rot D) -> parse_coordSys (Fdict l) (Fcs D) = Ok c ->
  puts (fun p => global_point D (moved_by_all l p)) c.
Proof.
  induction l as [|kv l IH]; intros D c HD; cbn [Fdict map parse_coordSys].
  - intros H. injection H as <-. exists D. auto.
  - intros H. apply do_ok in H as (c1 & H1 & H). apply frame_entry in H1 as (D1 & -> & HD1 & H1); [|exact HD].
    apply IH in H; [|exact HD1]. refine (puts_ext _ _ _ _ H). intros p. rewrite H1. reflexivity.
Qed.

Lemma lookup_F k l : lookup k (Fdict l) = option_map (ymap Fin) (lookup k l).
Proof. induction l as [|[k' v] l IH]; [reflexivity|]. cbn. destruct (k =? k')%string; [reflexivity | exact IH]. Qed.
Lemma ymap_dict c d : ymap Fin c = YMap d -> exists e, c = YMap e /\ d = Fdict e.
Proof. destruct c; cbn; try discriminate. intros H. injection H as <-. exists l. split; reflexivity. Qed.
Lemma ymap_seq c d : ymap Fin c = YSeq d -> exists e, c = YSeq e /\ d = map (ymap Fin) e.
Proof. destruct c; cbn; try discriminate. intros H. injection H as <-. exists l. split; reflexivity. Qed.
Lemma frame_moved l D c : rotation (rot D) -> frame_says (Fdict l) (Fcs D) c ->
  puts (fun p => global_point D (moved_in l p)) c.
Proof.
  intros HD. unfold frame_says, moved_in. rewrite lookup_F. destruct (lookup "coordSys" l) as [v|]; cbn [option_map].
  - intros [[H _] | (d & H & Hc)]; [discriminate|]. injection H as H. apply ymap_dict in H as (e & -> & ->).
    apply frame_all; assumption.
  - intros [[_ ->] | (d & H & _)]; [|discriminate]. exists D. auto.
Qed.
Lemma parse_placed rep galsim f : forall l D i o x F, rotation (rot D) -> (forall p, global_point D p = F p) ->
  parse_opt rep galsim f (Fdict l) (Fcs D) i o = Ok x -> placed F l x.
Proof.
  induction f as [|f IH]; [discriminate|]. intros l D i o x F HD EF H.
  apply parse_opt_S in H as (m & n & c & i' & o' & st & t & _ & _ & Hc & _ & _ & _ & Ht & H).
  apply frame_moved in Hc; [|exact HD].
  assert (Hp : puts (fun p => F (moved_in l p)) c) by (refine (puts_ext _ _ _ _ Hc); intros p; apply EF).
  destruct Hc as (D' & -> & HD' & ED'). 
  assert (EF' : forall p, global_point D' p = F (moved_in l p)) by (intros p; rewrite ED'; apply EF).
  unfold opt_step in H. destruct (known_in t iface_names).
  { apply do_ok in H as (s & _ & H). apply do_ok in H as (k & _ & H).
    destruct (_ && _); [discriminate|]. injection H as <-. constructor.
    unfold mkIface. destruct k; exact Hp. }
  destruct (t =? "Lens")%string.
  { apply do_ok in H as (g & Hg & H). apply do_ok in H as (gm & _ & H). apply do_ok in H as (gm' & _ & H).
    apply do_ok in H as (ci & Hci & H). apply need_ok in Hci. rewrite lookup_F in Hci.
    apply do_ok in H as (its & Hits & H). apply as_seq_ok in Hits as ->.
    destruct (lookup "items" l) as [v|] eqn:El; [|discriminate]. cbn in Hci. injection Hci as Hci.
    apply ymap_seq in Hci as (ds & -> & ->).
    apply do_ok in H as (c0 & Hc0 & H). apply need_ok in Hc0.
    apply do_ok in H as (x0 & Hx0 & H). apply do_ok in H as (c1 & Hc1 & H). apply need_ok in Hc1.
    apply do_ok in H as (x1 & Hx1 & H).
    destruct (med_eq _ _); [|discriminate]. cbn in H. injection H as <-.
    apply do_ok in Hx0 as (d0 & Hd0 & Hx0). apply as_dict_ok in Hd0 as ->.
    apply do_ok in Hx1 as (d1 & Hd1 & Hx1). apply as_dict_ok in Hd1 as ->.
    destruct ds as [|y0 [|y1 ds]]; [discriminate | discriminate|]. cbn in Hc0, Hc1.
    injection Hc0 as Hc0. injection Hc1 as Hc1.
    apply ymap_dict in Hc0 as (e0 & -> & ->). apply ymap_dict in Hc1 as (e1 & -> & ->).
    eapply placed_group; [exact Hp | exact El|]. cbn.
    constructor; [exact (IH _ _ _ _ _ _ HD' EF' Hx0)|]. constructor; [exact (IH _ _ _ _ _ _ HD' EF' Hx1) | constructor]. }
  destruct (t =? "CompoundOptic")%string.
  { apply do_ok in H as (ci & Hci & H). apply need_ok in Hci. rewrite lookup_F in Hci.
    apply do_ok in H as (its & Hits & H). apply as_seq_ok in Hits as ->.
    destruct (lookup "items" l) as [v|] eqn:El; [|discriminate]. cbn in Hci. injection Hci as Hci.
    apply ymap_seq in Hci as (ds & -> & ->).
    apply do_ok in H as (xs & Hxs & H). cbn in H. injection H as <-. apply mapM_ok in Hxs.
    eapply placed_group; [exact Hp | exact El|]. cbn. clear - IH Hxs HD' EF'.
    revert xs Hxs. induction ds as [|d ds IHd]; intros xs Hxs; cbn in Hxs; inversion Hxs; subst; constructor || idtac.
    apply do_ok in H1 as (d' & Hd & Hx). apply as_dict_ok in Hd. apply ymap_dict in Hd as (e & -> & ->).
    constructor; [exact (IH _ _ _ _ _ _ HD' EF' Hx) | apply IHd; assumption]. }
  destruct (t =? "Interface")%string; [|discriminate].
  apply do_ok in H as (s & _ & H). injection H as <-. constructor. exact Hp.
Qed.
Lemma parse_optic_placed rep galsim l D i o x : rotation (rot D) ->
  parse_optic rep galsim (Fdict l) (Fcs D) i o = Ok x -> placed (global_point D) l x.
Proof. intros HD H. exact (parse_placed rep galsim _ _ _ _ _ _ _ HD (fun p => eq_refl) H). Qed.
