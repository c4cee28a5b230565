(** Proofs about parse.py. *)
From Coq Require Import Reals String Ascii List ZArith Bool Lia Arith.
From Verif Require Import Num NumR Vec CoordSys Surface Medium Obscuration Trig Optic PyObj Parse Spec CoordFacts FrameProofs ParseSpec.
Import ListNotations.
Local Open Scope list_scope.
Local Open Scope string_scope.

Lemma do_ok {A B} (r : res A) (k : A -> res B) b :
  (do x <- r; k x) = Ok b <-> exists a, r = Ok a /\ k a = Ok b.
Proof.
  destruct r as [a|e]; cbn; split.
  - intros H. exists a. auto.
  - intros (a' & H & H'). congruence.
  - discriminate.
  - intros (a' & H & _). discriminate.
Qed.
Lemma need_ok {A} e (o : option A) a : need e o = Ok a <-> o = Some a.
Proof. destruct o; cbn; split; congruence. Qed.
Lemma mapM_ok {A B} (f : A -> res B) l m : mapM f l = Ok m <-> Forall2 (fun a b => f a = Ok b) l m.
Proof.
  revert m; induction l as [|a l IH]; intros m; cbn [mapM].
  - split; intros H; [injection H as <-; constructor | inversion H; reflexivity].
  - rewrite do_ok. split.
    + intros (b & Hb & H). apply do_ok in H as (m' & Hm & E). injection E as <-.
      constructor; [exact Hb | apply IH, Hm].
    + intros H. inversion H as [|? b ? m' Hb Hm]; subst. exists b. split; [exact Hb|].
      apply do_ok. exists m'. split; [apply IH, Hm | reflexivity].
Qed.

Lemma F2_impl {A B} (P Q : A -> B -> Prop) l m : (forall a b, P a b -> Q a b) -> Forall2 P l m -> Forall2 Q l m.
Proof. intros H F. induction F; constructor; auto. Qed.

Section Dict.
  Context {T : Type} {NT : Num T}.
  Implicit Types l : dict T.
  Lemma lookup_without k k' l : k <> k' -> lookup k (without k' l) = lookup k l.
  Proof.
    intros N. induction l as [|[k'' v] l IH]; [reflexivity|]. cbn.
    destruct (String.eqb_spec k' k'') as [->|].
    - rewrite IH. destruct (String.eqb_spec k k''); [contradiction|reflexivity].
    - cbn. rewrite IH. reflexivity.
  Qed.
  Lemma without_in k l kv : In kv (without k l) <-> In kv l /\ fst kv <> k.
  Proof.
    induction l as [|[k' v] l IH]; cbn; [tauto|].
    destruct (String.eqb_spec k k') as [->|N]; cbn; rewrite IH.
    - split; [tauto|]. intros [[<- | Hi] N]; [contradiction N; reflexivity | tauto].
    - split; [|tauto]. intros [<- | [Hi N']]; cbn; auto.
  Qed.
  Lemma keys_without l ks : keys (without "type" l) ks <-> keys l ("type" :: ks).
  Proof.
    unfold keys. split; intros H kv Hi.
    - destruct (string_dec (fst kv) "type") as [->|N]; [left; reflexivity|right].
      apply H, without_in. tauto.
    - apply without_in in Hi as [Hi N]. destruct (H kv Hi) as [E|E]; [congruence | exact E].
  Qed.
  Lemma num_ok (c : yaml T) v : num c = Ok v <-> number c v.
  Proof.
    destruct c; cbn; split; intros H; try discriminate; try (injection H as <-; constructor);
      inversion H; reflexivity.
  Qed.
  Lemma nums_ok (c : yaml T) v : nums c = Ok v <-> exists cs, c = YSeq cs /\ Forall2 number cs v.
  Proof.
    unfold nums. rewrite do_ok. split.
    - intros (cs & H & H'). destruct c; cbn in H; try discriminate. injection H as <-. exists l. split; [reflexivity|].
      apply mapM_ok in H'. eapply F2_impl; [|exact H']. intros a b. apply num_ok.
    - intros (cs & -> & H). exists cs. split; [reflexivity|]. apply mapM_ok.
      eapply F2_impl; [|exact H]. intros a b. apply num_ok.
  Qed.
  Lemma call_ok (sig : list (string * option (yaml T))) l vs : call sig l = Ok vs <->
    keys l (map fst sig) /\
    Forall2 (fun p v => lookup (fst p) l = Some v \/ (lookup (fst p) l = None /\ snd p = Some v)) sig vs.
  Proof.
    unfold call. destruct (forallb _ _) eqn:E.
    - rewrite forallb_forall in E. rewrite mapM_ok. split.
      + intros H. split.
        * intros kv Hi. specialize (E kv Hi). rewrite existsb_exists in E. destruct E as (p & Hp & Ep).
          apply String.eqb_eq in Ep. rewrite Ep. apply in_map, Hp.
        * eapply F2_impl; [|exact H]. intros p v; cbn. destruct (lookup (fst p) l); intros H1.
          -- left. congruence.
          -- right. split; [reflexivity|]. apply need_ok in H1. exact H1.
      + intros [_ H]. eapply F2_impl; [|exact H]. intros p v; cbn. intros [->|[-> ->]]; reflexivity.
    - split; [discriminate|]. intros [H _]. exfalso.
      assert (X : forallb (fun kv => existsb (fun p => (fst kv =? fst p)%string) sig) l = true); [|congruence].
      apply forallb_forall. intros kv Hi. apply existsb_exists. specialize (H kv Hi).
      apply in_map_iff in H as (p & Ep & Hp). exists p. split; [exact Hp|]. rewrite Ep. apply String.eqb_refl.
  Qed.
  Lemma arg_num l k v : (exists c, lookup k l = Some c /\ num c = Ok v) <-> arg l k v.
  Proof. unfold arg. split; intros (c & H & H'); exists c; (split; [exact H | apply num_ok, H']). Qed.

  (** Calls with numbers only. *)
  Definition binds l (p : string * option T) (v : T) : Prop :=
    match snd p with None => arg l (fst p) v | Some d => opt l (fst p) d v end.
  Definition dflt (p : string * option T) : string * option (yaml T) := (fst p, option_map YNum (snd p)).
  Lemma binds_ok l p v : fst p <> "type" ->
    ((exists c, (lookup (fst p) (without "type" l) = Some c \/
                (lookup (fst p) (without "type" l) = None /\ snd (dflt p) = Some c)) /\ num c = Ok v)
     <-> binds l p v).
  Proof.
    intros N. rewrite lookup_without by exact N. destruct p as [k [d|]]; unfold binds, opt; cbn [fst snd dflt option_map].
    - rewrite <- arg_num. split.
      + intros (c & [E | [E Ed]] & H).
        * left. eauto.
        * right. injection Ed as <-. cbn in H. split; congruence.
      + intros [(c & E & H) | [E ->]]; [eauto|]. exists (YNum d). auto.
    - rewrite <- arg_num. split.
      + intros (c & [E | [_ E]] & H); [eauto | discriminate].
      + intros (c & E & H). eauto.
  Qed.
  Lemma bind_call (sig : list (string * option T)) l {A} (K : list T -> res A) o :
    Forall (fun p => fst p <> "type") sig ->
    ((do a <- call (map dflt sig) (without "type" l); do v <- mapM num a; K v) = Ok o <->
     exists vs, keys l ("type" :: map fst sig) /\ Forall2 (binds l) sig vs /\ K vs = Ok o).
  Proof.
    intros N. assert (E : map fst (map dflt sig) = map fst sig) by (rewrite map_map; reflexivity).
    rewrite do_ok. split.
    - intros (a & Ha & H). apply do_ok in H as (vs & Hv & H). apply call_ok in Ha as [Hk Ha].
      exists vs. split; [apply keys_without; rewrite <- E; exact Hk|]. split; [|exact H].
      apply mapM_ok in Hv. clear - N Ha Hv. revert a vs Ha Hv.
      induction N as [|p sig Np N IH]; intros a vs Ha Hv.
      + inversion Ha; subst. inversion Hv; constructor.
      + inversion Ha; subst. inversion Hv; subst. constructor.
        * apply binds_ok; [exact Np|]. eexists; split; [|eassumption]. assumption.
        * eapply IH; eassumption.
    - intros (vs & Hk & Hb & H).
      assert (X : exists a, Forall2 (fun p v => lookup (fst p) (without "type" l) = Some v \/
                  (lookup (fst p) (without "type" l) = None /\ snd p = Some v)) (map dflt sig) a /\
                  Forall2 (fun c v => num c = Ok v) a vs).
      { clear - N Hb. induction Hb as [|p v sig vs Hp Hb IH]; [exists []; split; constructor|].
        inversion N as [|? ? Np N']; subst. destruct (IH N') as (a & Ha & Hv).
        apply binds_ok in Hp as (c & Hc & Hn); [|exact Np]. exists (c :: a).
        split; constructor; assumption. }
      destruct X as (a & Ha & Hv). exists a. split.
      + apply call_ok. split; [|exact Ha]. rewrite E. apply keys_without. exact Hk.
      + apply do_ok. exists vs. split; [apply mapM_ok, Hv | exact H].
  Qed.
  (** Calls with lists of numbers only, no defaults. *)
  Lemma bind_lists (ks : list string) l {A} (K : list (list T) -> res A) o :
    Forall (fun k => k <> "type") ks ->
    ((do a <- call (map (fun k => (k, None)) ks) (without "type" l); do v <- mapM nums a; K v) = Ok o <->
     exists vs, keys l ("type" :: ks) /\ Forall2 (args l) ks vs /\ K vs = Ok o).
  Proof.
    intros N. assert (E : map fst (map (fun k => (k, @None (yaml T))) ks) = ks) by (rewrite map_map; apply map_id).
    rewrite do_ok. split.
    - intros (a & Ha & H). apply do_ok in H as (vs & Hv & H). apply call_ok in Ha as [Hk Ha].
      exists vs. split; [apply keys_without; rewrite <- E; exact Hk|]. split; [|exact H].
      apply mapM_ok in Hv. clear - N Ha Hv. revert a vs Ha Hv.
      induction N as [|p ks Np N IH]; intros a vs Ha Hv.
      + inversion Ha; subst. inversion Hv; constructor.
      + inversion Ha as [|? c ? a' Hc Ha']; subst. inversion Hv as [|? v ? vs' Hn Hv']; subst. constructor.
        * cbn in Hc. rewrite lookup_without in Hc by exact Np. destruct Hc as [Hc | [_ Hc]]; [|discriminate].
          apply nums_ok in Hn as (cs & -> & Hn). exists cs. auto.
        * eapply IH; eassumption.
    - intros (vs & Hk & Hb & H).
      assert (X : exists a, Forall2 (fun p v => lookup (fst p) (without "type" l) = Some v \/
                  (lookup (fst p) (without "type" l) = None /\ snd p = Some v))
                  (map (fun k => (k, @None (yaml T))) ks) a /\
                  Forall2 (fun c v => nums c = Ok v) a vs).
      { clear - N Hb. induction Hb as [|p v ks vs Hp Hb IH]; [exists []; split; constructor|].
        inversion N as [|? ? Np N']; subst. destruct (IH N') as (a & Ha & Hv).
        destruct Hp as (cs & Hc & Hn). exists (YSeq cs :: a).
        split; constructor; try assumption.
        - left. cbn. rewrite lookup_without by exact Np. exact Hc.
        - apply nums_ok. eauto. }
      destruct X as (a & Ha & Hv). exists a. split.
      + apply call_ok. split; [|exact Ha]. rewrite E. apply keys_without. exact Hk.
      + apply do_ok. exists vs. split; [apply mapM_ok, Hv | exact H].
  Qed.
End Dict.

Ltac inv2 := repeat match goal with
  | H : Forall2 _ (_ :: _) _ |- _ => inversion H; subst; clear H
  | H : Forall2 _ [] _ |- _ => inversion H; subst; clear H
  end.
Ltac names := repeat (constructor; [discriminate|]); constructor.

Section Classes.
  Context {T : Type} {NT : Num T} {TT : Trig T}.
  Implicit Types l : dict T.

  Lemma simple_obsc_ok l t o : In t obsc_names -> (simple_obsc t (without "type" l) = Ok o <-> plain_obsc l t o).
  Proof.
    intros Ht. cbn in Ht.
    assert (X : forall (sig : list (string * option T)) (K : list T -> res (pobsc T)),
      Forall (fun p => fst p <> "type") sig ->
      simple_obsc t (without "type" l) = (do a <- call (map dflt sig) (without "type" l); do v <- mapM num a; K v) ->
      (simple_obsc t (without "type" l) = Ok o <->
        exists vs, keys l ("type" :: map fst sig) /\ Forall2 (binds l) sig vs /\ K vs = Ok o)).
    { intros sig K N E. rewrite E. apply bind_call, N. }
    destruct Ht as [<- | [<- | [<- | [<- | [<- | []]]]]].
    - rewrite (X [("radius", None); ("x", Some n0); ("y", Some n0)]
                 (fun v => match v with [r; x; y] => Ok (PyCircle r x y) | _ => Err TypeError end)) by (names || reflexivity).
      split.
      + intros (vs & Hk & Hb & H). inv2. injection H as <-. constructor; assumption.
      + intros H. inversion H; subst. exists [r; x; y]. split; [assumption|].
        split; [repeat (constructor; [assumption|]); constructor | reflexivity].
    - rewrite (X [("inner", None); ("outer", None); ("x", Some n0); ("y", Some n0)]
                 (fun v => match v with [i; o; x; y] => Ok (PyAnnulus i o x y) | _ => Err TypeError end)) by (names || reflexivity).
      split.
      + intros (vs & Hk & Hb & H). inv2. injection H as <-. constructor; assumption.
      + intros H. inversion H; subst. exists [i; o0; x; y]. split; [assumption|].
        split; [repeat (constructor; [assumption|]); constructor | reflexivity].
    - rewrite (X [("width", None); ("theta", None); ("x", Some n0); ("y", Some n0)]
                 (fun v => match v with [w; th; x; y] => Ok (PyRay w th x y) | _ => Err TypeError end)) by (names || reflexivity).
      split.
      + intros (vs & Hk & Hb & H). inv2. injection H as <-. constructor; assumption.
      + intros H. inversion H; subst. exists [w; th; x; y]. split; [assumption|].
        split; [repeat (constructor; [assumption|]); constructor | reflexivity].
    - rewrite (X [("width", None); ("height", None); ("x", Some n0); ("y", Some n0); ("theta", Some n0)]
                 (fun v => match v with [w; h; x; y; th] => Ok (PyRectangle w h x y th) | _ => Err TypeError end)) by (names || reflexivity).
      split.
      + intros (vs & Hk & Hb & H). inv2. injection H as <-. constructor; assumption.
      + intros H. inversion H; subst. exists [w; h; x; y; th]. split; [assumption|].
        split; [repeat (constructor; [assumption|]); constructor | reflexivity].
    - refine (iff_trans (bind_lists ["xs"; "ys"] l
                 (fun v => match v with [xs; ys] => Ok (PyPolygon xs ys) | _ => Err TypeError end) o _) _); [names|].
      split.
      + intros (vs & Hk & Hb & H). inv2. injection H as <-. constructor; assumption.
      + intros H. inversion H; subst. exists [xs; ys]. split; [assumption|].
        split; [repeat (constructor; [assumption|]); constructor | reflexivity].
  Qed.

  Lemma simple_surf_ok l t o : In t surf_names -> (simple_surf t (without "type" l) = Ok o <-> plain_surf l t o).
  Proof.
    intros Ht. cbn in Ht.
    destruct Ht as [<- | [<- | [<- | [<- | [<- | [<- | [<- | []]]]]]]].
    - cbn [simple_surf]. unfold simple_surf; cbn [String.eqb Ascii.eqb Bool.eqb]. rewrite do_ok. split.
      + intros (a & Ha & H). apply call_ok in Ha as [Hk _]. injection H as <-. constructor. apply keys_without, Hk.
      + intros H. inversion H; subst. exists []. split; [|reflexivity].
        apply call_ok. split; [apply keys_without; assumption | constructor].
    - refine (iff_trans (bind_call [("tanx", None); ("tany", None)] l
                 (fun v => match v with [x; y] => Ok (PyTilted x y) | _ => Err TypeError end) o _) _); [names|].
      split.
      + intros (vs & Hk & Hb & H). inv2. injection H as <-. constructor; assumption.
      + intros H. inversion H; subst. exists [x; y]. split; [assumption|].
        split; [repeat (constructor; [assumption|]); constructor | reflexivity].
    - refine (iff_trans (bind_call [("R", None)] l
                 (fun v => match v with [r] => Ok (PyParaboloid r) | _ => Err TypeError end) o _) _); [names|].
      split.
      + intros (vs & Hk & Hb & H). inv2. injection H as <-. constructor; assumption.
      + intros H. inversion H; subst. exists [r]. split; [assumption|].
        split; [repeat (constructor; [assumption|]); constructor | reflexivity].
    - refine (iff_trans (bind_call [("R", None)] l
                 (fun v => match v with [r] => Ok (PySphere r) | _ => Err TypeError end) o _) _); [names|].
      split.
      + intros (vs & Hk & Hb & H). inv2. injection H as <-. constructor; assumption.
      + intros H. inversion H; subst. exists [r]. split; [assumption|].
        split; [repeat (constructor; [assumption|]); constructor | reflexivity].
    - refine (iff_trans (bind_call [("R", None); ("conic", None)] l
                 (fun v => match v with [r; k] => Ok (PyQuadric r k) | _ => Err TypeError end) o _) _); [names|].
      split.
      + intros (vs & Hk & Hb & H). inv2. injection H as <-. constructor; assumption.
      + intros H. inversion H; subst. exists [r; k]. split; [assumption|].
        split; [repeat (constructor; [assumption|]); constructor | reflexivity].
    - unfold simple_surf; cbn [String.eqb Ascii.eqb Bool.eqb]. rewrite do_ok. split.
      + intros (a & Ha & H). apply call_ok in Ha as [Hk Ha]. inv2. cbn [fst snd] in *.
        rewrite !lookup_without in * by discriminate.
        repeat match goal with H : _ \/ (_ /\ None = Some _) |- _ =>
          destruct H as [H | [_ H]]; [|discriminate] end.
        apply do_ok in H as (r & Hr & H). apply do_ok in H as (k & Hkk & H). apply do_ok in H as (c & Hc & H).
        apply do_ok in H as (i & Hi & H). destruct (i <=? 0)%Z eqn:Ei; [discriminate|]. injection H as <-.
        apply num_ok in Hr, Hkk. apply nums_ok in Hc as (cs & -> & Hc).
        match goal with X : _ \/ (_ /\ Some _ = Some _) |- _ => rename X into Him end.
        constructor.
        * apply keys_without, Hk.
        * eexists; eauto.
        * eexists; eauto.
        * eexists; eauto.
        * destruct Him as [Him | [Him E]]; [left | right].
          -- rewrite Him. destruct y2; cbn in Hi; congruence.
          -- injection E as <-. cbn in Hi. split; congruence.
        * apply Z.leb_gt, Ei.
      + intros H. inversion H as [| | | | | r k cs i Hk [cr [Er Hr]] [ck [Ek Hck]] [cc [Ec Hc]] Hi Hp|]; subst.
        exists [cr; ck; YSeq cc; YInt i]. split.
        * apply call_ok. split; [apply keys_without, Hk|].
          constructor; [|constructor; [|constructor; [|constructor; [|constructor]]]];
            cbn [fst snd]; rewrite lookup_without by discriminate; auto.
          destruct Hi as [Hi | [Hi ->]]; auto.
        * apply num_ok in Hr, Hck. rewrite Hr, Hck. cbn [bind].
          assert (Hn : nums (YSeq cc) = Ok cs) by (apply nums_ok; eauto). rewrite Hn. cbn.
          apply Z.leb_gt in Hp. rewrite Hp. reflexivity.
    - unfold simple_surf; cbn [String.eqb Ascii.eqb Bool.eqb].
      set (sig := [("R_outer", Some n1); ("R_inner", Some n0); ("x_origin", Some n0); ("y_origin", Some n0)]).
      assert (N : Forall (fun p => fst p <> "type") sig) by names.
      split.
      + intros H. apply do_ok in H as (a & Ha & H). apply call_ok in Ha as [Hk Ha]. inv2. cbn [fst snd] in *.
        rewrite !lookup_without in * by discriminate.
        apply do_ok in H as (c & Hc & H). apply do_ok in H as (v & Hv & H).
        apply mapM_ok in Hv. inv2. injection H as <-.
        repeat match goal with X : _ \/ (_ /\ None = Some _) |- _ =>
          destruct X as [X | [_ X]]; [|discriminate] end.
        apply nums_ok in Hc as (cs & -> & Hc).
        assert (O : forall k d c v, lookup k l = Some c \/ (lookup k l = None /\ Some (YNum d) = Some c) ->
                  num c = Ok v -> opt l k d v).
        { intros k d c' v [E | [E E']] Hn; [left; exists c'; split; [exact E | apply num_ok, Hn] | right].
          injection E' as <-. cbn in Hn. split; congruence. }
        constructor; try (eapply O; eassumption).
        * apply keys_without, Hk.
        * eexists; eauto.
      + intros H. inversion H as [| | | | | | cs ro ri x y Hk [cc [Ec Hc]] H1 H2 H3 H4]; subst.
        assert (O : forall k d v, opt l k d v -> exists c,
                  (lookup k l = Some c \/ (lookup k l = None /\ Some (YNum d) = Some c)) /\ num c = Ok v).
        { intros k d v [[c [E Hn]] | [E ->]]; [exists c | exists (YNum d)].
          - split; [auto | apply num_ok, Hn].
          - split; [auto | reflexivity]. }
        apply O in H1 as (c1 & E1 & N1), H2 as (c2 & E2 & N2), H3 as (c3 & E3 & N3), H4 as (c4 & E4 & N4).
        apply do_ok. exists [YSeq cc; c1; c2; c3; c4]. split.
        * apply call_ok. split; [apply keys_without, Hk|].
          constructor; [|constructor; [|constructor; [|constructor; [|constructor; [|constructor]]]]];
            cbn [fst snd]; rewrite lookup_without by discriminate; auto.
        * assert (Hn : nums (YSeq cc) = Ok cs) by (apply nums_ok; eauto). rewrite Hn. cbn [bind].
          apply do_ok. exists [ro; ri; x; y]. split; [apply mapM_ok; repeat (constructor; [assumption|]); constructor | reflexivity].
  Qed.

  Lemma known_in_ok t ks : known_in t ks = true <-> In t ks.
  Proof.
    unfold known_in. rewrite existsb_exists. split.
    - intros (k & Hk & E). apply String.eqb_eq in E as ->. exact Hk.
    - intros H. exists t. split; [exact H | apply String.eqb_refl].
  Qed.
  Lemma pop_ok (k : string) l v d : pop k l = Some (v, d) <-> lookup k l = Some v /\ d = without k l.
  Proof.
    unfold pop. destruct (lookup k l); split.
    - intros H. injection H as <- <-. auto.
    - intros [H ->]. congruence.
    - discriminate.
    - intros [H _]. discriminate.
  Qed.
  Lemma as_str_ok (c : yaml T) s : as_str c = Ok s <-> c = YStr s.
  Proof. destruct c; cbn; split; congruence. Qed.
  Lemma as_dict_ok (c : yaml T) d : as_dict c = Ok d <-> c = YMap d.
  Proof. destruct c; cbn; split; intros H; try discriminate; injection H as ->; reflexivity. Qed.
  Lemma as_seq_ok (c : yaml T) d : as_seq c = Ok d <-> c = YSeq d.
  Proof. destruct c; cbn; split; intros H; try discriminate; injection H as ->; reflexivity. Qed.
  Lemma start_ok {A} l (K : yaml T -> dict T -> res A) (H : string -> dict T -> res A) o :
    (forall t d, K t d = do s <- as_str t; H s d) ->
    ((do tl <- need KeyError (pop "type" l); let '(t, d) := tl in K t d) = Ok o <->
     exists t, typed l t /\ H t (without "type" l) = Ok o).
  Proof.
    intros E. rewrite do_ok. split.
    - intros ([t d] & Hp & Hk). apply need_ok, pop_ok in Hp as [Hl ->]. rewrite E in Hk.
      apply do_ok in Hk as (s & Hs & Hk). apply as_str_ok in Hs as ->. exists s. auto.
    - intros (t & Ht & Hk). exists (YStr t, without "type" l). split; [apply need_ok, pop_ok; auto|].
      rewrite E. exact Hk.
  Qed.

  Lemma coef6_ok ks l vs : Forall (fun k => k <> "type") ks -> ks <> [] ->
    (coef6 ks (without "type" l) = Ok vs <-> Forall2 (arg l) ks vs).
  Proof.
    intros N N0. unfold coef6.
    assert (X : mapM (fun k => do v <- need KeyError (lookup k (without "type" l)); num v) ks = Ok vs <-> Forall2 (arg l) ks vs).
    { rewrite mapM_ok. clear N0. split; intros H.
      - induction H as [|k v ks vs Hk H IH]; constructor.
        + inversion N; subst. rewrite lookup_without in Hk by assumption. apply arg_num.
          apply do_ok in Hk as (c & Hc & Hn). apply need_ok in Hc. eauto.
        + apply IH. inversion N; assumption.
      - induction H as [|k v ks vs Hk H IH]; constructor.
        + inversion N; subst. rewrite lookup_without by assumption. apply arg_num in Hk as (c & Hc & Hn).
          rewrite Hc. exact Hn.
        + apply IH. inversion N; assumption. }
    destruct (List.length (without "type" l) =? 0)%nat eqn:E; [|exact X].
    split; [discriminate|]. intros H. exfalso. apply Nat.eqb_eq, length_zero_iff_nil in E.
    destruct ks as [|k ks]; [contradiction N0; reflexivity|]. inversion H as [|? v ? ? [c [Hc _]]]; subst.
    inversion N; subst. rewrite <- (lookup_without k "type") in Hc by assumption. rewrite E in Hc. discriminate.
  Qed.

  Lemma parse_medium_ok (c : yaml T) m : parse_medium c = Ok (Some m) <-> medium_says c m.
  Proof.
    destruct c as [v | z | s | | cs | l]; cbn [parse_medium].
    - split; intros H; [injection H as <-; repeat constructor|]. inversion H as [? ? H'| | | | |]; subst. inversion H'; reflexivity.
    - split; intros H; [injection H as <-; repeat constructor|]. inversion H as [? ? H'| | | | |]; subst. inversion H'; reflexivity.
    - split; intros H; [discriminate|]. inversion H as [? ? H'| | | | |]; subst. inversion H'.
    - split; intros H; [discriminate|]. inversion H as [? ? H'| | | | |]; subst. inversion H'.
    - split; intros H; [discriminate|]. inversion H as [? ? H'| | | | |]; subst. inversion H'.
    - assert (C : forall x, (simple_medium "ConstMedium" (without "type" l) = Ok x <->
                  exists n, keys l ["type"; "n"] /\ arg l "n" n /\ x = PyConstMedium n)).
      { intros x. refine (iff_trans (bind_call [("n", None)] l
          (fun v => match v with [n] => Ok (PyConstMedium n) | _ => Err TypeError end) x _) _); [names|]. split.
        - intros (vs & Hk & Hb & H). inv2. injection H as <-. unfold binds in *; cbn [fst snd map] in *. eexists. repeat (split; [eassumption|]). reflexivity.
        - intros (n & Hk & Hb & ->). exists [n]. split; [exact Hk|]. split; [|reflexivity]. constructor; [exact Hb | constructor]. }
      assert (Ta : forall x, (simple_medium "TableMedium" (without "type" l) = Ok x <->
                  exists w n, keys l ["type"; "wavelengths"; "ns"] /\ args l "wavelengths" w /\ args l "ns" n /\ x = PyTableMedium w n)).
      { intros x. refine (iff_trans (bind_lists ["wavelengths"; "ns"] l
          (fun v => match v with [w; n] => Ok (PyTableMedium w n) | _ => Err TypeError end) x _) _); [names|]. split.
        - intros (vs & Hk & Hb & H). inv2. injection H as <-. unfold binds in *; cbn [fst snd map] in *. do 2 eexists. repeat (split; [eassumption|]). reflexivity.
        - intros (w & n & Hk & Hw & Hn & ->). exists [w; n]. split; [exact Hk|]. split; [|reflexivity]. repeat (constructor; [assumption|]); constructor. }
      assert (Ai : forall x, (simple_medium "Air" (without "type" l) = Ok x <->
                  exists p t h, keys l ["type"; "pressure"; "temperature"; "h2o_pressure"] /\
                    opt l "pressure" (nfrac 69328 1000) p /\ opt l "temperature" (nfrac 29315 100) t /\
                    opt l "h2o_pressure" (nfrac 1067 1000) h /\ x = PyAir p t h)).
      { intros x. refine (iff_trans (bind_call [("pressure", Some (nfrac 69328 1000)); ("temperature", Some (nfrac 29315 100));
             ("h2o_pressure", Some (nfrac 1067 1000))] l
          (fun v => match v with [p; t; h] => Ok (PyAir p t h) | _ => Err TypeError end) x _) _); [names|]. split.
        - intros (vs & Hk & Hb & H). inv2. injection H as <-. unfold binds in *; cbn [fst snd map] in *. do 3 eexists. repeat (split; [eassumption|]). reflexivity.
        - intros (p & t & h & Hk & Hp & Ht & Hh & ->). exists [p; t; h]. split; [exact Hk|]. split; [|reflexivity]. repeat (constructor; [assumption|]); constructor. }
      assert (Se : forall ks (B : list T -> pmedium T), Forall (fun k => k <> "type") ks -> ks <> [] ->
                  forall x, (do v <- coef6 ks (without "type" l); Ok (B v)) = Ok x <->
                  exists vs, Forall2 (arg l) ks vs /\ x = B vs).
      { intros ks B N N0 x. rewrite do_ok. split.
        - intros (v & Hv & H). injection H as <-. apply coef6_ok in Hv; eauto.
        - intros (v & Hv & ->). exists v. split; [apply coef6_ok; auto | reflexivity]. }
      refine (iff_trans (start_ok l _ (fun typ d => if known_in typ medium_names then
          do m <- simple_medium typ d; do m <- need TypeError (build_medium m); Ok (Some m)
        else if unmodelled_name typ then Err TypeError else Err AttributeError) (Some m) (fun _ _ => eq_refl)) _).
      split.
      + intros (t & Ht & H). destruct (known_in t medium_names) eqn:Ek;
          [|destruct (unmodelled_name t); discriminate].
        apply known_in_ok in Ek. cbn in Ek.
        apply do_ok in H as (x & Hx & H). apply do_ok in H as (m' & Hm & H). apply need_ok in Hm. injection H as ->.
        destruct Ek as [<- | [<- | [<- | [<- | [<- | []]]]]].
        * apply C in Hx as (n & Hk & Hn & ->). injection Hm as <-. constructor; assumption.
        * apply Ta in Hx as (w & n & Hk & Hw & Hn & ->). injection Hm as <-. constructor; assumption.
        * apply (Se ["B1"; "B2"; "B3"; "C1"; "C2"; "C3"] PySellmeier) in Hx as (vs & Hv & ->); [|names|discriminate].
          inv2. injection Hm as <-. constructor; assumption.
        * apply (Se ["A0"; "A1"; "A2"; "A3"; "A4"; "A5"] PySumita) in Hx as (vs & Hv & ->); [|names|discriminate].
          inv2. injection Hm as <-. constructor; assumption.
        * apply Ai in Hx as (p & t & h & Hk & Hp & Hh & H' & ->). injection Hm as <-. constructor; assumption.
      + intros H. inversion H as [c n Hn | ? n Ht Hk Hn | ? w n Ht Hk Hw Hn | ? a b c d e f Ht h1 h2 h3 h4 h5 h6
                                 | ? a b c d e f Ht h1 h2 h3 h4 h5 h6 | ? p t h Ht Hk h1 h2 h3]; subst.
        * inversion Hn.
        * exists "ConstMedium". split; [exact Ht|]. cbn [known_in existsb medium_names String.eqb Ascii.eqb Bool.eqb orb].
          apply do_ok. exists (PyConstMedium n). split; [apply C; eauto | reflexivity].
        * exists "TableMedium". split; [exact Ht|]. cbn [known_in existsb medium_names String.eqb Ascii.eqb Bool.eqb orb].
          apply do_ok. exists (PyTableMedium w n). split; [apply Ta; eauto 10 | reflexivity].
        * exists "SellmeierMedium". split; [exact Ht|]. cbn [known_in existsb medium_names String.eqb Ascii.eqb Bool.eqb orb].
          apply do_ok. exists (PySellmeier [a; b; c; d; e; f]). split; [|reflexivity].
          apply (Se ["B1"; "B2"; "B3"; "C1"; "C2"; "C3"] PySellmeier); [names|discriminate|].
          eexists; split; [|reflexivity]. repeat (constructor; [assumption|]); constructor.
        * exists "SumitaMedium". split; [exact Ht|]. cbn [known_in existsb medium_names String.eqb Ascii.eqb Bool.eqb orb].
          apply do_ok. exists (PySumita [a; b; c; d; e; f]). split; [|reflexivity].
          apply (Se ["A0"; "A1"; "A2"; "A3"; "A4"; "A5"] PySumita); [names|discriminate|].
          eexists; split; [|reflexivity]. repeat (constructor; [assumption|]); constructor.
        * exists "Air". split; [exact Ht|]. cbn [known_in existsb medium_names String.eqb Ascii.eqb Bool.eqb orb].
          apply do_ok. exists (PyAir p t h). split; [apply Ai; eauto 10 | reflexivity].
  Qed.
  Lemma parse_medium_none (c : yaml T) : parse_medium c = Ok None <-> c = YNull.
  Proof.
    split; [|intros ->; reflexivity]. destruct c as [v | z | s | | cs | l]; cbn [parse_medium]; try discriminate; [reflexivity|].
    intros H. refine ((fun X => _) (proj1 (start_ok l _ (fun typ d => if known_in typ medium_names then
          do m <- simple_medium typ d; do m <- need TypeError (build_medium m); Ok (Some m)
        else if unmodelled_name typ then Err TypeError else Err AttributeError) None (fun _ _ => eq_refl)) H)).
    destruct X as (t & _ & X). destruct (known_in t medium_names); [|destruct (unmodelled_name t); discriminate].
    apply do_ok in X as (x & _ & X). apply do_ok in X as (m' & _ & X). discriminate.
  Qed.
End Classes.
