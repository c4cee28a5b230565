(** Path tracing (C27). *)
From Coq Require Import FinFun DecimalString DecimalNat String List Bool ZArith Lia.
From Verif Require Import Num Vec CoordSys Surface Medium Obscuration Ray Bundle Optic Ops StructProofs TreeSpec TreeProofs.
Import ListNotations.

Lemma dec_inj i j : dec i = dec j -> i = j.
Proof.
  unfold dec; intros H. apply Unsigned.to_uint_inj.
  assert (E : forall d, NilEmpty.uint_of_string (NilEmpty.string_of_uint d) = Some d)
    by apply NilEmpty.usu.
  pose proof (E (Nat.to_uint i)) as Ei. rewrite H, E in Ei. congruence.
Qed.
Lemma append_inj_l a b c : (a ++ b)%string = (a ++ c)%string -> b = c.
Proof. induction a; cbn; intros H; [assumption|]. injection H; auto. Qed.

Lemma dict_get_notin {V} k (d : list (string * V)) : dict_get k d = None <-> ~ In k (map fst d).
Proof.
  induction d as [|[k' v] d IH]; cbn; [tauto|].
  destruct (String.eqb_spec k k'); [subst; split; [discriminate|tauto]|].
  rewrite IH. split; intros H; [intros [->|?]; tauto|tauto].
Qed.

Lemma combine_snoc {A B} (l1 : list A) (l2 : list B) a b : length l1 = length l2 ->
  combine l1 l2 ++ [(a, b)] = combine (l1 ++ [a]) (l2 ++ [b]).
Proof.
  revert l2. induction l1 as [|x l1 IH]; intros [|y l2] L; cbn in *; try discriminate; [reflexivity|].
  f_equal. apply IH. congruence.
Qed.

Section Path.
  Context {T : Type} {NT : Num T}.
  Variable niter : nat.

  (** ** nominal order of distinct names *)
  Lemma nominal_nodup path : NoDup path ->
    nominalOrder path = combine path (seq 0 (length path)).
  Proof.
    intros H. unfold nominalOrder.
    assert (G : forall p2 p1, NoDup (p1 ++ p2) ->
      fold_left (fun '(i, d) n => match dict_get n d with
                                  | Some _ => (i, d)
                                  | None => (S i, dict_set n i d)
                                  end) p2 (length p1, combine p1 (seq 0 (length p1)))
      = (length (p1 ++ p2), combine (p1 ++ p2) (seq 0 (length (p1 ++ p2))))).
    { induction p2 as [|n p2 IH]; intros p1 Hp; cbn.
      - rewrite app_nil_r; reflexivity.
      - assert (Hn : ~ In n (map fst (combine p1 (seq 0 (length p1))))).
        { intros Hin. apply NoDup_remove_2 in Hp. apply Hp, in_or_app. left.
          revert Hin. generalize (seq 0 (length p1)) as l. clear. induction p1; intros [|x l] Hin; cbn in *; try tauto.
          destruct Hin; [left; assumption|right; eapply IHp1; eassumption]. }
        assert (Hg := Hn). apply dict_get_notin in Hg. rewrite Hg, dict_set_new by assumption.
        assert (E : combine p1 (seq 0 (length p1)) ++ [(n, length p1)]
                    = combine (p1 ++ [n]) (seq 0 (length (p1 ++ [n])))).
        { rewrite app_length; cbn. rewrite seq_app; cbn. apply combine_snoc.
          rewrite seq_length; reflexivity. }
        rewrite E. replace (S (length p1)) with (length (p1 ++ [n])) by (rewrite app_length; cbn; lia).
        rewrite IH; rewrite <- app_assoc; [reflexivity|exact Hp]. }
    specialize (G path [] H). cbn [length combine seq app] in G. rewrite G. reflexivity.
  Qed.
  Lemma dict_get_combine path (l : list nat) k n x : NoDup path -> length path = length l ->
    nth_error path k = Some n -> nth_error l k = Some x -> dict_get n (combine path l) = Some x.
  Proof.
    revert l k. induction path as [|m path IH]; intros [|y l] k Hn L Hp Hx; cbn in L; try discriminate;
      [destruct k; discriminate|].
    inversion Hn; subst. cbn. destruct k as [|k]; cbn in Hp, Hx.
    - injection Hp as <-. injection Hx as <-. rewrite String.eqb_refl. reflexivity.
    - destruct (String.eqb_spec n m).
      + subst. exfalso. apply H1. eapply nth_error_In; eassumption.
      + eapply IH; eauto.
  Qed.
  Lemma nominal_get path k n : NoDup path -> nth_error path k = Some n ->
    dict_get n (nominalOrder path) = Some k.
  Proof.
    intros H Hk. rewrite nominal_nodup by assumption.
    assert (k < length path) by (apply nth_error_Some; congruence).
    eapply dict_get_combine; eauto; [rewrite seq_length; reflexivity|].
    rewrite (nth_error_nth' _ 0) by (rewrite seq_length; lia). rewrite seq_nth by lia. reflexivity.
  Qed.

  Lemma path_natural_gen o is1 is2 rv :
    NoDup (map i_name (is1 ++ is2)) -> 2 <= length (is1 ++ is2) ->
    (forall i, In i (is1 ++ is2) -> getitem o (i_name i) = Ok (Iface i)) ->
    path_loop niter o (nominalOrder (map i_name (is1 ++ is2))) (map i_name is2) Forward rv
    = Ok (in_turn niter false is2 rv).
  Proof.
    intros Hn Hl Hg. revert is1 rv Hn Hl Hg.
    induction is2 as [|i is2 IH]; intros is1 rv Hn Hl Hg; [reflexivity|].
    cbn [map path_loop]. rewrite Hg by (apply in_or_app; right; left; reflexivity). cbn [bind].
    assert (Ei : dict_get (i_name i) (nominalOrder (map i_name (is1 ++ i :: is2))) = Some (length is1)).
    { apply nominal_get; [assumption|]. rewrite nth_error_map, nth_error_app2, Nat.sub_diag by lia. reflexivity. }
    assert (Ed : nextDirection (nominalOrder (map i_name (is1 ++ i :: is2))) (i_name i) (map i_name is2) Forward
                 = Forward).
    { unfold nextDirection. rewrite Ei. destruct is2 as [|j is2]; cbn [map].
      - rewrite app_length in Hl; cbn in Hl. destruct (length is1) eqn:E; [lia|reflexivity].
      - rewrite (nominal_get _ (S (length is1))).
        + replace (S (length is1) <? length is1)%nat with false; [reflexivity|].
          symmetry. apply Nat.ltb_ge. lia.
        + assumption.
        + rewrite nth_error_map, nth_error_app2 by lia.
          replace (S (length is1) - length is1) with 1 by lia. reflexivity. }
    rewrite Ed. cbn [dir_eqb is_rev trace].
    replace (is1 ++ i :: is2) with ((is1 ++ [i]) ++ is2) in * by (rewrite <- app_assoc; reflexivity).
    rewrite IH by assumption. reflexivity.
  Qed.
  Lemma path_natural o rv :
    NoDup (map i_name (leaves o)) -> 2 <= length (leaves o) ->
    (forall i, In i (leaves o) -> getitem o (i_name i) = Ok (Iface i)) ->
    trace_path niter o (map i_name (leaves o)) rv = Ok (trace niter o false rv).
  Proof.
    intros Hn Hl Hg. unfold trace_path. rewrite trace_in_turn. unfold visit.
    apply (path_natural_gen o [] (leaves o) rv); assumption.
  Qed.

  (** ** visits *)
  Lemma path_visits o order path d rv rv' :
    path_loop niter o order path d rv = Ok rv' ->
    exists its, Forall2 (fun n it => getitem o n = Ok it) path its /\ visits niter its rv rv'.
  Proof.
    revert d rv. induction path as [|n path IH]; intros d rv H; cbn in H.
    - injection H as <-. exists []. split; constructor.
    - destruct (getitem o n) as [it|] eqn:Eg; cbn in H; [|discriminate].
      destruct (dir_eqb d (nextDirection order n path d)).
      + destruct (IH _ _ H) as (its & Hf & Hv). exists (it :: its). split; [constructor; assumption|].
        econstructor; [|exact Hv]. destruct d; cbn; unfold one_visit; auto.
      + destruct it as [i|]; cbn in H; [|discriminate].
        destruct (IH _ _ H) as (its & Hf & Hv). exists (Iface i :: its). split; [constructor; assumption|].
        econstructor; [|exact Hv]. right; right. eauto.
  Qed.

  (** ** traceFull along a path *)
  Lemma fresh_key_fresh name (d : list (string * tf_entry T)) :
    ~ In (fresh_key (length d) 0 name d) (map fst d).
  Proof.
    (* if the search runs out, all S(length d) candidates are keys: pigeonhole *)
    set (key j := (name ++ "_" ++ dec j)%string).
    assert (G : forall fuel j,
      (exists m, fresh_key fuel j name d = key m /\ ~ In (key m) (map fst d)) \/
      (forall m, j <= m < j + fuel -> In (key m) (map fst d)) /\ fresh_key fuel j name d = key (j + fuel)).
    { induction fuel as [|fuel IH]; intros j; cbn [fresh_key]; fold (key j).
      - right. split; [intros; lia|]. rewrite Nat.add_0_r. reflexivity.
      - destruct (dict_get (key j) d) eqn:E.
        + destruct (IH (S j)) as [H|[H1 H2]]; [left; exact H|right]. split.
          * intros m Hm. destruct (Nat.eq_dec m j) as [->|]; [|apply H1; lia].
            destruct (in_dec string_dec (key j) (map fst d)); [assumption|].
            apply dict_get_notin in n. congruence.
          * rewrite H2. f_equal. lia.
        + left. exists j. split; [reflexivity|]. apply dict_get_notin, E. }
    destruct (G (length d) 0) as [(m & -> & H)|[H1 H2]]; [exact H|].
    rewrite H2; cbn. intros Hin.
    assert (Hincl : incl (map key (seq 0 (S (length d)))) (map fst d)).
    { intros x Hx. apply in_map_iff in Hx. destruct Hx as (m & <- & Hm). apply in_seq in Hm.
      destruct (Nat.eq_dec m (length d)) as [->|]; [exact Hin|]. apply H1. lia. }
    assert (Hnd : NoDup (map key (seq 0 (S (length d))))).
    { apply FinFun.Injective_map_NoDup; [|apply seq_NoDup].
      intros i j Hij. unfold key in Hij. apply append_inj_l in Hij. cbn in Hij. injection Hij as Hij.
      apply dec_inj, Hij. }
    pose proof (NoDup_incl_length Hnd Hincl) as L. rewrite !map_length, seq_length in L. lia.
  Qed.
  Lemma full_path_agrees o order path d rv res rv' :
    path_loop niter o order path d rv = Ok rv' ->
    exists new, full_path_loop niter o order path d rv res = Ok (res ++ new) /\
      length new = length path /\
      fold_left (fun _ e => tf_out (snd e)) new rv = rv' /\
      Forall2 (fun n e => exists it, getitem o n = Ok it /\ tf_name (snd e) = o_name it) path new.
  Proof.
    revert d rv res. induction path as [|n path IH]; intros d rv res H; cbn [path_loop full_path_loop] in *.
    - injection H as <-. exists []. rewrite app_nil_r. repeat split; constructor.
    - destruct (getitem o n) as [it|] eqn:Eg; cbn [bind] in *; [|discriminate].
      set (nd := nextDirection order n path d) in *.
      set (key := fresh_key (length res) 0 (o_name it) res).
      assert (Hk : ~ In key (map fst res)) by apply fresh_key_fresh.
      assert (G : forall out, path_loop niter o order path nd out = Ok rv' ->
        exists new, full_path_loop niter o order path nd out (dict_set key (TF (o_name it) rv out) res)
                    = Ok (res ++ new) /\ length new = S (length path) /\
          fold_left (fun _ e => tf_out (snd e)) new rv = rv' /\
          Forall2 (fun n e => exists it, getitem o n = Ok it /\ tf_name (snd e) = o_name it) (n :: path) new).
      { intros out Ho. rewrite dict_set_new by assumption.
        destruct (IH nd out (res ++ [(key, TF (o_name it) rv out)]) Ho) as (new & E1 & E2 & E3 & E4).
        exists ((key, TF (o_name it) rv out) :: new). rewrite E1, <- app_assoc. cbn.
        rewrite E2. split; [reflexivity|]. split; [reflexivity|]. split; [exact E3|].
        constructor; [exists it; auto|exact E4]. }
      destruct (dir_eqb d nd) eqn:Ed.
      + cbn [bind]. assert (d = nd) by (destruct d, nd; cbn in Ed; congruence).
        apply G. rewrite <- H0. exact H.
      + destruct (turn_around niter it rv) as [out|] eqn:Et; cbn [bind] in *; [|discriminate].
        apply G, H.
  Qed.
  Lemma traceFull_path_agrees o path rv rv' :
    trace_path niter o path rv = Ok rv' ->
    exists tf, traceFull_path niter o path rv = Ok tf /\ length tf = length path /\
      fold_left (fun _ e => tf_out (snd e)) tf rv = rv' /\
      Forall2 (fun n e => exists it, getitem o n = Ok it /\ tf_name (snd e) = o_name it) path tf.
  Proof.
    intros H. destruct (full_path_agrees o _ path Forward rv [] rv' H) as (new & E1 & E2 & E3 & E4).
    exists new. split; [exact E1|]. auto.
  Qed.
  (** and the converse: traceFull along a path fails exactly when trace does. *)
  Lemma full_path_err o order path d rv res e :
    path_loop niter o order path d rv = Err e -> full_path_loop niter o order path d rv res = Err e.
  Proof.
    revert d rv res. induction path as [|n path IH]; intros d rv res H; cbn [path_loop full_path_loop] in *;
      [discriminate|].
    destruct (getitem o n) as [it|] eqn:Eg; cbn [bind] in *; [|congruence].
    destruct (dir_eqb d (nextDirection order n path d)) eqn:Ed.
    - cbn [bind]. assert (E : nextDirection order n path d = d)
        by (destruct d, (nextDirection order n path _); cbn in Ed; congruence).
      rewrite E. apply IH, H.
    - destruct (turn_around niter it rv); cbn [bind] in *; [apply IH, H|congruence].
  Qed.
  (** consecutive entries *)
  Lemma full_path_chain o order path d rv res tf k x y :
    full_path_loop niter o order path d rv res = Ok tf ->
    (forall e, nth_error res (length res - 1) = Some e -> tf_out (snd e) = rv) ->
    (forall k x y, nth_error res k = Some x -> nth_error res (S k) = Some y ->
        tf_in (snd y) = tf_out (snd x)) ->
    nth_error tf k = Some x -> nth_error tf (S k) = Some y -> tf_in (snd y) = tf_out (snd x).
  Proof.
    revert d rv res. induction path as [|n path IH]; intros d rv res H Hlast Hch Hx Hy;
      cbn [full_path_loop] in *.
    - injection H as <-. eapply Hch; eauto.
    - destruct (getitem o n) as [it|] eqn:Eg; cbn [bind] in H; [|discriminate].
      set (nd := nextDirection order n path d) in *.
      set (key := fresh_key (length res) 0 (o_name it) res) in *.
      assert (Hk : ~ In key (map fst res)) by apply fresh_key_fresh.
      assert (G : forall out, 
        full_path_loop niter o order path nd out (dict_set key (TF (o_name it) rv out) res) = Ok tf ->
        tf_in (snd y) = tf_out (snd x)).
      { intros out Ho. eapply IH; [exact Ho| | |exact Hx|exact Hy]; rewrite dict_set_new by assumption.
        - rewrite app_length; cbn. rewrite nth_error_app2 by lia.
          replace (length res + 1 - 1 - length res) with 0 by lia. cbn. intros e He. injection He as <-. reflexivity.
        - intros k0 x0 y0 H1 H2.
          destruct (Nat.lt_ge_cases (S k0) (length res)).
          + rewrite nth_error_app1 in H1, H2 by lia. eapply Hch; eauto.
          + assert (S k0 < length (res ++ [(key, TF (o_name it) rv out)])) by (apply nth_error_Some; congruence).
            rewrite app_length in H3; cbn in H3.
            rewrite nth_error_app1 in H1 by lia.
            rewrite nth_error_app2 in H2 by lia. replace (S k0 - length res) with 0 in H2 by lia.
            cbn in H2. injection H2 as <-. cbn. symmetry. apply Hlast.
            replace (length res - 1) with k0 by lia. exact H1. }
      destruct (dir_eqb d nd).
      + cbn [bind] in H. apply (G _ H).
      + destruct (turn_around niter it rv) as [out|]; cbn [bind] in H; [|discriminate]. apply (G _ H).
  Qed.
  Lemma traceFull_path_chain o path rv tf k x y :
    traceFull_path niter o path rv = Ok tf ->
    nth_error tf k = Some x -> nth_error tf (S k) = Some y -> tf_in (snd y) = tf_out (snd x).
  Proof.
    intros H. eapply full_path_chain; [exact H| |].
    - intros e He; discriminate.
    - intros [|?] ? ? Hx; discriminate.
  Qed.
End Path.
