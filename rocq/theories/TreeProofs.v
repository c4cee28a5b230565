(** Proofs about tracing optic trees (C25, C26, C27, C55). *)
From Coq Require Import List Bool String ZArith Lia.
From Verif Require Import Num Vec CoordSys Surface Medium Obscuration Ray Bundle Optic Ops StructProofs TreeSpec.
Import ListNotations.

Section Tree.
  Context {T : Type} {NT : Num T}.
  Variable niter : nat.

  Lemma in_turn_app b l1 l2 (rv : rayvec T) :
    in_turn niter b (l1 ++ l2) rv = in_turn niter b l2 (in_turn niter b l1 rv).
  Proof. apply fold_left_app. Qed.

  Lemma trace_in_turn o b rv : trace niter o b rv = in_turn niter b (visit b o) rv.
  Proof.
    revert rv. induction o as [i|a items IH] using optic_ind2; intros rv.
    - destruct b; reflexivity.
    - unfold visit; cbn [trace leaves]. destruct b.
      + induction IH as [|it items Hit Hits IHl]; cbn [fold_right flat_map]; [reflexivity|].
        rewrite rev_app_distr, in_turn_app, <- IHl.
        destruct (o_skip it); [reflexivity|]. apply Hit.
      + revert rv. induction IH as [|it items Hit Hits IHl]; intros rv; cbn [fold_left flat_map];
          [reflexivity|].
        rewrite in_turn_app, IHl. f_equal.
        destruct (o_skip it); [reflexivity|]. apply Hit.
  Qed.

  Lemma leaves_regroup a b l1 l2 l3 : c_skip b = false ->
    leaves (Compound (T:=T) a (l1 ++ Compound b l2 :: l3)) = leaves (Compound a (l1 ++ l2 ++ l3)).
  Proof.
    intros H. cbn [leaves]. rewrite !flat_map_app. cbn [flat_map o_skip leaves]. rewrite H. reflexivity.
  Qed.
  Lemma trace_regroup a b l1 l2 l3 rev rv : c_skip b = false ->
    trace niter (Compound a (l1 ++ Compound b l2 :: l3)) rev rv
    = trace niter (Compound a (l1 ++ l2 ++ l3)) rev rv.
  Proof. intros H. rewrite !trace_in_turn. unfold visit. rewrite leaves_regroup by assumption. reflexivity. Qed.
  Lemma trace_skip a l1 it l2 rev rv : o_skip it = true ->
    trace niter (Compound a (l1 ++ it :: l2)) rev rv = trace niter (Compound a (l1 ++ l2)) rev rv.
  Proof.
    intros H. rewrite !trace_in_turn. unfold visit. cbn [leaves]. rewrite !flat_map_app; cbn [flat_map].
    rewrite H. reflexivity.
  Qed.

  Lemma batch_frame body c (rv : rayvec T) : rvcs (batch body (Some c) rv) = c.
  Proof. reflexivity. Qed.
  Lemma iface_frame i b rv : rvcs (iface_trace niter i b rv) = i_cs i.
  Proof.
    unfold iface_trace. assert (E : rvcs (interact niter i b rv) = i_cs i).
    { unfold interact; destruct (i_kind i), b; reflexivity. }
    destruct (i_obsc i); cbn; assumption.
  Qed.
  Lemma trace_frame o b rv is i :
    visit b o = is ++ [i] -> rvcs (trace niter o b rv) = i_cs i.
  Proof. intros H. rewrite trace_in_turn, H, in_turn_app. cbn. apply iface_frame. Qed.
  Lemma trace_empty o b rv : visit b o = [] -> trace niter o b rv = rv.
  Proof. intros H. rewrite trace_in_turn, H. reflexivity. Qed.

  (** ** traceFull *)
  Definition entry (x : string * rayvec T * rayvec T) : string * tf_entry T :=
    let '(n, i, o) := x in (n, TF n i o).
  Lemma logged_app b l1 l2 rv :
    logged niter b (l1 ++ l2) rv
    = logged niter b l1 rv ++ logged niter b l2 (in_turn niter b l1 rv).
  Proof.
    revert rv; induction l1 as [|i l1 IH]; intros rv; cbn; [reflexivity|]. rewrite IH. reflexivity.
  Qed.
  Lemma logged_names b is rv : map (fun x => fst (fst x)) (logged niter b is rv) = map i_name is.
  Proof. revert rv; induction is; intros rv; cbn; f_equal; auto. Qed.

  Lemma dict_set_new {V} k (v : V) d : ~ In k (map fst d) -> dict_set k v d = d ++ [(k, v)].
  Proof.
    induction d as [|[k' v'] d IH]; cbn; intros H; [reflexivity|].
    destruct (String.eqb_spec k k'); [subst; tauto|]. f_equal. apply IH. tauto.
  Qed.

  Lemma tf_step_log (l : list (string * rayvec T * rayvec T)) res rv :
    NoDup (map fst res ++ map (fun x => fst (fst x)) l) ->
    tf_step (map entry l) (res, rv) = (res ++ map entry l, fold_left (fun _ x => snd x) l rv).
  Proof.
    revert res rv. induction l as [|[[n i] o] l IH]; intros res rv H; cbn.
    - rewrite app_nil_r. reflexivity.
    - unfold tf_step in IH |- *; cbn. rewrite dict_set_new.
      + rewrite IH.
        * rewrite <- app_assoc. reflexivity.
        * rewrite map_app; cbn. rewrite <- app_assoc. exact H.
      + intros Hin. cbn in H. apply NoDup_remove_2 in H. apply H. apply in_or_app. left; assumption.
  Qed.
  Lemma fold_snd_logged b is rv :
    fold_left (fun _ x => snd x) (logged niter b is rv) rv = in_turn niter b is rv.
  Proof.
    assert (G : forall is rv d, is <> [] ->
      fold_left (fun _ x => snd x) (logged niter b is rv) d = in_turn niter b is rv).
    { clear. induction is as [|i is IH]; intros rv d H; [congruence|]. cbn.
      destruct is as [|j is]; [reflexivity|]. apply IH. discriminate. }
    destruct is; [reflexivity|]. apply G. discriminate.
  Qed.

  Lemma fst_entry l : map fst (map entry l) = map (fun x => fst (fst x)) l.
  Proof. rewrite map_map. apply map_ext. intros [[n i] o]; reflexivity. Qed.

  Lemma NoDup_app_l {A} (l1 l2 : list A) : NoDup (l1 ++ l2) -> NoDup l1.
  Proof. induction l1; cbn; intros H; constructor; inversion H; subst; [|auto].
    intros Hin; apply H2, in_or_app; auto. Qed.
  Lemma NoDup_app_r {A} (l1 l2 : list A) : NoDup (l1 ++ l2) -> NoDup l2.
  Proof. induction l1; cbn; intros H; [assumption|]. inversion H; auto. Qed.

  Lemma visit_compound b a items :
    visit b (Compound (T:=T) a items)
    = flat_map (fun it => if o_skip it then [] else visit b it) (if b then rev items else items).
  Proof.
    unfold visit; cbn [leaves]. destruct b; [|reflexivity].
    induction items as [|it items IH]; cbn; [reflexivity|].
    rewrite rev_app_distr, IH, flat_map_app; cbn. rewrite app_nil_r. f_equal.
    destruct (o_skip it); reflexivity.
  Qed.
  Lemma traceFull_skip o b rv : o_skip o = true -> traceFull niter o b rv = [].
  Proof. destruct o; cbn; intros ->; reflexivity. Qed.

  Lemma traceFull_log o b rv :
    o_skip o = false -> NoDup (map i_name (visit b o)) ->
    traceFull niter o b rv = map entry (logged niter b (visit b o) rv).
  Proof.
    revert rv. induction o as [i|a items IH] using optic_ind2; intros rv Hs Hn.
    - cbn in Hs |- *. rewrite Hs. destruct b; reflexivity.
    - cbn [traceFull]. cbn in Hs. rewrite Hs.
      rewrite visit_compound in Hn |- *.
      set (step := fun it st => tf_step (traceFull niter it b (snd st)) st).
      assert (G : forall items, Forall (fun o => forall rv, o_skip o = false ->
                     NoDup (map i_name (visit b o)) ->
                     traceFull niter o b rv = map entry (logged niter b (visit b o) rv)) items ->
                forall res rv,
                NoDup (map fst res ++ map i_name (flat_map (fun it => if o_skip it then [] else visit b it) items)) ->
                fold_left (fun st it => step it st) items (res, rv)
                = (res ++ map entry (logged niter b (flat_map (fun it => if o_skip it then [] else visit b it) items) rv),
                   in_turn niter b (flat_map (fun it => if o_skip it then [] else visit b it) items) rv)).
      { clear. intros items H. induction H as [|it items Hit Hits IHl]; intros res rv Hn; cbn [fold_left flat_map].
        - cbn. rewrite app_nil_r. reflexivity.
        - cbn [flat_map] in Hn. unfold step at 2; cbn [snd].
          destruct (o_skip it) eqn:Es.
          + rewrite traceFull_skip by assumption. cbn. apply IHl. exact Hn.
          + rewrite map_app in Hn.
            rewrite Hit; [|reflexivity|].
            * rewrite tf_step_log.
              -- rewrite fold_snd_logged, IHl.
                 ++ rewrite logged_app, map_app, in_turn_app, <- app_assoc. reflexivity.
                 ++ rewrite map_app, fst_entry, logged_names, <- app_assoc. exact Hn.
              -- rewrite logged_names. rewrite app_assoc in Hn. apply NoDup_app_l in Hn. exact Hn.
            * apply NoDup_app_r in Hn. apply NoDup_app_l in Hn. exact Hn. }
      destruct b.
      + rewrite <- (rev_involutive items) at 1. rewrite fold_left_rev_right.
        rewrite (G (rev items)); [reflexivity| |exact Hn].
        apply Forall_rev. exact IH.
      + rewrite (G items IH); [reflexivity|exact Hn].
  Qed.

  (** The consequences users see. *)
  Lemma logged_last b is rv d : is <> [] ->
    snd (last (logged niter b is rv) d) = in_turn niter b is rv.
  Proof.
    revert rv. induction is as [|i is IH]; intros rv H; [congruence|].
    destruct is as [|j is]; [reflexivity|].
    change (logged niter b (i :: j :: is) rv)
      with ((i_name i, rv, iface_trace niter i b rv) :: logged niter b (j :: is) (iface_trace niter i b rv)).
    destruct (logged niter b (j :: is) (iface_trace niter i b rv)) eqn:E; [discriminate|].
    change (last ((i_name i, rv, iface_trace niter i b rv) :: p :: l) d) with (last (p :: l) d).
    rewrite <- E, IH by discriminate. reflexivity.
  Qed.
  Lemma logged_chain b is rv k x y :
    nth_error (logged niter b is rv) k = Some x -> nth_error (logged niter b is rv) (S k) = Some y ->
    snd (fst y) = snd x.
  Proof.
    revert rv k; induction is as [|i is IH]; intros rv k Hx Hy; [destruct k; discriminate|].
    cbn in Hy. destruct k as [|k].
    - cbn in Hx. injection Hx as <-. destruct is; [discriminate|]. cbn in Hy. injection Hy as <-. reflexivity.
    - cbn in Hx. exact (IH _ _ Hx Hy).
  Qed.
  Lemma logged_entry b is rv k x :
    nth_error (logged niter b is rv) k = Some x ->
    exists i, nth_error is k = Some i /\ fst (fst x) = i_name i /\
              snd x = iface_trace niter i b (snd (fst x)).
  Proof.
    revert rv k; induction is as [|i is IH]; intros rv k Hx; [destruct k; discriminate|].
    destruct k as [|k]; cbn in Hx |- *.
    - injection Hx as <-. eauto.
    - exact (IH _ _ Hx).
  Qed.

  Lemma traceFull_props o b rv :
    o_skip o = false -> NoDup (map i_name (visit b o)) ->
    let tf := traceFull niter o b rv in
    map fst tf = map i_name (visit b o) /\
    (forall k i, nth_error (visit b o) k = Some i ->
       exists e, nth_error tf k = Some (i_name i, e) /\ tf_name e = i_name i /\
                 tf_out e = iface_trace niter i b (tf_in e)) /\
    (forall n e, nth_error tf 0 = Some (n, e) -> tf_in e = rv) /\
    (forall k n e n' e', nth_error tf k = Some (n, e) -> nth_error tf (S k) = Some (n', e') ->
       tf_in e' = tf_out e) /\
    (forall n e, visit b o <> [] -> last (map Some tf) None = Some (n, e) ->
       tf_out e = trace niter o b rv).
  Proof.
    intros Hs Hn tf. unfold tf. rewrite (traceFull_log o b rv Hs Hn). clear tf.
    set (L := logged niter b (visit b o) rv).
    repeat split.
    - rewrite fst_entry. apply logged_names.
    - intros k i Hk. assert (Hl : nth_error L k <> None).
      { apply nth_error_Some. unfold L. rewrite <- (map_length (fun x => fst (fst x))), logged_names, map_length.
        apply nth_error_Some. congruence. }
      destruct (nth_error L k) as [[[n i'] o']|] eqn:E; [|congruence].
      destruct (logged_entry _ _ _ _ _ E) as (i0 & H0 & H1 & H2). rewrite Hk in H0; injection H0 as <-.
      cbn in H1, H2. subst n. exists (TF (i_name i) i' o'). rewrite nth_error_map, E. cbn. auto.
    - intros n e H. rewrite nth_error_map in H. unfold L in H.
      destruct (visit b o); cbn in H; [discriminate|]. injection H as <- <-. reflexivity.
    - intros k n e n' e' H H'. rewrite nth_error_map in H, H'.
      destruct (nth_error L k) as [[[n0 i0] o0]|] eqn:E; [|discriminate].
      destruct (nth_error L (S k)) as [[[n1 i1] o1]|] eqn:E'; [|discriminate].
      cbn in H, H'. injection H as <- <-. injection H' as <- <-. cbn.
      exact (logged_chain _ _ _ _ _ _ E E').
    - intros n e Hne Hl. rewrite trace_in_turn.
      rewrite <- (logged_last b (visit b o) rv ("", rv, rv)%string Hne). fold L.
      assert (HL : L <> []).
      { unfold L. destruct (visit b o); [congruence|discriminate]. }
      destruct (exists_last HL) as (L' & x & EL). rewrite EL in Hl |- *.
      rewrite !map_app in Hl; cbn in Hl. rewrite last_last in Hl. rewrite last_last.
      injection Hl as Hx. destruct x as [[n0 i0] o0]; cbn in Hx |- *. injection Hx as _ <-. reflexivity.
  Qed.

  (** ** C55 *)
  Lemma vignetting_exact i b l cs k r :
    (failed r = true -> vignetted r = true) ->
    nth_error l k = Some r ->
    exists r', nth_error (rays (iface_trace niter i b (RV l cs))) k = Some r' /\
      vignetted r' =
        (vignetted r || failed r' ||
         match i_obsc i with
         | Some o => negb (failed r') && contains o (cx (pos r')) (cy (pos r'))
         | None => false
         end).
  Proof.
    intros Hfv Hk.
    set (Q := fun r r' : ray T => (failed r = true -> vignetted r = true) ->
                vignetted r' = vignetted r || failed r').
    assert (HQ : Forall2 Q l (rays (interact niter i b (RV l cs)))).
    { unfold interact. destruct (i_kind i), b; cbn [rays batch rv_intersect rv_reflect rv_refract rv_screen];
        apply Forall2_map; intros r0; unfold Q; intros Hfv0;
        unfold ray_intersect, ray_reflect, ray_refract, ray_screen, mark_failed;
        destruct (failed r0) eqn:Ef;
        try (rewrite Hfv0 by reflexivity; reflexivity);
        destruct (hit _ _ _ _) as [[] dt]; cbn [vignetted failed]; rewrite ?orb_true_r, ?Ef, ?orb_false_r; auto;
        destruct (orient _ _); destruct (refract_vel _ _ _ _ _); cbn [vignetted failed];
        rewrite ?orb_true_r, ?Ef, ?orb_false_r; auto. }
    destruct (Forall2_nth _ _ _ _ _ HQ Hk) as (r1 & Hr1 & Q1). specialize (Q1 Hfv).
    unfold iface_trace. destruct (i_obsc i) as [o|]; cbn [apply_obsc rv_obscure rays].
    - exists (ray_obscure o r1). rewrite nth_error_map, Hr1. split; [reflexivity|].
      cbn. rewrite Q1. destruct (vignetted r), (failed r1), (contains _ _ _); reflexivity.
    - exists r1. split; [assumption|]. rewrite Q1, orb_false_r. reflexivity.
  Qed.
End Tree.
