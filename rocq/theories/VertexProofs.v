(** Proofs about the vertices of a full trace (C54). *)
From Coq Require Import Reals String List ZArith Bool Lia.
From Verif Require Import Num NumR Vec CoordSys Surface Medium Obscuration Ray Bundle Optic Ops Spec TreeSpec
  XRFacts CoordFacts FrameProofs StructProofs TreeProofs Arrays ArraySpec.
Import ListNotations.
Open Scope nat_scope.

Section Gen.
  Context {T : Type} {NT : Num T}.
  Lemma index_of_app n (l1 l2 : list string) : ~ In n l1 -> index_of n (l1 ++ n :: l2) = Some (List.length l1).
  Proof.
    induction l1 as [|m l1 IH]; intros H; cbn [app index_of List.length].
    - rewrite String.eqb_refl. reflexivity.
    - destruct (String.eqb_spec m n) as [->|]; [exfalso; apply H; left; reflexivity|].
      rewrite IH by (intros G; apply H; right; exact G). reflexivity.
  Qed.
  Lemma index_of_none n l : ~ In n l <-> index_of n l = None.
  Proof.
    induction l as [|m l IH]; cbn [index_of]; [tauto|]. destruct (String.eqb_spec m n) as [->|Hne]; cbn [In].
    - split; [intros H; exfalso; apply H; left; reflexivity|discriminate].
    - destruct (index_of n l); cbn [option_map]; [|tauto].
      split; [|discriminate]. intros H. assert (~ In n l) by tauto. rewrite IH in H0. discriminate.
  Qed.
  Lemma index_of_nodup n l k : NoDup l -> nth_error l k = Some n -> index_of n l = Some k.
  Proof.
    intros HN H. apply nth_error_split in H. destruct H as (l1 & l2 & -> & <-). apply index_of_app.
    apply NoDup_remove_2 in HN. intros G; apply HN, in_or_app; left; exact G.
  Qed.
  Lemma dict_get_nodup {V} k (v : V) d : NoDup (map fst d) -> In (k, v) d -> dict_get k d = Some v.
  Proof.
    induction d as [|[k' v'] d IH]; intros HN H; [destruct H|]. cbn [dict_get]. inversion HN; subst. cbn [map fst] in *.
    destruct (String.eqb_spec k k') as [->|Hne].
    - destruct H as [H|H]; [congruence|]. exfalso. apply H2. apply (in_map fst) in H. exact H.
    - apply IH; [assumption|]. destruct H as [H|H]; [congruence|exact H].
  Qed.
  Variable g : coordsys T.
  Lemma bump_length l raylen : List.length (bump (T:=T) l raylen) = List.length raylen.
  Proof.
    revert raylen. induction l as [|r l IH]; intros [|k raylen]; cbn [bump]; try reflexivity.
    cbn [List.length]. rewrite IH. reflexivity.
  Qed.
  Lemma bump_nth l raylen i k : nth_error raylen i = Some k ->
    nth_error (bump (T:=T) l raylen) i =
      Some (k + match nth_error l i with Some r => if negb (vignetted r) then 1 else 0 | None => 0 end).
  Proof.
    revert l i. induction raylen as [|k' raylen IH]; intros [|r l] [|i] H; try discriminate; cbn [nth_error bump] in *.
    - injection H as ->. f_equal. lia.
    - rewrite H. f_equal. lia.
    - injection H as ->. destruct (negb (vignetted r)); f_equal; lia.
    - apply IH, H.
  Qed.
  Lemma bumps_length (outs : list (rayvec T)) start :
    List.length (fold_left (fun len rv => bump (rays rv) len) outs start) = List.length start.
  Proof.
    revert start. induction outs as [|rv outs IH]; intros start; [reflexivity|]. cbn [fold_left].
    rewrite IH. apply bump_length.
  Qed.
  Lemma bumps_nth (outs : list (rayvec T)) start i k : nth_error start i = Some k ->
    nth_error (fold_left (fun len rv => bump (rays rv) len) outs start) i = Some (k + times_visible i outs).
  Proof.
    revert start k. induction outs as [|rv outs IH]; intros start k H; cbn [fold_left].
    - rewrite H. f_equal. cbn. lia.
    - rewrite (IH _ _ (bump_nth _ _ _ _ H)). f_equal. unfold times_visible. cbn [filter].
      unfold visible_at at 2. destruct (nth_error (rays rv) i) as [r|]; [|lia].
      destruct (negb (vignetted r)); cbn [List.length]; lia.
  Qed.
  (** The vertices for a range of names. *)
  Definition vertices (e0 : tf_entry T) (outs : list (rayvec T)) :=
    (global_column g (tf_in e0) :: map (global_column g) outs,
     fold_left (fun len rv => bump (rays rv) len) outs (repeat 1 (List.length (rays (tf_in e0))))).
  Lemma range_outs (tf pre mid post : list (string * tf_entry T)) :
    NoDup (map fst tf) -> tf = pre ++ mid ++ post ->
    flat_map (fun n => match dict_get n tf with Some e => [tf_out e] | None => [] end) (map fst mid)
    = map (fun p => tf_out (snd p)) mid.
  Proof.
    intros HN E. assert (H : incl mid tf) by (rewrite E; intros x Hx; apply in_or_app; right; apply in_or_app; left; exact Hx).
    clear E. induction mid as [|[n e] mid IH]; [reflexivity|]. cbn [map fst flat_map].
    rewrite (dict_get_nodup n e tf HN) by (apply H; left; reflexivity). cbn [app snd]. f_equal.
    apply IH. intros x Hx. apply H. right; exact Hx.
  Qed.
  Lemma global_range (tf pre mid post : list (string * tf_entry T)) n1 e1 n2 e2 mid1 mid2 :
    NoDup (map fst tf) -> tf = pre ++ mid ++ post ->
    mid = (n1, e1) :: mid1 -> mid = mid2 ++ [(n2, e2)] ->
    getGlobalRays tf (Some n1) (Some n2) g = Ok (vertices e1 (map (fun p => tf_out (snd p)) mid)).
  Proof.
    intros HN E E1 E2. unfold getGlobalRays. destruct (map fst tf) as [|n0 names] eqn:Et.
    { exfalso. rewrite E, E1 in Et. destruct pre; discriminate. }
    rewrite <- Et in *.
    assert (I1 : index_of n1 (map fst tf) = Some (List.length pre)).
    { apply index_of_nodup; [exact HN|]. rewrite E, E1, nth_error_map, nth_error_app2 by lia.
      rewrite Nat.sub_diag. reflexivity. }
    assert (Lm : List.length mid = S (List.length mid2)).
    { rewrite E2, app_length. cbn. lia. }
    assert (I2 : index_of n2 (map fst tf) = Some (List.length pre + List.length mid2)).
    { apply index_of_nodup; [exact HN|]. rewrite E, nth_error_map, nth_error_app2 by lia.
      replace (List.length pre + List.length mid2 - List.length pre) with (List.length mid2) by lia.
      rewrite E2, <- app_assoc, nth_error_app2 by lia. rewrite Nat.sub_diag. reflexivity. }
    rewrite I1, I2. destruct (Nat.ltb_spec (List.length pre + List.length mid2) (List.length pre)); [lia|].
    assert (G : dict_get n1 tf = Some e1).
    { apply dict_get_nodup; [exact HN|]. rewrite E, E1. apply in_or_app. right. left. reflexivity. }
    rewrite G.
    assert (S : firstn (List.length pre + List.length mid2 - List.length pre + 1) (skipn (List.length pre) (map fst tf))
      = map fst mid).
    { rewrite skipn_map, firstn_map. f_equal. rewrite E, skipn_app, skipn_all, Nat.sub_diag. cbn [app skipn].
      replace (List.length pre + List.length mid2 - List.length pre + 1) with (List.length mid) by lia.
      rewrite firstn_app, firstn_all, Nat.sub_diag, firstn_O, app_nil_r. reflexivity. }
    rewrite S, (range_outs tf pre mid post HN E). reflexivity.
  Qed.
  Lemma global_defaults (tf : list (string * tf_entry T)) n1 e1 n2 e2 tf1 tf2 start end_ :
    tf = (n1, e1) :: tf1 -> tf = tf2 ++ [(n2, e2)] ->
    getGlobalRays tf start end_ g =
    getGlobalRays tf (Some match start with None => n1 | Some s => s end)
                     (Some match end_ with None => n2 | Some s => s end) g.
  Proof.
    intros E1 E2. unfold getGlobalRays. destruct (map fst tf) as [|n0 names] eqn:Et.
    { rewrite E1 in Et. discriminate. }
    rewrite <- Et.
    assert (H1 : n0 = n1) by (rewrite E1 in Et; cbn in Et; congruence).
    assert (H2 : last (map fst tf) n0 = n2).
    { rewrite E2, map_app. cbn [map fst]. apply last_last. }
    rewrite H1 in *. rewrite H2. destruct start, end_; reflexivity.
  Qed.
  Lemma global_unknown (tf : list (string * tf_entry T)) start end_ : tf <> [] ->
    ((exists s, start = Some s /\ ~ In s (map fst tf)) \/ (exists s, end_ = Some s /\ ~ In s (map fst tf))) ->
    getGlobalRays tf start end_ g = Err ValueError.
  Proof.
    intros Hne H. unfold getGlobalRays. destruct (map fst tf) as [|n0 names] eqn:Et.
    { destruct tf; [congruence|discriminate]. }
    destruct H as [(s & -> & H)|(s & -> & H)].
    - apply index_of_none in H. rewrite H. reflexivity.
    - apply index_of_none in H. rewrite H.
      match goal with |- match ?e with _ => _ end = _ => destruct e end; reflexivity.
  Qed.
  Lemma global_misordered (tf : list (string * tf_entry T)) s1 s2 i j : NoDup (map fst tf) ->
    nth_error (map fst tf) i = Some s1 -> nth_error (map fst tf) j = Some s2 -> j < i ->
    getGlobalRays tf (Some s1) (Some s2) g = Err ValueError.
  Proof.
    intros HN H1 H2 Hij. unfold getGlobalRays. destruct (map fst tf) as [|n0 names] eqn:Et.
    { destruct i; discriminate. }
    rewrite (index_of_nodup s1 _ i HN H1), (index_of_nodup s2 _ j HN H2).
    apply Nat.ltb_lt in Hij. rewrite Hij. reflexivity.
  Qed.
  (** Once vignetted, vignetted from then on. *)
  Lemma visible_back niter (o : optic T) reverse rv j k i n1 e1 n2 e2 :
    o_skip o = false -> NoDup (map i_name (visit reverse o)) ->
    nth_error (traceFull niter o reverse rv) j = Some (n1, e1) ->
    nth_error (traceFull niter o reverse rv) k = Some (n2, e2) -> j <= k ->
    visible_at i (tf_out e2) = true -> visible_at i (tf_out e1) = true.
  Proof.
    intros Hs HN Hj Hk Hjk. destruct (traceFull_props niter o reverse rv Hs HN) as (P1 & P2 & P3 & P4 & _).
    cbv zeta in *. revert n2 e2 Hk. induction Hjk as [|k Hjk IH]; intros n2 e2 Hk.
    - congruence.
    - destruct (nth_error (traceFull niter o reverse rv) k) as [[n e]|] eqn:Ek.
      2:{ exfalso. apply nth_error_None in Ek. assert (Hn : S k < List.length (traceFull niter o reverse rv)) by (apply nth_error_Some; congruence). lia. }
      intros Hv. apply (IH n e eq_refl). assert (Ein := P4 _ _ _ _ _ Ek Hk).
      assert (Hi : exists i0, nth_error (visit reverse o) (S k) = Some i0).
      { assert (Hl : S k < List.length (map fst (traceFull niter o reverse rv)))
          by (rewrite map_length; apply nth_error_Some; congruence).
        rewrite P1, map_length in Hl. destruct (nth_error (visit reverse o) (S k)) eqn:E; [eauto|].
        apply nth_error_None in E. lia. }
      destruct Hi as [i0 Hi]. destruct (P2 _ _ Hi) as (e' & He' & _ & Eout). rewrite Hk in He'. injection He' as -> ->.
      rewrite Ein in Eout. unfold visible_at in Hv |- *. destruct (tf_out e) as [l cs] eqn:Ee. cbn [rays].
      destruct (nth_error l i) as [r|] eqn:Er.
      + destruct (sticky_ops niter [OTrace (Iface i0) reverse] l cs i r Er) as (r' & Hr' & [S1 _]).
        unfold run_ops, run_op in Hr'. cbn [fold_left] in Hr'.
        assert (Et : rays (tf_out e') = rays (trace niter (Iface i0) reverse (RV l cs))).
        { rewrite Eout. reflexivity. }
        rewrite Et, Hr' in Hv. destruct (vignetted r) eqn:V; [|reflexivity]. rewrite S1 in Hv by reflexivity. discriminate.
      + exfalso. destruct (nth_error (rays (tf_out e')) i) eqn:E9; [|discriminate].
        assert (i < List.length (rays (tf_out e'))) by (apply nth_error_Some; congruence).
        apply nth_error_None in Er. assert (L : List.length (rays (iface_trace niter i0 reverse (RV l cs))) = List.length l).
        { exact (length_ops niter [OTrace (Iface i0) reverse] l cs). }
        rewrite Eout, L in H. lia.
  Qed.
End Gen.

Section Real.
  Lemma column_real (g : frame) (rv : rayvec R) : good_frame (rvcs rv) -> good_frame g ->
    global_column (Fcs g) (Frv rv) = map F3 (seen_from g rv).
  Proof.
    intros HA Hg. destruct rv as [l A]. unfold global_column, seen_from, Frv; cbn [rays rvcs] in *.
    rewrite !map_map. apply map_ext. intros r.
    unfold Fray; cbn [pos]. rewrite mkCT_F. unfold applyForwardArray; cbn [ct_dr ct_drot].
    rewrite mtr_F, vsub_F, mv_F. f_equal. fold (chg_pt A g (pos r)). apply chg_pt_eq; assumption.
  Qed.
  Lemma visible_F i (l : list step) :
    times_visible i (map (fun p => tf_out (snd p)) (map Fstep l)) = times_visible i (map s_out l).
  Proof.
    unfold times_visible. induction l as [|s l IH]; [reflexivity|]. cbn [map filter].
    assert (E : visible_at i (tf_out (snd (Fstep s))) = visible_at i (s_out s)).
    { unfold visible_at, Fstep, Frv; cbn [snd tf_out rays]. rewrite nth_error_map.
      destruct (nth_error (rays (s_out s)) i); reflexivity. }
    rewrite E. destruct (visible_at i (s_out s)); cbn [List.length]; rewrite IH; reflexivity.
  Qed.
  Lemma vertices_real (g : frame) (steps pre mid post : list step) s1 s2 mid1 mid2 :
    good_frame g -> Forall good_step steps -> NoDup (map s_name steps) ->
    steps = pre ++ mid ++ post -> mid = s1 :: mid1 -> mid = mid2 ++ [s2] ->
    exists len,
      getGlobalRays (map Fstep steps) (Some (s_name s1)) (Some (s_name s2)) (Fcs g) =
        Ok (map (map F3) (seen_from g (s_in s1) :: map (fun s => seen_from g (s_out s)) mid), len) /\
      List.length len = List.length (rays (s_in s1)) /\
      forall i, i < List.length len -> nth_error len i = Some (1 + times_visible i (map s_out mid)).
  Proof.
    intros Hg Hgood HN E E1 E2.
    assert (HN' : NoDup (map fst (map Fstep steps))) by (rewrite map_map; exact HN).
    assert (E' : map Fstep steps = map Fstep pre ++ map Fstep mid ++ map Fstep post) by (rewrite E, !map_app; reflexivity).
    assert (E1' : map Fstep mid = Fstep s1 :: map Fstep mid1) by (rewrite E1; reflexivity).
    assert (E2' : map Fstep mid = map Fstep mid2 ++ [Fstep s2]) by (rewrite E2, map_app; reflexivity).
    assert (Hmid : forall s, In s mid -> good_step s).
    { intros s Hs. rewrite Forall_forall in Hgood. apply Hgood. rewrite E. apply in_or_app; right; apply in_or_app; left; exact Hs. }
    eexists. split; [|split].
    - unfold Fstep in E1', E2' at 2. rewrite (global_range (Fcs g) _ _ _ _ _ _ _ _ _ _ HN' E' E1' E2').
      unfold vertices. do 2 f_equal. cbn [tf_in].
      rewrite column_real by (try assumption; apply Hmid; rewrite E1; left; reflexivity).
      cbn [map]. f_equal. rewrite !map_map. apply map_ext_in. intros s Hs.
      unfold Fstep; cbn [snd tf_out]. apply column_real; [apply Hmid, Hs|exact Hg].
    - rewrite bumps_length, repeat_length. cbn [tf_in Frv rays]. apply map_length.
    - rewrite bumps_length, repeat_length. intros i Hi. rewrite (bumps_nth _ _ _ 1).
      + f_equal. f_equal. apply visible_F.
      + apply nth_error_repeat, Hi.
  Qed.
End Real.
