(** A change of coordinates that commutes with the loop bodies commutes with every kind of trace. *)
From Coq Require Import String List Bool Arith Lia.
From Verif Require Import Num NumR Vec CoordSys Surface Medium Obscuration Ray Bundle Optic ImageSpec.
Import ListNotations.

Section Respect.
  Context (C : change) (ok_s ok_p : surface XR -> Prop) (ok_o : obsc XR -> Prop).
  Notation fr := (on_ray C). Notation fc := (on_frame C). Notation fs := (on_surface C).
  (** A loop body and its image, in the transform between two frames and in that between their images. *)
  Definition alongside (body body' : vec3 XR -> mat3 XR -> ray XR -> ray XR) : Prop := forall f t r,
    body' (ct_dr (mkCT (fc f) (fc t))) (ct_drot (mkCT (fc f) (fc t))) (fr r) = fr (body (ct_dr (mkCT f t)) (ct_drot (mkCT f t)) r).
  Record respects : Prop := Respects {
    r_intersect : forall s c n, ok_s s -> alongside (fun dr d => ray_intersect s dr d c n) (fun dr d => ray_intersect (fs s) dr d c n);
    r_reflect : forall s c n, ok_s s -> alongside (fun dr d => ray_reflect s dr d c n) (fun dr d => ray_reflect (fs s) dr d c n);
    r_refract : forall s m c n, ok_s s -> alongside (fun dr d => ray_refract s dr d m c n) (fun dr d => ray_refract (fs s) dr d m c n);
    r_screen : forall s p n, ok_s s -> ok_p p ->
      alongside (fun dr d => ray_screen s p dr d n) (fun dr d => ray_screen (fs s) (on_screen C p) dr d n);
    r_rsplit : forall s m c n, ok_s s -> forall f t r,
      ray_rsplit (fs s) (ct_dr (mkCT (fc f) (fc t))) (ct_drot (mkCT (fc f) (fc t))) m c n (fr r) =
      let '(a, b) := ray_rsplit s (ct_dr (mkCT f t)) (ct_drot (mkCT f t)) m c n r in (fr a, fr b);
    r_obscure : forall o r, ok_o o -> ray_obscure (on_obsc C o) (fr r) = fr (ray_obscure o r);
    r_alive : forall minFlux r, alive minFlux (fr r) = alive minFlux r }.
  Definition ok_iface (i : iface XR) : Prop :=
    ok_s (i_surf i) /\ (forall o, i_obsc i = Some o -> ok_o o) /\ (forall s, i_kind i = KScreen s -> ok_p s).
End Respect.

Section Trace.
  Context (C : change) (ok_s ok_p : surface XR -> Prop) (ok_o : obsc XR -> Prop) (W : respects C ok_s ok_p ok_o) (niter : nat).
  Notation P := (ok_iface ok_s ok_p ok_o).
  Notation ms_ := (on_surface C). Notation mc_ := (on_frame C). Notation mr_ := (on_ray C). Notation mrv := (image_rays C).
  Notation mi_ := (image_iface C).
  Notation mo_ := (image_optic C).

  Lemma batch_mir body body' cs rv : alongside C body body' -> batch body' (option_map mc_ cs) (mrv rv) = mrv (batch body cs rv).
  Proof.
    intros H. unfold batch. replace (dest (option_map mc_ cs) (mrv rv)) with (mc_ (dest cs rv)) by (destruct cs; reflexivity).
    unfold image_rays; cbn [rays rvcs]. rewrite !map_map. f_equal. apply map_ext. intros r. apply H.
  Qed.
  Lemma apply_obsc_mir o rv : (forall p, o = Some p -> ok_o p) ->
    apply_obsc (option_map (on_obsc C) o) (mrv rv) = mrv (apply_obsc o rv).
  Proof.
    intros H. destruct o as [o|]; cbn; [|reflexivity]. unfold rv_obscure, image_rays; cbn [rays rvcs]. rewrite !map_map.
    f_equal. apply map_ext. intros r. apply (r_obscure _ _ _ _ W). auto.
  Qed.
  Lemma reflect_rv_mir s cs c rv : ok_s s -> rv_reflect niter (ms_ s) (option_map mc_ cs) c (mrv rv) = mrv (rv_reflect niter s cs c rv).
  Proof. intros H. apply batch_mir. apply (r_reflect _ _ _ _ W). exact H. Qed.
  Lemma intersect_rv_mir s cs c rv : ok_s s -> rv_intersect niter (ms_ s) (option_map mc_ cs) c (mrv rv) = mrv (rv_intersect niter s cs c rv).
  Proof. intros H. apply batch_mir. apply (r_intersect _ _ _ _ W). exact H. Qed.
  Lemma interact_mir i reverse rv : P i -> interact niter (mi_ i) reverse (mrv rv) = mrv (interact niter i reverse rv).
  Proof.
    intros (H & _ & Hs). unfold interact. cbn [image_iface i_kind i_surf i_cs i_in i_out].
    change (Some (mc_ (i_cs i))) with (option_map mc_ (Some (i_cs i))).
    destruct (i_kind i) as [| | | | |screen] eqn:K; cbn [image_kind].
    - apply intersect_rv_mir. exact H.
    - destruct reverse; apply batch_mir; apply (r_refract _ _ _ _ W); exact H.
    - apply reflect_rv_mir. exact H.
    - apply intersect_rv_mir. exact H.
    - apply intersect_rv_mir. exact H.
    - apply batch_mir. apply (r_screen _ _ _ _ W); [exact H|apply Hs; reflexivity].
  Qed.
  Lemma iface_mir i reverse rv : P i -> iface_trace niter (mi_ i) reverse (mrv rv) = mrv (iface_trace niter i reverse rv).
  Proof.
    intros H. unfold iface_trace. rewrite interact_mir by exact H. cbn [image_iface i_obsc]. apply apply_obsc_mir. apply H.
  Qed.
  Lemma skip_mir o : o_skip (mo_ o) = o_skip o.
  Proof. destruct o; reflexivity. Qed.
  Lemma name_mir o : o_name (mo_ o) = o_name o.
  Proof. destruct o; reflexivity. Qed.
  Lemma trace_mir o : all_ifaces P o -> forall reverse rv, trace niter (mo_ o) reverse (mrv rv) = mrv (trace niter o reverse rv).
  Proof.
    induction 1 as [i Hi|a items Hl IH]; intros reverse rv; cbn [image_optic trace]; [apply iface_mir; exact Hi|].
    clear Hl. cbv zeta. destruct reverse.
    - induction items as [|it items IHl]; [reflexivity|]. cbn [map fold_right].
      rewrite IHl by (intros x Hx; apply IH; right; exact Hx). rewrite skip_mir. destruct (o_skip it); [reflexivity|].
      apply IH. left. reflexivity.
    - revert rv. induction items as [|it items IHl]; intros rv; [reflexivity|]. cbn [map fold_left]. rewrite skip_mir.
      destruct (o_skip it); [|rewrite IH by (left; reflexivity)]; apply IHl; intros x Hx; apply IH; right; exact Hx.
  Qed.

  (** ** Names *)
  Definition mir_kv {V U} (f : V -> U) (p : string * V) : string * U := (fst p, f (snd p)).
  Lemma dict_set_map {V U} (f : V -> U) k v d : dict_set k (f v) (map (mir_kv f) d) = map (mir_kv f) (dict_set k v d).
  Proof. induction d as [|[k' v'] d IH]; [reflexivity|]. cbn. destruct (String.eqb k k'); [reflexivity|]. cbn. rewrite IH. reflexivity. Qed.
  Lemma dict_get_map {V U} (f : V -> U) k d : dict_get k (map (mir_kv f) d) = option_map f (dict_get k d).
  Proof. induction d as [|[k' v'] d IH]; [reflexivity|]. cbn. destruct (String.eqb k k'); [reflexivity|exact IH]. Qed.
  Lemma itemDict_mir o : all_ifaces P o -> itemDict (mo_ o) = map (mir_kv mo_) (itemDict o).
  Proof.
    induction 1 as [i Hi|a items Hl IH]; [reflexivity|]. cbn [image_optic itemDict]. clear Hl.
    set (o := Compound a items). change (Compound (image_cattr C a) (map mo_ items)) with (mo_ o).
    change (c_name (image_cattr C a)) with (c_name a).
    change [(c_name a, mo_ o)] with (map (mir_kv mo_) [(c_name a, o)]).
    generalize [(c_name a, o)]. clear o.
    induction items as [|it items IHl]; intros d; [reflexivity|]. cbn [map fold_left].
    rewrite <- IHl by (intros x Hx; apply IH; right; exact Hx). f_equal.
    rewrite name_mir, dict_set_map, IH by (left; reflexivity).
    generalize (dict_set (dot (c_name a) (o_name it)) it d). generalize (itemDict it).
    induction l as [|[k v] l IHl']; intros e; [reflexivity|]. cbn [map fold_left]. rewrite <- IHl'. f_equal.
    cbn [mir_kv fst snd]. apply dict_set_map.
  Qed.
  Lemma names_mir o : all_ifaces P o -> names (mo_ o) = names o.
  Proof. intros H. unfold names. rewrite (itemDict_mir o H), map_map. reflexivity. Qed.
  Lemma getitem_mir o key : all_ifaces P o -> getitem (mo_ o) key = res_map mo_ (getitem o key).
  Proof.
    intros H. destruct o as [i|a items]; [reflexivity|]. unfold getitem. cbn [image_optic].
    change (Compound (image_cattr C a) (map mo_ items)) with (mo_ (Compound a items)).
    rewrite (itemDict_mir _ H), (names_mir _ H), dict_get_map. destruct (dict_get key (itemDict _)); [reflexivity|].
    cbn [option_map]. destruct (dict_get key (names _)) as [full|]; [|reflexivity]. rewrite dict_get_map. destruct (dict_get full _); reflexivity.
  Qed.
  Lemma itemDict_good o : all_ifaces P o -> Forall (fun p => all_ifaces P (snd p)) (itemDict o).
  Proof.
    assert (DS : forall k v (d : list (string * optic XR)), all_ifaces P v -> Forall (fun p => all_ifaces P (snd p)) d ->
                 Forall (fun p => all_ifaces P (snd p)) (dict_set k v d)).
    { intros k v d Hv Hd. induction Hd as [|[k' v'] d Hx Hd IHd]; cbn; [repeat constructor; exact Hv|].
      destruct (String.eqb k k'); constructor; assumption. }
    intros H. induction H as [i Hi|a items Hl IH]; [constructor|]. cbn [itemDict].
    assert (Hd : Forall (fun p => all_ifaces P (snd p)) [(c_name a, Compound a items)]) by (repeat constructor; exact Hl).
    revert Hd. generalize [(c_name a, Compound a items)].
    induction items as [|it items IHl]; intros d Hd; [exact Hd|]. cbn [fold_left].
    apply IHl; [intros x Hx; apply Hl; right; exact Hx|intros x Hx; apply IH; right; exact Hx|].
    assert (HI := IH it (or_introl eq_refl)).
    assert (Hd2 := DS (dot (c_name a) (o_name it)) it d (Hl it (or_introl eq_refl)) Hd).
    revert Hd2. generalize (dict_set (dot (c_name a) (o_name it)) it d).
    induction HI as [|[k v] l Hv HI IHI]; intros e He; [exact He|]. cbn [fold_left]. apply IHI, DS; assumption.
  Qed.
  Lemma dict_get_in {V} k (d : list (string * V)) v : dict_get k d = Some v -> exists k', In (k', v) d.
  Proof.
    induction d as [|[k' v'] d IH]; [discriminate|]. cbn. destruct (String.eqb k k').
    - intros [= ->]. eauto.
    - intros E. destruct (IH E) as [k2 H]. eauto.
  Qed.
  Lemma getitem_good o key it : all_ifaces P o -> getitem o key = Ok it -> all_ifaces P it.
  Proof.
    intros H. destruct o as [i|a items]; [discriminate|]. unfold getitem.
    assert (G := itemDict_good _ H). rewrite Forall_forall in G.
    destruct (dict_get key (itemDict _)) as [x|] eqn:E.
    - intros [= ->]. apply dict_get_in in E. destruct E as [k E]. exact (G _ E).
    - destruct (dict_get key (names _)) as [full|]; [|discriminate]. destruct (dict_get full _) as [x|] eqn:E2; [|discriminate].
      intros [= ->]. apply dict_get_in in E2. destruct E2 as [k E2]. exact (G _ E2).
  Qed.
  Lemma turn_mir it rv : all_ifaces P it -> turn_around niter (mo_ it) (mrv rv) = res_map mrv (turn_around niter it rv).
  Proof.
    intros H. destruct H as [i Hi|a items]; [|reflexivity]. cbn [image_optic turn_around res_map image_iface i_obsc i_surf i_cs].
    f_equal. rewrite <- apply_obsc_mir by apply Hi. f_equal. exact (reflect_rv_mir (i_surf i) (Some (i_cs i)) None rv (proj1 Hi)).
  Qed.
  Lemma path_loop_mir o order path : all_ifaces P o -> forall d rv,
    path_loop niter (mo_ o) order path d (mrv rv) = res_map mrv (path_loop niter o order path d rv).
  Proof.
    intros H. induction path as [|cur rest IH]; intros d rv; [reflexivity|]. cbn [path_loop]. rewrite getitem_mir by exact H.
    destruct (getitem o cur) as [it|e] eqn:E; [|reflexivity]. cbn [res_map bind].
    assert (Hit := getitem_good o cur it H E). destruct (dir_eqb _ _).
    - rewrite trace_mir by exact Hit. apply IH.
    - rewrite turn_mir by exact Hit. destruct (turn_around niter it rv); cbn [res_map bind]; [apply IH|reflexivity].
  Qed.
  Lemma trace_path_mir o path rv : all_ifaces P o -> trace_path niter (mo_ o) path (mrv rv) = res_map mrv (trace_path niter o path rv).
  Proof. intros H. apply path_loop_mir. exact H. Qed.

  (** ** traceFull *)
  Notation me_ := (image_entry C).
  Lemma tf_step_mir tf st : tf_step (map (mir_kv me_) tf) (map (mir_kv me_) (fst st), mrv (snd st)) =
    (map (mir_kv me_) (fst (tf_step tf st)), mrv (snd (tf_step tf st))).
  Proof.
    unfold tf_step. revert st. induction tf as [|[k v] tf IH]; intros [result rv]; [reflexivity|].
    cbn [map fold_left mir_kv fst snd]. rewrite dict_set_map. apply (IH (dict_set k v result, tf_out v)).
  Qed.
  Lemma traceFull_mir o : all_ifaces P o -> forall reverse rv,
    traceFull niter (mo_ o) reverse (mrv rv) = map (mir_kv me_) (traceFull niter o reverse rv).
  Proof.
    induction 1 as [i Hi|a items Hl IH]; intros reverse rv; cbn [image_optic traceFull].
    - rewrite iface_mir by exact Hi. cbn [image_iface i_skip i_name]. destruct (i_skip i); reflexivity.
    - change (c_skip (image_cattr C a)) with (c_skip a). destruct (c_skip a); [reflexivity|]. clear Hl. cbv zeta. destruct reverse.
      + match goal with |- fst ?L = map _ (fst ?R) => enough (G : L = (map (mir_kv me_) (fst R), mrv (snd R))) by (rewrite G; reflexivity) end.
        induction items as [|it items IHl]; [reflexivity|]. cbn [map fold_right].
        rewrite IHl by (intros x Hx; apply IH; right; exact Hx). cbn [snd]. rewrite IH by (left; reflexivity). apply tf_step_mir.
      + match goal with |- fst ?L = map _ (fst ?R) => enough (G : L = (map (mir_kv me_) (fst R), mrv (snd R))) by (rewrite G; reflexivity) end.
        assert (G : forall st, fold_left (fun st it => tf_step (traceFull niter it false (snd st)) st) (map mo_ items)
                     (map (mir_kv me_) (fst st), mrv (snd st)) =
                     let st2 := fold_left (fun st it => tf_step (traceFull niter it false (snd st)) st) items st in
                     (map (mir_kv me_) (fst st2), mrv (snd st2))).
        { induction items as [|it items IHl]; intros st; [reflexivity|]. cbn [map fold_left]. cbn [snd].
          rewrite IH by (left; reflexivity). rewrite tf_step_mir. apply IHl. intros x Hx. apply IH. right. exact Hx. }
        apply (G ([], rv)).
  Qed.

  (** ** traceSplit *)
  Notation mp_ := (image_prv C).
  Notation msp := (image_split C).
  Lemma rsplit_rv_mir s m1 m2 c cs rv : ok_s s -> rv_rsplit niter (ms_ s) m1 m2 c (option_map mc_ cs) (mrv rv) =
    let '(a, b) := rv_rsplit niter s m1 m2 c cs rv in (mrv a, mrv b).
  Proof.
    intros H. unfold rv_rsplit. replace (dest (option_map mc_ cs) (mrv rv)) with (mc_ (dest cs rv)) by (destruct cs; reflexivity).
    cbn [image_rays rays rvcs]. cbv zeta. unfold image_rays; cbn [rays rvcs]. rewrite !map_map.
    f_equal; f_equal; apply map_ext; intros r; rewrite (r_rsplit _ _ _ _ W) by exact H; destruct (ray_rsplit _ _ _ _ _ _ r); reflexivity.
  Qed.
  Lemma rSplit_mir i reverse rv : P i -> rSplit niter (mi_ i) reverse (mrv rv) =
    res_map (fun p => (option_map mrv (fst p), option_map mrv (snd p))) (rSplit niter i reverse rv).
  Proof.
    intros (H & _ & _). unfold rSplit. cbn [image_iface i_kind i_surf i_cs i_in i_out i_fwd i_rev].
    change (Some (mc_ (i_cs i))) with (option_map mc_ (Some (i_cs i))). cbv zeta.
    destruct (i_kind i); cbn [image_kind]; try reflexivity.
    - destruct reverse; [destruct (i_fwd i)|destruct (i_rev i)]; try reflexivity; rewrite rsplit_rv_mir by exact H;
        destruct (rv_rsplit _ _ _ _ _ _ _); reflexivity.
    - rewrite reflect_rv_mir by exact H. reflexivity.
    - destruct reverse; [reflexivity|]. destruct (i_fwd i); [|reflexivity]. rewrite rsplit_rv_mir by exact H.
      destruct (rv_rsplit _ _ _ _ _ _ _); reflexivity.
    - cbn [res_map fst snd option_map]. do 3 f_equal. exact (intersect_rv_mir (i_surf i) (Some (i_cs i)) None rv H).
  Qed.
  Lemma iface_split_mir i reverse x : P i -> iface_split niter (mi_ i) reverse (mp_ x) = res_map msp (iface_split niter i reverse x).
  Proof.
    intros H. unfold iface_split. change (i_skip (mi_ i)) with (i_skip i). destruct (i_skip i); [destruct reverse; reflexivity|].
    change (p_rv (mp_ x)) with (mrv (p_rv x)). rewrite rSplit_mir by exact H.
    destruct (rSplit niter i reverse (p_rv x)) as [[f r]|e]; [|reflexivity]. cbn [res_map bind fst snd].
    cbn [image_iface i_obsc i_name i_kind p_path image_prv].
    assert (G : forall o : option (rayvec XR),
      option_map (fun rv => PRV (apply_obsc (option_map (on_obsc C) (i_obsc i)) rv) (Some (add_path (p_path x) (i_name i)))) (option_map mrv o) =
      option_map mp_ (option_map (fun rv => PRV (apply_obsc (i_obsc i) rv) (Some (add_path (p_path x) (i_name i)))) o)).
    { intros [rv|]; [|reflexivity]. cbn [option_map]. rewrite apply_obsc_mir by apply H. reflexivity. }
    rewrite !G. destruct reverse, (i_kind i); reflexivity.
  Qed.
  Lemma keep_some_mir l : keep_some (map (option_map mp_) l) = map mp_ (keep_some l).
  Proof.
    induction l as [|[x|] l IH]; [reflexivity| |exact IH]. cbn [map keep_some flat_map option_map].
    fold (keep_some l). fold (keep_some (map (option_map mp_) l)). rewrite IH. destruct x as [[[|r rs] c] p]; reflexivity.
  Qed.
  Lemma prune_mir minFlux l : filter nonempty (map (prune minFlux) (map mp_ l)) = map mp_ (filter nonempty (map (prune minFlux) l)).
  Proof.
    induction l as [|x l IH]; [reflexivity|]. cbn [map filter]. rewrite IH.
    assert (P : prune minFlux (mp_ x) = mp_ (prune minFlux x)).
    { unfold prune, image_prv, image_rays; cbn [p_rv p_path rays rvcs]. do 2 f_equal.
      generalize (rays (p_rv x)) as rs. induction rs as [|r rs IHr]; [reflexivity|]. cbn [map filter].
      rewrite (r_alive _ _ _ _ W minFlux r). destruct (alive minFlux r); cbn [map]; rewrite IHr; reflexivity. }
    rewrite P. replace (nonempty (mp_ (prune minFlux x))) with (nonempty (prune minFlux x)); [destruct (nonempty _); reflexivity|].
    unfold nonempty, image_prv, image_rays; cbn [p_rv rays]. destruct (rays (p_rv (prune minFlux x))); reflexivity.
  Qed.
  Definition mir_q (q : prv XR * bool * nat) : prv XR * bool * nat := let '(x, r, i) := q in (mp_ x, r, i).
  Lemma split_loop_mir fs fs' minFlux : Forall2 (fun f f' => forall r x, f' r (mp_ x) = res_map msp (f r x)) fs fs' ->
    forall fuel queue outF outR,
    split_loop fs' minFlux fuel (map mir_q queue) (map mp_ outF) (map mp_ outR) =
    res_map (fun p => (map mp_ (fst p), map mp_ (snd p))) (split_loop fs minFlux fuel queue outF outR).
  Proof.
    intros HF. assert (HL : List.length fs' = List.length fs) by (induction HF; cbn; congruence).
    assert (HN : forall i, match nth_error fs i, nth_error fs' i with
                           | Some f, Some f' => forall r x, f' r (mp_ x) = res_map msp (f r x)
                           | None, None => True | _, _ => False end).
    { intros i. revert i. clear HL. induction HF as [|f f' fs fs' Hf HF IH]; intros [|i]; cbn; auto. apply IH. }
    induction fuel as [|fuel IH]; intros [|[[x r] i] queue] outF outR; cbn [map mir_q split_loop]; try reflexivity.
    specialize (HN i). destruct (nth_error fs i) as [f|], (nth_error fs' i) as [f'|]; try contradiction; [|reflexivity].
    rewrite HN. destruct (f r x) as [so|e]; [|reflexivity]. cbn [res_map bind]. destruct so as [fo re|p q]; [|reflexivity].
    cbn [image_split]. rewrite !keep_some_mir, !prune_mir. rewrite HL.
    generalize (filter nonempty (map (prune minFlux) (keep_some fo))) as FO. generalize (filter nonempty (map (prune minFlux) (keep_some re))) as RE.
    intros RE FO.
    assert (Q : forall l b j q, rev (map (fun x => (x, b, j)) (map mp_ l)) ++ map mir_q q = map mir_q (rev (map (fun x => (x, b, j)) l) ++ q)).
    { intros l b j q. rewrite map_app, map_rev, !map_map. reflexivity. }
    destruct (Nat.eqb (S i) (List.length fs)), (Nat.eqb i 0); rewrite ?Q, <- ?map_app; apply IH.
  Qed.
  Lemma traceSplit_mir minFlux fuel o : all_ifaces P o -> forall reverse x,
    traceSplit niter minFlux fuel (mo_ o) reverse (mp_ x) = res_map msp (traceSplit niter minFlux fuel o reverse x).
  Proof.
    induction 1 as [i Hi|a items Hl IH]; intros reverse x; cbn [image_optic traceSplit]; [apply iface_split_mir; exact Hi|].
    change (c_skip (image_cattr C a)) with (c_skip a). destruct (c_skip a); [destruct reverse; reflexivity|].
    cbv zeta. rewrite map_length, map_map.
    change [(mp_ x, reverse, if reverse then List.length items - 1 else 0)%nat] with (map mir_q [(x, reverse, if reverse then List.length items - 1 else 0)%nat]).
    change (@nil (prv XR)) with (map mp_ []). rewrite (split_loop_mir (map (fun it => traceSplit niter minFlux fuel it) items)).
    - cbn [map]. destruct (split_loop _ _ _ _ _ _) as [[f r]|e]; [|reflexivity]. cbn [res_map bind fst snd image_split].
      do 2 f_equal; rewrite !map_map; reflexivity.
    - clear Hl. induction items as [|it items IHl]; cbn [map]; constructor; [apply IH; left; reflexivity|].
      apply IHl. intros y Hy. apply IH. right. exact Hy.
  Qed.
  (** Optics that are their own image. *)
  Lemma symmetric_mir o reverse rv : all_ifaces P o -> mo_ o = o -> trace niter o reverse (mrv rv) = mrv (trace niter o reverse rv).
  Proof. intros H E. rewrite <- E at 1. apply trace_mir. exact H. Qed.
End Trace.
