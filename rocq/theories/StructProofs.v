(** Structural facts valid for every arithmetic. *)
From Coq Require Import List Bool ZArith Lia.
From Verif Require Import Num Vec CoordSys Surface Medium Obscuration Ray Bundle Optic Ops TreeSpec.
Import ListNotations.

Section OpticInd.
  Context {T : Type}.
  Variable P : optic T -> Prop.
  Hypothesis Hi : forall i, P (Iface i).
  Hypothesis Hc : forall a items, Forall P items -> P (Compound a items).
  Fixpoint optic_ind2 (o : optic T) : P o :=
    match o with
    | Iface i => Hi i
    | Compound a items =>
        Hc a items ((fix go (l : list (optic T)) : Forall P l :=
                       match l with
                       | [] => Forall_nil P
                       | x :: l => Forall_cons x (optic_ind2 x) (go l)
                       end) items)
    end.
End OpticInd.

Section Struct.
  Context {T : Type} {NT : Num T}.
  Variable niter : nat.

  (** ** Every call is one function mapped over the rays, chosen by the frame. *)
  Definition maplike (F : rayvec T -> rayvec T) : Prop :=
    forall cs, exists f c, forall l, F (RV l cs) = RV (map f l) c.

  Lemma maplike_id : maplike (fun rv => rv).
  Proof. intros cs; exists (fun r => r), cs; intros l; rewrite map_id; reflexivity. Qed.
  Lemma maplike_comp F G : maplike F -> maplike G -> maplike (fun rv => G (F rv)).
  Proof.
    intros HF HG cs. destruct (HF cs) as (f & c & Hf). destruct (HG c) as (g & c' & Hg).
    exists (fun r => g (f r)), c'. intros l. rewrite Hf, Hg, map_map. reflexivity.
  Qed.
  Lemma maplike_batch body cs : maplike (batch body cs).
  Proof.
    intros c0. unfold batch. destruct cs as [c|]; cbn; do 2 eexists; intros; reflexivity.
  Qed.
  Lemma maplike_obscure o : maplike (rv_obscure o).
  Proof. intros cs. exists (ray_obscure o), cs. intros l; reflexivity. Qed.
  Lemma maplike_apply_obsc o : maplike (apply_obsc o).
  Proof. destruct o; cbn; [apply maplike_obscure|apply maplike_id]. Qed.
  Lemma maplike_interact i reverse : maplike (interact niter i reverse).
  Proof. unfold interact; destruct (i_kind i), reverse; apply maplike_batch. Qed.
  Lemma maplike_iface i reverse : maplike (iface_trace niter i reverse).
  Proof. apply (maplike_comp _ _ (maplike_interact i reverse) (maplike_apply_obsc (i_obsc i))). Qed.
  Lemma maplike_trace o reverse : maplike (trace niter o reverse).
  Proof.
    induction o as [i|a items IH] using optic_ind2; cbn [trace]; [apply maplike_iface|].
    destruct reverse.
    - induction IH as [|it items Hit Hits IHl]; cbn [fold_right].
      + apply maplike_id.
      + destruct (o_skip it); [exact IHl|]. exact (maplike_comp _ _ IHl Hit).
    - induction IH as [|it items Hit Hits IHl]; cbn [fold_left].
      + apply maplike_id.
      + destruct (o_skip it); [exact IHl|].
        exact (maplike_comp _ _ Hit IHl).
  Qed.
  Lemma maplike_op op : maplike (run_op niter op).
  Proof.
    destruct op; cbn [run_op]; try apply maplike_batch.
    - intros k; destruct cs as [c0|]; do 2 eexists; intros l; unfold run_op, rv_rsplit;
        cbn [fst rays rvcs dest]; rewrite map_map; reflexivity.
    - intros k; destruct cs as [c0|]; do 2 eexists; intros l; unfold run_op, rv_rsplit;
        cbn [snd rays rvcs dest]; rewrite map_map; reflexivity.
    - apply maplike_obscure.
    - apply maplike_trace.
  Qed.
  Lemma maplike_ops ops : maplike (run_ops niter ops).
  Proof.
    induction ops as [|op ops IH]; [apply maplike_id|].
    exact (maplike_comp _ _ (maplike_op op) IH).
  Qed.

  Lemma pick_map {A B} (f : A -> B) idx l : pick idx (map f l) = map f (pick idx l).
  Proof.
    induction idx as [|i idx IH]; cbn; [reflexivity|].
    rewrite map_app, nth_error_map. fold (pick idx (map f l)). rewrite IH.
    destruct (nth_error l i); reflexivity.
  Qed.

  Lemma ops_pick ops idx l cs :
    run_ops niter ops (RV (pick idx l) cs)
    = RV (pick idx (rays (run_ops niter ops (RV l cs)))) (rvcs (run_ops niter ops (RV l cs))).
  Proof.
    destruct (maplike_ops ops cs) as (f & c & H). rewrite !H; cbn. rewrite pick_map. reflexivity.
  Qed.
  Lemma ops_app ops l1 l2 cs :
    run_ops niter ops (RV (l1 ++ l2) cs)
    = RV (rays (run_ops niter ops (RV l1 cs)) ++ rays (run_ops niter ops (RV l2 cs)))
         (rvcs (run_ops niter ops (RV l1 cs))).
  Proof.
    destruct (maplike_ops ops cs) as (f & c & H). rewrite !H; cbn. rewrite map_app. reflexivity.
  Qed.
  Lemma ops_frame ops l1 l2 cs :
    rvcs (run_ops niter ops (RV l1 cs)) = rvcs (run_ops niter ops (RV l2 cs)).
  Proof. destruct (maplike_ops ops cs) as (f & c & H). rewrite !H; reflexivity. Qed.

  (** ** Invariants of single rays, lifted to every call sequence. *)
  Definition preserves (Q : ray T -> ray T -> Prop) (F : rayvec T -> rayvec T) : Prop :=
    forall l cs, Forall2 Q l (rays (F (RV l cs))).

  Section Lift.
    Variable Q : ray T -> ray T -> Prop.
    Hypothesis Qrefl : forall r, Q r r.
    Hypothesis Qtrans : forall a b c, Q a b -> Q b c -> Q a c.

    Lemma Forall2_refl l : Forall2 Q l l.
    Proof. induction l; constructor; auto. Qed.
    Lemma Forall2_tr l1 l2 l3 : Forall2 Q l1 l2 -> Forall2 Q l2 l3 -> Forall2 Q l1 l3.
    Proof.
      intros H; revert l3; induction H as [|a b l1 l2 Hab H IH]; intros l3 H3; inversion H3; subst;
        constructor; eauto.
    Qed.
    Lemma Forall2_map f l : (forall r, Q r (f r)) -> Forall2 Q l (map f l).
    Proof. intros H; induction l; cbn; constructor; auto. Qed.
    Lemma pres_comp F G : preserves Q F -> preserves Q G -> preserves Q (fun rv => G (F rv)).
    Proof.
      intros HF HG l cs. eapply Forall2_tr; [apply (HF l cs)|].
      destruct (F (RV l cs)) as [l' cs']. apply HG.
    Qed.
    Lemma pres_id : preserves Q (fun rv => rv).
    Proof. intros l cs; apply Forall2_refl. Qed.
    Lemma pres_batch body cs : (forall dr d r, Q r (body dr d r)) -> preserves Q (batch body cs).
    Proof. intros H l c0; unfold batch; cbn. apply Forall2_map; intros; apply H. Qed.

    Hypothesis Hobs : forall o r, Q r (ray_obscure o r).
    Lemma pres_obscure o : preserves Q (rv_obscure o).
    Proof. intros l cs; apply Forall2_map; auto. Qed.
    Lemma pres_apply_obsc o : preserves Q (apply_obsc o).
    Proof. destruct o; cbn; [apply pres_obscure|apply pres_id]. Qed.

    Hypothesis Hint : forall s dr d r, Q r (ray_intersect s dr d None niter r).
    Hypothesis Href : forall s dr d r, Q r (ray_reflect s dr d None niter r).
    Hypothesis Hrfr : forall s dr d m2 r, Q r (ray_refract s dr d m2 None niter r).
    Hypothesis Hscr : forall s screen dr d r, Q r (ray_screen s screen dr d niter r).

    Lemma pres_interact i reverse : preserves Q (interact niter i reverse).
    Proof. unfold interact; destruct (i_kind i), reverse; apply pres_batch; intros; auto. Qed.
    Lemma pres_iface i reverse : preserves Q (iface_trace niter i reverse).
    Proof. apply (pres_comp _ _ (pres_interact i reverse) (pres_apply_obsc (i_obsc i))). Qed.
    Lemma pres_trace o reverse : preserves Q (trace niter o reverse).
    Proof.
      induction o as [i|a items IH] using optic_ind2; cbn [trace]; [apply pres_iface|].
      destruct reverse.
      - induction IH as [|it items Hit Hits IHl]; cbn [fold_right]; [apply pres_id|].
        destruct (o_skip it); [exact IHl|]. exact (pres_comp _ _ IHl Hit).
      - induction IH as [|it items Hit Hits IHl]; cbn [fold_left]; [apply pres_id|].
        destruct (o_skip it); [exact IHl|]. exact (pres_comp _ _ Hit IHl).
    Qed.

    (** [ok op]: the coatings of the call are acceptable. *)
    Variable okc : coating T -> Prop.
    Definition okop (op : trace_op T) : Prop :=
      match op with
      | OIntersect _ _ (Some c) | OReflect _ _ (Some c) | ORefract _ _ _ _ (Some c)
      | OSplitRefracted _ _ _ c _ | OSplitReflected _ _ _ c _ => okc c
      | _ => True
      end.
    Hypothesis Hint' : forall s dr d c r, okc c -> Q r (ray_intersect s dr d (Some c) niter r).
    Hypothesis Href' : forall s dr d c r, okc c -> Q r (ray_reflect s dr d (Some c) niter r).
    Hypothesis Hrfr' : forall s dr d m2 c r, okc c -> Q r (ray_refract s dr d m2 (Some c) niter r).
    Hypothesis Hsp1 : forall s dr d m2 c r, okc c -> Q r (fst (ray_rsplit s dr d m2 c niter r)).
    Hypothesis Hsp2 : forall s dr d m2 c r, okc c -> Q r (snd (ray_rsplit s dr d m2 c niter r)).

    Lemma pres_op op : okop op -> preserves Q (run_op niter op).
    Proof.
      destruct op; cbn [run_op okop]; intros Hok.
      - destruct c; apply pres_batch; intros; auto.
      - destruct c; apply pres_batch; intros; auto.
      - destruct c; apply pres_batch; intros; auto.
      - intros l k; unfold run_op, rv_rsplit; cbn [fst rays]. rewrite map_map. apply Forall2_map; auto.
      - intros l k; unfold run_op, rv_rsplit; cbn [snd rays]. rewrite map_map. apply Forall2_map; auto.
      - apply pres_batch; intros; auto.
      - apply pres_obscure.
      - apply pres_trace.
    Qed.
    Lemma pres_ops ops : Forall okop ops -> preserves Q (run_ops niter ops).
    Proof.
      intros H. induction H as [|op ops Hop Hops IH]; [apply pres_id|].
      exact (pres_comp _ _ (pres_op op Hop) IH).
    Qed.
  End Lift.

  Lemma Forall2_nth {A B} (Q : A -> B -> Prop) l l' i a :
    Forall2 Q l l' -> nth_error l i = Some a -> exists b, nth_error l' i = Some b /\ Q a b.
  Proof.
    intros H; revert i; induction H as [|x y l l' Hxy H IH]; intros [|i] Hi; cbn in *; try discriminate.
    - injection Hi as <-. eauto.
    - apply IH, Hi.
  Qed.

  Ltac unfray := unfold ray_intersect, ray_reflect, ray_refract, ray_rsplit, ray_screen, ray_obscure, mark_failed.
  Ltac split_ray0 :=
    unfray;
    repeat (match goal with
            | |- context [if failed ?r then _ else _] => destruct (failed r) eqn:?
            | |- context [let '(_, _) := hit ?a ?b ?c ?d in _] => destruct (hit a b c d) as [[] ?]
            | |- context [let '(_, _) := orient ?a ?b in _] => destruct (orient a b)
            | |- context [let '(_, _) := getCoefs ?a ?b ?c in _] => destruct (getCoefs a b c) as [? ?] eqn:?
            | |- context [match refract_vel ?a ?b ?c ?d ?e with _ => _ end] => destruct (refract_vel a b c d e)
            end; cbn [fst snd]).
  Ltac split_ray := intros; split_ray0.

  (** Sticky flags and frozen failed rays. *)
  Definition sticky (r r' : ray T) : Prop :=
    (vignetted r = true -> vignetted r' = true) /\
    (failed r = true -> failed r' = true /\ pos r' = pos r /\ vel r' = vel r /\ time r' = time r /\
                        flux r' = flux r /\ wavelength r' = wavelength r).
  Lemma sticky_refl r : sticky r r.
  Proof. unfold sticky; repeat split; auto. Qed.
  Lemma sticky_trans a b c : sticky a b -> sticky b c -> sticky a c.
  Proof.
    intros [H1 H2] [H3 H4]; split; [auto|]. intros Hf.
    destruct (H2 Hf) as (Hb & E1 & E2 & E3 & E4 & E5).
    destruct (H4 Hb) as (Hc & F1 & F2 & F3 & F4 & F5).
    repeat split; congruence.
  Qed.
  Ltac stick := split_ray; unfold sticky; cbn [vignetted failed pos vel time flux wavelength] in *;
                repeat split; intros; try congruence; auto.
  Lemma sticky_ops ops l cs i r :
    nth_error l i = Some r ->
    exists r', nth_error (rays (run_ops niter ops (RV l cs))) i = Some r' /\ sticky r r'.
  Proof.
    intros Hi.
    assert (P : preserves sticky (run_ops niter ops)).
    { apply (pres_ops sticky sticky_refl sticky_trans) with (okc := fun _ => True);
        try solve [stick].
      - intros o r0; unfold sticky; cbn. split; [intros ->; reflexivity|]. intros; repeat split; auto.
      - apply Forall_forall. intros op _. destruct op as [? ? []|? ? []|? ? ? ? []| | | | | ]; exact I. }
    exact (Forall2_nth _ _ _ _ _ (P l cs) Hi).
  Qed.

  (** failed -> vignetted *)
  Definition keepsFV (r r' : ray T) : Prop :=
    (failed r = true -> vignetted r = true) -> (failed r' = true -> vignetted r' = true).
  Lemma fv_ops ops l cs :
    Forall (fun r => failed r = true -> vignetted r = true) l ->
    Forall (fun r => failed r = true -> vignetted r = true) (rays (run_ops niter ops (RV l cs))).
  Proof.
    intros Hl.
    assert (P : preserves keepsFV (run_ops niter ops)).
    { apply (pres_ops keepsFV) with (okc := fun _ => True); unfold keepsFV; auto;
        try solve [intros; match goal with H : failed _ = true |- _ => revert H end;
                   split_ray0; cbn [vignetted failed] in *; intros; auto; congruence].
      - intros o r H Hf; cbn in *. rewrite H by assumption. reflexivity.
      - apply Forall_forall. intros op _. destruct op as [? ? []|? ? []|? ? ? ? []| | | | | ]; exact I. }
    specialize (P l cs). revert Hl. induction P; intros Hl; constructor; inversion Hl; subst; auto.
  Qed.

  (** wavelength; flux without coating *)
  Definition sameWL (r r' : ray T) : Prop := wavelength r' = wavelength r.
  Lemma wl_ops ops l cs :
    map wavelength (rays (run_ops niter ops (RV l cs))) = map wavelength l.
  Proof.
    assert (P : preserves sameWL (run_ops niter ops)).
    { apply (pres_ops sameWL) with (okc := fun _ => True); unfold sameWL; auto;
        try solve [split_ray; reflexivity | intros; congruence].
      apply Forall_forall. intros op _. destruct op as [? ? []|? ? []|? ? ? ? []| | | | | ]; exact I. }
    specialize (P l cs). induction P; cbn; [reflexivity|]. f_equal; auto.
  Qed.
  Definition sameFlux (r r' : ray T) : Prop := flux r' = flux r.
  Lemma flux_ops ops l cs : Forall uncoated ops ->
    map flux (rays (run_ops niter ops (RV l cs))) = map flux l.
  Proof.
    intros Hu.
    assert (P : preserves sameFlux (run_ops niter ops)).
    { apply (pres_ops sameFlux) with (okc := fun _ => False); unfold sameFlux; auto;
        try solve [split_ray; reflexivity | intros; tauto | intros; congruence]. }
    specialize (P l cs). induction P; cbn; [reflexivity|]. f_equal; auto.
  Qed.
  Lemma length_ops ops l cs : length (rays (run_ops niter ops (RV l cs))) = length l.
  Proof.
    rewrite <- (map_length wavelength), wl_ops, map_length. reflexivity.
  Qed.
End Struct.
