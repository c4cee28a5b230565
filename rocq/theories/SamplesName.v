(** Concrete cases for the theorems on names and named edits (C29, C30). *)
From Coq Require Import String Ascii List Bool ZArith.
From Verif Require Import Num NumF Vec CoordSys Surface Medium Obscuration Optic NameSpec NameProofs SamplesTree.
Import ListNotations.
Open Scope string_scope.

Ltac each := let H := fresh in cbn [In]; intros ? H; repeat destruct H as [<-|H]; try contradiction.
Ltac dotfree := cbn; repeat split; try discriminate.
Lemma tel_tidy {T} {NT : Num T} : tidy (T:=T) tel.
Proof.
  constructor; [dotfree|cbn; repeat constructor; cbn; intuition discriminate|].
  each; constructor; try solve [dotfree].
  - cbn; repeat constructor; cbn; intuition discriminate.
  - each; constructor; dotfree.
Qed.
Lemma tel_plain {T} {NT : Num T} : plain (T:=T) tel.
Proof. constructor; try reflexivity; [discriminate|]. each; constructor; try reflexivity; try discriminate. each; constructor. Qed.
Lemma tel_prefix_free {T} {NT : Num T} : prefix_free (T:=T) tel.
Proof.
  constructor.
  - intros x y s Hx Hy. cbn in Hx, Hy. repeat destruct Hx as [<-|Hx]; try contradiction;
      repeat destruct Hy as [<-|Hy]; try contradiction; cbn; intros E; try discriminate; injection E; auto.
  - each; constructor.
    + intros x y s Hx Hy. cbn in Hx, Hy. repeat destruct Hx as [<-|Hx]; try contradiction;
      repeat destruct Hy as [<-|Hy]; try contradiction; cbn; intros E; try discriminate; injection E; auto.
    + each; constructor.
Qed.
Lemma ex_names {T} {NT : Num T} :
  tidy (T:=T) tel /\ prefix_free (T:=T) tel /\ plain (T:=T) tel /\
  at_path (T:=T) tel ["tel"; "sub"; "B"] (Iface iB) /\
  denotes (T:=T) tel "tel.sub.B" ["tel"; "sub"; "B"] /\ denotes (T:=T) tel "B" ["tel"; "sub"; "B"].
Proof.
  split; [apply tel_tidy|]. split; [apply tel_prefix_free|]. split; [apply tel_plain|].
  assert (Hx : at_path (T:=T) tel ["tel"; "sub"; "B"] (Iface iB)).
  { apply at_below with (it := Compound (catt "sub" false) [Iface iB; Iface iC]); [cbn; auto|].
    apply at_below with (it := Iface iB); [cbn; auto|]. exact (at_root (Iface iB)). }
  split; [exact Hx|]. split; [left; reflexivity|].
  apply (resolved_spec _ _ tel_tidy "B" _ _ Hx). reflexivity.
Qed.

(** "M1" begins "M10": the edit of M10 fails. *)
Definition clash {T} {NT : Num T} : optic T :=
  Compound (catt "tel" false) [Iface (mkI KMirror Plane "M1" 0 None); Iface (mkI KMirror Plane "M10" 1 None)].
Lemma prefix_clash : exists (o : optic F64) p x d,
  tidy o /\ plain o /\ at_path o p x /\ getitem o (join p) = Ok x /\
  withGloballyShiftedOptic o (join p) d = Err AttributeError.
Proof.
  exists clash, ["tel"; "M10"], (Iface (mkI KMirror Plane "M10" 1 None)), vzero. split; [|split; [|split; [|split]]].
  - constructor; [dotfree|cbn; repeat constructor; cbn; intuition discriminate|]. each; constructor; dotfree.
  - constructor; [reflexivity|discriminate|]. each; constructor.
  - eapply at_below; [right; left; reflexivity|]. exact (at_root (Iface (mkI (T:=F64) KMirror Plane "M10" 1 None))).
  - reflexivity.
  - reflexivity.
Qed.
(** Editing an item clears the skip flag of the assemblies around it. *)
Definition dark {T} {NT : Num T} : optic T :=
  Compound (catt "tel" false) [Iface iA; Compound (catt "sub" true) [Iface iB; Iface iC]; Iface iD].
Lemma skip_cleared : exists (o o' : optic F64) d it it',
  tidy o /\ prefix_free o /\ withGloballyShiftedOptic o "B" d = Ok o' /\
  getitem o "sub" = Ok it /\ getitem o' "sub" = Ok it' /\ o_skip it = true /\ o_skip it' = false.
Proof.
  exists dark. eexists. exists vzero. do 2 eexists. split; [|split; [|split; [reflexivity|repeat split]]].
  - constructor; [dotfree|cbn; repeat constructor; cbn; intuition discriminate|].
    each; constructor; try solve [dotfree].
    + cbn; repeat constructor; cbn; intuition discriminate.
    + each; constructor; dotfree.
  - constructor.
    + intros x y s Hx Hy. cbn in Hx, Hy. repeat destruct Hx as [<-|Hx]; try contradiction;
      repeat destruct Hy as [<-|Hy]; try contradiction; cbn; intros E; try discriminate; injection E; auto.
    + each; constructor.
      * intros x y s Hx Hy. cbn in Hx, Hy. repeat destruct Hx as [<-|Hx]; try contradiction;
        repeat destruct Hy as [<-|Hy]; try contradiction; cbn; intros E; try discriminate; injection E; auto.
      * each; constructor.
Qed.

(** Calling "B" by its name alone removes nothing: it sits one level down. *)
Lemma nested_kept : exists (o : optic F64) n x, tidy o /\ prefix_free o /\ plain o /\
  getitem o n = Ok x /\ o_name o <> n /\ withRemovedOptic o n = Ok o /\
  forall new, withInsertedOptic o n new = Ok o.
Proof.
  exists tel, "B", (Iface iB). split; [apply tel_tidy|]. split; [apply tel_prefix_free|]. split; [apply tel_plain|].
  split; [reflexivity|]. split; [discriminate|]. split; [reflexivity|]. intros new. reflexivity.
Qed.
(** A name used twice elsewhere in the tree makes the removal of an innocent item fail. *)
Definition twin {T} {NT : Num T} : optic T :=
  Compound (catt "tel" false) [Iface iA; Compound (catt "sub" false) [Iface iA; Iface iC]; Iface iD].
Lemma twin_fails : exists (o : optic F64) n x, tidy o /\ prefix_free o /\ plain o /\
  getitem o n = Ok x /\ o_name o <> n /\ withRemovedOptic o n = Err KeyError.
Proof.
  exists twin, "D", (Iface iD). split; [|split; [|split; [|split; [reflexivity|split; [discriminate|reflexivity]]]]].
  - constructor; [dotfree|cbn; repeat constructor; cbn; intuition discriminate|].
    each; constructor; try solve [dotfree].
    + cbn; repeat constructor; cbn; intuition discriminate.
    + each; constructor; dotfree.
  - constructor.
    + intros x y s Hx Hy. cbn in Hx, Hy. repeat destruct Hx as [<-|Hx]; try contradiction;
      repeat destruct Hy as [<-|Hy]; try contradiction; cbn; intros E; try discriminate; injection E; auto.
    + each; constructor.
      * intros x y s Hx Hy. cbn in Hx, Hy. repeat destruct Hx as [<-|Hx]; try contradiction;
        repeat destruct Hy as [<-|Hy]; try contradiction; cbn; intros E; try discriminate; injection E; auto.
      * each; constructor.
  - constructor; try reflexivity; [discriminate|]. each; constructor; try reflexivity; try discriminate. each; constructor.
Qed.
Lemma ex_insert {T} {NT : Num T} : tidy (T:=T) tel /\
  own_names (T:=T) (catt "tel" false) [Iface iA; Compound (catt "sub" false) [Iface iB; Iface iC]; Iface iD] /\
  denotes (T:=T) tel "D" ["tel"; "D"].
Proof.
  split; [apply tel_tidy|]. split.
  - intros c p x Hc Hp Htr. fold (tel (T:=T)) in Hp.
    assert (G : forall n k, dict_get n (names (T:=T) tel) = Some k -> trailing n p -> dotless n ->
      forall m, k = join ["tel"; m] -> dotless m -> p = ["tel"; m]).
    { intros n k E Htn Dn m -> Dm. apply (names_spec _ _ tel_tidy) in E. destruct E as (q & y & Hq & Ek & _ & Hu).
      assert (Eq : p = q) by (eapply Hu; eassumption). rewrite Eq. symmetry. apply join_inj; try discriminate.
      - intros ->. inversion Hq.
      - constructor; [dotfree|constructor; [exact Dm|constructor]].
      - eapply paths_dotless; [apply tel_tidy|apply in_paths, Hq].
      - exact Ek. }
    cbn [In] in Hc. repeat destruct Hc as [<-|Hc]; try contradiction;
      (eapply G; [|exact Htr| |reflexivity|]; [vm_compute; reflexivity|dotfree|dotfree]).
  - assert (Hx : at_path (T:=T) tel ["tel"; "D"] (Iface iD)).
    { apply at_below with (it := Iface iD); [cbn; auto|]. exact (at_root (Iface iD)). }
    apply (resolved_spec _ _ tel_tidy "D" _ _ Hx). reflexivity.
Qed.
