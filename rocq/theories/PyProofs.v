(** Proofs about Python-level equality, hashing, pickling. *)
From Coq Require Import String Ascii List ZArith Bool Permutation Lia Arith.
From Coq Require Import Reals.
From Verif Require Import Num NumR Vec CoordSys Surface Bicubic Medium Obscuration Trig Optic PyObj PySpec.
Import ListNotations.
Local Open Scope list_scope.

(** Induction over nested lists. *)
Section Ind.
  Context {V : Type}.
  Fixpoint psurf_rect' (P : psurf V -> Prop)
    (h1 : P PyPlane) (h2 : forall a b, P (PyTilted a b)) (h3 : forall a, P (PyParaboloid a))
    (h4 : forall a, P (PySphere a)) (h5 : forall a b, P (PyQuadric a b))
    (h6 : forall a b l i, P (PyAsphere a b l i)) (h7 : forall l a b c d, P (PyZernike l a b c d))
    (h8 : forall xs ys a b c d p, P (PyBicubic xs ys a b c d p))
    (h9 : forall l, Forall P l -> P (PySum l)) (s : psurf V) {struct s} : P s :=
    match s with
    | PyPlane => h1 | PyTilted a b => h2 a b | PyParaboloid a => h3 a | PySphere a => h4 a
    | PyQuadric a b => h5 a b | PyAsphere a b l i => h6 a b l i
    | PyZernike l a b c d => h7 l a b c d | PyBicubic xs ys a b c d p => h8 xs ys a b c d p
    | PySum l => h9 l ((fix go l : Forall P l := match l with
                        | [] => Forall_nil P
                        | x :: l => Forall_cons x (psurf_rect' P h1 h2 h3 h4 h5 h6 h7 h8 h9 x) (go l)
                        end) l)
    end.
  Fixpoint pobsc_rect' (P : pobsc V -> Prop)
    (h1 : forall a b c, P (PyCircle a b c)) (h2 : forall a b c d, P (PyAnnulus a b c d))
    (h3 : forall a b c d e, P (PyRectangle a b c d e)) (h4 : forall a b c d, P (PyRay a b c d))
    (h5 : forall xs ys, P (PyPolygon xs ys)) (h6 : forall o, P o -> P (PyNegation o))
    (h7 : forall l, Forall P l -> P (PyUnion l)) (h8 : forall l, Forall P l -> P (PyIntersection l))
    (s : pobsc V) {struct s} : P s :=
    match s with
    | PyCircle a b c => h1 a b c | PyAnnulus a b c d => h2 a b c d
    | PyRectangle a b c d e => h3 a b c d e | PyRay a b c d => h4 a b c d
    | PyPolygon xs ys => h5 xs ys
    | PyNegation o => h6 o (pobsc_rect' P h1 h2 h3 h4 h5 h6 h7 h8 o)
    | PyUnion l => h7 l ((fix go l : Forall P l := match l with
                        | [] => Forall_nil P
                        | x :: l => Forall_cons x (pobsc_rect' P h1 h2 h3 h4 h5 h6 h7 h8 x) (go l)
                        end) l)
    | PyIntersection l => h8 l ((fix go l : Forall P l := match l with
                        | [] => Forall_nil P
                        | x :: l => Forall_cons x (pobsc_rect' P h1 h2 h3 h4 h5 h6 h7 h8 x) (go l)
                        end) l)
    end.
  Fixpoint poptic_rect' (P : poptic V -> Prop)
    (h1 : forall f, P (PyFace f))
    (h2 : forall k n i u c l, Forall P l -> P (PyCompound k n i u c l))
    (s : poptic V) {struct s} : P s :=
    match s with
    | PyFace f => h1 f
    | PyCompound k n i u c l => h2 k n i u c l ((fix go l : Forall P l := match l with
                        | [] => Forall_nil P
                        | x :: l => Forall_cons x (poptic_rect' P h1 h2 x) (go l)
                        end) l)
    end.
End Ind.

Lemma eq_seq_map {A B} (f : A -> A -> bool) (g : A -> B) :
  forall l m, Forall (fun a => forall b, f a b = true -> g a = g b) l ->
  eq_seq f l m = true -> map g l = map g m.
Proof.
  induction l as [|a l IH]; intros [|b m] HF E; cbn in *; try discriminate; [reflexivity|].
  apply andb_true_iff in E as [E1 E2]. inversion HF as [|? ? Ha Hl]; subst.
  rewrite (Ha b E1), (IH m Hl E2). reflexivity.
Qed.
Lemma eq_seq_length {A} (f : A -> A -> bool) :
  forall l m, eq_seq f l m = true -> List.length l = List.length m.
Proof.
  induction l as [|a l IH]; intros [|b m] E; cbn in *; try discriminate; [reflexivity|].
  apply andb_true_iff in E as [E1 E2]. now rewrite (IH m E2).
Qed.
Lemma rand_true a b : rand a b = Ok true -> a = Ok true /\ b = Ok true.
Proof. destruct a as [[|]|]; cbn; intros; try discriminate; auto. Qed.
Lemma Ok_true a : Ok a = Ok true -> a = true.
Proof. congruence. Qed.

(** all_eq on sequences of two or more entries is elementwise comparison. *)
Lemma all_eq_long {V} (veq : V -> V -> bool) (l m : list V) :
  (2 <= List.length l)%nat -> (2 <= List.length m)%nat ->
  all_eq veq l m = Ok true -> eq_seq veq l m = true.
Proof.
  intros Hl Hm. destruct l as [|a [|a' l]]; cbn in Hl; try lia.
  destruct m as [|b [|b' m]]; cbn in Hm; try lia.
  unfold all_eq. destruct (_ =? _)%nat; congruence.
Qed.

Section Hashes.
  Context {V : Type} (veq : V -> V -> bool) (H : hasher V) (HR : respects veq H).

  Lemma nums_hash l m : eq_seq veq l m = true -> h_nums H l = h_nums H m.
  Proof.
    intros E. unfold h_nums. f_equal. apply (eq_seq_map veq); [|assumption].
    apply Forall_forall. intros a _ b. apply HR.
  Qed.
  Lemma array_hash a b : array_equal veq a b = true -> h_nums H (nd_data a) = h_nums H (nd_data b).
  Proof. intros E. apply andb_true_iff in E as [_ E]. now apply nums_hash. Qed.

  Ltac bsplit :=
    repeat match goal with
    | E : (_ && _)%bool = true |- _ => apply andb_true_iff in E as [? ?]
    end.
  Ltac hrew :=
    repeat match goal with
    | E : veq ?a ?b = true |- _ => apply HR in E; try rewrite E in *; clear E
    | E : array_equal1 veq _ _ = true |- _ => apply nums_hash in E
    | E : eq_seq veq _ _ = true |- _ => apply nums_hash in E
    | E : array_equal veq _ _ = true |- _ => apply array_hash in E
    end.

  Lemma seq_hash {A} (f : A -> A -> bool) (g : A -> Z) (k : A -> list string) : forall l m,
    Forall (fun a => forall b, one_spelling (k a) (k b) -> f a b = true -> g a = g b) l ->
    one_spelling (concat (map k l)) (concat (map k m)) ->
    eq_seq f l m = true -> map g l = map g m.
  Proof.
    induction l as [|a l IH]; intros [|b m] HF HS E; cbn in *; try discriminate; [reflexivity|].
    apply andb_true_iff in E as [E1 E2]. inversion HF as [|? ? Ha Hl]; subst.
    f_equal.
    - apply Ha; [|assumption]. intros p q Hp Hq. apply HS; apply in_or_app; now left.
    - apply IH; [assumption| |assumption]. intros p q Hp Hq. apply HS; apply in_or_app; now right.
  Qed.

  Lemma surf_hash_eq : forall a b, one_spelling (policies a) (policies b) ->
    surf_eq veq a b = true -> surf_hash H a = surf_hash H b.
  Proof.
    induction a as [| | | | | | |xs ys za zb zc zd p|l IH] using psurf_rect'; intros [] HS E; cbn in E; try discriminate;
      cbn [surf_hash]; bsplit; hrew; try congruence.
    - match goal with E : (_ =? _)%Z = true |- _ => apply Z.eqb_eq in E end. congruence.
    - match goal with E : String.eqb _ _ = true |- _ => apply String.eqb_eq in E end.
      cbn in HS. assert (p = nanpolicy) as -> by (apply HS; auto; left; reflexivity). congruence.
    - do 4 f_equal. exact (seq_hash _ _ policies _ _ IH HS E).
  Qed.
  Lemma medium_hash_eq a b : medium_eq veq a b = true -> medium_hash H a = medium_hash H b.
  Proof. destruct a, b; cbn; intros E; try discriminate; bsplit; hrew; congruence. Qed.
  Lemma cs_hash_eq a b : cs_eq veq a b = true -> cs_hash H a = cs_hash H b.
  Proof. unfold cs_eq, cs_hash. intros E. bsplit. hrew. congruence. Qed.
  Lemma ct_hash_eq a b : ct_eq veq a b = true -> ct_hash H a = ct_hash H b.
  Proof.
    unfold ct_eq, ct_hash. intros E. bsplit.
    repeat match goal with E : cs_eq _ _ _ = true |- _ => apply cs_hash_eq in E end. congruence.
  Qed.
  Lemma coating_hash_eq a b : coating_eq veq a b = true -> coating_hash H a = coating_hash H b.
  Proof. unfold coating_eq, coating_hash. intros E. bsplit. hrew. congruence. Qed.
  Lemma lattice_hash_eq a b : lattice_eq veq a b = true -> lattice_hash H a = lattice_hash H b.
  Proof. unfold lattice_eq, lattice_hash. intros E. bsplit. hrew. congruence. Qed.

  Lemma req_seq_hash {A} (f : A -> A -> res bool) (g : A -> Z) (P : A -> Prop) : forall l m,
    Forall (fun a => forall b, P a -> P b -> f a b = Ok true -> g a = g b) l ->
    (fix go l := match l with [] => True | o :: l => P o /\ go l end) l ->
    (fix go l := match l with [] => True | o :: l => P o /\ go l end) m ->
    req_seq f l m = Ok true -> map g l = map g m.
  Proof.
    induction l as [|a l IH]; intros [|b m] HF Hl Hm E; cbn in *; try discriminate; [reflexivity|].
    apply rand_true in E as [E1 E2]. inversion HF as [|? ? Ha HF']; subst. destruct Hl, Hm. f_equal; [now apply Ha|now apply IH].
  Qed.
  Lemma list_eq_true {A} (f : A -> A -> res bool) l m : list_eq f l m = Ok true -> req_seq f l m = Ok true.
  Proof. unfold list_eq. destruct (_ =? _)%nat; [auto|discriminate]. Qed.

  Lemma obsc_hash_eq : forall a b, polygons_ok a -> polygons_ok b ->
    obsc_eq veq a b = Ok true -> obsc_hash H a = obsc_hash H b.
  Proof.
    induction a as [| | | |xs ys|o IH|l IH|l IH] using pobsc_rect'; intros [] Ha Hb E; cbn in E; try discriminate;
      cbn [obsc_hash]; try (apply Ok_true in E; bsplit; hrew; congruence).
    - cbn in Ha, Hb. apply rand_true in E as [E1 E2].
      apply all_eq_long in E1; try tauto. apply all_eq_long in E2; try tauto. hrew. congruence.
    - cbn in Ha, Hb. rewrite (IH _ Ha Hb E). reflexivity.
    - apply list_eq_true in E. do 4 f_equal. exact (req_seq_hash _ _ polygons_ok _ _ IH Ha Hb E).
    - apply list_eq_true in E. do 4 f_equal. exact (req_seq_hash _ _ polygons_ok _ _ IH Ha Hb E).
  Qed.

  Lemma one_spelling_l l m l' m' : one_spelling (l ++ l') (m ++ m') -> one_spelling l m.
  Proof. intros HS p q Hp Hq. apply HS; apply in_or_app; now left. Qed.
  Lemma one_spelling_r l m l' m' : one_spelling (l ++ l') (m ++ m') -> one_spelling l' m'.
  Proof. intros HS p q Hp Hq. apply HS; apply in_or_app; now right. Qed.

  Lemma face_hash_eq a b :
    one_spelling (face_policies a) (face_policies b) ->
    optic_polygons (PyFace a) -> optic_polygons (PyFace b) ->
    face_eq veq a b = Ok true -> face_hash H a = face_hash H b.
  Proof.
    intros HS Ha Hb. unfold face_eq.
    destruct (String.eqb (class_name (pf_class a)) (class_name (pf_class b))) eqn:EC; cbn [negb]; [|discriminate].
    intros E. apply String.eqb_eq in EC.
    apply rand_true in E as [E1 E]. apply rand_true in E as [E2 E]. apply rand_true in E as [E3 E].
    apply rand_true in E as [E4 E]. apply rand_true in E as [E5 E]. apply rand_true in E as [E6 E7].
    apply Ok_true in E1, E3, E4, E5, E6, E7.
    pose proof (one_spelling_l _ _ _ _ HS) as S1. pose proof (one_spelling_r _ _ _ _ HS) as S2.
    apply surf_hash_eq in E1; [|assumption]. apply String.eqb_eq in E3.
    apply medium_hash_eq in E4, E5. apply cs_hash_eq in E6.
    unfold face_hash. rewrite EC, E1, E3, E4, E5, E6.
    cbn in Ha, Hb.
    assert (EO : match pf_obsc a with Some o => obsc_hash H o | None => h_none H end
               = match pf_obsc b with Some o => obsc_hash H o | None => h_none H end).
    { destruct (pf_obsc a), (pf_obsc b); cbn in E2; try discriminate; [|reflexivity].
      now apply obsc_hash_eq. }
    rewrite EO. destruct (pf_class a), (pf_class b); cbn in EC; try discriminate; try reflexivity.
    cbn in E7, S2. rewrite (surf_hash_eq _ _ S2 E7). reflexivity.
  Qed.

  Lemma opt_seq_hash : forall (l m : list (poptic V)),
    Forall (fun a => forall b, one_spelling (optic_policies a) (optic_policies b) ->
              optic_polygons a -> optic_polygons b -> optic_eq veq a b = Ok true ->
              optic_hash H a = optic_hash H b) l ->
    one_spelling (concat (map optic_policies l)) (concat (map optic_policies m)) ->
    (fix go l := match l with [] => True | o :: l => optic_polygons o /\ go l end) l ->
    (fix go l := match l with [] => True | o :: l => optic_polygons o /\ go l end) m ->
    req_seq (optic_eq veq) l m = Ok true -> map (optic_hash H) l = map (optic_hash H) m.
  Proof.
    induction l as [|a l IH]; intros [|b m] HF HS Hl Hm E; cbn in *; try discriminate; [reflexivity|].
    apply rand_true in E as [E1 E2]. inversion HF as [|? ? Ha HF']; subst. f_equal.
    - apply Ha; try tauto. exact (one_spelling_l _ _ _ _ HS).
    - apply IH; try tauto. exact (one_spelling_r _ _ _ _ HS).
  Qed.
  Lemma optic_hash_eq : forall a b,
    one_spelling (optic_policies a) (optic_policies b) -> optic_polygons a -> optic_polygons b ->
    optic_eq veq a b = Ok true -> optic_hash H a = optic_hash H b.
  Proof.
    induction a as [f|k n i u c l IH] using poptic_rect'; intros [g|k' n' i' u' c' l'] HS Ha Hb E;
      try discriminate E.
    - exact (face_hash_eq f g HS Ha Hb E).
    - cbn [optic_eq] in E. destruct (Bool.eqb k k') eqn:EK; cbn [negb] in E; [|discriminate].
      apply eqb_prop in EK. subst k'.
      apply rand_true in E as [E1 E]. apply rand_true in E as [E2 E]. apply rand_true in E as [E3 E].
      apply rand_true in E as [E4 E5]. apply Ok_true in E2, E3, E4, E5.
      apply String.eqb_eq in E2. apply medium_hash_eq in E3, E4. apply cs_hash_eq in E5.
      cbn [optic_hash]. rewrite E2, E3, E4, E5, (opt_seq_hash _ _ IH HS Ha Hb E1). reflexivity.
  Qed.
End Hashes.

(** ** Equal objects are the same object to C++ *)
Section Same.
  Context {V : Type} (veq : V -> V -> bool) (HL : forall a b, veq a b = true -> a = b).

  Lemma seq_same l m : eq_seq veq l m = true -> l = m.
  Proof.
    intros E. rewrite <- (map_id l), <- (map_id m). apply (eq_seq_map veq); [|assumption].
    apply Forall_forall. intros a _ b. apply HL.
  Qed.
  Lemma array_same a b : array_equal veq a b = true -> a = b.
  Proof.
    destruct a as [sa da], b as [sb db]. unfold array_equal. cbn. intros E.
    apply andb_true_iff in E as [E1 E2]. f_equal; [|now apply seq_same].
    unfold shape_eq in E1. rewrite <- (map_id sa), <- (map_id sb). apply (eq_seq_map Nat.eqb); [|assumption].
    apply Forall_forall. intros a _ b. apply Nat.eqb_eq.
  Qed.
  Ltac bsplit :=
    repeat match goal with
    | E : (_ && _)%bool = true |- _ => apply andb_true_iff in E as [? ?]
    end.
  Ltac srew :=
    repeat match goal with
    | E : veq ?a ?b = true |- _ => apply HL in E; subst
    | E : array_equal1 veq _ _ = true |- _ => apply seq_same in E; subst
    | E : eq_seq veq _ _ = true |- _ => apply seq_same in E; subst
    | E : array_equal veq _ _ = true |- _ => apply array_same in E; subst
    end.

  Lemma cs_same a b : cs_eq veq a b = true -> a = b.
  Proof.
    unfold cs_eq. intros E. bsplit. srew.
    destruct a as [[] []], b as [[] []]. unfold vec_list, mat_list in *. cbn in *. congruence.
  Qed.
  Lemma coating_same a b : coating_eq veq a b = true -> a = b.
  Proof. unfold coating_eq. destruct a, b. cbn. intros E. bsplit. srew. reflexivity. Qed.
  Lemma medium_same a b : medium_eq veq a b = true -> a = b.
  Proof. destruct a, b; cbn; intros E; try discriminate; bsplit; srew; reflexivity. Qed.
  Lemma lattice_same a b : lattice_eq veq a b = true -> a = b.
  Proof. unfold lattice_eq. destruct a, b. cbn. intros E. bsplit. srew. reflexivity. Qed.

  Lemma req_seq_same {A} (f : A -> A -> res bool) (P : A -> Prop) : forall l m,
    Forall (fun a => forall b, P a -> P b -> f a b = Ok true -> a = b) l ->
    (fix go l := match l with [] => True | o :: l => P o /\ go l end) l ->
    (fix go l := match l with [] => True | o :: l => P o /\ go l end) m ->
    req_seq f l m = Ok true -> l = m.
  Proof.
    induction l as [|a l IH]; intros [|b m] HF Hl Hm E; cbn in *; try discriminate; [reflexivity|].
    apply rand_true in E as [E1 E2]. inversion HF as [|? ? Ha HF']; subst. destruct Hl, Hm.
    f_equal; [now apply Ha|now apply IH].
  Qed.
  Lemma obsc_same : forall a b, polygons_ok a -> polygons_ok b -> obsc_eq veq a b = Ok true -> a = b.
  Proof.
    induction a as [| | | |xs ys|o IH|l IH|l IH] using pobsc_rect'; intros [] Ha Hb E; cbn in E; try discriminate;
      try (apply Ok_true in E; bsplit; srew; congruence).
    - cbn in Ha, Hb. apply rand_true in E as [E1 E2].
      apply all_eq_long in E1; try tauto. apply all_eq_long in E2; try tauto. srew. reflexivity.
    - cbn in Ha, Hb. rewrite (IH _ Ha Hb E). reflexivity.
    - apply list_eq_true in E. f_equal. exact (req_seq_same _ polygons_ok _ _ IH Ha Hb E).
    - apply list_eq_true in E. f_equal. exact (req_seq_same _ polygons_ok _ _ IH Ha Hb E).
  Qed.
End Same.

Lemma surf_eq_build {T} {NT : Num T} (veq : T -> T -> bool) (HL : forall a b, veq a b = true -> a = b) g :
  forall a b, surf_eq veq a b = true -> build_surf g a = build_surf g b.
Proof.
  induction a as [| | | | | | |xs ys za zb zc zd p|l IH] using psurf_rect'; intros [] E; cbn in E; try discriminate;
    repeat match goal with
    | E : (_ && _)%bool = true |- _ => apply andb_true_iff in E as [? ?]
    | E : veq ?a ?b = true |- _ => apply HL in E; subst
    | E : array_equal1 veq _ _ = true |- _ => apply (seq_same veq HL) in E; subst
    | E : array_equal veq _ _ = true |- _ => apply (array_same veq HL) in E; subst
    | E : (_ =? _)%Z = true |- _ => apply Z.eqb_eq in E; subst
    | E : String.eqb _ _ = true |- _ => apply String.eqb_eq in E
    end; try reflexivity.
  - cbn [build_surf]. congruence.
  - cbn [build_surf].
    match goal with |- match ?x with _ => _ end = match ?y with _ => _ end => enough (W : x = y) by (rewrite W; reflexivity) end.
    revert surfaces E. induction l as [|a l IHl]; intros [|b m] E; cbn in E; try discriminate; [reflexivity|].
    apply andb_true_iff in E as [E1 E2]. inversion IH as [|? ? Ha Hl]; subst.
    rewrite (Ha b E1), (IHl Hl m E2). reflexivity.
Qed.

(** ** Equality is an equivalence *)
Section Equiv.
  Context {V : Type} (veq : V -> V -> bool).

  Lemma eq_seq_refl {A} (f : A -> A -> bool) l : Forall (fun a => f a a = true) l -> eq_seq f l l = true.
  Proof. induction 1 as [|a l Ha _ IH]; cbn; [reflexivity|]. now rewrite Ha, IH. Qed.
  Lemma eq_seq_sym {A} (f : A -> A -> bool) : forall l m,
    Forall (fun a => forall b, f a b = f b a) l -> eq_seq f l m = eq_seq f m l.
  Proof.
    induction l as [|a l IH]; intros [|b m] HF; cbn; try reflexivity. inversion HF; subst.
    rewrite (IH m); [|assumption]. match goal with E : forall b, _ = _ |- _ => rewrite (E b) end. reflexivity.
  Qed.
  Lemma eq_seq_trans {A} (f : A -> A -> bool) : forall l m n,
    Forall (fun a => forall b c, f a b = true -> f b c = true -> f a c = true) l ->
    eq_seq f l m = true -> eq_seq f m n = true -> eq_seq f l n = true.
  Proof.
    induction l as [|a l IH]; intros [|b m] [|c n] HF E1 E2; cbn in *; try discriminate; [reflexivity|].
    apply andb_true_iff in E1 as [? ?], E2 as [? ?]. inversion HF as [|? ? Ha Hl]; subst.
    rewrite (Ha b c), (IH m n); auto.
  Qed.
  Lemma array_equal1_refl (HRf : forall v, veq v v = true) l : array_equal1 veq l l = true.
  Proof. apply eq_seq_refl, Forall_forall. intros; apply HRf. Qed.
  Lemma array_equal1_sym (HSy : forall a b, veq a b = veq b a) l m : array_equal1 veq l m = array_equal1 veq m l.
  Proof. apply eq_seq_sym, Forall_forall. intros; apply HSy. Qed.
  Lemma array_equal1_trans (HT : forall a b c, veq a b = true -> veq b c = true -> veq a c = true) l m n :
    array_equal1 veq l m = true -> array_equal1 veq m n = true -> array_equal1 veq l n = true.
  Proof. apply eq_seq_trans, Forall_forall. intros; eapply HT; eauto. Qed.
  Lemma shape_refl l : shape_eq l l = true.
  Proof. apply eq_seq_refl, Forall_forall. intros; apply Nat.eqb_refl. Qed.
  Lemma shape_sym l m : shape_eq l m = shape_eq m l.
  Proof. apply eq_seq_sym, Forall_forall. intros; apply Nat.eqb_sym. Qed.
  Lemma shape_trans l m n : shape_eq l m = true -> shape_eq m n = true -> shape_eq l n = true.
  Proof. apply eq_seq_trans, Forall_forall. intros ? _ b c. rewrite !Nat.eqb_eq. congruence. Qed.

  Lemma surf_eq_refl (HRf : forall v, veq v v = true) : forall a, surf_eq veq a a = true.
  Proof.
    induction a using psurf_rect'; cbn [surf_eq]; unfold array_equal;
      change (eq_seq veq) with (array_equal1 veq);
      rewrite ?HRf, ?array_equal1_refl, ?shape_refl, ?Z.eqb_refl, ?String.eqb_refl by assumption; try reflexivity.
    now apply eq_seq_refl.
  Qed.
  Lemma surf_eq_sym (HSy : forall a b, veq a b = veq b a) : forall a b, surf_eq veq a b = surf_eq veq b a.
  Proof.
    induction a using psurf_rect'; intros []; cbn [surf_eq]; try reflexivity.
    all: try now apply eq_seq_sym.
    all: unfold array_equal; change (eq_seq veq) with (array_equal1 veq).
    all: repeat match goal with
      | |- context [veq ?x ?y] => rewrite (HSy x y); generalize (veq y x); intro
      | |- context [array_equal1 veq ?x ?y] => rewrite (array_equal1_sym HSy x y); generalize (array_equal1 veq y x); intro
      | |- context [shape_eq ?x ?y] => rewrite (shape_sym x y); generalize (shape_eq y x); intro
      | |- context [(?x =? ?y)%Z] => rewrite (Z.eqb_sym x y); generalize (Z.eqb y x); intro
      | |- context [String.eqb ?x ?y] => rewrite (String.eqb_sym x y); generalize (String.eqb y x); intro
      end; reflexivity.
  Qed.
  Lemma surf_eq_trans (HT : forall a b c, veq a b = true -> veq b c = true -> veq a c = true) :
    forall a b c, surf_eq veq a b = true -> surf_eq veq b c = true -> surf_eq veq a c = true.
  Proof.
    induction a using psurf_rect'; intros [] [] E1 E2; cbn [surf_eq] in *; try discriminate; try reflexivity.
    all: try (eapply eq_seq_trans; eassumption).
    all: unfold array_equal in *; change (eq_seq veq) with (array_equal1 veq) in *.
    all: repeat match goal with E : (_ && _)%bool = true |- _ => apply andb_true_iff in E as [? ?] end.
    all: repeat (apply andb_true_iff; split).
    all: try (eapply HT; eassumption).
    all: try (eapply array_equal1_trans; eassumption).
    all: try (eapply shape_trans; eassumption).
    - repeat match goal with E : (_ =? _)%Z = true |- _ => apply Z.eqb_eq in E end. apply Z.eqb_eq. congruence.
    - repeat match goal with E : String.eqb _ _ = true |- _ => apply String.eqb_eq in E end. apply String.eqb_eq. congruence.
  Qed.
End Equiv.

Section OEquiv.
  Context {V : Type} (veq : V -> V -> bool).

  Lemma all_eq_refl (HRf : forall v, veq v v = true) l : all_eq veq l l = Ok true.
  Proof.
    destruct l as [|a [|b l]]; cbn -[eq_seq]; try reflexivity; [now rewrite HRf|].
    rewrite Nat.eqb_refl. f_equal. now apply array_equal1_refl.
  Qed.
  Lemma forallb_ext_in {A} (f g : A -> bool) l : (forall a, f a = g a) -> forallb f l = forallb g l.
  Proof. intros E. induction l; cbn; congruence. Qed.
  Lemma all_eq_sym (HSy : forall a b, veq a b = veq b a) l m : all_eq veq l m = all_eq veq m l.
  Proof.
    destruct l as [|a [|a' l]], m as [|b [|b' m]]; try reflexivity.
    all: try (cbn [all_eq]; f_equal; apply forallb_ext_in; intro; apply HSy).
    - cbn. now rewrite HSy.
    - unfold all_eq. rewrite Nat.eqb_sym. destruct (_ =? _)%nat; [|reflexivity].
      f_equal. apply (array_equal1_sym veq HSy).
  Qed.
  Lemma req_seq_refl {A} (f : A -> A -> res bool) l :
    Forall (fun a => f a a = Ok true) l -> req_seq f l l = Ok true.
  Proof. induction 1 as [|a l Ha _ IH]; cbn; [reflexivity|]. now rewrite Ha, IH. Qed.
  Lemma req_seq_sym {A} (f : A -> A -> res bool) : forall l m,
    Forall (fun a => forall b, f a b = f b a) l -> req_seq f l m = req_seq f m l.
  Proof.
    induction l as [|a l IH]; intros [|b m] HF; cbn; try reflexivity. inversion HF as [|? ? Ha Hl]; subst.
    now rewrite (IH m Hl), (Ha b).
  Qed.
  Lemma req_seq_length {A} (f : A -> A -> res bool) : forall l m,
    req_seq f l m = Ok true -> List.length l = List.length m.
  Proof.
    induction l as [|a l IH]; intros [|b m] E; cbn in *; try discriminate; [reflexivity|].
    apply rand_true in E as [E1 E2]. now rewrite (IH m E2).
  Qed.
  Lemma list_eq_holds {A} (f : A -> A -> res bool) l m : req_seq f l m = Ok true -> list_eq f l m = Ok true.
  Proof. intros E. unfold list_eq. now rewrite (req_seq_length f l m E), Nat.eqb_refl. Qed.
  Lemma req_seq_trans {A} (f : A -> A -> res bool) (P : A -> Prop) : forall l m n,
    Forall (fun a => forall b c, P a -> P b -> P c -> f a b = Ok true -> f b c = Ok true -> f a c = Ok true) l ->
    (fix go l := match l with [] => True | o :: l => P o /\ go l end) l ->
    (fix go l := match l with [] => True | o :: l => P o /\ go l end) m ->
    (fix go l := match l with [] => True | o :: l => P o /\ go l end) n ->
    req_seq f l m = Ok true -> req_seq f m n = Ok true -> req_seq f l n = Ok true.
  Proof.
    induction l as [|a l IH]; intros [|b m] [|c n] HF Hl Hm Hn E1 E2; cbn in *; try discriminate; [reflexivity|].
    apply rand_true in E1 as [? ?], E2 as [? ?]. inversion HF as [|? ? Ha Hl']; subst.
    destruct Hl, Hm, Hn. rewrite (Ha b c), (IH m n); auto.
  Qed.

  Lemma obsc_eq_refl (HRf : forall v, veq v v = true) : forall a, obsc_eq veq a a = Ok true.
  Proof.
    induction a as [| | | |xs ys|o IH|l IH|l IH] using pobsc_rect'; cbn [obsc_eq]; rewrite ?HRf; try reflexivity.
    - now rewrite !all_eq_refl.
    - assumption.
    - now apply list_eq_holds, req_seq_refl.
    - now apply list_eq_holds, req_seq_refl.
  Qed.
  Lemma obsc_eq_sym (HSy : forall a b, veq a b = veq b a) : forall a b, obsc_eq veq a b = obsc_eq veq b a.
  Proof.
    induction a as [| | | |xs ys|o IH|l IH|l IH] using pobsc_rect'; intros []; cbn [obsc_eq]; try reflexivity.
    all: try (f_equal; repeat match goal with
      | |- context [veq ?x ?y] => rewrite (HSy x y); generalize (veq y x); intro end; reflexivity).
    - now rewrite (all_eq_sym HSy xs), (all_eq_sym HSy ys).
    - apply IH.
    - unfold list_eq. rewrite Nat.eqb_sym. now rewrite (req_seq_sym _ l).
    - unfold list_eq. rewrite Nat.eqb_sym. now rewrite (req_seq_sym _ l).
  Qed.
  Lemma all_eq_short l m : (2 <= List.length l)%nat -> eq_seq veq l m = true -> all_eq veq l m = Ok true.
  Proof.
    intros Hl E. pose proof (eq_seq_length _ _ _ E) as EL.
    destruct l as [|a [|a' l]]; cbn in Hl; try lia. destruct m as [|b [|b' m]]; cbn in EL; try lia.
    unfold all_eq. cbn [List.length]. rewrite EL, Nat.eqb_refl. now rewrite E.
  Qed.
  Lemma obsc_eq_trans (HT : forall a b c, veq a b = true -> veq b c = true -> veq a c = true) :
    forall a b c, polygons_ok a -> polygons_ok b -> polygons_ok c ->
    obsc_eq veq a b = Ok true -> obsc_eq veq b c = Ok true -> obsc_eq veq a c = Ok true.
  Proof.
    induction a as [| | | |xs ys|o IH|l IH|l IH] using pobsc_rect'; intros [] [] Ha Hb Hc E1 E2;
      cbn [obsc_eq] in *; try discriminate.
    all: try (apply Ok_true in E1, E2; f_equal;
      repeat match goal with E : (_ && _)%bool = true |- _ => apply andb_true_iff in E as [? ?] end;
      repeat (apply andb_true_iff; split); eapply HT; eassumption).
    - cbn in Ha, Hb, Hc. destruct Ha, Hb, Hc. apply rand_true in E1 as [E1 E1'], E2 as [E2 E2'].
      apply all_eq_long in E1, E2, E1', E2'; try assumption.
      rewrite !all_eq_short; try assumption; [reflexivity| |];
        eapply (array_equal1_trans veq HT); unfold array_equal1; eassumption.
    - cbn in Ha, Hb, Hc. eapply (IH original); eassumption.
    - apply list_eq_true in E1, E2. apply list_eq_holds.
      exact (req_seq_trans _ polygons_ok _ _ _ IH Ha Hb Hc E1 E2).
    - apply list_eq_true in E1, E2. apply list_eq_holds.
      exact (req_seq_trans _ polygons_ok _ _ _ IH Ha Hb Hc E1 E2).
  Qed.
End OEquiv.

(** ** Sorting by the printed form *)
Lemma ascii_compare_trans a b c :
  Ascii.compare a b = Lt -> Ascii.compare b c = Lt -> Ascii.compare a c = Lt.
Proof. unfold Ascii.compare. rewrite !N.compare_lt_iff. apply N.lt_trans. Qed.
Lemma ascii_compare_refl a : Ascii.compare a a = Eq.
Proof. unfold Ascii.compare. apply N.compare_refl. Qed.
Lemma str_compare_trans : forall a b c,
  String.compare a b = Lt -> String.compare b c = Lt -> String.compare a c = Lt.
Proof.
  induction a as [|x a IH]; intros [|y b] [|z c] E1 E2; cbn in *; try discriminate; try reflexivity.
  destruct (Ascii.compare x y) eqn:Exy; try discriminate; destruct (Ascii.compare y z) eqn:Eyz; try discriminate.
  - apply Ascii.compare_eq_iff in Exy, Eyz. subst. rewrite ascii_compare_refl. eauto.
  - apply Ascii.compare_eq_iff in Exy. subst. now rewrite Eyz.
  - apply Ascii.compare_eq_iff in Eyz. subst. now rewrite Exy.
  - now rewrite (ascii_compare_trans _ _ _ Exy Eyz).
Qed.
Lemma str_compare_refl a : String.compare a a = Eq.
Proof. induction a; cbn; [reflexivity|]. now rewrite ascii_compare_refl. Qed.
Lemma leb_cases a b : String.leb a b = true <-> String.compare a b = Lt \/ a = b.
Proof.
  unfold String.leb. destruct (String.compare a b) eqn:E.
  - apply String.compare_eq_iff in E. intuition.
  - intuition.
  - split; [discriminate|]. intros [|E']; [discriminate|]. subst.
    rewrite str_compare_refl in E. discriminate.
Qed.
Lemma leb_trans a b c : String.leb a b = true -> String.leb b c = true -> String.leb a c = true.
Proof.
  rewrite !leb_cases. intros [E1|E1] [E2|E2]; subst; auto. left. eapply str_compare_trans; eassumption.
Qed.

Section Sorts.
  Context {A : Type} (rep : A -> string).
  Inductive ascending : list A -> Prop :=
  | asc_nil : ascending []
  | asc_cons a l : (forall b, In b l -> String.leb (rep a) (rep b) = true) -> ascending l -> ascending (a :: l).
  Lemma insert_perm a l : Permutation (a :: l) (insert rep a l).
  Proof.
    induction l as [|b l IH]; cbn; [reflexivity|]. destruct (String.leb _ _); [reflexivity|].
    transitivity (b :: a :: l); [apply perm_swap|]. now constructor.
  Qed.
  Lemma sorted_perm l : Permutation l (sorted rep l).
  Proof. induction l as [|a l IH]; cbn; [reflexivity|]. etransitivity; [|apply insert_perm]. now constructor. Qed.
  Lemma insert_asc a l : ascending l -> ascending (insert rep a l).
  Proof.
    induction 1 as [|b l Hb Hl IH]; cbn; [constructor; [intros ? []|constructor]|].
    destruct (String.leb (rep a) (rep b)) eqn:E.
    - constructor; [|now constructor]. intros c [<-|Hc]; [assumption|]. eapply leb_trans; eauto.
    - constructor; [|assumption]. intros c Hc.
      apply (Permutation_in _ (Permutation_sym (insert_perm a l))) in Hc. destruct Hc as [<-|Hc]; [|auto].
      destruct (String.leb_total (rep a) (rep b)); congruence.
  Qed.
  Lemma sorted_asc l : ascending (sorted rep l).
  Proof. induction l; cbn; [constructor|now apply insert_asc]. Qed.
  Lemma insert_first a l : (forall b, In b l -> String.leb (rep a) (rep b) = true) -> insert rep a l = a :: l.
  Proof. destruct l as [|b l]; cbn; intros Hb; [reflexivity|]. rewrite Hb; [reflexivity|now left]. Qed.
  Lemma sorted_fix l : ascending l -> sorted rep l = l.
  Proof. induction 1 as [|a l Ha _ IH]; cbn; [reflexivity|]. rewrite IH. now apply insert_first. Qed.
  Lemma sorted_idem l : sorted rep (sorted rep l) = sorted rep l.
  Proof. apply sorted_fix, sorted_asc. Qed.
  Lemma asc_reps l : ascending l -> forall m, ascending m -> Permutation (map rep l) (map rep m) -> map rep l = map rep m.
  Proof.
    induction 1 as [|a l Ha Hl IH]; intros m Hm HP.
    - apply Permutation_nil in HP. now rewrite HP.
    - destruct Hm as [|b m Hb Hm]; [apply Permutation_sym, Permutation_nil in HP; discriminate|].
      cbn [map] in *.
      assert (EE : rep a = rep b).
      { apply String.leb_antisym.
        - assert (Hi : In (rep b) (rep a :: map rep l)) by (apply (Permutation_in _ (Permutation_sym HP)); now left).
          destruct Hi as [->|Hi]; [apply leb_cases; auto|]. apply in_map_iff in Hi as (x & <- & Hx). now apply Ha.
        - assert (Hi : In (rep a) (rep b :: map rep m)) by (apply (Permutation_in _ HP); now left).
          destruct Hi as [->|Hi]; [apply leb_cases; auto|]. apply in_map_iff in Hi as (x & <- & Hx). now apply Hb. }
      f_equal; [assumption|]. apply IH; [assumption|]. rewrite EE in HP. now apply Permutation_cons_inv in HP.
  Qed.
End Sorts.

Lemma req_reps {A} (rep : A -> string) (f : A -> A -> res bool) : forall l m,
  (forall a b, In a l -> In b m -> rep a = rep b -> f a b = Ok true) ->
  map rep l = map rep m -> req_seq f l m = Ok true.
Proof.
  induction l as [|a l IH]; intros [|b m] HI E; cbn in *; try discriminate; [reflexivity|].
  injection E as E1 E2. rewrite (HI a b) by auto. cbn. apply IH; auto.
Qed.

(** The order in which items are given does not matter. *)
Lemma union_order {V} (veq : V -> V -> bool) rep (l m : list (pobsc V)) :
  Permutation l m ->
  (forall a b, In a l -> In b l -> rep a = rep b -> obsc_eq veq a b = Ok true) ->
  obsc_eq veq (mk_union rep l) (mk_union rep m) = Ok true
  /\ obsc_eq veq (mk_intersection rep l) (mk_intersection rep m) = Ok true.
Proof.
  intros HP HI.
  assert (E : list_eq (obsc_eq veq) (sorted rep l) (sorted rep m) = Ok true).
  { apply list_eq_holds, (req_reps rep).
    - intros a b Ha Hb. apply HI.
      + exact (Permutation_in _ (Permutation_sym (sorted_perm rep l)) Ha).
      + apply (Permutation_in _ (Permutation_sym HP)).
        exact (Permutation_in _ (Permutation_sym (sorted_perm rep m)) Hb).
    - apply asc_reps; try apply sorted_asc. apply Permutation_map.
      rewrite <- (sorted_perm rep l), <- (sorted_perm rep m). exact HP. }
  split; exact E.
Qed.

(** What an obscuration obscures does not depend on the order either. *)
Lemma fold_or {T} {NT : Num T} (l : list (obsc T)) x y : forall r,
  fold_left (fun ret o => ret || contains o x y) l r = r || existsb (fun o => contains o x y) l.
Proof. induction l as [|a l IH]; intros r; cbn; [now rewrite orb_false_r|]. now rewrite IH, orb_assoc. Qed.
Lemma fold_and {T} {NT : Num T} (l : list (obsc T)) x y : forall r,
  fold_left (fun ret o => ret && contains o x y) l r = r && forallb (fun o => contains o x y) l.
Proof. induction l as [|a l IH]; intros r; cbn; [now rewrite andb_true_r|]. now rewrite IH, andb_assoc. Qed.
Lemma existsb_perm {A} (f : A -> bool) l m : Permutation l m -> existsb f l = existsb f m.
Proof.
  induction 1 as [|a l m _ IH|a b l|l m n _ IH1 _ IH2]; cbn; try congruence.
  now rewrite !orb_assoc, (orb_comm (f b)).
Qed.
Lemma forallb_perm {A} (f : A -> bool) l m : Permutation l m -> forallb f l = forallb f m.
Proof.
  induction 1 as [|a l m _ IH|a b l|l m n _ IH1 _ IH2]; cbn; try congruence.
  now rewrite !andb_assoc, (andb_comm (f b)).
Qed.
Lemma union_points {T} {NT : Num T} {TT : Trig T} rep (l m : list (pobsc T)) x y :
  Permutation l m ->
  contains (build_obsc (mk_union rep l)) x y = existsb (fun o => contains (build_obsc o) x y) m
  /\ contains (build_obsc (mk_intersection rep l)) x y = forallb (fun o => contains (build_obsc o) x y) m.
Proof.
  intros HP. assert (HQ : Permutation (sorted rep l) m).
  { rewrite <- HP. symmetry. apply sorted_perm. }
  unfold mk_union, mk_intersection. cbn [build_obsc contains]. rewrite fold_or, fold_and. cbn [orb andb].
  split.
  - rewrite <- (existsb_perm _ _ _ HQ). clear. induction (sorted rep l); cbn; congruence.
  - rewrite <- (forallb_perm _ _ _ HQ). clear. induction (sorted rep l); cbn; congruence.
Qed.

(** ** Pickling *)
Lemma surfs_of_map {V} (l : list (psurf V)) : surfs_of (map VSurf l) = Some l.
Proof. induction l as [|a l IH]; cbn; [reflexivity|]. fold (surfs_of (map VSurf l)). now rewrite IH. Qed.
Lemma obscs_of_map {V} (l : list (pobsc V)) : obscs_of (map VObsc l) = Some l.
Proof. induction l as [|a l IH]; cbn; [reflexivity|]. fold (obscs_of (map VObsc l)). now rewrite IH. Qed.
Lemma surf_pickle {V} (s : psurf V) :
  match s with PyAsphere _ _ _ i => (0 < i)%Z | _ => True end ->
  surf_unstate s (surf_state s) = Some s.
Proof.
  destruct s; cbn; intros Hi; try reflexivity.
  - destruct (Z.leb_spec imin 0); [lia|reflexivity].
  - now rewrite surfs_of_map.
Qed.
Lemma obsc_pickle {V} rep (o : pobsc V) : in_order rep o -> obsc_unstate rep o (obsc_state o) = Some o.
Proof.
  destruct o; cbn; intros Ho; try reflexivity; rewrite obscs_of_map; cbn;
    unfold mk_union, mk_intersection; destruct Ho as [-> _]; reflexivity.
Qed.
Lemma mk_in_order {V} rep (l : list (pobsc V)) :
  Forall (in_order rep) l -> in_order rep (mk_union rep l) /\ in_order rep (mk_intersection rep l).
Proof.
  intros HF. apply (Permutation_Forall (sorted_perm rep l)) in HF.
  assert (HG : (fix go l := match l with [] => True | o :: l => in_order rep o /\ go l end) (sorted rep l)).
  { induction HF; cbn; auto. }
  unfold mk_union, mk_intersection. cbn. rewrite sorted_idem. auto.
Qed.

Lemma xeqb_same (a b : XR) : neqb a b = true -> a = b.
Proof.
  destruct a, b; cbn; try discriminate; try reflexivity.
  destruct (Req_EM_T r r0); [congruence|discriminate].
Qed.
Lemma surf_alike galsim (a b : psurf XR) s t :
  surf_eq neqb a b = true -> build_surf galsim a = Some s -> build_surf galsim b = Some t ->
  (forall x y, sag s x y = sag t x y /\ normal s x y = normal t x y) /\
  (forall x y z vx vy vz dt n, tti s x y z vx vy vz dt n = tti t x y z vx vy vz dt n).
Proof.
  intros E Es Et. rewrite (surf_eq_build neqb xeqb_same galsim a b E) in Es.
  rewrite Es in Et. injection Et as ->. auto.
Qed.
Lemma medium_alike a b m n (w : XR) :
  medium_eq neqb a b = true -> build_medium a = Some m -> build_medium b = Some n -> getN m w = getN n w.
Proof. intros E. rewrite (medium_same neqb xeqb_same a b E). congruence. Qed.
Lemma obsc_alike a b (x y : XR) : polygons_ok a -> polygons_ok b ->
  obsc_eq neqb a b = Ok true -> contains (build_obsc a) x y = contains (build_obsc b) x y.
Proof. intros Ha Hb E. now rewrite (obsc_same neqb xeqb_same a b Ha Hb E). Qed.
Lemma cs_alike (a b : coordsys XR) : cs_eq neqb a b = true -> a = b.
Proof. exact (cs_same neqb xeqb_same a b). Qed.
Lemma alike_example : forall galsim,
  surf_eq (neqb (T:=XR)) (PySum [PySphere (Fin 1); PyTilted (Fin 2) (Fin 3)]) (PySum [PySphere (Fin 1); PyTilted (Fin 2) (Fin 3)]) = true /\
  build_surf galsim (PySum [PySphere (Fin 1); PyTilted (Fin 2) (Fin 3)]) = Some (Sum [Sphere (Fin 1); Tilted (Fin 2) (Fin 3)]) /\
  obsc_eq (neqb (T:=XR)) (PyPolygon [Fin 0; Fin 1] [Fin 2; Fin 3]) (PyPolygon [Fin 0; Fin 1] [Fin 2; Fin 3]) = Ok true.
Proof.
  intros galsim. assert (E : forall r, neqb (Fin r) (Fin r) = true).
  { intros r. cbn. destruct (Req_EM_T r r); [reflexivity|congruence]. }
  cbn -[neqb]. rewrite !E. auto.
Qed.
