(** Concrete optics and rays for examples and refutations about tracing. *)
From Coq Require Import Reals String List Bool ZArith SpecFloat Lra.
From Verif Require Import Num NumR NumF Vec CoordSys Surface Medium Obscuration Ray Bundle Optic Ops TreeSpec XRFacts.
Import ListNotations.

Section Samples.
  Context {T : Type} {NT : Num T}.
  Definition at_z (z : Z) : coordsys T := CS (V3 n0 n0 (nofZ z)) meye.
  Definition air1 : medium T := ConstM n1.
  Definition mkI (k : ikind T) (s : surface T) (n : string) (z : Z) (ob : option (obsc T)) : iface T :=
    mkIface k s n (at_z z) ob air1 air1 None None false.
  Definition iA := mkI KMirror Plane "A" 0 None.
  Definition iB := mkI KMirror Plane "B" 1 None.
  Definition iC := mkI KBaffle Plane "C" 2 (Some (ObscCircle n1 n0 n0)).
  Definition iD := mkI KDetector Plane "D" 5 None.
  Definition catt (n : string) (skip : bool) : cattr T := CA false n (at_z 0) air1 air1 skip None.
  (** D inside a sub-assembly *)
  Definition tel : optic T :=
    Compound (catt "tel" false) [Iface iA; Compound (catt "sub" false) [Iface iB; Iface iC]; Iface iD].
  (** the same mirror name twice inside a sub-assembly *)
  Definition tel_dup : optic T :=
    Compound (catt "tel" false) [Compound (catt "sub" false) [Iface iA; Iface iB; Iface iA]; Iface iD].
  Definition tel_skipped : optic T := Compound (catt "tel" true) [Iface iA; Iface iD].
  Definition up : ray T := Ray (V3 n1 n2 (nofZ (-1))) (V3 n0 n0 n1) n0 n1 n1 false false.
  Definition axis : ray T := Ray (V3 n0 n0 (nofZ (-1))) (V3 n0 n0 n1) n0 n1 n1 false false.
  Definition dead : ray T := Ray (V3 n1 n2 (nofZ (-1))) (V3 n0 n0 n1) n0 n1 n1 true true.
  Definition rv0 : rayvec T := RV [up; axis; dead] (at_z 0).
End Samples.

Lemma ex_sticky : exists r : ray F64,
  nth_error (rays (run_ops 5 [OTrace tel false] rv0)) 1 = Some r /\ vignetted r = true /\ failed r = false.
Proof. eexists; split; [vm_compute; reflexivity|split; reflexivity]. Qed.
Lemma ex_fv : Forall (fun r : ray F64 => failed r = true -> vignetted r = true) (rays rv0).
Proof. repeat constructor; cbn; intros; congruence. Qed.
Lemma ex_lossy : Forall lossy
  [OIntersect Plane None (Some (SimpleCoating (Fin (1/10)) (Fin (9/10)))); OTrace tel true;
   OSplitReflected Plane air1 air1 (SimpleCoating (Fin (1/2)) (Fin (1/2))) None].
Proof.
  repeat constructor; cbn; do 2 eexists; (split; [reflexivity|split; lra]).
Qed.
Lemma ex_uncoated : Forall uncoated [@OTrace F64 tel false; OReflect Plane None None; OObscure (ObscCircle n1 n0 n0)].
Proof. repeat constructor. Qed.
Lemma ex_pick : pick [2; 0]%nat (rays (T:=F64) rv0) = [dead; up].
Proof. reflexivity. Qed.
Lemma ex_leaves : map i_name (leaves (T:=F64) tel) = ["A"; "B"; "C"; "D"]%string.
Proof. reflexivity. Qed.
Lemma ex_full : o_skip (tel (T:=F64)) = false /\ NoDup (map i_name (visit true (tel (T:=F64)))).
Proof.
  split; [reflexivity|]. cbn. repeat constructor; cbn; intuition discriminate.
Qed.
Lemma ex_path :
  NoDup (map i_name (leaves (T:=F64) tel)) /\ (2 <= length (leaves (T:=F64) tel))%nat /\
  (forall i, In i (leaves tel) -> getitem (T:=F64) tel (i_name i) = Ok (Iface i)).
Proof.
  split; [|split].
  - cbn. repeat constructor; cbn; intuition discriminate.
  - cbn. repeat constructor.
  - intros i H. cbn in H. repeat destruct H as [<-|H]; try reflexivity. destruct H.
Qed.
Lemma ex_ghost : exists rv, trace_path 5 (T:=F64) tel ["A"; "B"; "A"; "B"; "C"; "D"]%string rv0 = Ok rv.
Proof. eexists. vm_compute. reflexivity. Qed.

(** ** Refutations by computation on doubles *)
Definition lastf {A} (l : list A) : option A := last (map Some l) None.
Lemma dup_names_break :
  exists (o : optic F64) (rv : rayvec F64) n e,
    o_skip o = false /\ lastf (traceFull 5 o false rv) = Some (n, e) /\ tf_out e <> trace 5 o false rv.
Proof.
  exists tel_dup, rv0. do 2 eexists. split; [reflexivity|]. split; [vm_compute; reflexivity|].
  vm_compute. intros H. congruence.
Qed.
Lemma own_skip_breaks :
  exists (o : optic F64) (rv : rayvec F64),
    NoDup (map i_name (visit false o)) /\ traceFull 5 o false rv = [] /\ trace 5 o false rv <> rv.
Proof.
  exists tel_skipped, rv0. split; [|split].
  - cbn. repeat constructor; cbn; intuition discriminate.
  - reflexivity.
  - vm_compute. intros H. congruence.
Qed.
Lemma single_path_reflects :
  exists (o : optic F64) (rv rv' : rayvec F64) i,
    leaves o = [i] /\ getitem o (i_name i) = Ok (Iface i) /\
    trace_path 5 o (map i_name (leaves o)) rv = Ok rv' /\ rv' <> trace 5 o false rv.
Proof.
  exists (Compound (catt "tel" false) [Iface iD]), rv0. do 2 eexists.
  split; [reflexivity|]. split; [reflexivity|]. split; [vm_compute; reflexivity|].
  vm_compute. intros H. congruence.
Qed.
