(** A hash function on doubles, and objects for the examples and refutations about
    equality. *)
From Coq Require Import String Ascii List ZArith Bool Lia Floats.SpecFloat DecimalString Permutation.
From Verif Require Import Num NumF Vec CoordSys Surface Medium Obscuration Trig Ray Bundle Optic PyObj PySpec PyProofs.
Import ListNotations.
Local Open Scope list_scope.

(** Some hash that treats 0.0 and -0.0 alike. *)
Definition f_hash (a : F64) : Z :=
  match a with
  | S754_zero _ => 0
  | S754_infinity s => if s then 2 else 1
  | S754_nan => 3
  | S754_finite s m e => 4 + (if s then 1 else 0) + 2 * Z.pos m + 1000003 * e
  end%Z.
Definition s_hash (s : string) : Z :=
  fold_left (fun h c => (31 * h + Z.of_nat (nat_of_ascii c))%Z) (list_ascii_of_string s) 0%Z.
Definition hash64 : hasher F64 :=
  Hasher f_hash (fun z => z) s_hash 17 (fun l => fold_left (fun h z => (1000003 * h + z)%Z) l 7%Z).

Lemma hash64_respects : respects SFeqb hash64.
Proof.
  intros a b. unfold SFeqb. destruct a as [s|s| |s m e], b as [t|t| |t n f]; cbn; try discriminate; try reflexivity;
    try (destruct s; try destruct t; cbn; try discriminate; reflexivity).
  destruct s, t; try discriminate;
  destruct (Z.compare_spec e f); try discriminate; subst;
  destruct (Pos.compare_cont Eq m n) eqn:E; cbn; try discriminate;
  apply Pos.compare_eq in E; subst; reflexivity.
Qed.

Notation f z := (f_ofZ z) (only parsing).
(** A 2 by 2 table, with the option spelled either way. *)
Definition tab64 (p : string) : psurf F64 :=
  let z := ND [2; 2]%nat [f 0; f 1; f 2; f 3] in
  PyBicubic [f 0; f 1] [f 0; f 1] z z z z p.
(** Sums with a table inside. *)
Definition sum64 (z : F64) : psurf F64 := PySum [PySphere (f 10); PyTilted z (f 1); tab64 "nan"].

Definition poly64 (n : nat) : pobsc F64 := PyPolygon (repeat (f 1) n) (repeat (f 2) n).
Definition mask64 (z : F64) : pobsc F64 :=
  PyUnion [PyCircle (f 1) z (f 0); PyNegation (PyPolygon [f 0; f 1; f 1] [f 0; z; f 1])].
Definition eye64 : coordsys F64 := CS (V3 (f 0) (f 0) (f 0)) (M3 (f 1) (f 0) (f 0) (f 0) (f 1) (f 0) (f 0) (f 0) (f 1)).
Definition face64 (z r : F64) : pface F64 :=
  PF PyRefractive (sum64 z) (Some (mask64 z)) "L1_entrance" (PyConstMedium (f 1)) (PyConstMedium (f 2)) eye64
     (Some (SimpleCoating r (f 1))) (Some (SimpleCoating r (f 1))) false.
Definition lens64 (z r : F64) : poptic F64 :=
  PyCompound true "L1" (PyConstMedium (f 1)) (PyConstMedium (f 1)) eye64 [PyFace (face64 z r); PyFace (face64 z r)].
(** A plane face; [r] is its reflectivity. *)
Definition pane64 (r : F64) : pface F64 :=
  PF PyRefractive PyPlane None "pane" (PyConstMedium (f 1)) (PyConstMedium (f 1)) eye64
     (Some (SimpleCoating r (f 1))) (Some (SimpleCoating r (f 1))) false.
Definition ray64 : rayvec F64 :=
  RV [Ray (V3 (f 0) (f 0) (f (-1))) (V3 (f 0) (f 0) (f 1)) (f 0) (f 1) (f 1) false false] eye64.
Definition no_galsim (l : list F64) (a b : F64) : list F64 * list F64 * list F64 * nat * nat := ([], [], [], 0%nat, 0%nat).
(** The flux of the rays that go through. *)
Definition passed (i : option (iface F64)) : option (list F64) :=
  match i with
  | Some i => match rSplit 10 i false ray64 with Ok (Some a, _) => Some (map flux (rays a)) | _ => None end
  | None => None
  end.
Definition sent_back (i : option (iface F64)) : option (list F64) :=
  match i with
  | Some i => match rSplit 10 i false ray64 with Ok (_, Some a) => Some (map flux (rays a)) | _ => None end
  | None => None
  end.

(** Python numbers with integer values: 1 and 1.0 are equal but printed differently. *)
Inductive pynum := PyInt (z : Z) | PyFloat (z : Z).
Definition pn_val (a : pynum) : Z := match a with PyInt z => z | PyFloat z => z end.
Definition pn_eq (a b : pynum) : bool := (pn_val a =? pn_val b)%Z.
Definition pn_str (a : pynum) : string :=
  match a with
  | PyInt z => NilEmpty.string_of_int (Z.to_int z)
  | PyFloat z => NilEmpty.string_of_int (Z.to_int z) ++ ".0"
  end%string.
Definition pn_repr : pobsc pynum -> string :=
  obsc_repr pn_str (fun l => String.concat ", " (map pn_str l)) (fun a => (pn_val a =? 0)%Z).
