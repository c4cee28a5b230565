(** Proof tools for the XR instance. [NumRR] is a proof device only: division-free
    code over XR on real inputs is the same code over R. *)
From Coq Require Import Reals List ZArith Bool Lra Psatz.
From Verif Require Import Num NumR Vec CoordSys Ray Bundle Spec.
Import ListNotations.
Open Scope R_scope.

Global Instance NumRR : Num R := {
  nofZ z := IZR z;
  nfrac p q := IZR p / IZR (Z.pos q);
  nadd := Rplus; nsub := Rminus; nmul := Rmult; ndiv := Rdiv; nopp := Ropp;
  nsqrt := sqrt; nabs := Rabs; nhypot x y := sqrt (x * x + y * y);
  nltb x y := if Rlt_dec x y then true else false;
  nleb x y := if Rle_dec x y then true else false;
  neqb x y := if Req_EM_T x y then true else false;
  nnan := 0; nisnan _ := false; nfloor x := Some (Int_part x)
}.

Lemma xdiv_fin x y : y <> 0 -> xdiv (Fin x) (Fin y) = Fin (x / y).
Proof. intros H; cbn; destruct (Req_EM_T y 0); [contradiction|reflexivity]. Qed.
Lemma xsqrt_fin x : 0 <= x -> xsqrt (Fin x) = Fin (sqrt x).
Proof. intros H; cbn; destruct (Rlt_dec x 0); [lra|reflexivity]. Qed.
Lemma xsqrt_neg x : x < 0 -> xsqrt (Fin x) = NaN.
Proof. intros H; cbn; destruct (Rlt_dec x 0); [reflexivity|lra]. Qed.
Lemma xltb_t x y : x < y -> xltb (Fin x) (Fin y) = true.
Proof. intros H; cbn; destruct (Rlt_dec x y); [reflexivity|lra]. Qed.
Lemma xltb_f x y : y <= x -> xltb (Fin x) (Fin y) = false.
Proof. intros H; cbn; destruct (Rlt_dec x y); [lra|reflexivity]. Qed.
Lemma xleb_t x y : x <= y -> xleb (Fin x) (Fin y) = true.
Proof. intros H; cbn; destruct (Rle_dec x y); [reflexivity|lra]. Qed.
Lemma xleb_f x y : y < x -> xleb (Fin x) (Fin y) = false.
Proof. intros H; cbn; destruct (Rle_dec x y); [lra|reflexivity]. Qed.
Lemma xeqb_t x y : x = y -> xeqb (Fin x) (Fin y) = true.
Proof. intros H; cbn; destruct (Req_EM_T x y); [reflexivity|lra]. Qed.
Lemma xeqb_f x y : x <> y -> xeqb (Fin x) (Fin y) = false.
Proof. intros H; cbn; destruct (Req_EM_T x y); [contradiction|reflexivity]. Qed.

Lemma xltb_fin x y : xltb (Fin x) (Fin y) = true <-> x < y.
Proof. cbn; destruct (Rlt_dec x y); split; intros; try discriminate; auto; lra. Qed.
Lemma xleb_fin x y : xleb (Fin x) (Fin y) = true <-> x <= y.
Proof. cbn; destruct (Rle_dec x y); split; intros; try discriminate; auto; lra. Qed.
Lemma xeqb_fin x y : xeqb (Fin x) (Fin y) = true <-> x = y.
Proof. cbn; destruct (Req_EM_T x y); split; intros; try discriminate; auto; lra. Qed.

Lemma Fin_inj x y : Fin x = Fin y -> x = y.
Proof. intros H; injection H; auto. Qed.
Lemma F3_inj a b : F3 a = F3 b -> a = b.
Proof. destruct a, b; unfold F3, vmap; cbn; intros H; injection H; intros; subst; reflexivity. Qed.
Lemma FM_inj a b : FM a = FM b -> a = b.
Proof. destruct a, b; unfold FM, mmap; cbn; intros H; injection H; intros; subst; reflexivity. Qed.

(** Unfold the class operations on XR down to Fin. *)
Ltac xunf :=
  unfold n0, n1, n2, n3, n4, F3, FM, vmap, mmap in *;
  cbn [nofZ nfrac nadd nsub nmul ndiv nopp nsqrt nabs nhypot nltb nleb neqb nnan nisnan
       NumXR cx cy cz m00 m01 m02 m10 m11 m12 m20 m21 m22
       xadd xsub xmul xopp xabs xhypot xisnan] in *.

Lemma vec3_eq {T} (a b : vec3 T) : cx a = cx b -> cy a = cy b -> cz a = cz b -> a = b.
Proof. destruct a, b; cbn; intros; subst; reflexivity. Qed.
Lemma mat3_eq {T} (a b : mat3 T) :
  m00 a = m00 b -> m01 a = m01 b -> m02 a = m02 b ->
  m10 a = m10 b -> m11 a = m11 b -> m12 a = m12 b ->
  m20 a = m20 b -> m21 a = m21 b -> m22 a = m22 b -> a = b.
Proof. destruct a, b; cbn; intros; subst; reflexivity. Qed.

(** ** Homomorphism: model functions on injected reals *)
Lemma vadd_F a b : vadd (F3 a) (F3 b) = F3 (plusR a b).
Proof. reflexivity. Qed.
Lemma vsub_F a b : vsub (F3 a) (F3 b) = F3 (minusR a b).
Proof. reflexivity. Qed.
Lemma mv_F m v : mv (FM m) (F3 v) = F3 (applyR m v).
Proof.
  destruct m, v; unfold mv, applyR, F3, FM, vmap, mmap, plusR, timesR, col0, col1, col2;
  cbn; f_equal; f_equal; ring.
Qed.
Lemma mtr_F m : mtr (FM m) = FM (transR m).
Proof. reflexivity. Qed.
Definition mulR (a b : mR) : mR :=
  M3 (m00 a * m00 b + m01 a * m10 b + m02 a * m20 b)
     (m00 a * m01 b + m01 a * m11 b + m02 a * m21 b)
     (m00 a * m02 b + m01 a * m12 b + m02 a * m22 b)
     (m10 a * m00 b + m11 a * m10 b + m12 a * m20 b)
     (m10 a * m01 b + m11 a * m11 b + m12 a * m21 b)
     (m10 a * m02 b + m11 a * m12 b + m12 a * m22 b)
     (m20 a * m00 b + m21 a * m10 b + m22 a * m20 b)
     (m20 a * m01 b + m21 a * m11 b + m22 a * m21 b)
     (m20 a * m02 b + m21 a * m12 b + m22 a * m22 b).
Lemma mm_F a b : mm (FM a) (FM b) = FM (mulR a b).
Proof. reflexivity. Qed.
