(** Concrete optics for the drawing theorems (C92). *)
From Coq Require Import Reals String List ZArith Bool Lra Lia.
From Verif Require Import Num NumR NumF Vec CoordSys Surface Obscuration Ray Optic Spec XRFacts Draw DrawSpec DrawProofs.
Import ListNotations.
Open Scope R_scope.

(** A paraboloid, 20 to 40 wide, five units above the origin. *)
Definition dish : surface XR := Paraboloid (Fin 100).
Definition dish_frame : frame := CS (V3 0 0 5) eyeR.
Definition dish_aperture : obsc XR := ObscNegation (ObscAnnulus (Fin 10) (Fin 20) (Fin 0) (Fin 0)).
Lemma dish_good : good_frame dish_frame.
Proof. unfold good_frame, orthonormal, dotR; cbn; lra. Qed.
Lemma dish_round : round dish_aperture 10 20.
Proof. constructor. Qed.
Lemma dish_heights i r : has_heights dish i r.
Proof. intros x y _. unfold dish. cbn [sag]. unfold paraboloid_sag. xunf. destruct (negb _); [rewrite !xdiv_fin by lra|]; eexists; reflexivity. Qed.
Lemma full_round : round (ObscNegation (ObscCircle (Fin 20) (Fin 0) (Fin 0))) 0 20.
Proof. constructor. Qed.

(** In doubles: a window whose front has a hole and whose back has none. *)
Definition fl (z : Z) : F64 := nofZ z.
Definition window_front : drawn F64 := new_drawn "front" Plane cs_default (Some (ObscNegation (ObscAnnulus (fl 1) (fl 2) (fl 0) (fl 0)))).
Definition window_back : drawn F64 :=
  new_drawn "back" Plane (CS (V3 (fl 0) (fl 0) (fl 1)) meye) (Some (ObscNegation (ObscCircle (fl 2) (fl 0) (fl 0)))).
