(** Concrete obscurations for the examples beside the theorems. *)
From Coq Require Import Reals List Bool Lra.
From Verif Require Import Num NumR NumF Trig Obscuration Grid Spec XRFacts ObscSpec ObscProofs GridProofs.
Import ListNotations.
Open Scope R_scope.

(** A pentagon. *)
Definition pentagon : list pt := [(0, 0); (4, 0); (5, 3); (2, 5); (-1, 3)].
Lemma pentagon_convex : convex_polygon pentagon.
Proof.
  split.
  - unfold pentagon. repeat constructor; cbn [In]; intros H;
    repeat (destruct H as [H|H]; [injection H; intros; lra|]); exact H.
  - intros p q s He Hs Hp Hq. unfold pentagon in He, Hs. cbn [edges app combine In] in He, Hs.
    repeat (destruct He as [He|He]; [injection He; intros <- <-; clear He|]); try destruct He;
    repeat (destruct Hs as [Hs|Hs]; [subst s|]); try congruence; try destruct Hs;
    unfold left_of; cbn [fst snd]; lra.
Qed.
Lemma pentagon_in : inside pentagon (2, 2).
Proof.
  split; [discriminate|]. intros p q He. unfold pentagon in He. cbn [edges app combine In] in He.
  repeat (destruct He as [He|He]; [injection He; intros <- <-; clear He|]); try destruct He;
  unfold left_of; cbn [fst snd]; lra.
Qed.
Lemma pentagon_out : outside pentagon (5, 0).
Proof.
  exists (4, 0), (5, 3). split; [cbn; auto|]. unfold left_of; cbn [fst snd]; lra.
Qed.
Lemma ex_polygon : convex_polygon pentagon /\ inside pentagon (2, 2) /\ outside pentagon (5, 0).
Proof. exact (conj pentagon_convex (conj pentagon_in pentagon_out)). Qed.

(** A turned rectangle and a point of it, another outside. *)
Lemma ex_rectangle :
  (2, 7 / 2) = turned (2, 3) (PI / 2) (1 / 2) 0 /\ (- 2, 3) = turned (2, 3) (PI / 2) 0 4 /\
  contains (mkObscRectangle (Fin 3) (Fin 1) (Fin 2) (Fin 3) (Fin (PI / 2))) (Fin 2) (Fin (7 / 2)) = true /\
  contains (mkObscRectangle (Fin 3) (Fin 1) (Fin 2) (Fin 3) (Fin (PI / 2))) (Fin (- 2)) (Fin 3) = false.
Proof.
  assert (E : (2, 7 / 2) = turned (2, 3) (PI / 2) (1 / 2) 0)
    by (unfold turned; rewrite sin_PI2, cos_PI2; cbn; f_equal; lra).
  assert (F : (- 2, 3) = turned (2, 3) (PI / 2) 0 4)
    by (unfold turned; rewrite sin_PI2, cos_PI2; cbn; f_equal; lra).
  repeat split; auto.
  - apply rectangle_set. exists (1 / 2), 0. repeat split; auto; lra.
  - apply not_true_is_false. intros K. apply rectangle_set in K. destruct K as (a & b & Ha & Hb & G).
    rewrite F in G. apply turned_inj in G. lra.
Qed.
Lemma ex_ray : contains (mkObscRay (Fin 1) (Fin (PI / 2)) (Fin 2) (Fin 3)) (Fin 2) (Fin 100) = true.
Proof.
  apply ray_set. exists 97, 0. repeat split; try lra. unfold turned; rewrite sin_PI2, cos_PI2; cbn; f_equal; lra.
Qed.
Lemma ex_disks :
  contains (ObscCircle (Fin 2) (Fin 1) (Fin 1)) (Fin 2) (Fin 2) = true /\
  contains (ObscAnnulus (Fin 1) (Fin 2) (Fin 0) (Fin 0)) (Fin 1) (Fin 0) = true /\
  contains (ObscAnnulus (Fin 1) (Fin 2) (Fin 0) (Fin 0)) (Fin 2) (Fin 0) = false.
Proof.
  assert (S : forall a, 0 <= a -> dist2 (a, 0) (0, 0) = a).
  { intros a Ha. unfold dist2; cbn [fst snd]. rewrite !Rminus_0_r, Rmult_0_l, Rplus_0_r. apply sqrt_square, Ha. }
  split; [|split].
  - apply circle_set. unfold dist2; cbn [fst snd]. replace 2 with (sqrt (2 * 2)) at 5 by (apply sqrt_square; lra).
    apply sqrt_lt_1; lra.
  - apply annulus_set. rewrite S; lra.
  - apply not_true_is_false. intros K. apply annulus_set in K. rewrite S in K; lra.
Qed.

(** A triangle over a three by three grid. *)
Definition tri : list pt := [(4, 0); (0, 4)].
Lemma ex_grid : ascending [-1; 1/2; 9] /\
  (forall y, In y [1; 2; 3] -> fine_row ((0, 0) :: tri) y 0 [-1; 1/2; 9]) /\
  contains (ObscPolygon (map Fpt (closed_list (0, 0) tri))) (Fin (1/2)) (Fin 2) = true /\
  contains (ObscPolygon (map Fpt (closed_list (0, 0) tri))) (Fin 9) (Fin 2) = false.
Proof.
  assert (B : forall y x, 0 < y < 4 -> left_count ((0, 0) :: tri) y x =
     ((if Rlt_dec (4 - y) x then 1 else 0) + if Rlt_dec 0 x then 1 else 0)%nat).
  { intros y x Hy. unfold left_count, tri. cbn [edges app combine filter at_level fst snd].
    unfold abscissa; cbn [fst snd].
    replace (4 + (y - 0) * (0 - 4) / (4 - 0)) with (4 - y) by field.
    replace (0 + (y - 4) * (0 - 0) / (0 - 4)) with 0 by field.
    unfold Rmin, Rmax.
    repeat match goal with |- context[Rle_dec ?a ?b] => destruct (Rle_dec a b); try lra end;
    repeat match goal with |- context[Rlt_dec ?a ?b] => destruct (Rlt_dec a b); try lra; cbn end; try reflexivity. }
  split; [|split].
  - cbn [ascending]. repeat split; auto; intros x' H; cbn [In] in H;
    repeat (destruct H as [<-|H]; [lra|]); try destruct H.
  - intros y H. cbn [fine_row]. assert (Hy : 1 <= y <= 3) by (cbn [In] in H; repeat (destruct H as [<-|H]; [lra|]); destruct H).
    rewrite !B by lra.
    repeat match goal with |- context[Rlt_dec ?a ?b] => destruct (Rlt_dec a b); try lra end; repeat split; auto.
  - rewrite !closed_contains, !polygon_parity, <- !left_right, !B by lra.
    repeat match goal with |- context[Rlt_dec ?a ?b] => destruct (Rlt_dec a b); try lra end; split; reflexivity.
Qed.
