(** Concrete obscurations and points for C99. *)
From Coq Require Import Reals ZArith List Bool Lra Lia Floats.SpecFloat.
From Verif Require Import Num NumR NumF Vec CoordSys Ray Bundle XRFacts Obscuration ObscSpec FloatSpec FloatProofs FloatErr SamplesFloat EdgeSpec EdgeProofs.
Import ListNotations.
Open Scope R_scope.

Lemma val4 : valF (fz 4) = 4.
Proof. replace (fz 4) with (S754_finite false 4503599627370496 (-50)) by (vm_compute; reflexivity). unfold valF. rewrite (two_lit (-50) 1125899906842624) by (try lia; reflexivity). lra. Qed.
Lemma val8 : valF (fz 8) = 8.
Proof. replace (fz 8) with (S754_finite false 4503599627370496 (-49)) by (vm_compute; reflexivity). unfold valF. rewrite (two_lit (-49) 562949953421312) by (try lia; reflexivity). lra. Qed.
(** A ring, a turned slab left out, a strut and a triangle. *)
Definition epupil : obsc F64 :=
  ObscIntersection [ObscAnnulus (fz 2) (fz 8) (fz 0) (fz 0); ObscNegation (ObscRectangle (fz 2) (fz 2) (fz 0) (fz 0) f35 f45);
    ObscUnion [ObscRay (fz 1) (fz 0) (fz 0) f35 f45; ObscPolygon [(fz 0, fz 0); (fz 8, fz 0); (fz 0, fz 8)]]].
Lemma mid8 : midrange 8.
Proof. split; [apply Rle_trans with (two 3); [apply two_le; lia|] | apply Rle_trans with (two 3); [|apply two_le; lia]]; rewrite two_nonneg_Z by lia; cbn; lra. Qed.
Ltac vals := rewrite ?val0, ?val1, ?val2, ?val3, ?val4, ?val5, ?val8, ?val35, ?val45.
Ltac dbls := (split; [split; [exact I|vals; unfold v35, v45; rewrite Rabs_pos_eq; lra]|reflexivity]).
Lemma tiny : 0 < 16 * ulp * 8 < / 1000000000. Proof. pose proof ulp_small. lra. Qed.
Lemma far_abs m x : 0 < m < / 1000000000 -> x <= - / 1000 \/ / 1000 <= x -> m < Rabs x.
Proof. intros M [H|H]; unfold Rabs; destruct (Rcase_abs x); lra. Qed.
Lemma epupil_built : built 8 epupil.
Proof.
  unfold epupil. cbn [built fold_right]. repeat match goal with |- _ /\ _ => split | |- True => exact I | |- double _ _ => dbls end.
  - intros p [<-|[<-|[<-|[]]]]; cbn [fst snd]; split; dbls.
  - assert (T : two (-400) <= 1) by (change 1 with (two 0); apply two_le; lia).
    intros p q [E|[E|[E|[]]]]; apply pair_equal_spec in E; destruct E as [<- <-]; cbn [fst snd]; vals; [left; reflexivity|right|right]; unfold Rabs; destruct (Rcase_abs _); lra.
Qed.
Lemma epupil_clear : clear_of (16 * ulp * 8) epupil (valF (fz 3)) (valF (fz 4)).
Proof.
  pose proof tiny as T. set (m := 16 * ulp * 8) in *. clearbody m. unfold epupil. cbn [clear_of fold_right].
  assert (H5 : hyp (valF (fz 3) - valF (fz 0)) (valF (fz 4) - valF (fz 0)) = 5).
  { vals. unfold hyp. replace ((3 - 0) * (3 - 0) + (4 - 0) * (4 - 0)) with (5 * 5) by ring. apply sqrt_square. lra. }
  rewrite H5. repeat match goal with |- _ /\ _ => split | |- True => exact I end; try (vals; unfold v35, v45; apply far_abs; [exact T|lra]).
  intros p q [E|[E|[E|[]]]]; apply pair_equal_spec in E; destruct E as [<- <-]; cbn [fst snd]; vals; unfold Rmin, Rmax; repeat destruct (Rle_dec _ _); intros; apply far_abs; trivial; lra.
Qed.
Lemma epupil_in : contains epupil (fz 3) (fz 4) = true /\ contains epupil (fz 1) (fz 1) = false.
Proof. split; vm_compute; reflexivity. Qed.
(** A point just inside the unit circle that doubles put outside. *)
Definition ex : F64 := S754_finite false 9007199254740991 (-53).
Definition ey : F64 := S754_finite false 8584986789675008 (-79).
Definition ecircle : obsc F64 := ObscCircle (fz 1) (fz 0) (fz 0).
Lemma val_ex : valF ex = 1 - / 9007199254740992. Proof. unfold ex, valF. rewrite (two_lit (-53) 9007199254740992) by (try lia; reflexivity). lra. Qed.
Lemma val_ey : valF ey = 61 / 4294967296. Proof. unfold ey, valF. rewrite (two_lit (-79) 604462909807314587353088) by (try lia; reflexivity). lra. Qed.
Lemma mid1 : midrange 1. Proof. change 1 with (two 0). split; apply two_le; lia. Qed.
Lemma edge_wrong : built 1 ecircle /\ double 1 ex /\ double 1 ey /\ contains ecircle ex ey = false /\ contains (exactO ecircle) (exact ex) (exact ey) = true.
Proof.
  split; [|split; [|split; [|split]]].
  - unfold ecircle; cbn [built]; repeat split; try exact I; try reflexivity; vals; rewrite Rabs_pos_eq; lra.
  - split; [split; [exact I|rewrite val_ex; rewrite Rabs_pos_eq; lra]|reflexivity].
  - split; [split; [exact I|rewrite val_ey; rewrite Rabs_pos_eq; lra]|reflexivity].
  - vm_compute. reflexivity.
  - unfold ecircle. cbn [exactO contains]. unfold exact. xunf. apply xltb_fin. vals. rewrite val_ex, val_ey. apply Rlt_le_trans with (sqrt 1); [apply sqrt_lt_1_alt; lra|rewrite sqrt_1; lra].
Qed.
