(** A telescope in metres; a ray grazing a bowl, in metres and in centimetres. *)
From Coq Require Import Reals String List ZArith Bool Lra Lia.
From Verif Require Import Num NumR Vec CoordSys Surface Medium Obscuration Ray Bundle Optic ImageSpec ImageTrace UnitsSpec UnitsProofs.
Import ListNotations.
Open Scope R_scope.

Definition m_frame (z : R) : coordsys XR := CS (V3 (Fin 0) (Fin (1/3)) (Fin z)) meye.
Definition m_optic : optic XR :=
  Compound (CA false "scope" cs_default (ConstM (Fin 1)) (ConstM (Fin 1)) false None)
    [Iface (mkIface (KScreen (Asphere (Fin 3) (Fin 1) [Fin (1/7)])) Plane "screen" (m_frame 9)
              (Some (ObscPolygon [(Fin 0, Fin 0); (Fin 1, Fin 0); (Fin 0, Fin 1)])) (ConstM (Fin 1)) (ConstM (Fin 1)) None None false);
     Iface (mkIface KMirror (Quadric (Fin (-5)) (Fin (-2))) "mirror" (m_frame 0) None (ConstM (Fin 1)) (ConstM (Fin 1)) None None false)].
Lemma m_closed : closed_optic m_optic.
Proof. constructor. intros it [<-|[<-|[]]]; constructor; reflexivity. Qed.

(** The bowl z = a x^2 and a ray along its bottom. *)
Definition bowl (a : R) : surface XR :=
  Poly [Fin 0; Fin 0; Fin 0; Fin 0; Fin a; Fin 0] [Fin 0; Fin (2 * a)] [Fin 0; Fin 0] (Fin 0) (Fin 0) 2 3.
Lemma bowl_sag a x : sag (bowl a) (Fin x) (Fin 0) = Fin (a * x * x).
Proof. cbn. f_equal. ring. Qed.
Lemma bowl_normal a x : exists nz, 0 < nz /\ normal (bowl a) (Fin x) (Fin 0) = V3 (Fin (- (2 * a * x) * nz)) (Fin 0) (Fin nz).
Proof.
  set (g := 2 * a * x). assert (P : 0 < g * g + 0 * 0 + 1) by (assert (H := Rle_0_sqr g); unfold Rsqr in H; lra).
  assert (Q := sqrt_lt_R0 _ P). exists (1 / sqrt (g * g + 0 * 0 + 1)).
  split; [apply Rdiv_lt_0_compat; lra|]. cbn [normal bowl]. unfold poly_normal. cbv zeta.
  assert (X : horner2d (Fin x - Fin 0)%num (Fin 0 - Fin 0)%num [Fin 0; Fin (2 * a)] (2 - 1) (3 - 1) = Fin g) by (cbn; f_equal; unfold g; ring).
  assert (Y : horner2d (Fin x - Fin 0)%num (Fin 0 - Fin 0)%num [Fin 0; Fin 0] (2 - 1) (3 - 1) = Fin 0) by (cbn; f_equal; ring).
  rewrite X, Y.
  replace (- Fin g * - Fin g + - Fin 0 * - Fin 0 + n1)%num with (Fin (g * g + 0 * 0 + 1)) by (cbn; f_equal; ring).
  assert (S : (n1 / nsqrt (Fin (g * g + 0 * 0 + 1)))%num = Fin (1 / sqrt (g * g + 0 * 0 + 1))).
  { cbn [nsqrt NumXR xsqrt]. destruct (Rlt_dec _ 0); [lra|]. cbn. destruct (Req_EM_T _ 0); [lra|reflexivity]. }
  rewrite S. cbn. f_equal; f_equal; ring.
Qed.
Lemma bowl_loop a x0 : 0 < a -> forall n px, 0 < px ->
  newton_loop (sag (bowl a)) (normal (bowl a)) (Fin x0) (Fin 0) (Fin 0) (Fin 1) (Fin 0) (Fin 0) n
    (Fin (px - x0)) (Fin px) (Fin 0) (Fin 0) (Fin (a * px * px)) =
  (if Rlt_dec (a * (px / 2 ^ n) * (px / 2 ^ n)) (1 / 1000000000000) then true else false, Fin (px / 2 ^ n - x0)).
Proof.
  intros Ha. induction n as [|n IH]; intros px Hp; cbn [newton_loop].
  - cbn [pow]. replace (px / 1) with px by field. cbn.
    rewrite Rminus_0_r, Rabs_pos_eq by (apply Rmult_le_pos; [apply Rmult_le_pos|]; lra). reflexivity.
  - destruct (bowl_normal a px) as (nz & Pz & ->). cbn [cx cy cz].
    assert (NX : - (2 * a * px) * nz <> 0).
    { assert (0 < (a * px) * nz) by (apply Rmult_lt_0_compat; [apply Rmult_lt_0_compat|]; assumption). lra. }
    match goal with |- newton_loop _ _ _ _ _ _ _ _ _ ?d _ _ _ _ = _ => assert (D : d = Fin (px / 2 - x0)) end.
    { cbn. destruct (Req_EM_T _ 0) as [Z|_]; [exfalso; apply NX; lra|]. f_equal. field. split; lra. }
    rewrite D.
    replace (Fin x0 + Fin 1 * Fin (px / 2 - x0))%num with (Fin (px / 2)) by (cbn; f_equal; field).
    replace (Fin 0 + Fin 0 * Fin (px / 2 - x0))%num with (Fin 0) by (cbn; f_equal; ring).
    rewrite bowl_sag. rewrite (IH (px / 2)) by lra. replace (px / 2 ^ S n) with (px / 2 / 2 ^ n); [reflexivity|].
    cbn [pow]. field. apply pow_nonzero. lra.
Qed.
Lemma bowl_hit a x0 n : 0 < a -> 0 < x0 -> hit (bowl a) n (V3 (Fin x0) (Fin 0) (Fin 0)) (V3 (Fin 1) (Fin 0) (Fin 0)) =
  (if Rlt_dec (a * (x0 / 2 ^ n) * (x0 / 2 ^ n)) (1 / 1000000000000) then true else false, Fin (x0 / 2 ^ n - x0)).
Proof.
  intros Ha Hx. unfold hit. cbn [tti bowl cx cy cz]. unfold newton. cbv zeta.
  replace (Fin x0 + Fin 1 * n0)%num with (Fin x0) by (cbn; f_equal; ring).
  replace (Fin 0 + Fin 0 * n0)%num with (Fin 0) by (cbn; f_equal; ring).
  replace (n0 : XR) with (Fin (x0 - x0)) by (cbn; f_equal; ring).
  exact (eq_trans (f_equal (newton_loop (sag (bowl a)) (normal (bowl a)) (Fin x0) (Fin 0) (Fin 0) (Fin 1) (Fin 0) (Fin 0) n (Fin (x0 - x0)) (Fin x0) (Fin 0) (Fin 0)) (bowl_sag a x0)) (bowl_loop a x0 Ha n x0 Hx)).
Qed.
Lemma bowl_conv k a : 0 < k -> conv_surface k (bowl a) = bowl (a / k).
Proof.
  intros H. unfold bowl. cbn [conv_surface conv_poly]. change (2 - 1)%nat with 1%nat. cbn. unfold conv; cbn.
  repeat match goal with |- context[Fin (?a * 0)] => rewrite (Rmult_0_r a) end. change (Pos.to_nat 1) with 1%nat. rewrite pow_1.
  replace (/ k * a) with (a / k) by (field; lra). replace (/ k * (2 * a)) with (2 * (a / k)) by (field; lra). reflexivity.
Qed.
Definition grazing : vec3 XR := V3 (Fin (1 / 100000)) (Fin 0) (Fin 0).
Definition along_x : vec3 XR := V3 (Fin 1) (Fin 0) (Fin 0).
Lemma grazing_metres : fst (hit (bowl (1/2)) 5 grazing along_x) = true.
Proof. unfold grazing, along_x. rewrite bowl_hit by lra. cbn. destruct (Rlt_dec _ _); [reflexivity|]. exfalso. apply n. lra. Qed.
Lemma grazing_centimetres : fst (hit (conv_surface 100 (bowl (1/2))) 5 (conv_vec 100 grazing) along_x) = false.
Proof.
  rewrite bowl_conv by lra. unfold grazing, along_x, conv_vec, conv; cbn [cx cy cz].
  replace (powerRZ 100 1) with 100 by (cbn; change (Pos.to_nat 1) with 1%nat; lra).
  replace (Fin 100 * Fin (1 / 100000))%num with (Fin (1 / 1000)) by (cbn; f_equal; field).
  replace (Fin 100 * Fin 0)%num with (Fin 0) by (cbn; f_equal; ring).
  rewrite bowl_hit by lra. cbn. destruct (Rlt_dec _ _); [|reflexivity]. exfalso. lra.
Qed.
