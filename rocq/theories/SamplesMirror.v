(** A tilted, decentred mirror with a polynomial figure and a window, symmetric in y -> -y; the edges of a
    square and of a table. *)
From Coq Require Import Reals String List ZArith Bool Lra Lia.
From Verif Require Import Num NumR Vec CoordSys Surface Medium Obscuration Ray Bundle Optic ImageSpec ImageTrace MirrorSpec MirrorProofs MirrorTrace.
Import ListNotations.
Open Scope R_scope.

Definition off_frame : coordsys XR :=
  CS (V3 (Fin 1) (Fin 0) (Fin 2)) (M3 (Fin (4/5)) (Fin 0) (Fin (3/5)) (Fin 0) (Fin 1) (Fin 0) (Fin (-3/5)) (Fin 0) (Fin (4/5))).
(** z = x/8 + x y^2 / 100, with its gradient. *)
Definition off_figure : surface XR :=
  Poly [Fin 0; Fin 0; Fin 0; Fin (1/8); Fin 0; Fin (1/100)] [Fin (1/8); Fin 0] [Fin 0; Fin 0] (Fin 0) (Fin 0) 3 2.
Definition off_mirror : iface XR :=
  mkIface KMirror (Sum [Paraboloid (Fin 9); Tilted (Fin (1/10)) (Fin 0); off_figure]) "mirror" off_frame
          (Some (ObscNegation (ObscUnion [ObscCircle (Fin 2) (Fin (1/2)) (Fin 0); ObscRectangle (Fin 3) (Fin 1) (Fin 1) (Fin 0) (Fin 0) (Fin 1)])))
          (ConstM (Fin 1)) (ConstM (Fin 1)) None None false.
Definition off_window : iface XR :=
  mkIface KRefractive (Sphere (Fin 7)) "window" (CS (V3 (Fin 0) (Fin 0) (Fin 5)) meye) None
          (ConstM (Fin 1)) (ConstM (Fin (3/2))) None None false.
Definition off_optic : optic XR :=
  Compound (CA false "pair" cs_default (ConstM (Fin 1)) (ConstM (Fin (3/2))) false None) [Iface off_mirror; Iface off_window].

Lemma off_good : mirrorable_optic off_optic.
Proof.
  constructor. intros it [<-|[<-|[]]]; constructor; (split; [|split]); cbn; try discriminate.
  - constructor. intros s [<-|[<-|[<-|[]]]]; constructor.
  - intros o [= <-]. constructor. constructor. intros o [<-|[<-|[]]]; constructor.
  - constructor.
Qed.
Lemma off_symmetric : image_optic (mirror false true) off_optic = off_optic.
Proof. cbv -[Ropp Rdiv IZR Rinv Rmult]. rewrite !Ropp_0. reflexivity. Qed.

(** The upright unit square. *)
Definition unit_square : obsc XR := ObscPolygon [(Fin 0, Fin 0); (Fin 1, Fin 0); (Fin 1, Fin 1); (Fin 0, Fin 1)].
Ltac decide_all := repeat (cbn; match goal with
  | |- context[Rlt_dec ?a ?b] => destruct (Rlt_dec a b); try (exfalso; lra)
  | |- context[Rle_dec ?a ?b] => destruct (Rle_dec a b); try (exfalso; lra)
  | |- context[Req_EM_T ?a ?b] => destruct (Req_EM_T a b); try (exfalso; lra) end).
Ltac step H st' := match goal with |- context[poly_step ?x ?y ?st ?v] =>
  match st with (_, _, _, _) => assert (H : poly_step x y st v = st'); [unfold poly_step, nmin, nmax; decide_all; reflexivity|rewrite H; clear H] end end.
Lemma square_edges : contains unit_square (Fin (1/2)) (Fin 1) = true /\
  contains (mir_obsc false true unit_square) (flip false (Fin (1/2))) (flip true (Fin 1)) = false.
Proof.
  split; cbn [contains unit_square mir_obsc map fst snd flip poly_contains app fold_left].
  - step H (Fin 1, Fin 0, n0 : XR, false).
    step H (Fin 1, Fin 1, Fin ((1 - 0) * (1 - 1) / (1 - 0) + 1), true).
    step H (Fin 0, Fin 1, Fin ((1 - 0) * (1 - 1) / (1 - 0) + 1), true).
    step H (Fin 0, Fin 0, Fin ((1 - 0) * (1 - 1) / (1 - 0) + 1), true). reflexivity.
  - step H (Fin 1, nopp (Fin 0), n0 : XR, false).
    step H (Fin 1, nopp (Fin 1), n0 : XR, false).
    step H (Fin 0, nopp (Fin 1), n0 : XR, false).
    step H (Fin 0, nopp (Fin 0), n0 : XR, false). reflexivity.
Qed.
(** A flat table with nodes at -1 and 1 both ways. *)
Definition flat_table : table XR :=
  let z := repeat (Fin 0) 4 in Tab (Fin (-1)) (Fin (-1)) (Fin 2) (Fin 2) 2 2 z z z z true.
Lemma floor_at r z : IZR z <= r < IZR z + 1 -> xfloor (Fin r) = Some z.
Proof. intros H. cbn. f_equal. unfold Int_part. rewrite <- (up_tech r z); [lia|lra|rewrite plus_IZR; lra]. Qed.
Lemma table_edges : sag (Bicubic flat_table) (Fin (-1)) (Fin 0) = Fin 0 /\ sag (Bicubic flat_table) (Fin 1) (Fin 0) = NaN.
Proof.
  assert (C : forall x ix, IZR ix <= (x - -1) / 2 < IZR ix + 1 ->
            table_cell flat_table (Fin x) (Fin 0) = if ((1 <=? ix) || (ix <? 0))%Z then None else Some (Z.to_nat ix, 0%nat)).
  { intros x ix H. unfold table_cell. cbn [flat_table tb_x0 tb_dx tb_y0 tb_dy tb_nx tb_ny].
    change (nfloor ((Fin x - Fin (-1)) / Fin 2)%num) with (nfloor (xdiv (Fin (x - -1)) (Fin 2))).
    change (nfloor ((Fin 0 - Fin (-1)) / Fin 2)%num) with (nfloor (xdiv (Fin (0 - -1)) (Fin 2))).
    unfold xdiv. destruct (Req_EM_T 2 0); [lra|]. change (@nfloor XR NumXR) with xfloor.
    rewrite (floor_at _ ix H), (floor_at _ 0) by (cbn; lra). cbn. destruct (1 <=? ix)%Z, (ix <? 0)%Z; reflexivity. }
  split; cbn [sag]; unfold table_eval.
  - rewrite (C _ 0%Z) by (cbn; lra). cbn. destruct (Req_EM_T 2 0); [lra|]. cbn. f_equal. ring.
  - rewrite (C _ 1%Z) by (cbn; lra). reflexivity.
Qed.
