(** C98: the layout of the Zernike pyramid plot. *)
From Coq Require Import Reals List ZArith Bool Lia.
From Verif Require Import Num NumR Optic Pyramid PyramidSpec PyramidProofs.
Import ListNotations.
Local Open Scope Z_scope.

(** The numbering: each number from 1 on has a radial order and an azimuthal index, which lie in their triangle;
    order by order; even numbers for the cosines, odd ones for the sines. *)
Theorem C98_numbers : forall j, 1 <= j -> exists n m, noll_to_zern j = Ok (n, m) /\ zernike_index n m /\
  before n < j <= before (n + 1) /\ (0 < m -> Z.Even j) /\ (m < 0 -> Z.Odd j).
Proof. exact noll_valid. Qed.
Print Assumptions C98_numbers.
(** Each polynomial has a number, and one only. *)
Theorem C98_numbered : forall n m, zernike_index n m -> exists j, 1 <= j /\ noll_to_zern j = Ok (n, m) /\
  forall j', noll_to_zern j' = Ok (n, m) -> j' = j.
Proof.
  intros n m V. destruct (noll_onto n m V) as (j & J & E). exists j. split; [exact J|]. split; [exact E|].
  intros j' E'. exact (noll_inj j' j (n, m) E' E).
Qed.
Print Assumptions C98_numbered.
Example C98_numbers_example : noll_to_zern 8 = Ok (3, 1) /\ noll_to_zern 11 = Ok (4, 0) /\ zernike_index 4 (-2).
Proof. split; [reflexivity|]. split; [reflexivity|]. split; [lia|]. split; [cbn; lia|]. exists 3. reflexivity. Qed.

(** A pyramid is drawn exactly when it holds Z4 and Z5, and Z1 only if the colours do not depend on the order. *)
Theorem C98_when : forall T (NT : Num T) (left width : T) nz jmin vmin vmax vdim, 0 <= nz ->
  (exists ps, zernikePyramid left width nz jmin vmin vmax vdim = Ok ps) <->
  1 <= jmin <= 4 /\ 5 <= nz + jmin - 1 /\ (vdim = true -> 2 <= jmin).
Proof. intros. apply pyramid_when. assumption. Qed.
Print Assumptions C98_when.
Example C98_when_example : exists ps, zernikePyramid (Fin 0) (Fin 1) 25 4 (Fin (-1)) (Fin 1) true = Ok ps.
Proof. apply C98_when; lia. Qed.
(** So some tables of coefficients that the documentation allows raise: one that starts at the piston, with the
    default colours; one that starts after the defocus; one that holds the defocus only. *)
Theorem C98_any_range_refuted : exists nz nz' jmin jmin',
  zernikePyramid (Fin 0) (Fin 1) nz jmin (Fin (-1)) (Fin 1) true = Err ZeroDivisionError /\
  zernikePyramid (Fin 0) (Fin 1) nz jmin' (Fin (-1)) (Fin 1) true = Err KeyError /\
  zernikePyramid (Fin 0) (Fin 1) nz' 4 (Fin (-1)) (Fin 1) true = Err KeyError.
Proof. exists 22, 1, 1, 6. split; [reflexivity|]. split; reflexivity. Qed.
Print Assumptions C98_any_range_refuted.

(** The panels: one per polynomial, in order; in the row of its order, inside the grid; its colour limits are those
    given, or those divided by the order. *)
Theorem C98_panels : forall T (NT : Num T) (left width : T) nz jmin vmin vmax vdim ps,
  zernikePyramid left width nz jmin vmin vmax vdim = Ok ps ->
  map (@p_j T) ps = map (fun k => jmin + Z.of_nat k) (seq 0 (Z.to_nat nz)) /\
  exists nmin mmin nmax mmax, noll_to_zern jmin = Ok (nmin, mmin) /\ noll_to_zern (nz + jmin - 1) = Ok (nmax, mmax) /\
  forall p, In p ps -> exists n m, noll_to_zern (p_j p) = Ok (n, m) /\
    p_row p = n - nmin /\ 0 <= p_row p <= nmax - nmin /\ 0 <= p_col p <= nmax /\
    (p_min p, p_max p) = (if vdim then (vmin / nofZ n, vmax / nofZ n)%num else (vmin, vmax)).
Proof.
  intros T NT left width nz jmin vmin vmax vdim ps H.
  apply pyramid_panels in H as (J & nmin & mmin & nmax & mmax & E & E' & F). split; [exact J|].
  exists nmin, mmin, nmax, mmax. split; [exact E|]. split; [exact E'|]. intros p I.
  destruct (F p I) as (n & m & N & _ & R & Rb & Cb & _ & _ & L). exists n, m. repeat split; try assumption; try lia.
  unfold limits in L. destruct vdim; [destruct (n =? 0); [discriminate|]|]; injection L as -> ->; reflexivity.
Qed.
Print Assumptions C98_panels.
(** No two panels share a cell. *)
Theorem C98_apart : forall T (NT : Num T) (left width : T) nz jmin vmin vmax vdim ps p q,
  zernikePyramid left width nz jmin vmin vmax vdim = Ok ps -> In p ps -> In q ps ->
  p_row p = p_row q -> p_col p = p_col q -> p = q.
Proof. intros T NT. exact pyramid_apart. Qed.
Print Assumptions C98_apart.
(** The pyramid: in every row the left edge of a panel is proportional to its azimuthal index, with the same
    factor and the same origin; so the rows are centred over each other. *)
Theorem C98_pyramid : forall left width nz jmin vmin vmax vdim ps,
  zernikePyramid (Fin left) (Fin width) nz jmin vmin vmax vdim = Ok ps ->
  exists nmax mmax, noll_to_zern (nz + jmin - 1) = Ok (nmax, mmax) /\
  forall p, In p ps -> exists n m, noll_to_zern (p_j p) = Ok (n, m) /\
    p_x p = Fin (left + IZR (m + nmax) / 2 * width)%R.
Proof. exact pyramid_x. Qed.
Print Assumptions C98_pyramid.
Example C98_pyramid_example : exists ps p q,
  zernikePyramid (Fin 0) (Fin 1) 7 4 (Fin (-1)) (Fin 1) true = Ok ps /\ In p ps /\ In q ps /\ p <> q /\
  p_j p = 4 /\ p_row p = 0 /\ p_col p = 2 /\ p_j q = 10 /\ p_row q = 1 /\ p_col q = 3.
Proof.
  unfold zernikePyramid. cbn -[nfrac ndiv nmul nadd nsub nofZ nopp].
  eexists. eexists (Panel 4 0 2 _ _ _). eexists (Panel 10 1 3 _ _ _). split; [reflexivity|].
  split; [left; reflexivity|]. split; [do 6 right; left; reflexivity|]. split; [|repeat split; reflexivity].
  intros H. apply (f_equal (@p_j XR)) in H. discriminate.
Qed.
