(** The Zernike pyramid: proofs. *)
From Coq Require Import List ZArith Bool Lia FinFun.
From Verif Require Import Num Optic Pyramid PyramidSpec.
Import ListNotations.
Local Open Scope Z_scope.

Lemma before_twice n : 2 * before n = n * (n + 1).
Proof.
  unfold before. pose proof (Z.div_mod (n * (n + 1)) 2). pose proof (Zmult_mod n (n + 1) 2).
  assert (n mod 2 = 0 /\ (n + 1) mod 2 = 1 \/ n mod 2 = 1 /\ (n + 1) mod 2 = 0) as [[A B]|[A B]].
  { pose proof (Z.mod_pos_bound n 2 eq_refl). pose proof (Z.div_mod n 2). pose proof (Z.div_mod (n + 1) 2).
    pose proof (Z.mod_pos_bound (n + 1) 2 eq_refl). lia. }
  all: rewrite A, B in H0; cbn in H0; lia.
Qed.

Lemma noll_row_spec fuel : forall n j1 n' k, 0 <= n -> 0 <= j1 <= Z.of_nat fuel -> noll_row fuel n j1 = (n', k) ->
  0 <= n' /\ 0 <= k <= n' /\ 2 * j1 + n * (n + 1) = 2 * k + n' * (n' + 1).
Proof.
  induction fuel as [|fuel IH]; intros n j1 n' k N J H; cbn [noll_row] in H.
  - injection H as <- <-. lia.
  - destruct (Z.ltb_spec n j1) as [L|L].
    + apply IH in H; lia.
    + injection H as <- <-. lia.
Qed.

(** What noll_to_zern returns, in terms of the row and the place in the row. *)
Definition signed (j a : Z) := if Z.even j then a else - a.
Definition azim (n k : Z) := n mod 2 + 2 * ((k + (n + 1) mod 2) / 2).
Lemma noll_facts j : 1 <= j -> exists n k, 0 <= n /\ 0 <= k <= n /\ j = before n + k + 1 /\
  noll_to_zern j = Ok (n, signed j (azim n k)).
Proof.
  intros J. unfold noll_to_zern. destruct (Z.ltb_spec j 1); [lia|].
  destruct (noll_row (Z.to_nat j) 0 (j - 1)) as [n k] eqn:E. exists n, k.
  apply noll_row_spec in E; [|lia|lia]. pose proof (before_twice n). repeat split; try lia.
Qed.
Lemma noll_low j : j < 1 -> noll_to_zern j = Err ValueError.
Proof. intros J. unfold noll_to_zern. destruct (Z.ltb_spec j 1); [reflexivity|lia]. Qed.

Lemma rows_apart n k n' k' : 0 <= n -> 0 <= n' -> 0 <= k <= n -> 0 <= k' <= n' -> before n + k = before n' + k' -> n = n' /\ k = k'.
Proof.
  intros. pose proof (before_twice n). pose proof (before_twice n'). assert (n = n') by nia. subst. lia.
Qed.
Lemma rows_ordered n k n' k' : 0 <= n -> 0 <= n' -> 0 <= k <= n -> 0 <= k' <= n' -> before n + k <= before n' + k' -> n <= n'.
Proof.
  intros. pose proof (before_twice n). pose proof (before_twice n'). nia.
Qed.

(** Parities. *)
Lemma azim_cases n k : 0 <= n -> 0 <= k <= n -> 0 <= azim n k <= n /\ Z.Even (n - azim n k) /\
  ((azim n k = k) \/ (azim n k = k + 1)) /\ (azim n k = 0 -> k = 0).
Proof.
  intros N K. unfold azim.
  pose proof (Z.div_mod n 2 ltac:(lia)). pose proof (Z.mod_pos_bound n 2 eq_refl).
  pose proof (Z.div_mod (n + 1) 2 ltac:(lia)). pose proof (Z.mod_pos_bound (n + 1) 2 eq_refl).
  set (u := k + (n + 1) mod 2) in *. pose proof (Z.div_mod u 2 ltac:(lia)). pose proof (Z.mod_pos_bound u 2 eq_refl).
  assert (0 <= k) by lia. unfold Z.Even.
  assert (n mod 2 = 0 /\ (n + 1) mod 2 = 1 \/ n mod 2 = 1 /\ (n + 1) mod 2 = 0) as [[A B]|[A B]] by lia.
  - unfold u in *. rewrite A, B in *. repeat split; try lia. exists (n / 2 - (k + 1) / 2). lia.
  - unfold u in *. rewrite A, B in *. repeat split; try lia. exists (n / 2 - (k + 0) / 2). lia.
Qed.
Lemma azim_of n a : 0 <= a <= n -> Z.Even (n - a) -> azim n a = a /\ (1 <= a -> azim n (a - 1) = a).
Proof.
  intros A [q Q]. unfold azim.
  pose proof (Z.div_mod n 2 ltac:(lia)). pose proof (Z.mod_pos_bound n 2 eq_refl).
  pose proof (Z.div_mod (n + 1) 2 ltac:(lia)). pose proof (Z.mod_pos_bound (n + 1) 2 eq_refl).
  assert (n mod 2 = 0 /\ (n + 1) mod 2 = 1 \/ n mod 2 = 1 /\ (n + 1) mod 2 = 0) as [[B C]|[B C]] by lia; rewrite B, C in *.
  - pose proof (Z.div_mod (a + 1) 2 ltac:(lia)). pose proof (Z.mod_pos_bound (a + 1) 2 eq_refl).
    pose proof (Z.div_mod (a - 1 + 1) 2 ltac:(lia)). pose proof (Z.mod_pos_bound (a - 1 + 1) 2 eq_refl). lia.
  - pose proof (Z.div_mod (a + 0) 2 ltac:(lia)). pose proof (Z.mod_pos_bound (a + 0) 2 eq_refl).
    pose proof (Z.div_mod (a - 1 + 0) 2 ltac:(lia)). pose proof (Z.mod_pos_bound (a - 1 + 0) 2 eq_refl). lia.
Qed.
Lemma signed_abs j a : 0 <= a -> Z.abs (signed j a) = a.
Proof. unfold signed. destruct (Z.even j); lia. Qed.

Lemma noll_valid j : 1 <= j -> exists n m, noll_to_zern j = Ok (n, m) /\ zernike_index n m /\ before n < j <= before (n + 1) /\
  (0 < m -> Z.Even j) /\ (m < 0 -> Z.Odd j).
Proof.
  intros J. destruct (noll_facts j J) as (n & k & N & K & E & H). exists n, (signed j (azim n k)).
  destruct (azim_cases n k N K) as (A & [q Q] & _). pose proof (before_twice n). pose proof (before_twice (n + 1)).
  split; [exact H|]. split.
  - split; [exact N|]. split; [rewrite signed_abs; lia|]. unfold signed.
    destruct (Z.even j); [exists q; lia|exists (q + azim n k); lia].
  - split; [nia|]. unfold signed. pose proof (Z.even_spec j) as V. pose proof (Z.odd_spec j) as W.
    rewrite <- Z.negb_even in W. destruct (Z.even j); cbn in W; split; intros; try (apply V; reflexivity); try (apply W; reflexivity); lia.
Qed.
Lemma noll_row_order j j' n m n' m' : j <= j' -> noll_to_zern j = Ok (n, m) -> noll_to_zern j' = Ok (n', m') ->
  n <= n' /\ (n = n' -> Z.abs m <= Z.abs m').
Proof.
  intros L H H'. destruct (Z.lt_ge_cases j 1) as [B|B]; [rewrite noll_low in H by lia; discriminate|].
  destruct (noll_facts j B) as (a & k & N & K & E & G). destruct (noll_facts j' ltac:(lia)) as (a' & k' & N' & K' & E' & G').
  rewrite H in G. rewrite H' in G'. injection G as -> ->. injection G' as -> ->.
  assert (a <= a') by (apply (rows_ordered a k a' k'); lia). split; [assumption|]. intros <-.
  destruct (azim_cases a k N K) as (? & _). destruct (azim_cases a k' N K') as (? & _).
  rewrite !signed_abs by lia. unfold azim. assert (k <= k') by lia.
  assert ((k + (a + 1) mod 2) / 2 <= (k' + (a + 1) mod 2) / 2) by (apply Z.div_le_mono; lia). lia.
Qed.
Lemma noll_inj j j' x : noll_to_zern j = Ok x -> noll_to_zern j' = Ok x -> j = j'.
Proof.
  intros H H'. destruct (Z.lt_ge_cases j 1) as [B|B]; [rewrite noll_low in H by lia; discriminate|].
  destruct (Z.lt_ge_cases j' 1) as [B'|B']; [rewrite noll_low in H' by lia; discriminate|].
  destruct (noll_facts j B) as (n & k & N & K & E & G). destruct (noll_facts j' B') as (n' & k' & N' & K' & E' & G').
  rewrite H in G. rewrite H' in G'. injection G as ->. injection G' as <- M.
  destruct (azim_cases n k N K) as (A & P & C & Z0). destruct (azim_cases n k' N' K') as (A' & P' & C' & Z0').
  assert (azim n k = azim n k') as Q by (rewrite <- (signed_abs j (azim n k)), <- (signed_abs j' (azim n k')) by lia; congruence).
  destruct (Z.eq_dec (azim n k) 0) as [D|D]; [pose proof (Z0 D); pose proof (Z0' ltac:(lia)); lia|].
  assert (Z.even j = Z.even j') as V.
  { unfold signed in M. destruct (Z.even j), (Z.even j'); try reflexivity; lia. }
  assert (Z.even (j - j') = true) as W by (rewrite Z.even_sub, V; destruct (Z.even j'); reflexivity).
  apply Z.even_spec in W as [w W]. lia.
Qed.
Lemma noll_onto n m : zernike_index n m -> exists j, 1 <= j /\ noll_to_zern j = Ok (n, m).
Proof.
  intros (N & M & P). assert (Pa : Z.Even (n - Z.abs m)).
  { destruct P as [q Q]. destruct (Z.abs_eq_or_opp m) as [->| ->]; [exists q; lia|exists (q + m); lia]. }
  destruct (azim_of n (Z.abs m) ltac:(lia) Pa) as (A1 & A2).
  assert (B : 0 <= before n) by (pose proof (before_twice n); nia).
  assert (F : forall k, 0 <= k <= n -> azim n k = Z.abs m -> signed (before n + k + 1) (Z.abs m) = m ->
     exists j, 1 <= j /\ noll_to_zern j = Ok (n, m)).
  { intros k K E S. exists (before n + k + 1). split; [lia|].
    destruct (noll_facts (before n + k + 1) ltac:(lia)) as (n' & k' & N' & K' & E' & G).
    destruct (rows_apart n k n' k' N N' K K' ltac:(lia)) as [<- <-]. rewrite G, E, S. reflexivity. }
  destruct (Z.eq_dec m 0) as [->|D].
  - apply (F 0); [lia|exact A1|]. unfold signed. destruct (Z.even _); reflexivity.
  - destruct (Bool.bool_dec (Z.even (before n + Z.abs m + 1)) (0 <? m)) as [V|V].
    + apply (F (Z.abs m)); [lia|exact A1|]. unfold signed. rewrite V. destruct (Z.ltb_spec 0 m); lia.
    + apply (F (Z.abs m - 1)); [lia|apply A2; lia|]. unfold signed.
      replace (before n + (Z.abs m - 1) + 1) with (before n + Z.abs m + 1 - 1) by lia. rewrite Z.even_sub.
      destruct (Z.even (before n + Z.abs m + 1)), (Z.ltb_spec 0 m); cbn; try congruence; lia.
Qed.

(** The cells. *)
Definition axes_of (nmin nmax : Z) (js : list Z) (axes : list (Z * (Z * Z) * (Z * Z))) : Prop :=
  map (fun a => fst (fst a)) axes = js /\
  Forall (fun a => noll_to_zern (fst (fst a)) = Ok (snd (fst a)) /\
                   snd a = cell nmin nmax (fst (snd (fst a))) (snd (snd (fst a)))) axes.
Lemma cell_inside nmin nmax n m : zernike_index n m -> 0 <= nmin <= n -> n <= nmax ->
  0 <= fst (cell nmin nmax n m) < nmax - nmin + 1 /\ 0 <= snd (cell nmin nmax n m) < nmax + 1.
Proof.
  intros (N & M & [q Q]) L U. unfold cell.
  pose proof (Z.div_mod n 2 ltac:(lia)). pose proof (Z.mod_pos_bound n 2 eq_refl).
  pose proof (Z.div_mod (nmax + 1) 2 ltac:(lia)). pose proof (Z.mod_pos_bound (nmax + 1) 2 eq_refl).
  destruct (Z.eqb_spec (n mod 2) 0); cbn [fst snd].
  - pose proof (Z.div_mod m 2 ltac:(lia)). pose proof (Z.mod_pos_bound m 2 eq_refl). lia.
  - pose proof (Z.div_mod (m - 1) 2 ltac:(lia)). pose proof (Z.mod_pos_bound (m - 1) 2 eq_refl). lia.
Qed.
Lemma cell_inj nmin nmax n m n' m' : zernike_index n m -> zernike_index n' m' ->
  cell nmin nmax n m = cell nmin nmax n' m' -> n = n' /\ m = m'.
Proof.
  intros (N & M & [q Q]) (N' & M' & [q' Q']) E. unfold cell in E.
  assert (n = n') as <- by (destruct (n mod 2 =? 0), (n' mod 2 =? 0); injection E; lia). split; [reflexivity|].
  pose proof (Z.div_mod n 2 ltac:(lia)). pose proof (Z.mod_pos_bound n 2 eq_refl).
  destruct (Z.eqb_spec (n mod 2) 0); injection E as E.
  - pose proof (Z.div_mod m 2 ltac:(lia)). pose proof (Z.mod_pos_bound m 2 eq_refl).
    pose proof (Z.div_mod m' 2 ltac:(lia)). pose proof (Z.mod_pos_bound m' 2 eq_refl). lia.
  - pose proof (Z.div_mod (m - 1) 2 ltac:(lia)). pose proof (Z.mod_pos_bound (m - 1) 2 eq_refl).
    pose proof (Z.div_mod (m' - 1) 2 ltac:(lia)). pose proof (Z.mod_pos_bound (m' - 1) 2 eq_refl). lia.
Qed.
(** Twice the position of a cell, shifted: it is proportional to the azimuthal index. *)
Lemma cell_moved nmin nmax n m : zernike_index n m -> n <= nmax -> 2 * snd (cell nmin nmax n m) + moves nmax n = m + nmax.
Proof.
  intros (N & M & [q Q]) U. unfold cell, moves.
  pose proof (Z.div_mod n 2 ltac:(lia)). pose proof (Z.mod_pos_bound n 2 eq_refl).
  pose proof (Z.div_mod nmax 2 ltac:(lia)). pose proof (Z.mod_pos_bound nmax 2 eq_refl).
  pose proof (Z.div_mod (nmax - n) 2 ltac:(lia)). pose proof (Z.mod_pos_bound (nmax - n) 2 eq_refl).
  pose proof (Z.div_mod (nmax + 1) 2 ltac:(lia)). pose proof (Z.mod_pos_bound (nmax + 1) 2 eq_refl).
  pose proof (Z.div_mod m 2 ltac:(lia)). pose proof (Z.mod_pos_bound m 2 eq_refl).
  pose proof (Z.div_mod (m - 1) 2 ltac:(lia)). pose proof (Z.mod_pos_bound (m - 1) 2 eq_refl).
  destruct (Z.eqb_spec (n mod 2) 0), (Z.eqb_spec (nmax mod 2) 0), (Z.eqb_spec ((nmax - n) mod 2) 1), (Z.eqb_spec (nmax mod 2) 1); cbn [andb fst snd]; lia.
Qed.

Lemma place_ok nmin nmax js : 0 <= nmin ->
  (forall j, In j js -> exists n m, noll_to_zern j = Ok (n, m) /\ zernike_index n m /\ nmin <= n <= nmax) ->
  exists axes, place nmin nmax js = Ok axes /\ axes_of nmin nmax js axes.
Proof.
  intros N. induction js as [|j js IH]; intros H; cbn [place].
  - exists []. split; [reflexivity|]. split; constructor.
  - destruct (H j (or_introl eq_refl)) as (n & m & E & V & B).
    destruct IH as (axes & P & A1 & A2); [intros; apply H; right; assumption|].
    rewrite E. cbn [bind fst snd]. destruct (cell_inside nmin nmax n m V ltac:(lia) ltac:(lia)) as (C1 & C2).
    rewrite (proj2 (Z.leb_le _ _) (proj1 C1)), (proj2 (Z.ltb_lt _ _) (proj2 C1)), (proj2 (Z.leb_le _ _) (proj1 C2)), (proj2 (Z.ltb_lt _ _) (proj2 C2)).
    cbn [andb]. rewrite P. cbn [bind]. eexists. split; [reflexivity|]. split; cbn [map]; [f_equal; exact A1|].
    constructor; [|exact A2]. cbn. split; [exact E|reflexivity].
Qed.

Lemma place_inv nmin nmax js : forall axes, place nmin nmax js = Ok axes -> axes_of nmin nmax js axes.
Proof.
  induction js as [|j js IH]; cbn [place]; intros axes H.
  - injection H as <-. split; constructor.
  - destruct (noll_to_zern j) as [nm|] eqn:E; [|discriminate]. cbn [bind] in H.
    destruct (_ && _)%bool; [|discriminate]. destruct (place nmin nmax js) as [rest|]; [|discriminate]. cbn [bind] in H.
    injection H as <-. destruct (IH rest eq_refl) as (A & B). split; cbn [map fst]; [f_equal; exact A|].
    constructor; [|exact B]. cbn. split; [exact E|reflexivity].
Qed.

Definition range_of (jmin nz : Z) : list Z := map (fun k => jmin + Z.of_nat k) (seq 0 (Z.to_nat nz)).
Lemma in_range jmin nz j : In j (range_of jmin nz) <-> jmin <= j <= nz + jmin - 1.
Proof.
  unfold range_of. rewrite in_map_iff. split.
  - intros (k & <- & K). apply in_seq in K. lia.
  - intros L. exists (Z.to_nat (j - jmin)). split; [lia|]. apply in_seq. lia.
Qed.
Lemma range_nodup jmin nz : NoDup (range_of jmin nz).
Proof.
  unfold range_of. apply Injective_map_NoDup; [intros a b; lia|apply seq_NoDup].
Qed.

Section Layout.
  Context {T : Type} {NT : Num T}.

  Lemma paint_inv vdim vmin vmax axes : forall cols, paint vdim vmin vmax axes = Ok cols ->
    Forall2 (fun a c => limits vdim vmin vmax (fst (snd (fst a))) = Ok c) axes cols.
  Proof.
    induction axes as [|[[j [n m]] rc] axes IH]; cbn [paint]; intros cols H.
    - injection H as <-. constructor.
    - destruct (limits vdim vmin vmax n) as [l|] eqn:L; [|discriminate]. cbn [bind] in H.
      destruct (paint vdim vmin vmax axes) as [rest|]; [|discriminate]. cbn [bind] in H. injection H as <-.
      constructor; [exact L|apply IH; reflexivity].
  Qed.
  Lemma paint_ok vdim vmin vmax axes : (vdim = true -> Forall (fun a : Z * (Z * Z) * (Z * Z) => fst (snd (fst a)) <> 0) axes) ->
    exists cols, paint vdim vmin vmax axes = Ok cols.
  Proof.
    induction axes as [|[[j [n m]] rc] axes IH]; intros H; cbn [paint]; [eexists; reflexivity|].
    destruct IH as [rest R]; [intros V; specialize (H V); inversion H; assumption|]. rewrite R. unfold limits.
    destruct vdim; [|eexists; reflexivity]. specialize (H eq_refl). inversion H. cbn in H2.
    destruct (Z.eqb_spec n 0); [contradiction|]. eexists; reflexivity.
  Qed.
  Lemma axis_in axes j : In j (map (fun a : Z * (Z * Z) * (Z * Z) => fst (fst a)) axes) <-> exists c, axis axes j = Ok c.
  Proof.
    unfold axis. induction axes as [|a axes IH]; cbn [map In find].
    - split; [intros []|intros [c C]; discriminate].
    - destruct (Z.eqb_spec (fst (fst a)) j) as [E|E]; [split; [eexists; reflexivity|left; assumption]|].
      rewrite <- IH. split; [intros [F|F]; [contradiction|exact F]|right; assumption].
  Qed.
  Lemma axis_cell nmin nmax js axes j n m c : axes_of nmin nmax js axes -> axis axes j = Ok c -> noll_to_zern j = Ok (n, m) -> c = cell nmin nmax n m.
  Proof.
    intros (_ & F) A E. unfold axis in A. destruct (find _ axes) as [a|] eqn:G; [|discriminate]. injection A as <-.
    apply find_some in G as (I & G). apply Z.eqb_eq in G. rewrite Forall_forall in F. destruct (F a I) as (H1 & H2).
    rewrite G in H1. rewrite E in H1. injection H1 as H1. rewrite H2, <- H1. reflexivity.
  Qed.

  Definition draw_panel (left width amt : T) (nmax : Z) (ac : (Z * (Z * Z) * (Z * Z)) * (T * T)) : panel T :=
    let '((j, (n, _), (row, col)), (lo, hi)) := ac in
    Panel j row col (shifted (moves nmax n) (column_x left width col) amt) lo hi.

  Lemma pyramid_inv left width nz jmin vmin vmax vdim (ps : list (panel T)) :
    zernikePyramid left width nz jmin vmin vmax vdim = Ok ps ->
    exists nmax mmax nmin mmin axes cols c4 c5,
      noll_to_zern (nz + jmin - 1) = Ok (nmax, mmax) /\ noll_to_zern jmin = Ok (nmin, mmin) /\
      axes_of nmin nmax (range_of jmin nz) axes /\
      Forall2 (fun a c => limits vdim vmin vmax (fst (snd (fst a))) = Ok c) axes cols /\
      axis axes 4 = Ok c4 /\ axis axes 5 = Ok c5 /\
      ps = map (draw_panel left width (nfrac 1 2 * (column_x left width (snd c4) - column_x left width (snd c5)))%num nmax) (combine axes cols).
  Proof.
    unfold zernikePyramid. destruct (noll_to_zern (nz + jmin - 1)) as [[nmax mmax]|]; [|discriminate].
    destruct (noll_to_zern jmin) as [[nmin mmin]|]; [|discriminate]. cbn [bind fst snd].
    destruct (_ <? 1); [discriminate|]. fold (range_of jmin nz).
    destruct (place nmin nmax (range_of jmin nz)) as [axes|] eqn:P; [|discriminate]. cbn [bind].
    destruct (paint vdim vmin vmax axes) as [cols|] eqn:Q; [|discriminate]. cbn [bind].
    destruct (axis axes 4) as [c4|] eqn:A4; [|discriminate]. destruct (axis axes 5) as [c5|] eqn:A5; [|discriminate]. cbn [bind].
    intros H. injection H as <-. exists nmax, mmax, nmin, mmin, axes, cols, c4, c5. repeat split; try assumption; try reflexivity.
    - apply (proj1 (place_inv _ _ _ _ P)).
    - apply (proj2 (place_inv _ _ _ _ P)).
    - apply paint_inv. exact Q.
  Qed.

  Lemma pyramid_when left width nz jmin (vmin vmax : T) vdim : 0 <= nz ->
    (exists ps, zernikePyramid left width nz jmin vmin vmax vdim = Ok ps) <->
    1 <= jmin <= 4 /\ 5 <= nz + jmin - 1 /\ (vdim = true -> 2 <= jmin).
  Proof.
    intros Nz. split.
    - intros [ps H]. apply pyramid_inv in H as (nmax & mmax & nmin & mmin & axes & cols & c4 & c5 & E1 & E2 & (J & A) & C & A4 & A5 & _).
      destruct (Z.lt_ge_cases jmin 1) as [B|B]; [rewrite noll_low in E2 by lia; discriminate|].
      assert (I4 : In 4 (range_of jmin nz)) by (rewrite <- J; apply axis_in; eexists; exact A4).
      assert (I5 : In 5 (range_of jmin nz)) by (rewrite <- J; apply axis_in; eexists; exact A5).
      apply in_range in I4, I5. split; [lia|]. split; [lia|]. intros ->.
      destruct (Z.eq_dec jmin 1) as [->|]; [exfalso|lia].
      assert (I1 : In 1 (range_of 1 nz)) by (apply in_range; lia). rewrite <- J in I1. apply in_map_iff in I1 as (a & Ea & Ia).
      assert (X : exists c, limits true vmin vmax (fst (snd (fst a))) = Ok c).
      { clear - C Ia. induction C; [contradiction|]. destruct Ia as [->|Ia]; [eexists; eassumption|auto]. }
      destruct X as [c X]. rewrite Forall_forall in A. destruct (A a Ia) as (H1 & _). rewrite Ea in H1.
      assert (V : noll_to_zern 1 = Ok (0, 0)) by reflexivity. rewrite V in H1. injection H1 as H1. rewrite <- H1 in X. discriminate.
    - intros (B & U & V). unfold zernikePyramid.
      destruct (noll_valid (nz + jmin - 1) ltac:(lia)) as (nmax & mmax & E1 & V1 & _).
      destruct (noll_valid jmin ltac:(lia)) as (nmin & mmin & E2 & V2 & _). rewrite E1, E2. cbn [bind fst snd].
      pose proof (proj1 (noll_row_order jmin (nz + jmin - 1) _ _ _ _ ltac:(lia) E2 E1)) as L.
      destruct (Z.ltb_spec (nmax - nmin + 1) 1); [lia|]. fold (range_of jmin nz).
      destruct (place_ok nmin nmax (range_of jmin nz) (proj1 V2)) as (axes & P & J & A).
      { intros j I. apply in_range in I. destruct (noll_valid j ltac:(lia)) as (n & m & E & W & _). exists n, m. split; [exact E|]. split; [exact W|].
        split; [apply (noll_row_order _ _ _ _ _ _ (proj1 I) E2 E)|apply (noll_row_order _ _ _ _ _ _ (proj2 I) E E1)]. }
      rewrite P. cbn [bind].
      destruct (paint_ok vdim vmin vmax axes) as [cols Q].
      { intros D. specialize (V D). rewrite Forall_forall in *. intros a Ia. destruct (A a Ia) as (H1 & _).
        assert (I : In (fst (fst a)) (range_of jmin nz)) by (rewrite <- J; apply in_map_iff; exists a; split; [reflexivity|exact Ia]).
        apply in_range in I. destruct (snd (fst a)) as [n m]. cbn.
        pose proof (proj1 (noll_row_order 2 (fst (fst a)) 1 1 n m ltac:(lia) eq_refl H1)). lia. }
      rewrite Q. cbn [bind].
      destruct (proj1 (axis_in axes 4)) as [c4 A4]; [rewrite J; apply in_range; lia|].
      destruct (proj1 (axis_in axes 5)) as [c5 A5]; [rewrite J; apply in_range; lia|].
      rewrite A4, A5. cbn [bind]. eexists. reflexivity.
  Qed.

  Lemma draw_j left width amt nmax axes cols (R : _ -> T * T -> Prop) : Forall2 R axes cols ->
    map (@p_j T) (map (draw_panel left width amt nmax) (combine axes cols)) = map (fun a => fst (fst a)) axes.
  Proof.
    induction 1 as [|[[j [n m]] [row col]] [lo hi] axes cols H F IH]; [reflexivity|]. cbn [combine map]. f_equal. exact IH.
  Qed.
  Lemma in_drawn left width amt nmax axes cols (R : _ -> T * T -> Prop) p : Forall2 R axes cols ->
    In p (map (draw_panel left width amt nmax) (combine axes cols)) ->
    exists a c, In a axes /\ R a c /\ p = draw_panel left width amt nmax (a, c).
  Proof.
    intros F. induction F as [|a c axes cols H F IH]; [intros []|]. cbn [combine map]. intros [<-|I].
    - exists a, c. split; [left; reflexivity|]. split; [exact H|reflexivity].
    - destruct (IH I) as (a' & c' & I' & H' & E). exists a', c'. split; [right; exact I'|]. split; assumption.
  Qed.

  Lemma pyramid_panels left width nz jmin vmin vmax vdim (ps : list (panel T)) :
    zernikePyramid left width nz jmin vmin vmax vdim = Ok ps ->
    map (@p_j T) ps = range_of jmin nz /\
    exists nmin mmin nmax mmax, noll_to_zern jmin = Ok (nmin, mmin) /\ noll_to_zern (nz + jmin - 1) = Ok (nmax, mmax) /\
    forall p, In p ps -> exists n m, noll_to_zern (p_j p) = Ok (n, m) /\ zernike_index n m /\
      p_row p = n - nmin /\ 0 <= p_row p <= nmax - nmin /\ 0 <= p_col p <= nmax /\
      (p_row p, p_col p) = cell nmin nmax n m /\
      p_x p = shifted (moves nmax n) (column_x left width (p_col p))
        (nfrac 1 2 * (column_x left width (snd (cell nmin nmax 2 0)) - column_x left width (snd (cell nmin nmax 2 (-2)))))%num /\
      limits vdim vmin vmax n = Ok (p_min p, p_max p).
  Proof.
    intros H. apply pyramid_inv in H as (nmax & mmax & nmin & mmin & axes & cols & c4 & c5 & E1 & E2 & AX & C & A4 & A5 & ->).
    pose proof (axis_cell _ _ _ _ 4 2 0 _ AX A4 eq_refl) as ->. pose proof (axis_cell _ _ _ _ 5 2 (-2) _ AX A5 eq_refl) as ->.
    destruct AX as (J & A). split; [rewrite (draw_j _ _ _ _ _ _ _ C); exact J|].
    exists nmin, mmin, nmax, mmax. split; [exact E2|]. split; [exact E1|]. intros p I.
    apply (in_drawn _ _ _ _ _ _ _ _ C) in I as ([[j [n m]] [row col]] & [lo hi] & Ia & L & ->). cbn [draw_panel p_j p_row p_col p_x p_min p_max].
    rewrite Forall_forall in A. destruct (A _ Ia) as (N & S). cbn [fst snd] in N, S, L.
    assert (B : jmin <= j <= nz + jmin - 1).
    { apply in_range. rewrite <- J. apply in_map_iff. exists (j, (n, m), (row, col)). split; [reflexivity|exact Ia]. }
    assert (1 <= jmin). { destruct (Z.lt_ge_cases jmin 1) as [D|D]; [rewrite noll_low in E2 by lia; discriminate|lia]. }
    destruct (noll_valid j ltac:(lia)) as (n' & m' & N' & V & _). rewrite N in N'. injection N' as <- <-.
    destruct (noll_valid jmin ltac:(lia)) as (n' & m' & N' & V' & _). rewrite E2 in N'. injection N' as <- <-.
    pose proof (proj1 (noll_row_order _ _ _ _ _ _ (proj1 B) E2 N)) as L1. pose proof (proj1 (noll_row_order _ _ _ _ _ _ (proj2 B) N E1)) as L2.
    pose proof (cell_inside nmin nmax n m V ltac:(destruct V'; lia) L2) as (I1 & I2). rewrite <- S in I1, I2. cbn [fst snd] in I1, I2.
    exists n, m. split; [exact N|]. split; [exact V|]. split; [|repeat split; try lia; assumption].
    unfold cell in S. destruct (n mod 2 =? 0); injection S; lia.
  Qed.

  (** Two panels in the same cell are the same panel. *)
  Lemma pyramid_apart left width nz jmin vmin vmax vdim (ps : list (panel T)) p q :
    zernikePyramid left width nz jmin vmin vmax vdim = Ok ps -> In p ps -> In q ps ->
    p_row p = p_row q -> p_col p = p_col q -> p = q.
  Proof.
    intros H Ip Iq R C. apply pyramid_panels in H as (_ & nmin & mmin & nmax & mmax & _ & _ & F).
    destruct (F p Ip) as (n & m & N & V & _ & _ & _ & S & X & L). destruct (F q Iq) as (n' & m' & N' & V' & _ & _ & _ & S' & X' & L').
    rewrite R, C, S' in S. destruct (cell_inj nmin nmax n' m' n m V' V S) as [-> ->].
    pose proof (noll_inj _ _ _ N N') as J. rewrite L in L'. injection L' as L1 L2. rewrite <- C, <- X in X'.
    destruct p, q. cbn in *. congruence.
  Qed.
End Layout.

(** The left edges. *)
From Coq Require Import Reals Lra.
From Verif Require Import NumR.
Local Open Scope Z_scope.
Lemma pyramid_x left width nz jmin vmin vmax vdim ps :
  zernikePyramid (Fin left) (Fin width) nz jmin vmin vmax vdim = Ok ps ->
  exists nmax mmax, noll_to_zern (nz + jmin - 1) = Ok (nmax, mmax) /\
  forall p, In p ps -> exists n m, noll_to_zern (p_j p) = Ok (n, m) /\
    p_x p = Fin (left + IZR (m + nmax) / 2 * width)%R.
Proof.
  intros H. apply pyramid_panels in H as (J & nmin & mmin & nmax & mmax & E2 & E1 & F).
  exists nmax, mmax. split; [exact E1|]. intros p I. destruct (F p I) as (n & m & N & V & R & Rb & Cb & S & X & L).
  exists n, m. split; [exact N|]. rewrite X.
  assert (U : n <= nmax) by lia. pose proof (cell_moved nmin nmax n m V U) as M.
  assert (S2 : p_col p = snd (cell nmin nmax n m)) by (rewrite <- S; reflexivity). rewrite <- S2 in M.
  assert (D : snd (cell nmin nmax 2 0) = snd (cell nmin nmax 2 (-2)) + 1) by (unfold cell; change (2 mod 2 =? 0) with true; cbn [snd]; change (0 / 2) with 0; change (-2 / 2) with (-1); lia). rewrite D. clear D.
  set (k := snd (cell nmin nmax 2 (-2))). clearbody k.
  assert (IZR (m + nmax) = 2 * IZR (p_col p) + IZR (moves nmax n))%R as ->.
  { rewrite <- M, plus_IZR, mult_IZR. reflexivity. }
  assert (moves nmax n = 1 \/ moves nmax n = -1 \/ moves nmax n = 0) as [O|[O|O]].
  { unfold moves. destruct (_ && _)%bool; [auto|]. destruct (_ && _)%bool; auto. }
  all: rewrite O; unfold shifted, column_x; cbn; f_equal; rewrite ?plus_IZR; field.
Qed.
