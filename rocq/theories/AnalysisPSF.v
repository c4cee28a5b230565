(** C70: Huygens point-spread functions. *)
From Coq Require Import Reals String List ZArith Bool Lra Psatz Lia.
From Verif Require Import Num NumR Vec CoordSys Surface Ray Bundle Trig Optic Field RayGen Wave Spec OpticsSpec FieldSpec FieldProofs
  XRFacts CoordFacts RayFacts PatternSpec PatternProofs GenSpec WaveSpec WaveProofs Analysis AnalysisSpec AnalysisProofs AnalysisFocus.
Import ListNotations.
Open Scope R_scope.

Lemma abs2_F a b : abs2 (Fin a, Fin b) = Fin (a * a + b * b).
Proof.
  unfold abs2; cbn [fst snd]. cbn [nhypot nmul NumXR]. unfold xhypot. cbn [xmul]. f_equal. apply sqrt_sqrt. nra.
Qed.
Lemma row_of {A} n (l : list A) i : length l = (n * n)%nat -> (i < n)%nat ->
  length (flat_map (fun j => match nth_error l (j * n + i) with Some a => [a] | None => [] end) (seq 0 n)) = n.
Proof.
  intros HL Hi. rewrite (flat_map_len _ _ 1).
  - rewrite seq_length. lia.
  - intros j Hj. apply in_seq in Hj. destruct (nth_error l (j * n + i)) eqn:E; [reflexivity|]. apply nth_error_None in E. nia.
Qed.
Lemma transpose_nth {A} n (l : list A) i j : length l = (n * n)%nat -> (i < n)%nat -> (j < n)%nat ->
  nth_error (transpose n l) (i * n + j) = nth_error l (j * n + i).
Proof.
  intros HL Hi Hj. destruct (nth_error l (j * n + i)) as [b|] eqn:E; [|apply nth_error_None in E; nia].
  unfold transpose. apply (nth_flat_map _ _ n _ _ i).
  - intros k Hk. apply in_seq in Hk. apply row_of; [exact HL|lia].
  - rewrite (nth_error_nth' _ 0%nat) by (rewrite seq_length; exact Hi). rewrite seq_nth by exact Hi. reflexivity.
  - replace j with (j * 1 + 0)%nat by lia. apply (nth_flat_map _ _ 1 _ _ j).
    + intros k Hk. apply in_seq in Hk. destruct (nth_error l (k * n + i)) eqn:E2; [reflexivity|]. apply nth_error_None in E2. nia.
    + rewrite (nth_error_nth' _ 0%nat) by (rewrite seq_length; exact Hj). rewrite seq_nth by exact Hj. reflexivity.
    + cbn [Nat.add]. rewrite E. reflexivity.
Qed.
Lemma transpose_length {A} n (l : list A) : length l = (n * n)%nat -> length (transpose n l) = (n * n)%nat.
Proof.
  intros HL. unfold transpose. rewrite (flat_map_len _ _ n); [rewrite seq_length; reflexivity|].
  intros i Hi. apply in_seq in Hi. apply row_of; [exact HL|lia].
Qed.
Lemma lattice_2 n (pv : list (list R)) : square 2 pv ->
  length (primitiveToLattice (map (map Fin) pv) [n; n]) = (n * n)%nat /\
  forall i j, (i < n)%nat -> (j < n)%nat ->
    nth_error (primitiveToLattice (map (map Fin) pv) [n; n]) (i * n + j)
    = Some [Fin (lattice_point [n; n] [i; j] pv 0); Fin (lattice_point [n; n] [i; j] pv 1)].
Proof.
  intros HS. 
  assert (E : mkLattice [n; n] (@nil unit) (map (map Fin) pv) = Ok (Lat (T:=XR) unit [n; n] [] (map (map Fin) pv))).
  { destruct HS as [H1 H2]. unfold mkLattice. rewrite map_length, H1. cbn [length Nat.eqb negb].
    destruct pv as [|a pv]; [discriminate|]. inversion H2; subst. cbn [map hd]. rewrite map_length, H3. reflexivity. }
  destruct (lattice_coords [n; n] (@nil unit) pv _ HS E) as [L N]. unfold coords in *; cbn [l_pv l_shape] in *. split.
  - rewrite L. cbn. lia.
  - intros i j Hi Hj. specialize (N [i; j]). cbn [row_major fold_right length seq map] in N.
    replace (i * n + j)%nat with (i * (n * 1) + (j * 1 + 0))%nat by lia. apply N. constructor; [exact Hi|constructor; [exact Hj|constructor]].
Qed.

(** Only the lit rays count. *)
Lemma sum_lit rv q p t lam : lit_rays rv q -> Forall (shines lam) q ->
  sumAmplitude (F3 p) (Fin t) true rv = (Fin (fst (wave_sum true q p t)), Fin (snd (wave_sum true q p t))).
Proof.
  intros HL HQ. destruct rv as [l cs]. rewrite (sum_counted _ _ _ _ cs (Fcs (CS zeroR eyeR))).
  assert (E : filter (counted true) l = map Fray q).
  { assert (E1 : filter (counted true) l = filter (fun r => negb (failed r)) (filter (fun r => negb (vignetted r)) l)).
    { clear. induction l as [|r l IH]; [reflexivity|]. cbn [filter]. unfold counted at 1.
      destruct (vignetted r) eqn:V; cbn [negb]; [destruct (failed r); exact IH|].
      cbn [filter]. destruct (failed r); cbn [negb]; [exact IH|f_equal; exact IH]. }
    rewrite E1, HL. clear - HQ. induction HQ as [|r q (H & _) HQ IH]; [reflexivity|]. cbn [map filter].
    change (failed (Fray r)) with (failed r). rewrite H. cbn [negb]. f_equal. exact IH. }
  rewrite E. change (RV (map Fray q) (Fcs (CS zeroR eyeR))) with (Frv (RV q (CS zeroR eyeR))). apply sum_F.
  apply Forall_forall. intros r Hr. apply filter_In in Hr. rewrite Forall_forall in HQ. apply (HQ r), Hr.
Qed.
Lemma all_counted q lam : Forall (shines lam) q -> filter (counted true) q = q.
Proof.
  induction 1 as [|r q (H & H' & _) HQ IH]; [reflexivity|]. cbn [filter]. unfold counted at 1. rewrite H, H'. f_equal. exact IH.
Qed.
(** The time drops out. *)
Lemma intensity_time q p lam t t' : lam <> 0 -> Forall (shines lam) q -> intensity q p t = intensity q p t'.
Proof.
  intros Hl HQ. unfold intensity, wave_sum; cbn [fst snd]. rewrite (all_counted q lam HQ).
  set (d := 2 * PI / lam * (t' - t)).
  assert (K : sumR (map (fun r => flux r * cos (wave_phase r p t)) q)
     = cos d * sumR (map (fun r => flux r * cos (wave_phase r p t')) q) - sin d * sumR (map (fun r => flux r * sin (wave_phase r p t')) q) /\
     sumR (map (fun r => flux r * sin (wave_phase r p t)) q)
     = sin d * sumR (map (fun r => flux r * cos (wave_phase r p t')) q) + cos d * sumR (map (fun r => flux r * sin (wave_phase r p t')) q)).
  { induction HQ as [|r q (_ & _ & _ & W) HQ IH]; [cbn; split; ring|].
    cbn [map]. rewrite !sumR_cons. destruct IH as [-> ->].
    assert (E : wave_phase r p t = wave_phase r p t' + d).
    { unfold wave_phase, frequency, d. rewrite W. field. exact Hl. }
    rewrite E, cos_plus, sin_plus. split; ring. }
  destruct K as [-> ->]. pose proof (sin2_cos2 d) as S. unfold Rsqr in S.
  set (a := sumR _). set (b := sumR _). 
  transitivity ((sin d * sin d + cos d * cos d) * (a * a + b * b)); [ring|rewrite S; ring].
Qed.
Lemma intensity_nonneg q p t : 0 <= intensity q p t.
Proof. unfold intensity. nra. Qed.
Lemma intensity_bound q p t lam : Forall (shines lam) q -> Forall (fun r => 0 <= flux r) q ->
  intensity q p t <= sumR (map flux q) * sumR (map flux q).
Proof.
  intros HQ HF. pose proof (sum_bounded true q p t) as H. rewrite (all_counted q lam HQ) in H. apply H, HF.
Qed.
Lemma intensity_focus q P T0 s t lam : lam <> 0 -> Forall (shines lam) q -> Forall (focused P T0 s) q ->
  intensity q P t = sumR (map flux q) * sumR (map flux q).
Proof.
  intros Hl HQ HF. unfold intensity, wave_sum; cbn [fst snd]. rewrite (all_counted q lam HQ).
  set (d := 2 * PI / lam * (T0 - t)).
  assert (K : sumR (map (fun r => flux r * cos (wave_phase r P t)) q) = cos d * sumR (map flux q) /\
     sumR (map (fun r => flux r * sin (wave_phase r P t)) q) = sin d * sumR (map flux q)).
  { induction HF as [|r q (FP & _) HF IH]; [cbn; split; ring|]. pose proof (Forall_inv HQ) as (_ & _ & (V & _) & W). pose proof (Forall_inv_tail HQ) as HQ'.
    cbn [map]. rewrite !sumR_cons. destruct (IH HQ') as [-> ->].
    assert (E : wave_phase r P t = d).
    { unfold wave_phase, frequency, d, wavevector. rewrite <- FP, W.
      replace (minusR (on_line (pos r) (vel r) (T0 - time r)) (pos r)) with (timesR (T0 - time r) (vel r)) by (apply vec3_eq; cbn; ring).
      pose proof (dot_self_pos (vel r) V) as D.
      replace (dotR (timesR (2 * PI / (lam * dotR (vel r) (vel r))) (vel r)) (timesR (T0 - time r) (vel r)))
        with (2 * PI / (lam * dotR (vel r) (vel r)) * (T0 - time r) * dotR (vel r) (vel r))
        by (unfold dotR at 2 3, timesR; cbn [cx cy cz]; ring).
      field. split; lra. }
    rewrite E. split; ring. }
  destruct K as [-> ->]. pose proof (sin2_cos2 d) as S. unfold Rsqr in S.
  set (a := sumR _). transitivity ((sin d * sin d + cos d * cos d) * (a * a)); [ring|rewrite S; ring].
Qed.

Theorem huygens_entries lstsq niter tel tx ty lam projection nx dx dy nxOut reference rv q P pv pad r0 l0 t0 :
  traced niter tel tx ty (Fin lam) projection nx rv -> lit_rays rv q -> Forall (shines lam) q -> lam <> 0 ->
  referred nx rv q reference P ->
  huygens_lattice niter lstsq tel tx ty (Fin lam) projection nx dx dy = Ok (map (map Fin) pv, pad) -> square 2 pv ->
  rays rv = r0 :: l0 -> time r0 = Fin t0 ->
  let n := (or_else nxOut nx * pad)%nat in
  exists psf, huygensPSF niter lstsq tel tx ty (Fin lam) projection nx dx dy nxOut reference = Ok psf /\
    l_shape _ psf = [n; n] /\ l_pv _ psf = map (map Fin) pv /\ length (l_array _ psf) = (n * n)%nat /\
    forall i j t, (i < n)%nat -> (j < n)%nat ->
      nth_error (l_array _ psf) (i * n + j)
      = Some (Fin (intensity q (V3 (lattice_point [n; n] [j; i] pv 0 + cx P) (lattice_point [n; n] [j; i] pv 1 + cy P) 0) t)).
Proof.
  intros HT HL HQ Hl HR HLat HS H0 Ht0 n. unfold huygensPSF. rewrite HLat; cbn [bind].
  rewrite (traced_grid_ok _ _ _ _ _ _ _ _ HT); cbn [bind]. rewrite (reference_ok _ _ _ _ _ HL HR); cbn [bind].
  rewrite H0; cbn [bind]. rewrite Ht0. fold n. destruct (lattice_2 n pv HS) as [LL LN].
  set (arr := map _ _).
  assert (HM : mkLattice [n; n] arr (map (map Fin) pv) = Ok (Lat (T:=XR) XR [n; n] arr (map (map Fin) pv))).
  { destruct HS as [H1 H2]. unfold mkLattice. rewrite map_length, H1. cbn [length Nat.eqb negb].
    destruct pv as [|a pv]; [discriminate|]. inversion H2; subst. cbn [map hd]. rewrite map_length, H4. reflexivity. }
  rewrite HM. eexists. split; [reflexivity|]. cbn [l_shape l_pv l_array]. split; [reflexivity|]. split; [reflexivity|].
  split; [unfold arr; rewrite !map_length; apply transpose_length, LL|].
  intros i j t Hi Hj. unfold arr. rewrite map_map, nth_error_map, transpose_nth by assumption. rewrite LN by assumption.
  cbn [option_map nth]. f_equal.
  match goal with |- abs2 (sumAmplitude ?p _ _ _) = _ =>
    replace p with (F3 (V3 (lattice_point [n; n] [j; i] pv 0 + cx P) (lattice_point [n; n] [j; i] pv 1 + cy P) 0)) by reflexivity end.
  rewrite (sum_lit rv q _ _ lam HL HQ), abs2_F. f_equal. apply (intensity_time q _ lam t0 t Hl HQ).
Qed.

Theorem huygens_peak lstsq niter tel tx ty lam projection nx dx dy nxOut reference rv q P pv pad r0 l0 t0 T0 s :
  traced niter tel tx ty (Fin lam) projection nx rv -> lit_rays rv q -> Forall (shines lam) q -> lam <> 0 ->
  referred nx rv q reference P -> cz P = 0 -> Forall (focused P T0 s) q -> Forall (fun r => 0 <= flux r) q ->
  huygens_lattice niter lstsq tel tx ty (Fin lam) projection nx dx dy = Ok (map (map Fin) pv, pad) -> square 2 pv ->
  rays rv = r0 :: l0 -> time r0 = Fin t0 ->
  let n := (or_else nxOut nx * pad)%nat in (1 <= n)%nat ->
  exists psf, huygensPSF niter lstsq tel tx ty (Fin lam) projection nx dx dy nxOut reference = Ok psf /\
    nth_error (l_array _ psf) (central n) = Some (Fin (sumR (map flux q) * sumR (map flux q))) /\
    forall e, In e (l_array _ psf) -> exists x, e = Fin x /\ 0 <= x <= sumR (map flux q) * sumR (map flux q).
Proof.
  intros HT HL HQ Hl HR HZ HF HFl HLat HS H0 Ht0 n Hn.
  destruct (huygens_entries lstsq niter tel tx ty lam projection nx dx dy nxOut reference rv q P pv pad r0 l0 t0
    HT HL HQ Hl HR HLat HS H0 Ht0) as (psf & E & Sh & _ & Len & N). fold n in Sh, Len, N.
  exists psf. split; [exact E|]. assert (n / 2 < n)%nat by (apply Nat.div_lt; lia). split.
  - unfold central. rewrite (N _ _ 0) by assumption. f_equal. f_equal.
    replace (V3 _ _ 0) with P; [apply (intensity_focus q P T0 s 0 lam Hl HQ HF)|].
    pose proof (origin_point [n; n] pv) as O. cbn [map] in O. rewrite !O. apply vec3_eq; cbn [cx cy cz]; lra.
  - intros e He. apply In_nth_error in He. destruct He as (k & Hk).
    assert (Hlt : (k < n * n)%nat) by (rewrite <- Len; apply nth_error_Some; congruence).
    assert (Hi : (k / n < n)%nat) by (apply Nat.div_lt_upper_bound; lia).
    assert (Hj : (k mod n < n)%nat) by (apply Nat.mod_upper_bound; lia).
    specialize (N _ _ 0 Hi Hj). replace (k / n * n + k mod n)%nat with k in N by (rewrite Nat.mul_comm; apply Nat.div_mod; lia).
    rewrite Hk in N. injection N as ->. eexists. split; [reflexivity|]. split; [apply intensity_nonneg|apply (intensity_bound _ _ _ lam HQ HFl)].
Qed.
Lemma sum_ones q : (forall r : ray R, In r q -> flux r = 1) -> sumR (map flux q) = INR (length q).
Proof.
  induction q as [|r q IH]; intros H; [reflexivity|]. cbn [map length]. rewrite sumR_cons, S_INR, (H r), IH; [ring| |left; reflexivity].
  intros r' Hr'. apply H. right. exact Hr'.
Qed.
(** Every ray of the paraboloidal telescope on its axis arrives in phase at the focus. *)
Theorem parab_huygens lstsq niter tel lam p nx b B rad D reference d nxOut :
  focal_pair (tl_optic tel) B rad -> rad <> 0 ->
  describes false (Gen (Some (tl_attr tel)) None None None None (Some (Fin lam)) (DirCos (F3 (V3 0 0 (-1))))) b ->
  b_frame b = B -> b_w b = lam -> b_dir b = V3 0 0 (-1) ->
  oa_pupil (tl_attr tel) = Some (Fin D) -> (1 <= nx)%nat ->
  let pts := grid_points nx nx (spacing_of nx D) (spacing_of nx D) in
  proper b pts -> Forall (fun p => near_axis b B rad (fst p) (snd p)) pts ->
  reference = "mean"%string \/ reference = "chief"%string -> lam <> 0 ->
  let n := or_else nxOut nx in (1 <= n)%nat ->
  exists psf, huygensPSF niter lstsq tel (Fin 0) (Fin 0) (Fin lam) (proj_name p) nx (Some (Sc (Fin d))) None nxOut reference = Ok psf /\
    nth_error (l_array _ psf) (central n) = Some (Fin (INR (nx * nx) * INR (nx * nx))) /\
    forall e, In e (l_array _ psf) -> exists x, e = Fin x /\ 0 <= x <= INR (nx * nx) * INR (nx * nx).
Proof.
  intros HF Hr HD HB Hw Hdir HDp Hn pts HP HN Href Hl n Hn'.
  destruct (parab_traced niter tel lam p nx b B rad D HF Hr HD HB Hw Hdir HDp) as (q & HT & Ln & Hq); [lia|exact HP|exact HN|].
  set (C := shifted B (V3 0 0 (rad / 2))) in *. set (rv := RV (map Fray q) (Fcs C)) in *.
  assert (Pn : 0 < b_n b) by apply HP.
  assert (HL : lit_rays rv q) by (apply lit_all; intros r Hr'; apply Hq, Hr').
  assert (Q0 : q <> []) by (intros ->; cbn in Ln; nia).
  assert (HR : referred nx rv q reference zeroR).
  { destruct Href as [-> | ->].
    - replace zeroR with (centroid (map pos q)); [constructor; exact Q0|]. unfold centroid. rewrite !map_map.
      assert (Z : forall (f : vR -> R), averageR (map (fun r => f (pos r)) q) = f zeroR).
      { intros f. apply average_const; [exact Q0|]. intros r Hr'. destruct (Hq r Hr') as (-> & _). reflexivity. }
      rewrite (Z cx), (Z cy), (Z cz). reflexivity.
    - destruct (nth_error q (central nx)) as [ch|] eqn:E.
      + destruct (Hq ch (nth_error_In _ _ E)) as (<- & _). constructor. unfold rv; cbn [rays]. rewrite nth_error_map, E. reflexivity.
      + apply nth_error_None in E. pose proof (central_lt nx). lia. }
  assert (Sh : Forall (shines lam) q).
  { apply Forall_forall. intros r Hr'. destruct (Hq r Hr') as (P1 & P2 & P3 & P4 & P5 & P6 & P7 & P8).
    split; [exact P6|]. split; [exact P5|]. split; [|exact P8]. split; [intros E; rewrite E in P4; cbn in P4; lra|rewrite P8; exact Hl]. }
  assert (Fo : Forall (focused zeroR (b_n b * (b_dist b + rad / 2)) (/ b_n b)) q).
  { apply Forall_forall. intros r Hr'. destruct (Hq r Hr') as (P1 & P2 & P3 & _). split; [|exact P3].
    rewrite P1, P2. apply vec3_eq; cbn; ring. }
  assert (Fl : Forall (fun r => 0 <= flux r) q).
  { apply Forall_forall. intros r Hr'. destruct (Hq r Hr') as (_ & _ & _ & _ & _ & _ & -> & _). lra. }
  assert (Su : sumR (map flux q) = INR (nx * nx)).
  { rewrite <- Ln. apply sum_ones. intros r Hr'. apply (Hq r Hr'). }
  destruct q as [|r0 q0] eqn:Eq; [congruence|].
  destruct (huygens_peak lstsq niter tel (Fin 0) (Fin 0) lam (proj_name p) nx (Some (Sc (Fin d))) None nxOut reference rv (r0 :: q0) zeroR
    [[d; 0]; [0; d]] 1 (Fray r0) (map Fray q0) (time r0) (b_n b * (b_dist b + rad / 2)) (/ b_n b) HT HL Sh Hl HR eq_refl Fo Fl eq_refl)
    as (psf & E1 & E2 & E3).
  - split; [reflexivity|]. repeat constructor.
  - reflexivity.
  - reflexivity.
  - fold n. lia.
  - exists psf. split; [exact E1|]. fold n in E2. rewrite Nat.mul_1_r, Su in E2. rewrite Su in E3. split; assumption.
Qed.
Theorem newtonian_huygens lstsq niter tel lam p nx reference d nxOut :
  newtonian tel lam nx -> (1 <= nx)%nat -> reference = "mean"%string \/ reference = "chief"%string -> lam <> 0 ->
  let n := or_else nxOut nx in (1 <= n)%nat ->
  exists psf, huygensPSF niter lstsq tel (Fin 0) (Fin 0) (Fin lam) (proj_name p) nx (Some (Sc (Fin d))) None nxOut reference = Ok psf /\
    nth_error (l_array _ psf) (central n) = Some (Fin (INR (nx * nx) * INR (nx * nx))) /\
    forall e, In e (l_array _ psf) -> exists x, e = Fin x /\ 0 <= x <= INR (nx * nx) * INR (nx * nx).
Proof.
  intros (b & B & rad & D & HF & Hr & HD & HB & Hw & Hd & Hp & HP & HN) Hn Href Hl n Hn'.
  exact (parab_huygens lstsq niter tel lam p nx b B rad D reference d nxOut HF Hr HD HB Hw Hd Hp Hn HP HN Href Hl Hn').
Qed.

Theorem huygens_steps lstsq niter tel tx ty lam projection nx dx dy nxOut reference rv q P r0 l0 t0 a b :
  traced niter tel tx ty (Fin lam) projection nx rv -> lit_rays rv q -> Forall (shines lam) q -> lam <> 0 ->
  referred nx rv q reference P -> given_steps dx dy a b -> rays rv = r0 :: l0 -> time r0 = Fin t0 ->
  let n := or_else nxOut nx in
  exists psf, huygensPSF niter lstsq tel tx ty (Fin lam) projection nx (Some dx) dy nxOut reference = Ok psf /\
    l_shape _ psf = [n; n] /\ l_pv _ psf = [[Fin (fst a); Fin (snd a)]; [Fin (fst b); Fin (snd b)]] /\
    forall row column t, (row < n)%nat -> (column < n)%nat ->
      let i := INR column - INR (n / 2) in let j := INR row - INR (n / 2) in
      nth_error (l_array _ psf) (row * n + column)
      = Some (Fin (intensity q (V3 (cx P + i * fst a + j * fst b) (cy P + i * snd a + j * snd b) 0) t)).
Proof.
  intros HT HL HQ Hl HR HG H0 Ht0 n.
  assert (HLat : huygens_lattice niter lstsq tel tx ty (Fin lam) projection nx (Some dx) dy
    = Ok (map (map Fin) [[fst a; snd a]; [fst b; snd b]], 1%nat)) by (destruct HG; reflexivity).
  assert (HS : square 2 [[fst a; snd a]; [fst b; snd b]]) by (split; [reflexivity|repeat constructor]).
  destruct (huygens_entries lstsq niter tel tx ty lam projection nx (Some dx) dy nxOut reference rv q P _ _ r0 l0 t0
    HT HL HQ Hl HR HLat HS H0 Ht0) as (psf & E & Sh & Pv & _ & N). fold n in Sh, N. rewrite Nat.mul_1_r in Sh, N.
  exists psf. split; [exact E|]. split; [exact Sh|]. split; [exact Pv|]. intros row column t Hr Hc i j.
  rewrite (N row column t Hr Hc). do 3 f_equal. cbn [lattice_point component nth]. unfold i, j. f_equal; ring.
Qed.
