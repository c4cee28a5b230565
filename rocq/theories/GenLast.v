(** C40-C42: asPolar, asSpokes, fromFieldAngles, and what is wrong with asGrid. *)
From Coq Require Import Reals String List ZArith Bool Lra Psatz Lia.
From Verif Require Import Num NumR Vec CoordSys Surface Medium Ray Bundle Spec OpticsSpec XRFacts CoordFacts RayFacts
  Trig Optic Field FieldSpec FieldProofs PatternSpec PatternProofs RayGen GenSpec GenProofs GenMore.
Import ListNotations.
Open Scope R_scope.

(** *** The straight-down beam with nothing but a wavelength given *)
Definition plain (w : R) : gen XR := Gen None None None None None (Some (Fin w)) (DirCos (F3 (V3 0 0 (-1)))).
Definition plain_beam (w : R) : beam := Beam 40 (V3 0 0 (-1)) (CS (V3 0 0 0) eyeR) 1 w Plane (CS (V3 0 0 0) eyeR).
Lemma good_eye : good_frame (CS (V3 0 0 0) eyeR).
Proof. unfold good_frame, orthonormal, dotR. cbn. repeat split; ring. Qed.
Lemma plain_describes strict w : describes strict (plain w) (plain_beam w).
Proof.
  repeat split.
  - apply by_default; reflexivity.
  - exists (ConstM (Fin 1)). split; [apply by_default; reflexivity|reflexivity].
  - left. apply by_default; reflexivity.
  - apply by_default; reflexivity.
Qed.
Lemma plain_proper w xys : proper (plain_beam w) xys.
Proof.
  refine (conj good_eye (conj good_eye (conj _ (conj _ _)))); cbn; [lra|right; lra|].
  apply Forall_forall. intros p _. exists 0. reflexivity.
Qed.
Lemma unit_down : unitR (V3 0 0 (-1)) = V3 0 0 (-1).
Proof.
  unfold unitR, timesR, lenR, dotR. cbn. replace (0 * 0 + 0 * 0 + -1 * -1) with (1 * 1) by ring. rewrite sqrt_square by lra. f_equal; field.
Qed.
Lemma plain_pos w fl xys rv : plane_wave (plain_beam w) fl xys rv ->
  exists rs, rv = Frv (RV rs (CS (V3 0 0 0) eyeR)) /\ map pos rs = map (fun p => V3 (fst p) (snd p) 40) xys.
Proof.
  intros (rs & -> & HL & _ & H). exists rs. split; [reflexivity|]. revert rs HL H. induction xys as [|[x y] xys IH]; intros [|r rs] HL H; try discriminate; [reflexivity|].
  cbn [map]. f_equal; [|apply IH; [injection HL; auto|intros i; exact (H (S i))]]. specialize (H 0%nat x y r eq_refl eq_refl).
  destruct H as (H1 & _ & _ & _ & _ & H2 & t & z & Hz & H3). cbn in Hz. xunf. injection Hz as <-.
  cbn [plain_beam b_n b_dir b_dist b_frame b_sframe] in *. rewrite unit_down in *. destruct r as [[p1 p2 p3] [v1 v2 v3] tt ww ff vi fa]. cbn [pos vel] in *.
  unfold timesR, dotR, global_point, on_line, plusR, applyR in *. cbn in *. injection H1 as A1 A2 A3. injection H3 as B1 B2 B3.
  f_equal; nra.
Qed.

(** *** Random grids *)
Theorem asGrid_random : forall g b n ny a ly c f uv,
  describes false g b -> given ly (Sc (Fin a)) (Sc (Fin c)) ->
  Forall (fun p => - (1/2) <= fst p <= 1/2 /\ - (1/2) <= snd p <= 1/2) uv ->
  proper b (map (fun p => (a * fst p, c * snd p)) uv) ->
  exists rv, asGrid g (Some n) ny None None (Some (Sc (Fin a))) ly (Fin f) (Some (map Fxy uv)) = Ok rv /\
    plane_wave b (repeat f (List.length uv)) (map (fun p => (a * fst p, c * snd p)) uv) rv /\
    Forall (fun p => Rabs (fst p) <= Rabs a / 2 /\ Rabs (snd p) <= Rabs c / 2) (map (fun p => (a * fst p, c * snd p)) uv).
Proof.
  intros g b n ny a ly c f uv Hd Hly Hu Hp. destruct (settle_ok false g b Hd) as (md & Hm & Hs).
  unfold asGrid. cbn [negb] in Hs. rewrite Hs. cbn [bind grid_lx].
  unfold grid_sizes. cbn [is_some two_of filter List.length Nat.eqb negb].
  assert (E2 : or_else ly (default_ly (Sc (Fin a))) = Sc (Fin c)) by (destruct Hly as [-> | (-> & <-)]; reflexivity).
  rewrite E2. cbn [bind]. eexists. split; [reflexivity|]. split.
  - cbn [vec_x vec_y]. rewrite map_map.
    replace (map (fun x => grid_point (Fin a, n0) (n0, Fin c) (Fxy x)) uv) with (map Fxy (map (fun p => (a * fst p, c * snd p)) uv)).
    + rewrite <- (map_length (fun p => (a * fst p, c * snd p)) uv). apply launch_flux_wave; assumption.
    + rewrite map_map. apply map_ext. intros p. unfold grid_point, Fxy; cbn [fst snd]. xunf. f_equal; f_equal; ring.
  - apply Forall_forall. intros p Hin. apply in_map_iff in Hin. destruct Hin as (q & <- & Hin).
    rewrite Forall_forall in Hu. specialize (Hu q Hin). cbn [fst snd]. rewrite !Rabs_mult.
    assert (H1 : Rabs (fst q) <= 1/2) by (apply Rabs_le; lra). assert (H2 : Rabs (snd q) <= 1/2) by (apply Rabs_le; lra).
    pose proof (Rabs_pos a). pose proof (Rabs_pos c). split; nra.
Qed.

(** *** Vector sizes *)
Theorem asGrid_vectors : forall g b n ny m a1 a2 c1 c2 f,
  describes false g b -> given ny (Z.of_nat n) (Z.of_nat m) -> (1 <= n)%nat -> (1 <= m)%nat ->
  proper b (lattice_points n m (spacing_of n a1, spacing_of n c1) (spacing_of m a2, spacing_of m c2)) ->
  exists rv, asGrid g (Some (Z.of_nat n)) ny None None (Some (Ve (Fin a1) (Fin a2))) (Some (Ve (Fin c1) (Fin c2))) (Fin f) None = Ok rv /\
    plane_wave b (repeat f (List.length (lattice_points n m (spacing_of n a1, spacing_of n c1) (spacing_of m a2, spacing_of m c2))))
      (lattice_points n m (spacing_of n a1, spacing_of n c1) (spacing_of m a2, spacing_of m c2)) rv.
Proof.
  intros g b n ny m a1 a2 c1 c2 f Hd Hny Hn Hm1 Hp. destruct (settle_ok false g b Hd) as (md & Hm & Hs).
  unfold asGrid. cbn [negb] in Hs. rewrite Hs. cbn [bind grid_lx].
  unfold grid_sizes. cbn [is_some two_of filter List.length Nat.eqb negb or_else].
  assert (E1 : or_else ny (Z.of_nat n) = Z.of_nat m) by (destruct Hny as [-> | (-> & <-)]; reflexivity).
  rewrite E1. cbn [bind]. destruct (grid_lattice n m a1 a2 c1 c2 Hn Hm1) as (xx & yy & -> & -> & Hpt). cbn [bind].
  eexists. split; [reflexivity|]. cbn [vec_x vec_y]. rewrite Hpt. apply launch_flux_wave; assumption.
Qed.

(** ly left out: a lattice of squares, turned (the other way than lx points). *)
Theorem asGrid_turned : forall g b n ny m a1 a2 f,
  describes false g b -> given ny (Z.of_nat n) (Z.of_nat m) -> (1 <= n)%nat -> (1 <= m)%nat ->
  proper b (lattice_points n m (spacing_of n a1, spacing_of n (- a2)) (spacing_of m a2, spacing_of m a1)) ->
  exists rv, asGrid g (Some (Z.of_nat n)) ny None None (Some (Ve (Fin a1) (Fin a2))) None (Fin f) None = Ok rv /\
    plane_wave b (repeat f (List.length (lattice_points n m (spacing_of n a1, spacing_of n (- a2)) (spacing_of m a2, spacing_of m a1))))
      (lattice_points n m (spacing_of n a1, spacing_of n (- a2)) (spacing_of m a2, spacing_of m a1)) rv.
Proof.
  intros g b n ny m a1 a2 f Hd Hny Hn Hm1 Hp. destruct (asGrid_vectors g b n ny m a1 a2 (- a2) a1 f Hd Hny Hn Hm1 Hp) as (rv & E & W).
  exists rv. split; [|exact W]. rewrite <- E. unfold asGrid. cbn [grid_lx]. destruct (settle true g) as [s|e]; [|reflexivity]. cbn [bind].
  unfold grid_sizes. cbn [is_some two_of filter List.length Nat.eqb negb or_else].
  replace (default_ly (Ve (Fin a1) (Fin a2))) with (Ve (Fin (- a2)) (Fin a1)); [reflexivity|].
  unfold default_ly, n0, n1. xunf. f_equal; f_equal; ring.
Qed.

(** The documented lattice has the primitive vectors lx and ly. *)
Theorem asGrid_vectors_refuted : exists g b n lx ly rv i p r,
  describes false g b /\ proper b (lattice_points n n (spacing_of n (fst lx), spacing_of n (snd lx)) (spacing_of n (fst ly), spacing_of n (snd ly))) /\
  asGrid g (Some (Z.of_nat n)) None None None (Some (Ve (Fin (fst lx)) (Fin (snd lx)))) (Some (Ve (Fin (fst ly)) (Fin (snd ly)))) (Fin 1) None = Ok (Frv rv) /\
  nth_error (lattice_points n n (spacing_of n (fst lx), spacing_of n (snd lx)) (spacing_of n (fst ly), spacing_of n (snd ly))) i = Some p /\
  nth_error (rays rv) i = Some r /\ ~ aimed b (fst p) (snd p) r.
Proof.
  destruct (asGrid_vectors (plain 1) (plain_beam 1) 3 None 3 2 1 (-1) 2 1 (plain_describes false 1) (or_intror (conj eq_refl eq_refl)) ltac:(lia) ltac:(lia) (plain_proper _ _))
    as (rv & E & W). destruct (plain_pos _ _ _ _ W) as (rs & -> & HP).
  assert (HN : nth_error (map pos rs) 5 = Some (V3 (spacing_of 3 2) (spacing_of 3 (-1)) 40)).
  { rewrite HP. cbn. do 2 f_equal; ring. }
  rewrite nth_error_map in HN. destruct (nth_error rs 5) as [r|] eqn:Er; [|discriminate]. cbn [option_map] in HN. injection HN as HN.
  exists (plain 1), (plain_beam 1), 3%nat, (2, 1), (-1, 2), (RV rs (CS (V3 0 0 0) eyeR)), 5%nat, (spacing_of 3 2, spacing_of 3 1), r.
  split; [apply plain_describes|]. split; [apply plain_proper|]. split; [exact E|]. split; [cbn; do 2 f_equal; ring|]. split; [exact Er|].
  intros (H1 & _ & _ & _ & _ & _ & t & z & _ & H). cbn [plain_beam b_frame b_sframe b_n b_dir] in *. rewrite unit_down in H1. rewrite HN in H.
  destruct (vel r) as [v1 v2 v3]. unfold timesR, global_point, on_line, plusR, applyR in *. cbn in H, H1. injection H1 as A1 A2 A3. injection H as B1 B2 B3. nra.
Qed.

(** *** asPolar *)
Lemma circle_inside rho n r th : In (r, th) (circle_points rho n) -> r = rho.
Proof. unfold circle_points. intros H. apply in_map_iff in H. destruct H as (j & E & _). congruence. Qed.
Lemma cartesian_sq p : fst (cartesian p) * fst (cartesian p) + snd (cartesian p) * snd (cartesian p) = fst p * fst p.
Proof.
  unfold cartesian; cbn [fst snd]. pose proof (sin2_cos2 (snd p)) as H. unfold Rsqr in H.
  transitivity (fst p * fst p * (sin (snd p) * sin (snd p) + cos (snd p) * cos (snd p))); [ring|rewrite H; ring].
Qed.
Lemma evenly_bound outer inner n i : 0 <= inner <= outer -> (i < n)%nat -> 0 <= evenly outer inner n i <= outer.
Proof.
  intros Hi Hn. split; [apply evenly_nonneg; lra || lia|]. unfold evenly. destruct (Nat.eq_dec n 1) as [->|Hne].
  - replace i with 0%nat by lia. cbn. unfold Rdiv. rewrite !Rmult_0_l. lra.
  - assert (HN : 0 < INR (n - 1)) by (apply lt_0_INR; lia).
    assert (0 <= INR i / INR (n - 1)) by (apply Rmult_le_pos; [apply pos_INR|apply Rlt_le, Rinv_0_lt_compat, HN]). nra.
Qed.
Lemma rings_inside outer inner ns p : 0 <= inner <= outer -> In p (rings outer inner ns) -> 0 <= fst p <= outer.
Proof.
  intros Hi H. unfold rings in H. apply in_flat_map in H. destruct H as ((i & n) & Hin & H). destruct p as [r th].
  cbn [fst snd] in H. apply circle_inside in H. cbn [fst]. rewrite H. apply evenly_bound; [exact Hi|].
  apply in_combine_l in Hin. apply in_seq in Hin. lia.
Qed.
Lemma proper_disc_list b rad l : proper_disc b rad -> (forall p, In p l -> fst p * fst p + snd p * snd p <= rad * rad) -> proper b l.
Proof.
  intros ((HF & HS & Hn & Hd & _) & Hr) H. refine (conj HF (conj HS (conj Hn (conj Hd _)))). apply Forall_forall. intros p Hp. apply Hr, H, Hp.
Qed.
Lemma polar_radii_ok g outer inner ro ri : radii_from g outer inner ro ri -> polar_radii (g_optic g) outer inner = Ok (Fin ro, Fin ri).
Proof.
  unfold polar_radii. intros (HO & HI). destruct (g_optic g) as [o|] eqn:Eo.
  - assert (E1 : match outer, oa_pupil o with Some a, _ => Ok a | None, Some p => Ok (p / n2)%num | None, None => Err AttributeError end = Ok (Fin ro)).
    { destruct HO as [-> | (-> & o' & p & Eo' & Hp & ->)]; [reflexivity|]. injection Eo' as <-. rewrite Hp. xunf. rewrite xdiv_fin by lra. reflexivity. }
    rewrite E1. cbn [bind].
    assert (E2 : match inner, oa_pobsc o, oa_pupil o with
                    | Some a, _, _ => Ok a
                    | None, None, _ => Ok n0
                    | None, Some e, Some p => Ok (p * e / n2)%num
                    | None, Some _, None => Err AttributeError
                    end = Ok (Fin ri)).
    { destruct HI as [-> | [(-> & -> & [H | (o' & Eo' & Hp)]) | (-> & o' & p & e & Eo' & Hp & He & ->)]]; [reflexivity|discriminate| |].
      - injection Eo' as <-. rewrite Hp. reflexivity.
      - injection Eo' as <-. rewrite Hp, He. xunf. rewrite xdiv_fin by lra. reflexivity. }
    rewrite E2. reflexivity.
  - destruct HO as [-> | (-> & o' & p & Eo' & _)]; [|discriminate].
    destruct HI as [-> | [(-> & -> & _) | (-> & o' & p & e & Eo' & _)]]; [reflexivity|reflexivity|discriminate].
Qed.
Theorem asPolar_rings : forall g b outer inner ro ri nrad naz kfold f,
  describes true g b -> radii_from g outer inner ro ri -> proper_disc b ro ->
  0 < ro -> 0 <= ri <= ro -> (1 <= nrad)%nat -> (ri = 0 -> (2 <= nrad)%nat) -> (0 <= naz)%Z -> (1 <= kfold)%Z ->
  exists ns rv, asPolar g outer inner nrad naz kfold (Fin f) None = Ok rv /\
    plane_wave b (repeat f (List.length (rings ro ri ns))) (map cartesian (rings ro ri ns)) rv /\
    List.length ns = nrad /\
    forall i n, nth_error ns i = Some n ->
      (ri = 0 /\ S i = nrad -> n = 1%nat) /\
      (~ (ri = 0 /\ S i = nrad) -> ring_size kfold (IZR naz * evenly ro ri nrad i / ro) n).
Proof.
  intros g b outer inner ro ri nrad naz kfold f Hd Hr Hp Ho Hi Hn Hn2 Hz Hk.
  destruct (settle_ok true g b Hd) as (md & Hm & Hs).
  destruct (hexapolar_rings ro ri nrad naz kfold Ho (proj1 Hi) Hn Hn2 Hz Hk) as (ns & HL & H1 & _ & HN).
  exists ns. unfold asPolar. cbn [negb] in Hs. rewrite Hs. cbn [bind]. rewrite (polar_radii_ok g outer inner ro ri Hr). cbn [bind].
  rewrite H1. cbn [bind]. eexists. split; [reflexivity|]. split; [|split; assumption].
  rewrite map_map. replace (map (fun x => polar_xy (Fpair x)) (rings ro ri ns)) with (map Fxy (map cartesian (rings ro ri ns))) by (rewrite map_map; reflexivity).
  rewrite <- (map_length cartesian (rings ro ri ns)). apply launch_flux_wave; [|exact Hm].
  apply (proper_disc_list b ro); [exact Hp|]. intros p Hin. apply in_map_iff in Hin. destruct Hin as (q & <- & Hin). rewrite cartesian_sq.
  apply rings_inside in Hin; [|exact Hi]. nra.
Qed.
(** Random points of the annulus. *)
Theorem asPolar_random : forall g b outer inner ro ri nrad naz kfold f rt,
  describes true g b -> radii_from g outer inner ro ri -> proper_disc b ro -> 0 <= ri <= ro ->
  Forall (fun p => ri * ri <= fst p <= ro * ro) rt ->
  exists rv, asPolar g outer inner nrad naz kfold (Fin f) (Some (map Fxy rt)) = Ok rv /\
    plane_wave b (repeat f (List.length rt)) (map (fun p => cartesian (sqrt (fst p), snd p)) rt) rv /\
    Forall (fun p => ri * ri <= fst p * fst p + snd p * snd p <= ro * ro) (map (fun p => cartesian (sqrt (fst p), snd p)) rt).
Proof.
  intros g b outer inner ro ri nrad naz kfold f rt Hd Hr Hp Hi Hrt. destruct (settle_ok true g b Hd) as (md & Hm & Hs).
  assert (HB : Forall (fun p => ri * ri <= fst p * fst p + snd p * snd p <= ro * ro) (map (fun p => cartesian (sqrt (fst p), snd p)) rt)).
  { apply Forall_forall. intros p Hin. apply in_map_iff in Hin. destruct Hin as (q & <- & Hin). rewrite cartesian_sq. cbn [fst].
    rewrite Forall_forall in Hrt. specialize (Hrt q Hin). rewrite sqrt_sqrt by nra. exact Hrt. }
  unfold asPolar. cbn [negb] in Hs. rewrite Hs. cbn [bind]. rewrite (polar_radii_ok g outer inner ro ri Hr). cbn [bind].
  eexists. split; [reflexivity|]. split; [|exact HB].
  rewrite !map_map.
  replace (map (fun x => polar_xy (nsqrt (fst (Fxy x)), snd (Fxy x))) rt) with (map Fxy (map (fun p => cartesian (sqrt (fst p), snd p)) rt)).
  - rewrite <- (map_length (fun p => cartesian (sqrt (fst p), snd p)) rt). apply launch_flux_wave; [|exact Hm].
    apply (proper_disc_list b ro); [exact Hp|]. intros p Hin. rewrite Forall_forall in HB. apply HB in Hin. lra.
  - rewrite map_map. apply map_ext_in. intros p Hin. rewrite Forall_forall in Hrt. specialize (Hrt p Hin).
    unfold Fxy; cbn [fst snd]. xunf. rewrite xsqrt_fin by nra. reflexivity.
Qed.

(** *** asSpokes *)
Lemma spoke_xy rr th : map polar_xy (meshgrid (map Fin rr) (map Fin th)) = map Fxy (spoke_points rr th).
Proof.
  unfold meshgrid, spoke_points. rewrite !map_flat_map, flat_map_map. apply flat_map_ext. intros t. rewrite !map_map. reflexivity.
Qed.
Lemma meshgrid_length {A B} (xx : list A) (yy : list B) : List.length (meshgrid xx yy) = (List.length yy * List.length xx)%nat.
Proof. unfold meshgrid. apply flat_map_len. intros. apply map_length. Qed.
Lemma spoke_points_length rr th : List.length (spoke_points rr th) = (List.length th * List.length rr)%nat.
Proof. unfold spoke_points. apply flat_map_len. intros. apply map_length. Qed.
Lemma spoke_angles n : spoke_list (CInt n) = map Fin (map (fun j => 2 * PI * (INR j / INR n)) (seq 0 n)).
Proof.
  unfold spoke_list. xunf. cbn [npi TrigXR xmul]. rewrite linspace_open, map_map. apply map_ext. intros j. f_equal. ring.
Qed.
Lemma outer_ok g outer ro : outer_from g outer ro ->
  from_optic outer (g_optic g) (fun o => option_map (fun p => (p / n2)%num) (oa_pupil o)) = Ok (Some (Fin ro)).
Proof.
  intros [-> | (-> & o & p & -> & Hp & ->)]; [reflexivity|]. cbn [from_optic]. rewrite Hp. cbn [option_map]. xunf. rewrite xdiv_fin by lra. reflexivity.
Qed.
Theorem asSpokes_uniform : forall lg g b outer ro ri n m f,
  describes true g b -> outer_from g outer ro ->
  let radii := map (evenly ri ro n) (seq 0 n) in
  let angles := map (fun j => 2 * PI * (INR j / INR m)) (seq 0 m) in
  proper b (spoke_points radii angles) ->
  exists rv, asSpokes lg g outer (Fin ri) (Some (CInt m)) (CInt n) "uniform" (Fin f) = Ok rv /\
    plane_wave b (repeat f (m * n)) (spoke_points radii angles) rv.
Proof.
  intros lg g b outer ro ri n m f Hd Ho radii angles Hp. destruct (settle_ok true g b Hd) as (md & Hm & Hs).
  unfold asSpokes. cbn [negb] in Hs. rewrite Hs. cbn [bind]. rewrite (outer_ok g outer ro Ho). cbn [bind].
  cbn [spoke_layout String.eqb Ascii.eqb Bool.eqb need bind]. rewrite linspace_closed, spoke_angles.
  eexists. split; [reflexivity|]. rewrite meshgrid_length, !map_length, !seq_length.
  rewrite <- (map_map (evenly ri ro n) Fin). fold radii. fold angles. rewrite spoke_xy, repeat_Fin.
  apply launch_plane_wave; [exact Hp|exact Hm|]. rewrite repeat_length, spoke_points_length. unfold radii, angles. rewrite !map_length, !seq_length. reflexivity.
Qed.
Theorem asSpokes_lists : forall lg g b outer oo ri (radii angles : list R) spacing f,
  describes true g b -> from_optic outer (g_optic g) (fun o => option_map (fun p => (p / n2)%num) (oa_pupil o)) = Ok oo ->
  proper b (spoke_points radii angles) ->
  exists rv, asSpokes lg g outer (Fin ri) (Some (CList (map Fin angles))) (CList (map Fin radii)) spacing (Fin f) = Ok rv /\
    plane_wave b (repeat f (List.length angles * List.length radii)) (spoke_points radii angles) rv.
Proof.
  intros lg g b outer oo ri radii angles spacing f Hd Ho Hp. destruct (settle_ok true g b Hd) as (md & Hm & Hs).
  unfold asSpokes. cbn [negb] in Hs. rewrite Hs. cbn [bind]. rewrite Ho. cbn [bind spoke_layout need as_array].
  eexists. split; [reflexivity|]. rewrite meshgrid_length, !map_length. rewrite spoke_xy, repeat_Fin.
  apply launch_plane_wave; [exact Hp|exact Hm|]. rewrite repeat_length, spoke_points_length. reflexivity.
Qed.
(** Gaussian quadrature: radii and fluxes of the rays for a rule with nodes L and weights w. *)
Definition gq_radius (eps outer L : R) : R := sqrt (eps * eps + (1 + L) * (1 - eps * eps) / 2) * outer.
Definition gq_flux (eps : R) (m : nat) (w : R) : R := w * (PI * (1 - eps * eps)) / (2 * INR m).
Theorem asSpokes_gq : forall lg g b outer ro ri n m f (rule : list (R * R)) spokes,
  describes true g b -> outer_from g outer ro -> lg n = map Fxy rule ->
  Forall (fun lw => -1 <= fst lw <= 1) rule -> 0 <= ri <= ro -> 0 < ro -> (1 <= m)%nat ->
  spokes = Some (CInt m) \/ spokes = None /\ m = (2 * n + 1)%nat ->
  let eps := ri / ro in
  let radii := map (fun lw => gq_radius eps ro (fst lw)) rule in
  let angles := map (fun j => 2 * PI * (INR j / INR m)) (seq 0 m) in
  proper b (spoke_points radii angles) ->
  exists rv, asSpokes lg g outer (Fin ri) spokes (CInt n) "GQ" (Fin f) = Ok rv /\
    plane_wave b (flat_map (fun _ => map (fun lw => gq_flux eps m (snd lw)) rule) angles) (spoke_points radii angles) rv.
Proof.
  intros lg g b outer ro ri n m f rule spokes Hd Ho Hlg Hrule Hi Hro Hm1 Hsp eps radii angles Hp.
  destruct (settle_ok true g b Hd) as (md & Hm & Hs).
  unfold asSpokes. cbn [negb] in Hs. rewrite Hs. cbn [bind]. rewrite (outer_ok g outer ro Ho). cbn [bind].
  assert (Hsp' : or_else spokes (CInt (2 * n + 1)) = CInt m) by (destruct Hsp as [-> | (-> & ->)]; reflexivity).
  cbn [spoke_layout String.eqb Ascii.eqb Bool.eqb]. rewrite Hsp'. cbn [need bind]. rewrite spoke_angles, Hlg, !map_map.
  assert (HM : INR m <> 0) by (apply not_0_INR; lia).
  assert (E1 : map (fun x => (nsqrt (Fin ri / Fin ro * (Fin ri / Fin ro) + (n1 + fst (Fxy x)) * (n1 - Fin ri / Fin ro * (Fin ri / Fin ro)) / n2) * Fin ro)%num) rule = map Fin radii).
  { unfold radii. rewrite map_map. apply map_ext_in. intros lw Hin. rewrite Forall_forall in Hrule. specialize (Hrule lw Hin).
    unfold Fxy; cbn [fst snd]. xunf. rewrite !xdiv_fin by lra. cbn [xmul xadd xsub]. rewrite xdiv_fin by lra. cbn [xadd].
    fold eps. assert (He : 0 <= eps <= 1).
    { split; [apply Rmult_le_pos; [lra|apply Rlt_le, Rinv_0_lt_compat, Hro]|]. apply (Rmult_le_reg_r ro); [lra|]. unfold eps, Rdiv. rewrite Rmult_assoc, Rinv_l by lra. lra. }
    assert (0 <= (1 + fst lw) * (1 - eps * eps)) by (apply Rmult_le_pos; nra).
    rewrite xsqrt_fin by nra. reflexivity. }
  rewrite E1. eexists. split; [reflexivity|].
  match goal with |- plane_wave _ _ _ (launch _ ?fl _) => assert (E2 : fl = map Fin (flat_map (fun _ => map (fun lw => gq_flux eps m (snd lw)) rule) angles)) end.
  { unfold meshgrid. rewrite !map_flat_map. unfold angles. rewrite !flat_map_map. apply flat_map_ext. intros j. rewrite !map_map. apply map_ext. intros lw.
    unfold Fxy; cbn [fst snd]. xunf. rewrite <- INR_IZR_INZ. rewrite !xdiv_fin by lra. cbn [npi TrigXR xmul xsub]. fold eps. rewrite xdiv_fin by lra. reflexivity. }
  rewrite E2. replace (map (fun x => Fin (2 * PI * (INR x / INR m))) (seq 0 m)) with (map Fin angles) by (unfold angles; rewrite map_map; reflexivity).
  rewrite spoke_xy. apply launch_plane_wave; [exact Hp|exact Hm|].
  rewrite (flat_map_len _ _ (List.length rule)) by (intros; apply map_length). rewrite spoke_points_length. unfold radii. rewrite map_length. reflexivity.
Qed.
Theorem asSpokes_int_refuted : exists lg g n radii rs, (1 < n)%nat /\ (1 <= List.length radii)%nat /\
  asSpokes lg g None (Fin 0) (Some (CInt n)) (CList (map Fin radii)) "uniform" (Fin 1) = Ok (Frv rs) /\
  List.length (rays rs) = List.length radii.
Proof.
  destruct (settle_ok true (plain 1) (plain_beam 1) (plain_describes true 1)) as (md & Hm & Hs).
  set (lg := fun _ : nat => @nil (XR * XR)).
  assert (H : asSpokes lg (plain 1) None (Fin 0) (Some (CInt 4)) (CList (map Fin [1; 2; 3])) "uniform" (Fin 1) =
              asSpokes lg (plain 1) None (Fin 0) (Some (CList (map Fin [4]))) (CList (map Fin [1; 2; 3])) "uniform" (Fin 1)) by reflexivity.
  destruct (asSpokes_lists lg (plain 1) (plain_beam 1) None None 0 [1; 2; 3] [4] "uniform" 1 (plain_describes true 1) eq_refl (plain_proper _ _))
    as (rv & E & rs & -> & HL & _).
  exists lg, (plain 1), 4%nat, [1; 2; 3], (RV rs (CS (V3 0 0 0) eyeR)). split; [lia|]. split; [cbn; lia|]. split; [rewrite H; exact E|].
  cbn [rays]. rewrite HL, spoke_points_length. reflexivity.
Qed.
(** An unknown spacing: the number of rings is used as a radius. *)
Theorem asSpokes_spacing_refuted : exists lg g n m spacing rs, spacing <> "uniform"%string /\ spacing <> "GQ"%string /\ (1 < n)%nat /\ (1 < m)%nat /\
  asSpokes lg g (Some (Fin 1)) (Fin 0) (Some (CInt m)) (CInt n) spacing (Fin 1) = Ok (Frv rs) /\
  List.length (rays rs) = m /\ exists r, hd_error (rays rs) = Some r /\ cx (pos r) = INR n /\ 1 < INR n.
Proof.
  set (lg := fun _ : nat => @nil (XR * XR)).
  assert (H : asSpokes lg (plain 1) (Some (Fin 1)) (Fin 0) (Some (CInt 4)) (CInt 3) "even" (Fin 1) =
              asSpokes lg (plain 1) (Some (Fin 1)) (Fin 0) (Some (CList (spoke_list (CInt 4)))) (CList (map Fin [3])) "even" (Fin 1)) by reflexivity.
  rewrite spoke_angles in H.
  destruct (asSpokes_lists lg (plain 1) (plain_beam 1) (Some (Fin 1)) _ 0 [3] (map (fun j => 2 * PI * (INR j / INR 4)) (seq 0 4)) "even" 1 (plain_describes true 1) eq_refl (plain_proper _ _))
    as (rv & E & W). rewrite <- H in E. clear H. destruct (plain_pos _ _ _ _ W) as (rs & -> & HP).
  exists lg, (plain 1), 3%nat, 4%nat, "even"%string, (RV rs (CS (V3 0 0 0) eyeR)). repeat split; try discriminate; try lia.
  - exact E.
  - cbn [rays]. rewrite <- (map_length pos), HP, map_length, spoke_points_length. reflexivity.
  - destruct rs as [|r rs]; [discriminate|]. exists r. split; [reflexivity|]. cbn [map seq] in HP. unfold spoke_points in HP. cbn [flat_map map app] in HP.
    injection HP as HP _. rewrite HP. cbn [cx fst cartesian]. unfold cartesian; cbn [fst snd]. cbn [INR]. replace (2 * PI * (0 / (1 + 1 + 1 + 1))) with 0 by (unfold Rdiv; ring). rewrite cos_0. lra.
Qed.

(** *** fromFieldAngles *)
Lemma all_ok_F pr (thetas : list (R * R)) (ds : list vR) :
  Forall2 (fun t d => fieldToDirCos (Fin (fst t)) (Fin (snd t)) pr = Ok (Fin (cx d), Fin (cy d), Fin (cz d))) thetas ds ->
  all_ok (fun t => fieldToDirCos (fst t) (snd t) pr) (map Fxy thetas) = Ok (map (fun d => (Fin (cx d), Fin (cy d), Fin (cz d))) ds).
Proof.
  induction 1 as [|t d ts ds H _ IH]; [reflexivity|]. cbn [map all_ok]. unfold Fxy at 1 2; cbn [fst snd]. rewrite H. cbn [bind]. rewrite IH. reflexivity.
Qed.
Theorem fromFieldAngles_rays : forall optic bd l md m st s F wl w n pr thetas ds x y z f,
  chosen bd (match optic with None => None | Some o => Some (oa_backDist o) end) (Fin 40) (Fin l) ->
  chosen md (match optic with None => None | Some o => Some (Some (oa_in o)) end) (ConstM (Fin 1)) m ->
  chosen st (match optic with None => None | Some o => Some (oa_stop o) end) (Plane, Fcs (CS (V3 0 0 0) eyeR)) (s, Fcs F) ->
  wl = Some (Fin w) -> getN m (Fin w) = Fin n -> n <> 0 -> sag s (Fin x) (Fin y) = Fin z ->
  Forall2 (fun t d => fieldToDirCos (Fin (fst t)) (Fin (snd t)) pr = Ok (Fin (cx d), Fin (cy d), Fin (cz d))) thetas ds ->
  exists rs, fromFieldAngles optic bd md st wl (map Fxy thetas) pr (Fin x) (Fin y) (Fin f) = Ok (Frv (RV rs F)) /\
    Forall2 (fun d r => arriving d n l w f (V3 x y z) r) ds rs.
Proof.
  intros optic bd l md m st s F wl w n pr thetas ds x y z f H1 H2 H3 -> Hm Hn Hz Hds.
  set (g := Gen optic bd md st None None (DirCos (F3 (V3 0 0 (-1))))).
  destruct (@from_optic_chosen XR bd g oa_backDist (Fin 40) (Fin l)) as (r1 & E1 & O1); [exact H1|].
  destruct (@from_optic_chosen (medium XR) md g (fun o => Some (oa_in o)) (ConstM (Fin 1)) m) as (r2 & E2 & O2); [exact H2|].
  destruct (@from_optic_chosen (surface XR * coordsys XR) st g oa_stop (Plane, Fcs (CS (V3 0 0 0) eyeR)) (s, Fcs F)) as (r3 & E3 & O3); [exact H3|].
  cbn [g_optic g] in E1, E2, E3. unfold fromFieldAngles. rewrite E1, E2; cbn [bind]. rewrite E3; cbn [bind].
  rewrite (all_ok_F pr thetas ds Hds). cbn [bind]. change (nofZ 40) with (Fin 40). rewrite O1.
  change default_medium with (ConstM (Fin 1)). rewrite O2. change default_stop with (Plane : surface XR, Fcs (CS (V3 0 0 0) eyeR)). rewrite O3. cbn [fst snd]. rewrite Hm, Hz.
  set (mk := fun d => Ray (V3 (x + cx d / n * (- l * n)) (y + cy d / n * (- l * n)) (z + cz d / n * (- l * n))) (V3 (cx d / n) (cy d / n) (cz d / n)) (- l * n) w f false false).
  exists (map mk ds). split.
  - f_equal. unfold rv_propagate, Frv; cbn [rays rvcs]. f_equal. rewrite !map_map. apply map_ext. intros d.
    unfold ray_propagate, mk, Fray; cbn [pos vel time Ray.wavelength flux vignetted failed cx cy cz]. xunf. rewrite !xdiv_fin by exact Hn. cbn [xmul xadd xsub].
    f_equal; [f_equal; f_equal; ring|..]; reflexivity.
  - clear -Hn. induction ds as [|d ds IH]; [constructor|]. cbn [map]. constructor; [|exact IH].
    unfold arriving, mk; cbn [pos vel time Ray.wavelength flux vignetted failed]. repeat split.
    + destruct d. unfold timesR; cbn. f_equal; field; exact Hn.
    + destruct d. unfold on_line, plusR, timesR; cbn. f_equal; field; exact Hn.
    + destruct d. unfold minusR, timesR; cbn. f_equal; field; exact Hn.
Qed.
