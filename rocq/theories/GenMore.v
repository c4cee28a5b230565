(** C40, C41, C42: the generators. *)
From Coq Require Import Reals String List ZArith Bool Lra Psatz Lia.
From Verif Require Import Num NumR Vec CoordSys Surface Medium Ray Bundle Spec OpticsSpec XRFacts CoordFacts RayFacts
  Trig Optic Field FieldSpec PatternSpec PatternProofs RayGen GenSpec GenProofs.
Import ListNotations.
Open Scope R_scope.

Definition Fxy (p : R * R) : XR * XR := (Fin (fst p), Fin (snd p)).

(** *** Choosing the arguments *)
Lemma from_optic_chosen {A} (arg : option A) g f d a : chosen arg (says g f) d a ->
  exists r, from_optic arg (g_optic g) f = Ok r /\ or_else r d = a.
Proof.
  unfold says. intros [a' -> | a' -> H | -> H]; cbn [from_optic].
  - exists (Some a'). split; reflexivity.
  - destruct (g_optic g) as [o|]; [|discriminate]. injection H as ->. exists (Some a'). split; reflexivity.
  - destruct (g_optic g) as [o|]; [discriminate|]. exists None. split; reflexivity.
Qed.
Lemma settle_ok strict g b : describes strict g b ->
  exists m, getN m (Fin (b_w b)) = Fin (b_n b) /\ settle (negb strict) g = Ok (settled_of b m).
Proof.
  intros (H1 & (m & H2 & Hm) & H3 & H4 & H5 & H6). exists m. split; [exact Hm|].
  destruct (from_optic_chosen _ _ _ _ _ H1) as (r1 & E1 & O1). destruct (from_optic_chosen _ _ _ _ _ H2) as (r2 & E2 & O2).
  destruct (from_optic_chosen _ _ _ _ _ H4) as (r4 & E4 & O4).
  assert (H3' : exists r, match from_optic (g_stop g) (g_optic g) oa_stop with
                          | Err AttributeError => if negb strict then Ok None else Err AttributeError
                          | r => r end = Ok r /\ or_else r default_stop = (b_surf b, Fcs (b_sframe b))).
  { destruct H3 as [H3 | (-> & Hs & Hn & Hb1 & Hb2)].
    - destruct (from_optic_chosen _ _ _ _ _ H3) as (r3 & E3 & O3). exists r3. rewrite E3. split; [reflexivity|exact O3].
    - unfold says in Hn. rewrite Hs. destruct (g_optic g) as [o|]; [|discriminate]. injection Hn as Hn. cbn [from_optic]. rewrite Hn.
      exists None. split; [reflexivity|]. rewrite Hb1, Hb2. reflexivity. }
  destruct H3' as (r3 & E3 & O3). unfold settle. rewrite E1, E2; cbn [bind]. rewrite E3; cbn [bind]. rewrite E4; cbn [bind].
  assert (E5 : (match g_dir g with DirCos d => Ok d | FieldAngle tx ty p => do (a, b, c) <- fieldToDirCos tx ty p; Ok (V3 a b c) end) = Ok (F3 (b_dir b))).
  { destruct (g_dir g) as [d|u v p]; cbn in H5; [rewrite H5; reflexivity|]. rewrite H5. reflexivity. }
  rewrite E5; cbn [bind]. rewrite H6. unfold settled_of. change (nofZ 40) with (Fin 40). rewrite O1.
  change default_medium with (ConstM (Fin 1)). rewrite O2, O3. change cs_default with (Fcs (CS (V3 0 0 0) eyeR)). rewrite O4. reflexivity.
Qed.
Lemma repeat_Fin f n : repeat (Fin f) n = map Fin (repeat f n).
Proof. induction n; cbn; congruence. Qed.
Lemma launch_flux_wave b m f xys : proper b xys -> getN m (Fin (b_w b)) = Fin (b_n b) ->
  plane_wave b (repeat f (List.length xys)) xys (launch_flux (settled_of b m) (Fin f) (map Fxy xys)).
Proof.
  intros Hp Hm. unfold launch_flux. rewrite map_length, repeat_Fin. apply launch_plane_wave; try assumption. apply repeat_length.
Qed.

Theorem fromStop_plane_wave : forall g b f xys, describes true g b -> proper b xys ->
  exists rv, fromStop g (Fin f) (map Fxy xys) = Ok rv /\ plane_wave b (repeat f (List.length xys)) xys rv.
Proof.
  intros g b f xys Hd Hp. destruct (settle_ok true g b Hd) as (m & Hm & Hs). unfold fromStop. cbn [negb] in Hs. rewrite Hs. cbn [bind].
  eexists. split; [reflexivity|]. apply launch_flux_wave; assumption.
Qed.
(** No wavelength is an error in every generator, whatever the numbers are. *)
Lemma settle_wavelength {T} {NT : Num T} {TT : Trig T} tol (g : gen T) : g_wavelength g = None -> exists e, settle tol g = Err e.
Proof.
  intros H. unfold settle. rewrite H. destruct (from_optic _ _ oa_backDist); [|eexists; reflexivity]. cbn [bind].
  destruct (from_optic (g_medium g) _ _); [|eexists; reflexivity]. cbn [bind].
  destruct (match from_optic (g_stop g) _ _ with Err AttributeError => _ | r => r end); [|eexists; reflexivity]. cbn [bind].
  destruct (from_optic (g_cs g) _ _); [|eexists; reflexivity]. cbn [bind].
  destruct (match g_dir g with DirCos _ => _ | FieldAngle _ _ _ => _ end); eexists; reflexivity.
Qed.

(** *** Grid axes *)
Lemma arange_app a b c : (a <= b)%Z -> (b <= c)%Z -> arangeZ a b ++ arangeZ b c = arangeZ a c.
Proof.
  intros H1 H2. unfold arangeZ. replace (Z.to_nat (c - a)) with (Z.to_nat (b - a) + Z.to_nat (c - b))%nat by lia.
  rewrite seq_app, map_app. f_equal. rewrite <- (Nat.add_0_r (0 + Z.to_nat (b - a))) at 1.
  generalize (Z.to_nat (c - b)) as k. intros k. generalize 0%nat at 1 3 as s. 
  assert (HB : (Z.of_nat (Z.to_nat (b - a)) = b - a)%Z) by lia. set (m := Z.to_nat (b - a)) in *.
  induction k as [|k IH]; intros s; [reflexivity|]. cbn [seq map]. f_equal; [lia|]. specialize (IH (S s)).
  replace (S (0 + m + s)) with (0 + m + S s)%nat by lia. exact IH.
Qed.
Lemma arange_length a b : List.length (arangeZ a b) = Z.to_nat (b - a).
Proof. unfold arangeZ. rewrite map_length, seq_length. reflexivity. Qed.
Lemma fftshift_app {A} (p q : list A) : (List.length p = List.length q \/ List.length p = S (List.length q)) ->
  fftshift (p ++ q) = q ++ p.
Proof.
  intros H. unfold fftshift. rewrite app_length.
  assert (E : (List.length p + List.length q - (List.length p + List.length q) / 2 = List.length p)%nat).
  { destruct H as [H|H]; rewrite H.
    - replace (List.length q + List.length q)%nat with (List.length q * 2)%nat by lia. rewrite Nat.div_mul by lia. lia.
    - replace (S (List.length q) + List.length q)%nat with (1 + List.length q * 2)%nat by lia. rewrite Nat.div_add by lia. change (1 / 2)%nat with 0%nat. lia. }
  rewrite E, skipn_app, skipn_all, Nat.sub_diag, firstn_app, firstn_all, Nat.sub_diag. cbn. rewrite app_nil_r. reflexivity.
Qed.
Lemma axis_F n : (1 <= n)%nat ->
  grid_axis (Z.of_nat n) = Ok (map (fun i => Fin ((INR i - INR (n / 2)) * spacing_of n 1)) (seq 0 n)).
Proof.
  intros Hn. unfold grid_axis.
  destruct (Z.ltb_spec (Z.of_nat n) 0); [lia|]. destruct (Z.eqb_spec (Z.of_nat n) 0); [lia|]. f_equal. rewrite Nat2Z.id.
  set (d := if (Z.of_nat n <=? 2)%Z then n1 else _).
  assert (Hd : (n1 / (nofZ (Z.of_nat n) * d))%num = Fin (spacing_of n 1)).
  { assert (HNn : INR n <> 0) by (apply not_0_INR; lia).
    subst d. destruct (Z.leb_spec (Z.of_nat n) 2) as [L|L].
    - xunf. rewrite <- INR_IZR_INZ. rewrite xdiv_fin by lra. f_equal.
      destruct n as [|[|[|n]]]; try lia; cbn [spacing_of]; field; lra || exact HNn.
    - assert (Hev : (Z.of_nat n mod 2 =? 0)%Z = Nat.even n).
      { destruct (Nat.even n) eqn:E.
        - apply Nat.even_spec in E. destruct E as (k & ->). apply Z.eqb_eq. rewrite Nat2Z.inj_mul. rewrite Z.mul_comm. apply Z.mod_mul. lia.
        - assert (O : Nat.odd n = true) by (unfold Nat.odd; rewrite E; reflexivity). apply Nat.odd_spec in O. destruct O as (k & ->).
          apply Z.eqb_neq. rewrite Nat2Z.inj_add, Nat2Z.inj_mul. replace (Z.of_nat 2 * Z.of_nat k + Z.of_nat 1)%Z with (1 + Z.of_nat k * 2)%Z by lia.
          rewrite Z.mod_add by lia. cbn. lia. }
      rewrite Hev. destruct n as [|[|[|n]]]; try lia. cbn [spacing_of]. set (N := S (S (S n))) in *.
      assert (HM : (Z.of_nat N - (if Nat.even N then 2 else 1))%Z = Z.of_nat (N - (if Nat.even N then 2 else 1))) by (destruct (Nat.even N); lia).
      rewrite HM. assert (HP : INR (N - (if Nat.even N then 2 else 1)) <> 0) by (apply not_0_INR; destruct (Nat.even N); lia).
      xunf. rewrite <- !INR_IZR_INZ. rewrite xdiv_fin by exact HNn. cbn [xmul]. 
      replace (INR N * (INR (N - (if Nat.even N then 2 else 1)) / INR N)) with (INR (N - (if Nat.even N then 2 else 1))) by (field; exact HNn).
      rewrite xdiv_fin by exact HP. reflexivity. }
  unfold fftfreq. rewrite Hd. rewrite map_app, fftshift_app.
  - rewrite <- map_app.
    pose proof (Z.div_mod (Z.of_nat n) 2 ltac:(lia)). pose proof (Z.mod_pos_bound (Z.of_nat n) 2 ltac:(lia)).
    pose proof (Z.div_mod (Z.of_nat n - 1) 2 ltac:(lia)). pose proof (Z.mod_pos_bound (Z.of_nat n - 1) 2 ltac:(lia)).
    rewrite arange_app by lia. unfold arangeZ. rewrite map_map.
    replace (Z.to_nat ((Z.of_nat n - 1) / 2 + 1 - - (Z.of_nat n / 2))) with n by lia.
    apply map_ext. intros i. xunf. f_equal. rewrite plus_IZR, opp_IZR, <- INR_IZR_INZ.
    replace (Z.of_nat n / 2)%Z with (Z.of_nat (n / 2)) by (rewrite Nat2Z.inj_div; reflexivity). rewrite <- INR_IZR_INZ. ring.
  - rewrite !map_length, !arange_length.
    pose proof (Z.div_mod (Z.of_nat n) 2 ltac:(lia)). pose proof (Z.mod_pos_bound (Z.of_nat n) 2 ltac:(lia)).
    pose proof (Z.div_mod (Z.of_nat n - 1) 2 ltac:(lia)). pose proof (Z.mod_pos_bound (Z.of_nat n - 1) 2 ltac:(lia)). lia.
Qed.
Lemma spacing_scale n l : spacing_of n l = l * spacing_of n 1.
Proof. unfold spacing_of. destruct n as [|[|[|n]]]; unfold Rdiv; ring. Qed.
Lemma map_flat_map {A B C} (f : B -> C) (g : A -> list B) l : map f (flat_map g l) = flat_map (fun a => map f (g a)) l.
Proof. induction l as [|a l IH]; [reflexivity|]. cbn. rewrite map_app, IH. reflexivity. Qed.
(** What asGrid computes for any sizes. *)
Lemma grid_lattice n m (a b c d : R) : (1 <= n)%nat -> (1 <= m)%nat ->
  exists xx yy, grid_axis (Z.of_nat n) = Ok xx /\ grid_axis (Z.of_nat m) = Ok yy /\
  map (grid_point (Fin a, Fin b) (Fin c, Fin d)) (meshgrid xx yy) =
  map Fxy (lattice_points n m (spacing_of n a, spacing_of n c) (spacing_of m b, spacing_of m d)).
Proof.
  intros Hn Hm. rewrite (axis_F n Hn), (axis_F m Hm). eexists _, _. split; [reflexivity|]. split; [reflexivity|].
  unfold meshgrid, lattice_points. rewrite !map_flat_map, flat_map_map. apply flat_map_ext. intros j. rewrite !map_map. apply map_ext. intros i.
  unfold grid_point, Fxy; cbn [fst snd]. xunf. rewrite (spacing_scale n a), (spacing_scale m b), (spacing_scale n c), (spacing_scale m d).
  f_equal; f_equal; ring.
Qed.
Lemma lattice_grid n m sx sy : lattice_points n m (sx, 0) (0, sy) = grid_points n m sx sy.
Proof.
  unfold lattice_points, grid_points. apply flat_map_ext. intros j. apply map_ext. intros i. cbn [fst snd]. f_equal; ring.
Qed.
Lemma spacing_0 n : spacing_of n 0 = 0.
Proof. rewrite spacing_scale. ring. Qed.

Lemma grid_lx_ok g nx dx lx lx' : length_from g nx dx lx lx' -> grid_lx (g_optic g) nx dx lx = Ok lx'.
Proof.
  unfold grid_lx. intros [(H & ->) | [(-> & -> & H) | (-> & H & o & p & -> & Hp & ->)]].
  - destruct lx; [reflexivity|congruence].
  - destruct (g_optic g); [|reflexivity]. destruct H as [H | (H1 & H2)]; [discriminate|].
    destruct nx; [|congruence]. destruct dx; [|congruence]. reflexivity.
  - rewrite Hp. destruct H as [-> | ->]; [reflexivity|]. destruct nx; reflexivity.
Qed.
Lemma span_spacing n d : (1 <= n)%nat -> n <> 2%nat ->
  exists l, span (Sc (Fin d)) (Z.of_nat n) = Sc (Fin l) /\ forall i, (i < n)%nat -> (INR i - INR (n / 2)) * spacing_of n l = (INR i - INR (n / 2)) * d.
Proof.
  intros Hn H2. unfold span, size_times. xunf. eexists. split; [reflexivity|].
  destruct n as [|[|[|n]]]; try lia.
  - intros i Hi. replace i with 0%nat by lia. cbn. ring.
  - intros i _. f_equal. cbn [spacing_of]. set (N := S (S (S n))) in *.
    assert (Hev : (Z.of_nat N mod 2 =? 0)%Z = Nat.even N).
    { destruct (Nat.even N) eqn:E.
      - apply Nat.even_spec in E. destruct E as (k & ->). apply Z.eqb_eq. rewrite Nat2Z.inj_mul. rewrite Z.mul_comm. apply Z.mod_mul. lia.
      - assert (O : Nat.odd N = true) by (unfold Nat.odd; rewrite E; reflexivity). apply Nat.odd_spec in O. destruct O as (k & ->).
        apply Z.eqb_neq. rewrite Nat2Z.inj_add, Nat2Z.inj_mul. replace (Z.of_nat 2 * Z.of_nat k + Z.of_nat 1)%Z with (1 + Z.of_nat k * 2)%Z by lia.
        rewrite Z.mod_add by lia. cbn. lia. }
    rewrite Hev.
    replace (if Nat.even N then Z.of_nat N - 2 else Z.of_nat N - 1)%Z with (Z.of_nat (N - (if Nat.even N then 2 else 1))) by (destruct (Nat.even N); lia).
    rewrite <- INR_IZR_INZ. field. apply not_0_INR. destruct (Nat.even N); lia.
Qed.
Lemma fits_infer l d n : d <> 0 -> fits l d n -> infer_n (Sc (Fin l)) (Sc (Fin d)) = Ok (Z.of_nat n) /\ (1 <= n)%nat.
Proof.
  intros Hd (k & -> & H1 & H2). split; [|lia]. unfold infer_n. xunf. rewrite xdiv_fin by exact Hd. cbn [xadd]. rewrite xdiv_fin by lra.
  cbn [nfloor NumXR xfloor]. do 1 f_equal.
  set (x := l / d + 1 / 10) in *.
  assert (E : Int_part (x / 2) = Z.of_nat k).
  { unfold Int_part.
    assert (HU : up (x / 2) = (Z.of_nat k + 1)%Z).
    { symmetry. apply tech_up; rewrite plus_IZR, <- INR_IZR_INZ; rewrite mult_INR in *; cbn [INR] in *; lra. }
    rewrite HU. lia. }
  rewrite E. lia.
Qed.
Theorem asGrid_grid : forall g b nx ny dx dy lx lx' ly f n m sx sy,
  describes false g b -> length_from g nx dx lx lx' -> asks nx ny dx dy lx' ly n m sx sy ->
  proper b (grid_points n m sx sy) ->
  exists rv, asGrid g nx ny dx dy lx ly (Fin f) None = Ok rv /\
             plane_wave b (repeat f (List.length (grid_points n m sx sy))) (grid_points n m sx sy) rv.
Proof.
  intros g b nx ny dx dy lx lx' ly f n m sx sy Hd Hl Ha Hp. destruct (settle_ok false g b Hd) as (md & Hm & Hs).
  unfold asGrid. cbn [negb] in Hs. rewrite Hs. cbn [bind]. rewrite (grid_lx_ok g nx dx lx lx' Hl). cbn [bind].
  assert (K : exists a c, grid_sizes nx ny dx dy lx' ly = Ok (Z.of_nat n, Z.of_nat m, Sc (Fin a), Sc (Fin c)) /\ (1 <= n)%nat /\ (1 <= m)%nat /\
     grid_points n m (spacing_of n a) (spacing_of m c) = grid_points n m sx sy).
  { destruct Ha as [n m d e -> Hny Hn Hm1 Hn2 Hm2 -> Hdy -> | n m a c -> Hny Hn Hm1 -> -> Hly | n m a c d e -> -> Hdy -> Hly Hd0 He0 Hf1 Hf2].
    - destruct (span_spacing n d Hn Hn2) as (a & Ea & Sa). destruct (span_spacing m e Hm1 Hm2) as (c & Ec & Sc').
      exists a, c. split.
      + unfold grid_sizes. cbn [is_some two_of filter List.length Nat.eqb negb].
        assert (E1 : or_else ny (Z.of_nat n) = Z.of_nat m) by (destruct Hny as [-> | (-> & <-)]; reflexivity).
        assert (E2 : or_else dy (Sc (Fin d)) = Sc (Fin e)) by (destruct Hdy as [-> | (-> & <-)]; reflexivity).
        rewrite E1, E2, Ea, Ec. reflexivity.
      + split; [exact Hn|]. split; [exact Hm1|]. unfold grid_points. rewrite !flat_map_concat_map. f_equal.
        apply map_ext_in. intros j Hj. apply in_seq in Hj. apply map_ext_in. intros i Hi. apply in_seq in Hi. f_equal; [apply Sa; lia|apply Sc'; lia].
    - exists a, c. split; [|split; [exact Hn|split; [exact Hm1|reflexivity]]].
      unfold grid_sizes. cbn [is_some two_of filter List.length Nat.eqb negb].
      assert (E1 : or_else ny (Z.of_nat n) = Z.of_nat m) by (destruct Hny as [-> | (-> & <-)]; reflexivity).
      assert (E2 : or_else ly (default_ly (Sc (Fin a))) = Sc (Fin c)) by (destruct Hly as [-> | (-> & <-)]; reflexivity).
      rewrite E1, E2. reflexivity.
    - destruct (fits_infer a d n Hd0 Hf1) as (I1 & L1). destruct (fits_infer c e m He0 Hf2) as (I2 & L2).
      exists a, c. split; [|split; [exact L1|split; [exact L2|reflexivity]]].
      unfold grid_sizes. cbn [is_some two_of filter List.length Nat.eqb negb].
      assert (E1 : or_else dy (Sc (Fin d)) = Sc (Fin e)) by (destruct Hdy as [-> | (-> & <-)]; reflexivity).
      assert (E2 : or_else ly (default_ly (Sc (Fin a))) = Sc (Fin c)) by (destruct Hly as [-> | (-> & <-)]; reflexivity).
      rewrite E1, E2, I1. cbn [bind]. rewrite I2. reflexivity. }
  destruct K as (a & c & -> & Hn & Hm1 & Hg). cbn [bind].
  destruct (grid_lattice n m a 0 0 c Hn Hm1) as (xx & yy & -> & -> & Hpt). cbn [bind].
  eexists. split; [reflexivity|]. cbn [vec_x vec_y]. change (@n0 XR _) with (Fin 0). rewrite Hpt, !spacing_0, lattice_grid, Hg.
  apply launch_flux_wave; assumption.
Qed.
(** The chief ray: position (m div 2) n + n div 2 is the centre. *)
Lemma grid_chief n m sx sy : (1 <= n)%nat -> (1 <= m)%nat ->
  nth_error (grid_points n m sx sy) (m / 2 * n + n / 2) = Some (0, 0) /\ List.length (grid_points n m sx sy) = (m * n)%nat.
Proof.
  intros Hn Hm. unfold grid_points. split.
  - eapply nth_flat_map; [intros; rewrite map_length, seq_length; reflexivity|apply nth_seq, Nat.div_lt; lia|].
    rewrite nth_error_map, nth_seq by (apply Nat.div_lt; lia). cbn [option_map]. do 2 f_equal; ring.
  - rewrite (flat_map_len _ _ n) by (intros; rewrite map_length, seq_length; reflexivity). rewrite seq_length. reflexivity.
Qed.
(** The index used by the analysis functions for odd n. *)
Theorem grid_chief_odd : forall n (sx sy : R), Nat.odd n = true ->
  nth_error (grid_points n n sx sy) ((n * n - 1) / 2) = Some (0, 0).
Proof.
  intros n sx sy Hn. apply Nat.odd_spec in Hn. destruct Hn as (k & ->).
  rewrite <- (proj1 (grid_chief (2 * k + 1) (2 * k + 1) sx sy ltac:(lia) ltac:(lia))). f_equal.
  assert (H : ((2 * k + 1) / 2 = k)%nat) by (symmetry; apply (Nat.div_unique _ 2 k 1); lia).
  rewrite H. symmetry. apply (Nat.div_unique _ 2 _ 0); nia.
Qed.
