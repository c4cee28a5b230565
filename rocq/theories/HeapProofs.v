(** C62: which arrays are written. *)
From Coq Require Import Reals List ZArith Bool String Lra Lia.
From Verif Require Import Num NumR Vec CoordSys Surface Medium Ray Bundle Spec OpticsSpec XRFacts Trig Optic Arrays Field
  RayGen GenSpec GenProofs GenMore GenLast Heap HeapSpec.
Import ListNotations.
Local Open Scope nat_scope.

Section Mem.
  Context {T : Type} {NT : Num T} {TT : Trig T}.
  Implicit Types (h : heap T) (l : list T) (a b c n : nat).
  Lemma write_length h a l : List.length (write h a l) = List.length h.
  Proof. revert a; induction h as [|c h IH]; intros [|a]; cbn; auto. Qed.
  Lemma read_same h a l : a < List.length h -> read (write h a l) a = l.
  Proof. revert a; induction h as [|c h IH]; intros [|a] H; cbn in *; try lia; [reflexivity|]. apply IH. lia. Qed.
  Lemma read_other h a b l : a <> b -> read (write h a l) b = read h b.
  Proof.
    revert a b; induction h as [|c h IH]; intros [|a] [|b] H; cbn; try congruence; try reflexivity; try lia.
    apply (IH a b). lia.
  Qed.
  Lemma read_old h l a : a < List.length h -> read (h ++ [l]) a = read h a.
  Proof. intros H. unfold read. apply app_nth1, H. Qed.
  Lemma read_new h l : read (h ++ [l]) (List.length h) = l.
  Proof. unfold read. rewrite app_nth2 by lia. rewrite Nat.sub_diag. reflexivity. Qed.

  Lemma float_array_spec h x h' a : float_array h x = (h', a) -> valid h x ->
    read h' a = values h x /\ a < List.length h' /\ List.length h <= List.length h' /\
    (forall b, b < List.length h -> read h' b = read h b) /\
    (x = Array true a \/ (forall b, x <> Array true b) /\ List.length h <= a).
  Proof.
    destruct x as [v|[|] b]; cbn [float_array]; intros E HV; injection E as <- <-; cbn [values valid] in *.
    - rewrite read_new, app_length. cbn. repeat split; try lia; [intros b Hb; apply read_old, Hb|]. right. split; [discriminate|lia].
    - repeat split; auto.
    - rewrite read_new, app_length. cbn. repeat split; try lia; [intros c Hc; apply read_old, Hc|]. right. split; [discriminate|lia].
  Qed.
  Lemma zip3_length (xs ys zs : list T) : List.length ys = List.length xs -> List.length zs = List.length xs -> List.length (zip3 xs ys zs) = List.length xs.
  Proof. intros. unfold zip3. rewrite map_length, !combine_length. lia. Qed.
  Lemma zip3_vec (qs : list (vec3 T)) : zip3 (map cx qs) (map cy qs) (map cz qs) = qs.
  Proof. unfold zip3. induction qs as [|[q1 q2 q3] qs IH]; [reflexivity|]. cbn. f_equal. exact IH. Qed.
  Lemma zip3_sag (f : T * T -> T) xs ys : zip3 xs ys (map f (combine xs ys)) = map (fun p => V3 (fst p) (snd p) (f p)) (combine xs ys).
  Proof. unfold zip3. revert ys; induction xs as [|x xs IH]; intros [|y ys]; try reflexivity. cbn. f_equal. apply IH. Qed.
  Lemma inplace3_spec f h x y z : x <> y -> x <> z -> y <> z -> x < List.length h -> y < List.length h -> z < List.length h ->
    let h' := inplace3 f h x y z in
    zip3 (read h' x) (read h' y) (read h' z) = map f (zip3 (read h x) (read h y) (read h z)) /\
    List.length h' = List.length h /\ forall b, b <> x -> b <> y -> b <> z -> read h' b = read h b.
  Proof.
    intros Hxy Hxz Hyz Hx Hy Hz h'. unfold h', inplace3. set (qs := map f _).
    repeat split.
    - rewrite (read_other _ z x) by auto. rewrite (read_other _ y x) by auto. rewrite read_same by exact Hx.
      rewrite (read_other _ z y) by auto. rewrite read_same by (rewrite write_length; exact Hy). rewrite read_same by (rewrite !write_length; exact Hz). apply zip3_vec.
    - rewrite !write_length. reflexivity.
    - intros b H1 H2 H3. rewrite !read_other by auto. reflexivity.
  Qed.
  Theorem fromStop_mem_pure : forall h g x y f,
    valid h x -> valid h y -> List.length (values h x) = List.length (values h y) -> (forall a, ~ (x = Array true a /\ y = Array true a)) ->
    match fromStop g f (combine (values h x) (values h y)) with
    | Err e => fromStop_mem h g x y = Err e
    | Ok rv => exists h' a b c, fromStop_mem h g x y = Ok (h', (a, b, c)) /\
        zip3 (read h' a) (read h' b) (read h' c) = map pos (rays rv) /\
        (forall k, x = Array true k -> a = k) /\ (forall k, y = Array true k -> b = k) /\
        forall k, k < List.length h -> x <> Array true k -> y <> Array true k -> read h' k = read h k
    end.
  Proof.
    intros h g x y f Vx Vy HL Hap. unfold fromStop, fromStop_mem. destruct (settle false g) as [s|e]; [|reflexivity]. cbn [bind].
    destruct (float_array h x) as [h1 a] eqn:Ex. destruct (float_array_spec h x h1 a Ex Vx) as (Rx & La & L1 & P1 & Fx).
    destruct (float_array h1 y) as [h2 b] eqn:Ey.
    assert (Vy1 : valid h1 y) by (destruct y; cbn in *; [exact I|lia]).
    assert (Ev : values h1 y = values h y) by (destruct y; cbn in *; [reflexivity|apply P1, Vy]).
    destruct (float_array_spec h1 y h2 b Ey Vy1) as (Ry & Lb & L2 & P2 & Fy). rewrite Ev in Ry.
    assert (Rx2 : read h2 a = values h x) by (rewrite P2 by exact La; exact Rx).
    rewrite Rx2, Ry, HL, Nat.eqb_refl. cbn [negb alloc].
    assert (Hab : a <> b).
    { intros <-. destruct Fx as [-> | (Nx & Gx)], Fy as [-> | (Ny & Gy)]; cbn in *; try lia. apply (Hap a). split; reflexivity. }
    destruct (finish_frame _ _ _) as [dr d] eqn:EF.
    set (zs := map _ (combine (values h x) (values h y))). set (h3 := h2 ++ [zs]). set (c := List.length h2).
    assert (Lc : c < List.length h3) by (unfold h3, c; rewrite app_length; cbn; lia).
    assert (L3 : List.length h2 <= List.length h3) by (unfold h3; rewrite app_length; lia).
    set (ct := mkCT (snd (s_stop s)) (s_cs s)).
    destruct (inplace3_spec (fwd_point (ct_dr ct) (ct_drot ct)) h3 a b c) as (Z1 & N1 & O1); [auto|unfold c; lia|unfold c; lia|lia|lia|lia|].
    set (h4 := inplace3 (fwd_point (ct_dr ct) (ct_drot ct)) h3 a b c) in *.
    destruct (inplace3_spec (finishParallel dr d (finish_vel (s_dir s) (getN (s_medium s) (s_w s)))) h4 a b c) as (Z2 & N2 & O2); [auto|unfold c; lia|unfold c; lia|lia|lia|lia|].
    exists (inplace3 (finishParallel dr d (finish_vel (s_dir s) (getN (s_medium s) (s_w s)))) h4 a b c), a, b, c. split; [reflexivity|]. split.
    - rewrite Z2, Z1. unfold h3 at 1 2 3. rewrite (read_old h2 zs a) by lia. rewrite (read_old h2 zs b) by lia. rewrite Rx2, Ry. unfold c; rewrite read_new.
      unfold zs. rewrite zip3_sag, !map_map. unfold launch_flux, launch, finish. rewrite EF. cbn [rays]. rewrite map_map.
      cbn [pos]. generalize (combine (values h x) (values h y)); intros xy. rewrite <- (map_length (stop_point (s_stop s) (s_cs s)) xy).
      replace (map (fun x0 => finishParallel dr d (finish_vel (s_dir s) (getN (s_medium s) (s_w s))) (fwd_point (ct_dr ct) (ct_drot ct) (V3 (fst x0) (snd x0) (sag (fst (s_stop s)) (fst x0) (snd x0))))) xy)
        with (map (finishParallel dr d (finish_vel (s_dir s) (getN (s_medium s) (s_w s)))) (map (stop_point (s_stop s) (s_cs s)) xy)) by (rewrite map_map; reflexivity).
      generalize (map (stop_point (s_stop s) (s_cs s)) xy). intros ps. induction ps as [|p ps IH]; [reflexivity|]. cbn. f_equal. exact IH.
    - split; [intros k ->; destruct Fx as [E | (E & _)]; [congruence|destruct (E k eq_refl)]|].
      split; [intros k ->; destruct Fy as [E | (E & _)]; [congruence|destruct (E k eq_refl)]|].
      intros k Hl Hnx Hny.
      assert (k <> a) by (intros ->; destruct Fx as [-> | (Nx & Gx)]; [congruence|lia]).
      assert (k <> b) by (intros ->; destruct Fy as [-> | (Ny & Gy)]; [congruence|lia]).
      assert (k <> c) by (unfold c; lia).
      rewrite O2, O1 by assumption. unfold h3. rewrite read_old by lia. rewrite P2 by lia. apply P1, Hl.
  Qed.

  (** The constructor. *)
  Lemma copy_arg_spec h n x h' a : copy_arg h n x = Ok (h', a) ->
    exists l, h' = h ++ [l] /\ a = List.length h /\ l = broadcast n (values h x).
  Proof.
    destruct x as [v|fl b]; cbn [copy_arg values broadcast].
    - intros E. injection E as <- <-. eexists; repeat split; reflexivity.
    - destruct (read h b) as [|v [|w l]] eqn:E; intros K.
      + cbn in K. destruct n; [|discriminate]. injection K as <- <-. eexists; repeat split.
      + injection K as <- <-. eexists; repeat split.
      + destruct (_ =? n); [|discriminate]. injection K as <- <-. eexists; repeat split.
  Qed.
  Lemma copy_args_spec args : forall h n h' rs, copy_args h n args = Ok (h', rs) -> Forall (valid h) args ->
    exists ls, h' = h ++ ls /\ rs = seq (List.length h) (List.length args) /\ ls = map (fun x => broadcast n (values h x)) args.
  Proof.
    induction args as [|x args IH]; intros h n h' rs; cbn [copy_args].
    - intros E _. injection E as <- <-. exists []. rewrite app_nil_r. repeat split.
    - destruct (copy_arg h n x) as [[h1 a]|] eqn:E1; [|discriminate]. cbn [bind]. destruct (copy_args h1 n args) as [[h2 rs']|] eqn:E2; [|discriminate].
      cbn [bind]. intros E HV. injection E as <- <-. inversion HV as [|? ? V1 V2]; subst.
      destruct (copy_arg_spec h n x h1 a E1) as (l & -> & -> & ->).
      destruct (IH _ _ _ _ E2) as (ls & -> & -> & ->).
      { revert V2. apply Forall_impl. intros y. destruct y; cbn; [auto|]. rewrite app_length. lia. }
      eexists. split; [rewrite <- app_assoc; reflexivity|]. cbn [List.length seq map app]. rewrite app_length. cbn [List.length]. rewrite Nat.add_1_r. split; [reflexivity|].
      f_equal. apply map_ext_in. intros y Hy. rewrite Forall_forall in V2. specialize (V2 y Hy). destruct y; cbn in *; [reflexivity|]. rewrite read_old by exact V2. reflexivity.
  Qed.
  Lemma writes_old locs h h' b : writes locs h h' -> ~ In b locs -> read h' b = read h b.
  Proof.
    induction 1 as [h|h h' a l W IH Hin]; [reflexivity|]. intros Hb. rewrite read_other; [exact (IH Hb)|]. intros ->. contradiction.
  Qed.
  Theorem init_copies : forall h args h' rs, Forall (valid h) args -> init_mem h args = Ok (h', rs) ->
    NoDup rs /\ (forall i x, nth_error args i = Some x -> exists r, nth_error rs i = Some r /\
       read h' r = broadcast (fold_right Nat.max 1 (map (arg_length h) args)) (values h x)) /\
    forall h'' b, writes rs h' h'' -> b < List.length h -> read h'' b = read h b.
  Proof.
    intros h args h' rs HV E. unfold init_mem in E. destruct (copy_args_spec _ _ _ _ _ E HV) as (ls & -> & -> & Hls). split; [apply seq_NoDup|]. split.
    - intros i x Hi. assert (Hlt : i < List.length args) by (apply nth_error_Some; congruence). exists (List.length h + i).
      split; [rewrite nth_error_nth' with (d := 0) by (rewrite seq_length; exact Hlt); rewrite seq_nth by exact Hlt; reflexivity|].
      unfold read. rewrite app_nth2 by lia. replace (List.length h + i - List.length h) with i by lia.
      apply nth_error_nth. rewrite Hls, nth_error_map, Hi. reflexivity.
    - intros h'' b W Hb. rewrite (writes_old _ _ _ b W) by (rewrite in_seq; lia). unfold read. apply app_nth1, Hb.
  Qed.

  (** fromFieldAngles. *)
  Lemma ortho_ok u v : fieldToDirCos u v "orthographic" = Ok (orthographicToDirCos u v).
  Proof. reflexivity. Qed.
  Lemma ortho_all xs ys : List.length xs = List.length ys -> exists ds, all_ok (fun t => fieldToDirCos (fst t) (snd t) "orthographic") (combine xs ys) = Ok ds /\
    map (fun d => fst (fst d)) ds = xs /\ map (fun d => snd (fst d)) ds = ys.
  Proof.
    revert ys; induction xs as [|x xs IH]; intros [|y ys] H; try discriminate.
    - exists []. repeat split.
    - destruct (IH ys) as (ds & E & H1 & H2); [injection H; auto|]. exists (orthographicToDirCos x y :: ds). cbn [combine all_ok fst snd]. rewrite ortho_ok, E. cbn [bind].
      split; [reflexivity|]. cbn [map]. unfold orthographicToDirCos; cbn [fst snd]. split; congruence.
  Qed.
  Lemma divided_zip (n : T) (ds : list (T * T * T)) :
    zip3 (map (fun v => (v / n)%num) (map (fun d => fst (fst d)) ds)) (map (fun v => (v / n)%num) (map (fun d => snd (fst d)) ds)) (map (fun v => (v / n)%num) (map snd ds)) =
    map (fun abg => let '(a, b, c) := abg in V3 (a / n)%num (b / n)%num (c / n)%num) ds.
  Proof. unfold zip3. induction ds as [|[[a b] c] ds IH]; [reflexivity|]. cbn. f_equal. exact IH. Qed.
  Lemma divide3 (n : T) h a b c : a <> b -> a <> c -> b <> c -> a < List.length h -> b < List.length h -> c < List.length h ->
    let h' := divide_mem n (divide_mem n (divide_mem n h a) b) c in
    zip3 (read h' a) (read h' b) (read h' c) =
      zip3 (map (fun v => (v / n)%num) (read h a)) (map (fun v => (v / n)%num) (read h b)) (map (fun v => (v / n)%num) (read h c)) /\
    forall d, d <> a -> d <> b -> d <> c -> read h' d = read h d.
  Proof.
    intros Hab Hac Hbc La Lb Lc h'. unfold h', divide_mem. split.
    - rewrite (read_other _ c a) by auto. rewrite (read_other _ b a) by auto. rewrite read_same by exact La.
      rewrite (read_other _ c b) by auto. rewrite read_same by (rewrite write_length; exact Lb). rewrite read_same by (rewrite !write_length; exact Lc).
      rewrite (read_other _ a b) by auto. rewrite (read_other _ b c) by auto. rewrite (read_other _ a c) by auto. reflexivity.
    - intros d H1 H2 H3. rewrite !read_other by auto. reflexivity.
  Qed.
  Theorem fromFieldAngles_mem_pure : forall h optic bd md st wl u v pr x y f,
    u < List.length h -> v < List.length h -> List.length (read h u) = List.length (read h v) -> (pr = "orthographic"%string -> u <> v) ->
    match fromFieldAngles optic bd md st wl (combine (read h u) (read h v)) pr x y f with
    | Err e => fromFieldAngles_mem h optic bd md st wl u v pr x y f = Err e
    | Ok rv => exists h', fromFieldAngles_mem h optic bd md st wl u v pr x y f = Ok (h', rv) /\
        forall b, b < List.length h -> pr <> "orthographic"%string \/ b <> u /\ b <> v -> read h' b = read h b
    end.
  Proof.
    intros h optic bd md st wl u v pr x y f Hu Hv HL Huv. unfold fromFieldAngles, fromFieldAngles_mem.
    destruct (from_optic bd optic oa_backDist) as [bd'|e]; [|reflexivity]. cbn [bind].
    destruct (from_optic md optic _) as [md'|e]; [|reflexivity]. cbn [bind].
    destruct (from_optic st optic oa_stop) as [st'|e]; [|reflexivity]. cbn [bind].
    destruct wl as [w|]; [|reflexivity].
    set (n := getN (or_else md' default_medium) w).
    assert (K : match all_ok (fun t => fieldToDirCos (fst t) (snd t) pr) (combine (read h u) (read h v)) with
                | Err e => fieldToDirCos_mem h u v pr = Err e
                | Ok ds => exists h1 a b c, fieldToDirCos_mem h u v pr = Ok (h1, (a, b, c)) /\ a <> b /\ a <> c /\ b <> c /\
                    a < List.length h1 /\ b < List.length h1 /\ c < List.length h1 /\
                    read h1 a = map (fun d => fst (fst d)) ds /\ read h1 b = map (fun d => snd (fst d)) ds /\ read h1 c = map snd ds /\
                    (forall d, d < List.length h -> read h1 d = read h d) /\
                    (forall d, d < List.length h -> pr <> "orthographic"%string \/ d <> u /\ d <> v -> d <> a /\ d <> b /\ d <> c)
                end).
    { unfold fieldToDirCos_mem. destruct (String.eqb_spec pr "orthographic") as [->|Hpr].
      - destruct (ortho_all _ _ HL) as (ds & E & E1 & E2). rewrite E. cbn [bind alloc]. specialize (Huv eq_refl).
        exists (h ++ [map snd ds]), u, v, (List.length h). rewrite app_length; cbn [List.length]. rewrite read_new, !read_old by assumption.
        repeat split; try lia; auto.
        + intros d Hd. apply read_old, Hd.
        + destruct H0 as [H0 | H0]; [congruence|apply H0].
        + destruct H0 as [H0 | H0]; [congruence|apply H0].
      - destruct (all_ok _ _) as [ds|e]; [|reflexivity]. cbn [bind alloc].
        set (h1 := h ++ [map (fun d => fst (fst d)) ds]). set (h2 := h1 ++ [map (fun d => snd (fst d)) ds]).
        assert (L1 : List.length h1 = S (List.length h)) by (unfold h1; rewrite app_length; cbn; lia).
        assert (L2 : List.length h2 = S (S (List.length h))) by (unfold h2; rewrite app_length, L1; cbn; lia).
        exists (h2 ++ [map snd ds]), (List.length h), (List.length h1), (List.length h2). rewrite app_length, read_new; cbn [List.length].
        rewrite !(read_old h2) by lia. assert (RB : read h2 (List.length h1) = map (fun d => snd (fst d)) ds) by apply read_new. rewrite RB. assert (RA : read h2 (List.length h) = map (fun d => fst (fst d)) ds) by (unfold h2; rewrite read_old by lia; apply read_new). rewrite RA.
        repeat split; try lia. intros d Hd. rewrite read_old by lia. unfold h2. rewrite read_old by lia. unfold h1. apply read_old, Hd. }
    destruct (all_ok _ _) as [ds|e]; [|rewrite K; reflexivity]. destruct K as (h1 & a & b & c & -> & Hab & Hac & Hbc & La & Lb & Lc & Ra & Rb & Rc & Hold & Hne).
    cbn [bind]. destruct (divide3 n h1 a b c Hab Hac Hbc La Lb Lc) as (Z & O). rewrite Z, Ra, Rb, Rc, divided_zip, map_map.
    eexists. split; [f_equal; f_equal; f_equal; f_equal; apply map_ext; intros [[p q] r]; reflexivity|].
    intros d Hd Hd'. destruct (Hne d Hd Hd') as (N1 & N2 & N3). rewrite O by assumption. apply Hold, Hd.
  Qed.
End Mem.

Local Open Scope R_scope.
(** *** A frame shifted along x *)
Definition shifted : gen XR := Gen None None None None (Some (Fcs (CS (V3 1 0 0) eyeR))) (Some (Fin 1)) (DirCos (F3 (V3 0 0 (-1)))).
Definition shifted_beam : beam := Beam 40 (V3 0 0 (-1)) (CS (V3 1 0 0) eyeR) 1 1 Plane (CS (V3 0 0 0) eyeR).
Lemma shifted_describes strict : describes strict shifted shifted_beam.
Proof.
  repeat split.
  - apply by_default; reflexivity.
  - exists (ConstM (Fin 1)). split; [apply by_default; reflexivity|reflexivity].
  - left. apply by_default; reflexivity.
  - apply by_argument; reflexivity.
Qed.
Lemma shifted_proper xys : proper shifted_beam xys.
Proof.
  refine (conj _ (conj good_eye (conj _ (conj _ _)))); cbn; [exact good_eye|lra|right; lra|].
  apply Forall_forall. intros p _. exists 0. reflexivity.
Qed.
Lemma shifted_ray (x y : R) : exists rv, fromStop shifted (Fin 1) [(Fin x, Fin y)] = Ok rv /\ map pos (rays rv) = [F3 (V3 (x - 1) y 40)].
Proof.
  destruct (fromStop_plane_wave shifted shifted_beam 1 [(x, y)] (shifted_describes true) (shifted_proper _)) as (rv & E & W).
  exists rv. split; [exact E|]. clear E. destruct W as (rs & -> & HL & _ & H). destruct rs as [|r [|? ?]]; try discriminate.
  specialize (H 0%nat x y r eq_refl eq_refl). destruct H as (H1 & _ & _ & _ & _ & H2 & t & z & Hz & H3). cbn in Hz. xunf. injection Hz as <-.
  cbn [shifted_beam b_n b_dir b_dist b_frame b_sframe] in *. rewrite unit_down in *. destruct r as [[p1 p2 p3] [v1 v2 v3] tt ww ff vi fa]. cbn [pos vel] in *.
  unfold timesR, dotR, global_point, on_line, plusR, applyR in *. cbn in *. injection H1 as A1 A2 A3. injection H3 as B1 B2 B3.
  assert (p1 = x - 1) by nra. assert (p2 = y) by nra. assert (p3 = 40) by nra. subst. reflexivity.
Qed.
Theorem fromStop_writes_refuted : exists (h : heap XR) g a b h' r, (a < List.length h)%nat /\ (b < List.length h)%nat /\ a <> b /\
  List.length (read h a) = List.length (read h b) /\
  fromStop_mem h g (Array true a) (Array true b) = Ok (h', r) /\ read h' a <> read h a.
Proof.
  set (h := [[Fin 1]; [Fin 0]]). destruct (shifted_ray 1 0) as (rv & E & Hp).
  pose proof (fromStop_mem_pure h shifted (Array true 0) (Array true 1) (Fin 1)) as H. cbn [values read nth h combine] in H. rewrite E in H.
  destruct H as (h' & a & b & c & Hm & Hz & Ha & Hb & _); [cbn; lia|cbn; lia|reflexivity|intros k (K1 & K2); congruence|].
  rewrite (Ha 0%nat eq_refl), (Hb 1%nat eq_refl) in *. rewrite Hp in Hz.
  exists h, shifted, 0%nat, 1%nat, h', (0%nat, 1%nat, c). repeat split; try (cbn; lia); try exact Hm.
  intros K. rewrite K in Hz. unfold h in Hz; cbn [read nth] in Hz. unfold zip3 in Hz.
  destruct (read h' 1) as [|q l]; [discriminate|]. destruct (read h' c) as [|z l']; [discriminate|]. cbn in Hz. injection Hz as K1 _ _. lra.
Qed.
(** The same array as x and as y. *)
Theorem fromStop_same_refuted : exists (h : heap XR) g a h' r rv, (a < List.length h)%nat /\
  fromStop g (Fin 1) (combine (read h a) (read h a)) = Ok rv /\
  fromStop_mem h g (Array true a) (Array true a) = Ok (h', r) /\
  zip3 (read h' (fst (fst r))) (read h' (snd (fst r))) (read h' (snd r)) <> map pos (rays rv).
Proof.
  set (h := [[Fin 1]]). destruct (shifted_ray 1 1) as (rv & E & Hp). destruct (settle_ok true shifted shifted_beam (shifted_describes true)) as (md & Hm & Hs).
  cbn [negb] in Hs.
  assert (K : exists h' c, fromStop_mem h shifted (Array true 0) (Array true 0) = Ok (h', (0%nat, 0%nat, c))).
  { unfold fromStop_mem. rewrite Hs. cbn [bind float_array]. rewrite Nat.eqb_refl. cbn [negb alloc]. destruct (finish_frame _ _ _) as [dr d]. eexists. eexists. reflexivity. }
  destruct K as (h' & c & K). exists h, shifted, 0%nat, h', (0%nat, 0%nat, c), rv. split; [cbn; lia|]. split; [exact E|]. split; [exact K|]. cbn [fst snd].
  rewrite Hp. unfold zip3. destruct (read h' 0) as [|q l]; [discriminate|]. destruct (read h' c) as [|z l']; [discriminate|]. cbn. intros X. injection X as X1 X2 _ _. rewrite X1 in X2. injection X2. lra.
Qed.
(** Orthographic field angles. *)
Lemma ortho_half : exists g, fieldToDirCos (Fin (1/2)) (Fin 0) "orthographic" = Ok (Fin (1/2), Fin 0, g).
Proof. eexists. reflexivity. Qed.
Theorem fromFieldAngles_writes_refuted : exists (h : heap XR) med a b h' rv, (a < List.length h)%nat /\ (b < List.length h)%nat /\ a <> b /\
  fromFieldAngles_mem h None None (Some med) None (Some (Fin 1)) a b "orthographic" (Fin 0) (Fin 0) (Fin 1) = Ok (h', rv) /\ read h' a <> read h a.
Proof.
  eexists [[Fin (1/2)]; [Fin 0]], (ConstM (Fin 2)), 0%nat, 1%nat, _, _. split; [cbn; lia|]. split; [cbn; lia|]. split; [lia|]. split.
  - unfold fromFieldAngles_mem. cbn [from_optic bind]. unfold fieldToDirCos_mem. cbn [read nth combine all_ok fst snd]. rewrite ortho_ok. cbn [bind]. change (String.eqb "orthographic" "orthographic") with true. cbn [alloc app List.length bind or_else map].
    reflexivity.
  - cbn. destruct (Req_EM_T 2 0); [lra|]. intros K. injection K. lra.
Qed.
Lemma read_div_one (h : heap XR) a b : Forall (fun v => exists r, v = Fin r) (read h b) -> read (divide_mem (Fin 1) h a) b = read h b.
Proof.
  intros H. destruct (Nat.eq_dec a b) as [->|Hne]; [|unfold divide_mem; apply read_other, Hne].
  destruct (Nat.lt_ge_cases b (List.length h)) as [Hb|Hb].
  - unfold divide_mem. rewrite read_same by exact Hb. induction H as [|v l (r & ->) _ IH]; [reflexivity|]. cbn [map]. f_equal; [|exact IH]. xunf. rewrite xdiv_fin by lra. f_equal. field.
  - unfold read. rewrite !nth_overflow; [reflexivity|exact Hb|]. unfold divide_mem. rewrite write_length. exact Hb.
Qed.
Theorem fromFieldAngles_vacuum : forall (h : heap XR) optic bd md st w u v pr x y f h' rv,
  (forall m, from_optic md optic (fun o => Some (oa_in o)) = Ok m -> getN (or_else m default_medium) w = Fin 1) ->
  fromFieldAngles_mem h optic bd md st (Some w) u v pr x y f = Ok (h', rv) ->
  forall b, (b < List.length h)%nat -> Forall (fun z => exists r, z = Fin r) (read h b) -> read h' b = read h b.
Proof.
  intros h optic bd md st w u v pr x y f h' rv Hn E b Hb Hf. unfold fromFieldAngles_mem in E.
  destruct (from_optic bd optic oa_backDist) as [bd'|]; [|discriminate]. cbn [bind] in E.
  destruct (from_optic md optic _) as [md'|]; [|discriminate]. specialize (Hn md' eq_refl). cbn [bind] in E.
  destruct (from_optic st optic oa_stop) as [st'|]; [|discriminate]. cbn [bind] in E. rewrite Hn in E.
  unfold fieldToDirCos_mem in E. destruct (all_ok _ _) as [ds|]; [|discriminate]. cbn [bind alloc] in E. destruct (String.eqb pr "orthographic"); cbn [bind alloc] in E.
  - injection E as <- _. assert (RB : read (h ++ [map snd ds]) b = read h b) by (apply read_old, Hb).
    rewrite read_div_one, read_div_one, read_div_one, RB; try (rewrite ?read_div_one; rewrite ?RB; assumption). reflexivity.
    rewrite read_div_one; rewrite ?read_div_one; rewrite ?RB; assumption.
  - injection E as <- _. set (h3 := ((h ++ _) ++ _) ++ _). assert (RB : read h3 b = read h b).
    { unfold h3. rewrite !read_old; rewrite ?app_length; cbn; try lia. reflexivity. }
    rewrite read_div_one, read_div_one, read_div_one, RB; try (rewrite ?read_div_one; rewrite ?RB; assumption). reflexivity.
    rewrite read_div_one; rewrite ?read_div_one; rewrite ?RB; assumption.
Qed.
