(** C36 for rectangles, C37: containsGrid. *)
From Coq Require Import Reals List Bool Arith Lia Lra Psatz Permutation SpecFloat.
From Verif Require Import Num NumR NumF Trig Obscuration Grid Spec XRFacts ObscSpec ObscProofs.
Import ListNotations.
Open Scope R_scope.

(** ** Rectangles *)
Lemma left_turned c th a1 b1 a2 b2 a b :
  left_of (turned c th a1 b1) (turned c th a2 b2) (turned c th a b) = left_of (a1, b1) (a2, b2) (a, b).
Proof.
  pose proof (sin2_cos2 th) as S. unfold Rsqr in S. unfold left_of, turned; cbn [fst snd].
  transitivity (((a2 - a1) * (b - b1) - (b2 - b1) * (a - a1)) * (sin th * sin th + cos th * cos th)); [ring|].
  rewrite S. ring.
Qed.
Lemma turned_inj c th a b a' b' : turned c th a b = turned c th a' b' -> a = a' /\ b = b'.
Proof.
  intros E. destruct (turned c th a b) as [x y] eqn:T. symmetry in T. apply turned_coords in E, T. 
  destruct E as [-> ->], T as [-> ->]. split; reflexivity.
Qed.
Lemma corners_convex w h c th : 0 < w -> 0 < h -> convex_polygon (corners w h c th).
Proof.
  intros Hw Hh. split.
  - unfold corners. repeat constructor; cbn [In]; intros H;
    repeat (destruct H as [H|H]; [apply turned_inj in H; lra|]); exact H.
  - intros p q s He Hs Hp Hq. unfold corners in He, Hs. cbn [edges app combine In] in He, Hs.
    repeat (destruct He as [He|He]; [injection He; intros <- <-; clear He|]); [| | | |destruct He];
    repeat (destruct Hs as [Hs|Hs]; [subst s|]); try congruence; try destruct Hs;
    rewrite left_turned; unfold left_of; cbn [fst snd]; 
    match goal with |- 0 < ?e => first [replace e with (w * h) by field | replace e with (h * w) by field] end;
    apply Rmult_lt_0_compat; lra.
Qed.
Lemma corners_inside w h c th a b : 0 < w -> 0 < h -> - w / 2 < a < w / 2 -> - h / 2 < b < h / 2 ->
  inside (corners w h c th) (turned c th a b).
Proof.
  intros Hw Hh Ha Hb. split; [discriminate|]. intros p q He. unfold corners in He. cbn [edges app combine In] in He.
  repeat (destruct He as [He|He]; [injection He; intros <- <-; clear He|]); [| | | |destruct He];
  rewrite left_turned; unfold left_of; cbn [fst snd].
  - replace (_ - _) with (w * (b + h / 2)) by field. apply Rmult_lt_0_compat; lra.
  - replace (_ - _) with (h * (w / 2 - a)) by field. apply Rmult_lt_0_compat; lra.
  - replace (_ - _) with (w * (h / 2 - b)) by field. apply Rmult_lt_0_compat; lra.
  - replace (_ - _) with (h * (a + w / 2)) by field. apply Rmult_lt_0_compat; lra.
Qed.
Lemma corners_outside w h c th a b : 0 < w -> 0 < h ->
  (a < - w / 2 \/ w / 2 < a \/ b < - h / 2 \/ h / 2 < b) -> outside (corners w h c th) (turned c th a b).
Proof.
  intros Hw Hh H. unfold outside, corners. cbn [edges app combine In].
  destruct H as [H|[H|[H|H]]].
  - do 2 eexists. split; [right; right; right; left; reflexivity|]. rewrite left_turned. unfold left_of; cbn [fst snd].
    replace (_ - _) with (h * (a + w / 2)) by field. assert (0 < h * - (a + w / 2)) by (apply Rmult_lt_0_compat; lra). lra.
  - do 2 eexists. split; [right; left; reflexivity|]. rewrite left_turned. unfold left_of; cbn [fst snd].
    replace (_ - _) with (h * (w / 2 - a)) by field. assert (0 < h * - (w / 2 - a)) by (apply Rmult_lt_0_compat; lra). lra.
  - do 2 eexists. split; [left; reflexivity|]. rewrite left_turned. unfold left_of; cbn [fst snd].
    replace (_ - _) with (w * (b + h / 2)) by field. assert (0 < w * - (b + h / 2)) by (apply Rmult_lt_0_compat; lra). lra.
  - do 2 eexists. split; [right; right; left; reflexivity|]. rewrite left_turned. unfold left_of; cbn [fst snd].
    replace (_ - _) with (w * (h / 2 - b)) by field. assert (0 < w * - (h / 2 - b)) by (apply Rmult_lt_0_compat; lra). lra.
Qed.
Lemma rectangle_polygon w h x0 y0 th a b x y : 0 < w -> 0 < h -> (x, y) = turned (x0, y0) th a b ->
  a <> - w / 2 -> a <> w / 2 -> b <> - h / 2 -> b <> h / 2 ->
  contains (ObscPolygon (map Fpt (corners w h (x0, y0) th))) (Fin x) (Fin y) =
  contains (mkObscRectangle (Fin w) (Fin h) (Fin x0) (Fin y0) (Fin th)) (Fin x) (Fin y).
Proof.
  intros Hw Hh E A1 A2 B1 B2.
  destruct (convex_membership (corners w h (x0, y0) th) x y (corners_convex w h _ th Hw Hh)) as [CI CO].
  pose proof (rectangle_set w h x0 y0 th x y) as RS.
  destruct (Rlt_dec (- w / 2) a) as [L1|L1]; [destruct (Rlt_dec a (w / 2)) as [L2|L2];
   [destruct (Rlt_dec (- h / 2) b) as [L3|L3]; [destruct (Rlt_dec b (h / 2)) as [L4|L4]|]|]|].
  { rewrite CI by (rewrite E; apply corners_inside; auto). symmetry. apply RS. exists a, b. auto. }
  all: rewrite CO by (rewrite E; apply corners_outside; auto; lra); symmetry; apply not_true_is_false; intros K;
    apply RS in K; destruct K as (a' & b' & Ha & Hb & E'); rewrite E in E'; apply turned_inj in E'; lra.
Qed.

(** ** The scan of one row *)
Fixpoint lt_count (x : R) (cr : list R) : nat :=
  match cr with [] => O | c :: r => (if Rlt_dec c x then S (lt_count x r) else lt_count x r) end.
Fixpoint sortedR (l : list R) : Prop :=
  match l with [] => True | a :: r => (forall b, In b r -> a <= b) /\ sortedR r end.
Lemma insert_F a l : exists l', insert (Fin a) (map Fin l) = map Fin l' /\ Permutation (a :: l) l' /\ (sortedR l -> sortedR l').
Proof.
  induction l as [|b l IH]; [exists [a]; cbn; split; [reflexivity|split; [apply Permutation_refl|tauto]]|].
  cbn [map insert nltb NumXR xltb]. destruct (Rlt_dec a b).
  - exists (a :: b :: l). split; [reflexivity|]. split; [apply Permutation_refl|].
    intros [H1 H2]. split; [|split; assumption].
    intros c [<-|Hc]; [lra|]. specialize (H1 c Hc). lra.
  - destruct IH as (l' & E & P & S). exists (b :: l'). split; [cbn; rewrite <- E; reflexivity|]. split.
    + eapply Permutation_trans; [apply perm_swap|]. apply perm_skip, P.
    + intros [H1 H2]. split; auto. intros c Hc. apply (Permutation_in _ (Permutation_sym P)) in Hc.
      destruct Hc as [<-|Hc]; [lra|]. auto.
Qed.
Lemma sort_F l : exists l', sort (map Fin l) = map Fin l' /\ Permutation l l' /\ sortedR l'.
Proof.
  unfold sort. induction l as [|a l (l' & E & P & S)]; [exists []; cbn; auto|].
  cbn [map fold_right]. rewrite E. destruct (insert_F a l') as (l2 & E2 & P2 & S2).
  exists l2. split; [exact E2|]. split; auto.
  eapply Permutation_trans; [apply perm_skip, P|exact P2].
Qed.
Lemma lt_count_perm x l l' : Permutation l l' -> lt_count x l = lt_count x l'.
Proof.
  induction 1 as [|a l l' H IH|a b l|l1 l2 l3 H1 IH1 H2 IH2]; cbn; auto; try lia.
  - destruct (Rlt_dec a x); lia. - destruct (Rlt_dec a x), (Rlt_dec b x); reflexivity.
Qed.
Fixpoint fine_cr (cr : list R) (k : nat) (xs : list R) : Prop :=
  match xs with
  | [] => True
  | x :: r => (lt_count x cr <= S k)%nat /\ fine_cr cr (lt_count x cr) r
  end.
Lemma lt_count_zero x c cr : sortedR (c :: cr) -> ~ c < x -> lt_count x (c :: cr) = 0%nat.
Proof.
  intros [H1 H2] Hc. cbn. destruct (Rlt_dec c x); [contradiction|].
  assert (G : forall l, (forall b, In b l -> c <= b) -> lt_count x l = 0%nat); [|auto].
  induction l as [|b l IH]; intros H; [reflexivity|]. cbn.
  destruct (Rlt_dec b x); [specialize (H b (or_introl eq_refl)); lra|]. apply IH. intros; apply H; right; assumption.
Qed.
Lemma fine_shift c cr k xs : (forall x, In x xs -> c < x) -> fine_cr (c :: cr) (S k) xs -> fine_cr cr k xs.
Proof.
  revert k; induction xs as [|x xs IH]; intros k H; [auto|]. cbn [fine_cr].
  assert (E : lt_count x (c :: cr) = S (lt_count x cr)).
  { cbn. destruct (Rlt_dec c x); [reflexivity|]. exfalso. specialize (H x (or_introl eq_refl)). contradiction. }
  rewrite E. intros [H1 H2]. split; [lia|]. apply IH; auto. intros; apply H; right; assumption.
Qed.
Lemma row_scan_count xs : forall cr b, sortedR cr -> ascending xs -> fine_cr cr 0 xs ->
  row_scan (map Fin xs) (map Fin cr) b = map (fun x => xorb b (Nat.odd (lt_count x cr))) xs.
Proof.
  induction xs as [|x xs IH]; intros cr b Hs Ha Hf; [reflexivity|].
  cbn [ascending] in Ha. destruct Ha as [Ha1 Ha2]. cbn [fine_cr] in Hf. destruct Hf as [Hf1 Hf2].
  destruct cr as [|c cr].
  - cbn [map row_scan lt_count]. apply f_equal2; [destruct b; reflexivity|].
    apply (IH []); auto.
  - cbn [map row_scan nltb NumXR xltb]. destruct (Rlt_dec c x) as [L|L].
    + assert (E1 : lt_count x (c :: cr) = 1%nat).
      { revert Hf1. cbn. destruct (Rlt_dec c x); [|contradiction]. lia. }
      rewrite E1 in *. apply f_equal2; [destruct b; reflexivity|].
      rewrite IH; [|apply Hs|exact Ha2|].
      * apply map_ext_in. intros x' Hx'. specialize (Ha1 x' Hx').
        cbn [lt_count]. destruct (Rlt_dec c x'); [|lra]. rewrite odd_S. destruct b, (Nat.odd _); reflexivity.
      * apply fine_shift with c; [intros x' Hx'; specialize (Ha1 x' Hx'); lra|exact Hf2].
    + rewrite (lt_count_zero x c cr Hs L) in *. apply f_equal2; [destruct b; reflexivity|].
      apply (IH (c :: cr)); auto.
Qed.

(** ** Crossings of a row *)
Lemma cross_fold y l : forall (a : pt) acc,
  snd (fold_left (cross_step (Fin y)) (map Fpt l) (Fin (fst a), Fin (snd a), map Fin acc))
  = map Fin (acc ++ map (fun e => abscissa (fst e) (snd e) y) (filter (at_level y) (walk a l))).
Proof.
  induction l as [|b l IH]; intros a acc; [cbn; rewrite app_nil_r; reflexivity|].
  cbn [map fold_left walk filter]. unfold cross_step at 2. destruct a as [xa ya], b as [xb yb]. unfold Fpt at 2; cbn [fst snd].
  rewrite nmin_F, nmax_F. cbn [nltb nleb NumXR xltb xleb]. unfold at_level at 1; cbn [fst snd].
  destruct (Rlt_dec (Rmin ya yb) y) as [H1|H1]; cbn [andb]; [|apply (IH (xb, yb))].
  destruct (Rle_dec y (Rmax ya yb)) as [H2|H2]; cbn [andb]; [|apply (IH (xb, yb))].
  assert (D : ya <> yb). { intros ->. rewrite Rmin_left, Rmax_left in * by lra. lra. }
  cbn [nsub nmul nadd ndiv NumXR xsub xmul]. rewrite xdiv_fin by lra. cbn [xadd].
  change ([Fin ((y - ya) * (xb - xa) / (yb - ya) + xa)]) with (map Fin [(y - ya) * (xb - xa) / (yb - ya) + xa]).
  rewrite <- map_app, (IH (xb, yb)). f_equal. cbn [map fst snd]. rewrite <- app_assoc. cbn [app].
  do 2 f_equal. unfold abscissa; cbn [fst snd]. ring.
Qed.
Lemma level_same y (a : pt) : at_level y (a, a) = false.
Proof.
  unfold at_level. rewrite Rmin_left, Rmax_left by lra.
  destruct (Rlt_dec _ _); [|reflexivity]. destruct (Rle_dec _ _); [lra|reflexivity].
Qed.
Definition row_cr (v : pt) (l : list pt) (y : R) : list R :=
  map (fun e => abscissa (fst e) (snd e) y) (filter (at_level y) (edges (v :: l))).
Lemma crossings_closed v l y :
  crossings_at (map Fpt (closed_list v l)) (Fin y) = map Fin (row_cr v l y).
Proof.
  pose proof (cross_fold y (v :: l ++ [v]) v []) as H. cbn [app] in H.
  unfold crossings_at, closed_list. etransitivity; [exact H|]. unfold row_cr.
  cbn [walk filter]. rewrite level_same, edges_walk. reflexivity.
Qed.
Lemma lt_count_left v l y x : lt_count x (row_cr v l y) = left_count (v :: l) y x.
Proof.
  unfold row_cr, left_count. induction (edges (v :: l)) as [|e r IH]; [reflexivity|].
  cbn [filter]. destruct (at_level y e); cbn [andb]; [|exact IH].
  cbn [map lt_count]. destruct (Rlt_dec _ _); cbn [length]; rewrite IH; reflexivity.
Qed.
Lemma at_level_ud y e : at_level y e = (upb y e || downb y e)%bool.
Proof.
  destruct e as [a b]. unfold at_level, upb, downb, lowb; cbn [fst snd]. unfold Rmin, Rmax.
  repeat (destruct (Rlt_dec _ _) || destruct (Rle_dec _ _)); cbn; try reflexivity; lra.
Qed.
(** A closed polygon meets a horizontal line an even number of times. *)
Lemma even_level (V : list pt) y : Nat.odd (length (filter (at_level y) (edges V))) = false.
Proof.
  rewrite (filter_split (at_level y) (upb y) (downb y) (upb y)); auto.
  - rewrite up_down. set (k := length _). rewrite Nat.odd_add. destruct (Nat.odd k); reflexivity.
  - intros e; apply at_level_ud.
  - intros [a b]. unfold upb, downb; cbn [fst snd]. destruct (lowb y a), (lowb y b); reflexivity.
Qed.
Lemma left_right V y x : Nat.odd (left_count V y x) = Nat.odd (crossing_number V x y).
Proof.
  pose proof (even_level V y) as E.
  rewrite (filter_split (at_level y)
     (fun e => at_level y e && if Rlt_dec (abscissa (fst e) (snd e) y) x then true else false)%bool
     (crosses x y) (upb y)) in E; auto.
  - fold (left_count V y x) in E. fold (crossing_number V x y) in E. rewrite Nat.odd_add in E.
    destruct (Nat.odd (left_count V y x)), (Nat.odd (crossing_number V x y)); cbn in E; congruence.
  - intros [a b]; cbn [fst snd]. unfold crosses, at_level.
    destruct (Rlt_dec (Rmin _ _) y), (Rle_dec y _); cbn; try reflexivity.
    destruct (Rlt_dec _ x), (Rle_dec x _); cbn; try reflexivity; lra.
  - intros [a b]; cbn [fst snd]. unfold crosses, at_level.
    destruct (Rlt_dec (Rmin _ _) y), (Rle_dec y _); cbn; try reflexivity.
    destruct (Rlt_dec _ x), (Rle_dec x _); cbn; try reflexivity; lra.
Qed.
Lemma closed_same v l x y : crossing_number (closed_list v l) x y = crossing_number (v :: l) x y.
Proof.
  unfold crossing_number, closed_list. rewrite !edges_walk, <- app_assoc.
  cbn [app]. rewrite (walk_app v l v [v]). cbn [walk]. rewrite filter_app. cbn [filter].
  assert (C : crosses x y (v, v) = false).
  { unfold crosses. rewrite Rmin_left, Rmax_left by lra. destruct (Rlt_dec _ _); [|reflexivity].
    destruct (Rle_dec _ _); [lra|reflexivity]. }
  rewrite C, app_nil_r. reflexivity.
Qed.
Lemma fine_same v l y k xs : fine_row (v :: l) y k xs <-> fine_cr (row_cr v l y) k xs.
Proof.
  revert k; induction xs as [|x xs IH]; intros k; cbn [fine_row fine_cr]; [tauto|].
  rewrite lt_count_left, IH. tauto.
Qed.
Lemma row_ok v l y xs : ascending xs -> fine_row (v :: l) y 0 xs ->
  row_scan (map Fin xs) (sort (crossings_at (map Fpt (closed_list v l)) (Fin y))) false
  = map (fun x => contains (ObscPolygon (map Fpt (closed_list v l))) (Fin x) (Fin y)) xs.
Proof.
  intros Ha Hf. rewrite crossings_closed. destruct (sort_F (row_cr v l y)) as (cr & E & P & S).
  rewrite E. apply fine_same in Hf.
  assert (Hf' : fine_cr cr 0 xs).
  { revert Hf. generalize 0%nat. clear -P. induction xs as [|x xs IH]; intros k; cbn [fine_cr]; auto.
    rewrite (lt_count_perm x _ _ P). intros [H1 H2]. split; auto. }
  rewrite row_scan_count by auto. apply map_ext. intros x.
  rewrite xorb_false_l, polygon_parity, <- (lt_count_perm x _ _ P), lt_count_left, left_right, closed_same. reflexivity.
Qed.
(** Rows above or below the polygon. *)
Lemma extent_F (r : list pt) : forall lo hi, exists lo' hi',
  fold_left (fun (m : XR * XR) (v : XR * XR) =>
     let '(lo, hi) := m in let y := snd v in
     (if nltb y lo then y else lo, if nltb hi y then y else hi)) (map Fpt r) (Fin lo, Fin hi) = (Fin lo', Fin hi') /\
  lo' <= lo /\ hi <= hi' /\ forall p, In p r -> lo' <= snd p <= hi'.
Proof.
  induction r as [|[xp yp] r IH]; intros lo hi; [exists lo, hi; cbn; repeat split; try lra; tauto|].
  cbn [map fold_left Fpt fst snd]. cbn [nltb NumXR xltb].
  destruct (IH (if Rlt_dec yp lo then yp else lo) (if Rlt_dec hi yp then yp else hi)) as (lo' & hi' & E & H1 & H2 & H3).
  exists lo', hi'. split.
  - rewrite <- E. f_equal. f_equal; [destruct (Rlt_dec yp lo)|destruct (Rlt_dec hi yp)]; reflexivity.
  - destruct (Rlt_dec yp lo), (Rlt_dec hi yp); (split; [lra|split; [lra|]]); intros p [<-|Hp]; cbn; try lra; auto.
Qed.
Lemma y_extent_F (verts : list pt) : exists lo hi, y_extent (map Fpt verts) = (Fin lo, Fin hi) /\
  forall p, In p verts -> lo <= snd p <= hi.
Proof.
  destruct verts as [|[xa ya] r]; [exists 0, 0; cbn; split; [reflexivity|tauto]|].
  destruct (extent_F r ya ya) as (lo & hi & E & H1 & H2 & H3). exists lo, hi. split; [exact E|].
  intros p [<-|Hp]; cbn; [lra|]. auto.
Qed.
Lemma off_row (verts : list pt) lo hi x y : (forall p, In p verts -> lo <= snd p <= hi) -> (y < lo \/ hi < y) ->
  contains (ObscPolygon (map Fpt verts)) (Fin x) (Fin y) = false.
Proof.
  intros H Hy. rewrite polygon_parity. unfold crossing_number.
  enough (G : filter (crosses x y) (edges verts) = []) by (unfold pt in *; rewrite G; reflexivity).
  assert (G : forall e, In e (edges verts) -> crosses x y e = false).
  { intros [a b] He. destruct (edge_in _ _ _ He) as [Ia Ib]. apply H in Ia, Ib. unfold crosses.
    destruct (Rlt_dec _ _) as [L|L]; [|reflexivity]. destruct (Rle_dec _ _) as [M|M]; [|reflexivity]. exfalso.
    unfold Rmin, Rmax in *. repeat destruct (Rle_dec _ _); lra. }
  induction (edges verts) as [|e r IH]; [reflexivity|]. cbn. rewrite G by (left; reflexivity).
  apply IH. intros; apply G; right; assumption.
Qed.
(** ** The output buffer *)
Lemma put_all_app pre bs rest : forall buf, buf = pre ++ repeat None (length bs) ++ rest ->
  put_all buf (length pre) bs = Some (pre ++ map Some bs ++ rest).
Proof.
  revert pre; induction bs as [|b bs IH]; intros pre buf ->; [reflexivity|].
  cbn [put_all length repeat app]. unfold put.
  assert (L : (length pre <? length (pre ++ None :: repeat None (length bs) ++ rest))%nat = true).
  { apply Nat.ltb_lt. rewrite app_length. cbn. lia. }
  rewrite L. rewrite firstn_app, Nat.sub_diag, firstn_all. cbn [firstn]. rewrite app_nil_r.
  rewrite skipn_app, skipn_all2 by lia. replace (S (length pre) - length pre)%nat with 1%nat by lia. cbn [skipn app].
  replace (S (length pre)) with (length (pre ++ [Some b])) by (rewrite app_length; cbn; lia).
  rewrite IH with (pre := pre ++ [Some b]) by (rewrite <- app_assoc; reflexivity).
  rewrite <- app_assoc. reflexivity.
Qed.
Lemma grid_rows_ok v l lo hi xs n : length xs = n -> ascending xs ->
  (forall p, In p (closed_list v l) -> lo <= snd p <= hi) ->
  forall ys j pre, (forall y, In y ys -> fine_row (v :: l) y 0 xs) -> length pre = (j * n)%nat ->
  grid_rows (map Fpt (closed_list v l)) (map Fin xs) n (Fin lo) (Fin hi) (map Fin ys) j
    (pre ++ repeat None (length ys * n))
  = Some (pre ++ flat_map (fun y => map (fun x => Some (contains (ObscPolygon (map Fpt (closed_list v l))) (Fin x) (Fin y))) xs) ys).
Proof.
  intros Hn Ha Hext. induction ys as [|y ys IH]; intros j pre Hf Hp.
  - cbn. reflexivity.
  - cbn [map grid_rows length]. rewrite map_length, Hn.
    assert (Row : exists bs, length bs = n /\
      bs = map (fun x => contains (ObscPolygon (map Fpt (closed_list v l))) (Fin x) (Fin y)) xs /\
      (if (nltb (Fin y) (Fin lo) || nltb (Fin hi) (Fin y))%bool
       then put_all (pre ++ repeat None (S (length ys) * n)) (j * n) (repeat false n)
       else put_all (pre ++ repeat None (S (length ys) * n)) (j * n)
              (row_scan (map Fin xs) (sort (crossings_at (map Fpt (closed_list v l)) (Fin y))) false))
      = Some (pre ++ map Some bs ++ repeat None (length ys * n))).
    { eexists. split; [|split; [reflexivity|]]; [rewrite map_length; exact Hn|].
      assert (P : forall bs, length bs = n ->
        put_all (pre ++ repeat None (S (length ys) * n)) (j * n) bs = Some (pre ++ map Some bs ++ repeat None (length ys * n))).
      { intros bs Hb. rewrite <- Hp. apply put_all_app. f_equal. rewrite Hb. cbn [Nat.mul]. apply repeat_app. }
      cbn [nltb NumXR xltb].
      destruct (Rlt_dec y lo) as [L|L]; [|destruct (Rlt_dec hi y) as [M|M]]; cbn [orb].
      - rewrite P by apply repeat_length. do 3 f_equal. rewrite <- Hn.
        clear -Hext L. induction xs as [|x xs IH]; [reflexivity|]. cbn [length repeat map]. f_equal; [|exact IH].
        f_equal. symmetry. eapply off_row; [exact Hext|left; exact L].
      - rewrite P by apply repeat_length. do 3 f_equal. rewrite <- Hn.
        clear -Hext M. induction xs as [|x xs IH]; [reflexivity|]. cbn [length repeat map]. f_equal; [|exact IH].
        f_equal. symmetry. eapply off_row; [exact Hext|right; exact M].
      - rewrite row_ok by (auto; apply Hf; left; reflexivity). apply P. rewrite map_length. exact Hn. }
    destruct Row as (bs & Hb & Ebs & ->).
    rewrite app_assoc. rewrite IH.
    + cbn [flat_map]. rewrite <- app_assoc. do 2 f_equal. rewrite Ebs, map_map. reflexivity.
    + intros; apply Hf; right; assumption.
    + rewrite app_length, map_length, Hb, Hp. cbn. lia.
Qed.
(** C37, positive part. *)
Lemma grid_agrees v l xs ys : length xs = length ys -> ascending xs ->
  (forall y, In y ys -> fine_row (v :: l) y 0 xs) ->
  containsGrid (map Fpt (closed_list v l)) (map Fin xs) (map Fin ys)
  = Some (flat_map (fun y => map (fun x => Some (contains (ObscPolygon (map Fpt (closed_list v l))) (Fin x) (Fin y))) xs) ys).
Proof.
  intros Hl Ha Hf. unfold containsGrid.
  destruct (y_extent_F (closed_list v l)) as (lo & hi & -> & He). rewrite !map_length, <- Hl.
  pose proof (grid_rows_ok v l lo hi xs (length xs) eq_refl Ha He ys 0 [] Hf eq_refl) as G.
  cbn [app] in G. rewrite Hl in *. exact G.
Qed.
Lemma closed_contains v l x y :
  contains (ObscPolygon (map Fpt (closed_list v l))) (Fin x) (Fin y) = contains (ObscPolygon (map Fpt (v :: l))) (Fin x) (Fin y).
Proof. rewrite !polygon_parity, closed_same. reflexivity. Qed.
Lemma grid_off_rows (verts : list pt) x y : (forall p, In p verts -> snd p < y) \/ (forall p, In p verts -> y < snd p) ->
  contains (ObscPolygon (map Fpt verts)) (Fin x) (Fin y) = false.
Proof.
  destruct verts as [|q r]; [reflexivity|].
  intros [H|H].
  - destruct (max_vertex (q :: r)) as (M & IM & HM); [discriminate|].
    destruct (min_vertex (q :: r)) as (m & Im & Hm); [discriminate|].
    apply off_row with (lo := snd m) (hi := snd M); [|right; auto]. intros p Hp. split; auto.
  - destruct (max_vertex (q :: r)) as (M & IM & HM); [discriminate|].
    destruct (min_vertex (q :: r)) as (m & Im & Hm); [discriminate|].
    apply off_row with (lo := snd m) (hi := snd M); [|left; auto]. intros p Hp. split; auto.
Qed.
(** Refutations, in doubles. *)
Definition fsq : list (F64 * F64) :=
  [(nofZ (-1), nofZ (-1)); (n1, nofZ (-1)); (n1, n1); (nofZ (-1), n1)].
Lemma grid_closing_edge : exists (verts : list (F64 * F64)) x y,
  containsGrid verts [x] [y] = Some [Some false] /\ contains (ObscPolygon verts) x y = true.
Proof. exists fsq, n0, n0. split; vm_compute; reflexivity. Qed.
Lemma grid_out_of_bounds : exists (verts : list (F64 * F64)) xs ys,
  length ys = 3%nat /\ length xs = 1%nat /\ containsGrid verts xs ys = None.
Proof. exists fsq, [n0], [n0; n0; n0]. repeat split; vm_compute; reflexivity. Qed.
Lemma grid_uninitialised : exists (verts : list (F64 * F64)) xs ys,
  length ys = 2%nat /\ length xs = 3%nat /\
  exists out, containsGrid verts xs ys = Some out /\ In None out.
Proof.
  exists fsq, [n0; n0; n0], [n0; n0]. split; [reflexivity|]. split; [reflexivity|].
  eexists. split; [vm_compute; reflexivity|]. cbn. auto 10.
Qed.
(** Coarse grid: two edges between neighbouring columns, closed list, square grid. *)
Lemma grid_coarse : exists (verts : list (F64 * F64)) x1 x2 y,
  containsGrid verts [x1; x2] [y; y] <> Some [Some (contains (ObscPolygon verts) x1 y); Some (contains (ObscPolygon verts) x2 y);
     Some (contains (ObscPolygon verts) x1 y); Some (contains (ObscPolygon verts) x2 y)].
Proof. exists (fsq ++ [(nofZ (-1), nofZ (-1))]), (nofZ (-5)), (nofZ 5), n0. vm_compute. discriminate. Qed.
