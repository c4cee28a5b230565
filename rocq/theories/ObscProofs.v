(** C34-C36: obscurations. *)
From Coq Require Import Reals List Bool Arith Lia Lra Psatz Permutation.
From Verif Require Import Num NumR Trig Obscuration Grid Spec XRFacts ObscSpec.
Import ListNotations.

(** ** C34 *)
Section Bool.
  Context {T : Type} {NT : Num T}.
  Lemma fold_or {A} (f : A -> bool) l b : fold_left (fun r o => r || f o) l b = b || existsb f l.
  Proof.
    revert b; induction l as [|a l IH]; intros b; cbn; [rewrite orb_false_r; reflexivity|].
    rewrite IH, orb_assoc. reflexivity.
  Qed.
  Lemma fold_and {A} (f : A -> bool) l b : fold_left (fun r o => r && f o) l b = b && forallb f l.
  Proof.
    revert b; induction l as [|a l IH]; intros b; cbn; [rewrite andb_true_r; reflexivity|].
    rewrite IH, andb_assoc. reflexivity.
  Qed.
  Lemma union_or (l : list (obsc T)) x y :
    contains (ObscUnion l) x y = existsb (fun o => contains o x y) l.
  Proof. cbn. rewrite (fold_or (fun o => contains o x y)). reflexivity. Qed.
  Lemma inter_and (l : list (obsc T)) x y :
    contains (ObscIntersection l) x y = forallb (fun o => contains o x y) l.
  Proof. cbn. rewrite (fold_and (fun o => contains o x y)). reflexivity. Qed.
  Lemma boolean_ops (o : obsc T) (l : list (obsc T)) x y :
    contains (ObscNegation o) x y = negb (contains o x y) /\
    (contains (ObscUnion l) x y = true <-> exists a, In a l /\ contains a x y = true) /\
    (contains (ObscIntersection l) x y = true <-> forall a, In a l -> contains a x y = true).
  Proof.
    split; [reflexivity|]. rewrite union_or, inter_and, existsb_exists, forallb_forall. tauto.
  Qed.
  Lemma double_negation (o : obsc T) x y :
    contains (ObscNegation (ObscNegation o)) x y = contains o x y.
  Proof. cbn. apply negb_involutive. Qed.
  Lemma de_morgan (l : list (obsc T)) x y :
    contains (ObscNegation (ObscUnion l)) x y = contains (ObscIntersection (map ObscNegation l)) x y /\
    contains (ObscNegation (ObscIntersection l)) x y = contains (ObscUnion (map ObscNegation l)) x y.
  Proof.
    cbn [contains]. fold (contains (ObscUnion l) x y) (contains (ObscIntersection l) x y).
    change (negb (contains (ObscUnion l) x y) = contains (ObscIntersection (map ObscNegation l)) x y /\
      negb (contains (ObscIntersection l) x y) = contains (ObscUnion (map ObscNegation l)) x y).
    rewrite !union_or, !inter_and. split; induction l as [|a l IH]; cbn; try reflexivity.
    - rewrite negb_orb, IH. reflexivity.
    - rewrite negb_andb, IH. reflexivity.
  Qed.
  (** Only the set of members matters. *)
  Lemma same_members (l l' : list (obsc T)) x y : (forall o, In o l <-> In o l') ->
    contains (ObscUnion l) x y = contains (ObscUnion l') x y /\
    contains (ObscIntersection l) x y = contains (ObscIntersection l') x y.
  Proof.
    intros H. split; apply eq_true_iff_eq.
    - rewrite !union_or, !existsb_exists. split; intros (a & Ha & Hc); exists a; split; auto; apply H; auto.
    - rewrite !inter_and, !forallb_forall. split; intros Ha a Hi; apply Ha, H, Hi.
  Qed.
End Bool.

Open Scope R_scope.
(** ** C35 *)
Lemma andb_fin a b : (a && b = true)%bool <-> a = true /\ b = true.
Proof. apply andb_true_iff. Qed.
Lemma circle_set rad x0 y0 x y :
  contains (ObscCircle (Fin rad) (Fin x0) (Fin y0)) (Fin x) (Fin y) = true <-> dist2 (x, y) (x0, y0) < rad.
Proof. cbn [contains]. cbn [nltb NumXR nhypot nsub xsub xhypot]. rewrite xltb_fin. reflexivity. Qed.
Lemma annulus_set rin rout x0 y0 x y :
  contains (ObscAnnulus (Fin rin) (Fin rout) (Fin x0) (Fin y0)) (Fin x) (Fin y) = true <->
  rin <= dist2 (x, y) (x0, y0) < rout.
Proof.
  cbn [contains]. cbn [nltb nleb NumXR nhypot nsub xsub xhypot]. rewrite andb_fin, xltb_fin, xleb_fin. reflexivity.
Qed.
Lemma turned_coords c th a b x y : (x, y) = turned c th a b <->
  a = (x - fst c) * cos th + (y - snd c) * sin th /\ b = - (x - fst c) * sin th + (y - snd c) * cos th.
Proof.
  pose proof (sin2_cos2 th) as S. unfold Rsqr in S. unfold turned. split.
  - intros E. injection E; intros -> ->. split.
    + replace a with (a * (sin th * sin th + cos th * cos th)) at 1 by (rewrite S; ring). ring.
    + replace b with (b * (sin th * sin th + cos th * cos th)) at 1 by (rewrite S; ring). ring.
  - intros [-> ->]. f_equal.
    + replace x with (fst c + (x - fst c) * (sin th * sin th + cos th * cos th)) at 1 by (rewrite S; ring). ring.
    + replace y with (snd c + (y - snd c) * (sin th * sin th + cos th * cos th)) at 1 by (rewrite S; ring). ring.
Qed.
Lemma rectangle_set w h x0 y0 th x y :
  contains (mkObscRectangle (Fin w) (Fin h) (Fin x0) (Fin y0) (Fin th)) (Fin x) (Fin y) = true <->
  exists a b, - w / 2 < a < w / 2 /\ - h / 2 < b < h / 2 /\ (x, y) = turned (x0, y0) th a b.
Proof.
  unfold mkObscRectangle. cbn [contains]. unfold n2.
  cbn [nltb nleb NumXR nsub nmul nadd nopp nofZ ndiv nsin ncos TrigXR xlift xsub xmul xadd xopp].
  rewrite !xdiv_fin by lra. rewrite !andb_fin, !xltb_fin. split.
  - intros H. eexists. eexists. split; [|split]; [| |apply turned_coords; split; reflexivity]; cbn; lra.
  - intros (a & b & Ha & Hb & E). apply turned_coords in E. cbn [fst snd] in E. destruct E as [-> ->]. lra.
Qed.
Lemma ray_set w th x0 y0 x y :
  contains (mkObscRay (Fin w) (Fin th) (Fin x0) (Fin y0)) (Fin x) (Fin y) = true <->
  exists a b, 0 < a /\ - w / 2 < b < w / 2 /\ (x, y) = turned (x0, y0) th a b.
Proof.
  unfold mkObscRay. cbn [contains]. unfold n2, n0.
  cbn [nltb nleb NumXR nsub nmul nadd nopp nofZ ndiv nsin ncos TrigXR xlift xsub xmul xadd xopp].
  rewrite !xdiv_fin by lra. rewrite !andb_fin, !xltb_fin. split.
  - intros H. eexists. eexists. split; [|split]; [| |apply turned_coords; split; reflexivity]; cbn; lra.
  - intros (a & b & Ha & Hb & E). apply turned_coords in E. cbn [fst snd] in E. destruct E as [-> ->]. lra.
Qed.

(** ** C36: parity of crossings *)
Lemma nmin_F a b : nmin (Fin a) (Fin b) = Fin (Rmin a b).
Proof.
  unfold nmin. cbn [nltb NumXR xltb]. destruct (Rlt_dec b a); [rewrite Rmin_right by lra|rewrite Rmin_left by lra]; reflexivity.
Qed.
Lemma nmax_F a b : nmax (Fin a) (Fin b) = Fin (Rmax a b).
Proof.
  unfold nmax. cbn [nltb NumXR xltb]. destruct (Rlt_dec a b); [rewrite Rmax_right by lra|rewrite Rmax_left by lra]; reflexivity.
Qed.
Lemma abscissa_max a b y : Rmin (snd a) (snd b) < y -> y <= Rmax (snd a) (snd b) ->
  abscissa a b y <= Rmax (fst a) (fst b).
Proof.
  destruct a as [xa ya], b as [xb yb]; cbn [fst snd]. unfold abscissa; cbn [fst snd]. intros H1 H2.
  assert (D : yb - ya <> 0). { intros E. replace yb with ya in * by lra. rewrite Rmin_left, Rmax_left in * by lra. lra. }
  set (t := (y - ya) / (yb - ya)).
  assert (T : 0 <= t <= 1).
  { unfold t. unfold Rmin, Rmax in *. repeat destruct (Rle_dec _ _); try lra.
    - assert (0 < yb - ya) by lra. split.
      + apply Rmult_le_reg_r with (yb - ya); [lra|]. unfold Rdiv. rewrite Rmult_assoc, Rinv_l by assumption. lra.
      + apply Rmult_le_reg_r with (yb - ya); [lra|]. unfold Rdiv. rewrite Rmult_assoc, Rinv_l by assumption. lra.
    - assert (0 < ya - yb) by lra. replace ((y - ya) / (yb - ya)) with ((ya - y) / (ya - yb)) by (field; lra). split.
      + apply Rmult_le_reg_r with (ya - yb); [lra|]. unfold Rdiv. rewrite Rmult_assoc, Rinv_l by lra. lra.
      + apply Rmult_le_reg_r with (ya - yb); [lra|]. unfold Rdiv. rewrite Rmult_assoc, Rinv_l by lra. lra. }
  replace (xa + (y - ya) * (xb - xa) / (yb - ya)) with ((1 - t) * xa + t * xb) by (unfold t; field; assumption).
  pose proof (Rmax_l xa xb). pose proof (Rmax_r xa xb). set (m := Rmax xa xb) in *.
  assert ((1 - t) * xa <= (1 - t) * m) by (apply Rmult_le_compat_l; lra).
  assert (t * xb <= t * m) by (apply Rmult_le_compat_l; lra). lra.
Qed.
(** One loop iteration flips [inside] exactly when the edge crosses. *)
Lemma poly_step_F x y (a b : pt) xi ins : exists xi',
  poly_step (Fin x) (Fin y) (Fin (fst a), Fin (snd a), Fin xi, ins) (Fpt b)
  = (Fin (fst b), Fin (snd b), Fin xi', xorb ins (crosses x y (a, b))).
Proof.
  destruct a as [xa ya], b as [xb yb]. unfold poly_step, Fpt; cbn [fst snd]. rewrite nmin_F, nmax_F, nmax_F.
  unfold crosses; cbn [fst snd nltb nleb neqb NumXR xltb xleb].
  destruct (Rlt_dec (Rmin ya yb) y) as [H1|H1]; [|exists xi; cbn; rewrite xorb_false_r; reflexivity].
  destruct (Rle_dec y (Rmax ya yb)) as [H2|H2]; [|exists xi; cbn; rewrite xorb_false_r; reflexivity].
  assert (D : ya <> yb). { intros ->. rewrite Rmin_left, Rmax_left in * by lra. lra. }
  pose proof (abscissa_max (xa, ya) (xb, yb) y H1 H2) as M. cbn [fst] in M.
  cbn [andb].
  destruct (Rle_dec x (Rmax xa xb)) as [H3|H3].
  - rewrite xeqb_f by assumption. cbn [negb nsub nmul nadd ndiv NumXR xsub xmul]. rewrite xdiv_fin by lra. cbn [xadd xeqb xleb].
    exists ((y - ya) * (xb - xa) / (yb - ya) + xa). unfold abscissa in *; cbn [fst snd] in *.
    replace ((y - ya) * (xb - xa) / (yb - ya) + xa) with (xa + (y - ya) * (xb - xa) / (yb - ya)) by ring.
    destruct (Req_EM_T xa xb) as [E|E]; cbn [orb].
    + subst xb. replace (xa + (y - ya) * (xa - xa) / (yb - ya)) with xa in * by (field; lra).
      rewrite Rmax_left in H3 by lra. destruct (Rle_dec x xa); [|contradiction]. rewrite xorb_true_r. reflexivity.
    + destruct (Rle_dec _ _); [rewrite xorb_true_r|rewrite xorb_false_r]; reflexivity.
  - exists xi. destruct (Rle_dec x (abscissa (xa, ya) (xb, yb) y)); [lra|]. rewrite xorb_false_r. reflexivity.
Qed.
Fixpoint walk {A} (a : A) (l : list A) : list (A * A) :=
  match l with [] => [] | b :: l => (a, b) :: walk b l end.
Lemma edges_walk {A} (a : A) l : edges (a :: l) = walk a (l ++ [a]).
Proof.
  cbn [edges]. assert (G : forall b c, combine (b :: l) (l ++ [c]) = walk b (l ++ [c])); [|apply G].
  induction l as [|d l IH]; intros b c; [reflexivity|]. cbn [combine app walk]. f_equal. apply IH.
Qed.
Lemma odd_S n : Nat.odd (S n) = negb (Nat.odd n).
Proof. rewrite Nat.odd_succ, <- Nat.negb_odd. reflexivity. Qed.
Lemma fold_poly x y l : forall (a : pt) xi ins,
  snd (fold_left (poly_step (Fin x) (Fin y)) (map Fpt l) (Fin (fst a), Fin (snd a), Fin xi, ins))
  = xorb ins (Nat.odd (length (filter (crosses x y) (walk a l)))).
Proof.
  induction l as [|b l IH]; intros a xi ins; [cbn; rewrite xorb_false_r; reflexivity|].
  cbn [map fold_left walk filter]. destruct (poly_step_F x y a b xi ins) as [xi' ->]. rewrite IH.
  destruct (crosses x y (a, b)).
  - cbn [length]. rewrite odd_S. destruct ins, (Nat.odd _); reflexivity.
  - rewrite xorb_false_r. reflexivity.
Qed.
Lemma polygon_parity verts x y :
  contains (ObscPolygon (map Fpt verts)) (Fin x) (Fin y) = Nat.odd (crossing_number verts x y).
Proof.
  cbn [contains]. unfold poly_contains, crossing_number. destruct verts as [|[xa ya] l]; [reflexivity|].
  rewrite edges_walk.
  pose proof (fold_poly x y (l ++ [(xa, ya)]) (xa, ya) 0 false) as H. rewrite map_app in H. cbn [map] in H.
  cbn [map]. unfold Fpt at 1; cbn [fst snd]. rewrite xorb_false_l in H. exact H.
Qed.

(** Starting vertex and direction do not matter. *)
Lemma walk_app {A} (a : A) l b m : walk a (l ++ b :: m) = walk a (l ++ [b]) ++ walk b m.
Proof. revert a; induction l as [|c l IH]; intros a; cbn; [reflexivity|]. f_equal. apply IH. Qed.
Lemma edges_rotate {A} (l m : list A) : Permutation (edges (l ++ m)) (edges (m ++ l)).
Proof.
  destruct l as [|a l], m as [|b m]; rewrite ?app_nil_r, ?app_nil_l; try apply Permutation_refl.
  rewrite <- !app_comm_cons, !edges_walk, <- !app_assoc, <- !app_comm_cons.
  rewrite (walk_app a l b (m ++ [a])), (walk_app b m a (l ++ [b])).
  apply Permutation_app_comm.
Qed.
Definition flip {A B} (p : A * B) : B * A := (snd p, fst p).
Lemma walk_rev {A} (a : A) l b : Permutation (walk a (l ++ [b])) (map flip (walk b (rev l ++ [a]))).
Proof.
  revert a; induction l as [|c l IH]; intros a; [apply Permutation_refl|].
  cbn [rev app walk]. rewrite <- app_assoc. cbn [app]. rewrite (walk_app b (rev l) c [a]).
  rewrite map_app. cbn [walk map flip fst snd]. unfold flip at 2; cbn [fst snd].
  eapply Permutation_trans; [apply perm_skip, IH|]. apply Permutation_cons_append.
Qed.
Lemma edges_rev {A} (l : list A) : Permutation (edges (rev l)) (map flip (edges l)).
Proof.
  destruct l as [|a l]; [apply Permutation_refl|]. cbn [rev].
  eapply Permutation_trans; [apply edges_rotate|]. cbn [app]. rewrite !edges_walk.
  eapply Permutation_trans; [apply walk_rev|]. rewrite rev_involutive. apply Permutation_refl.
Qed.
Lemma crosses_flip x y e : crosses x y (flip e) = crosses x y e.
Proof.
  destruct e as [a b]. unfold flip; cbn [fst snd]. unfold crosses. rewrite (Rmin_comm (snd b)), (Rmax_comm (snd b)).
  destruct (Rlt_dec _ y) as [H1|H1]; [|reflexivity]. destruct (Rle_dec y _) as [H2|H2]; [|reflexivity].
  cbn [andb]. replace (abscissa b a y) with (abscissa a b y); [reflexivity|].
  unfold abscissa. assert (snd a <> snd b). { intros E. rewrite E, Rmin_left, Rmax_left in * by lra. lra. }
  field. split; lra.
Qed.
Lemma filter_perm {A} (f : A -> bool) l l' : Permutation l l' -> length (filter f l) = length (filter f l').
Proof.
  induction 1 as [|a l l' H IH|a b l|l1 l2 l3 H1 IH1 H2 IH2]; cbn; auto; try lia.
  - destruct (f a); cbn; lia. - destruct (f a), (f b); reflexivity.
Qed.
Lemma crossing_rotate l m x y : crossing_number (l ++ m) x y = crossing_number (m ++ l) x y.
Proof. apply filter_perm, edges_rotate. Qed.
Lemma filter_map_flip x y l : length (filter (crosses x y) (map flip l)) = length (filter (crosses x y) l).
Proof.
  induction l as [|a l IH]; [reflexivity|]. cbn [map filter]. rewrite crosses_flip.
  destruct (crosses x y a); cbn [length]; auto.
Qed.
Lemma crossing_rev l x y : crossing_number (rev l) x y = crossing_number l x y.
Proof. unfold crossing_number. rewrite (filter_perm _ _ _ (edges_rev l)). apply filter_map_flip. Qed.
Lemma polygon_start_direction l m x y :
  contains (ObscPolygon (map Fpt (l ++ m))) (Fin x) (Fin y) = contains (ObscPolygon (map Fpt (m ++ l))) (Fin x) (Fin y) /\
  contains (ObscPolygon (map Fpt (rev l))) (Fin x) (Fin y) = contains (ObscPolygon (map Fpt l)) (Fin x) (Fin y).
Proof.
  rewrite !polygon_parity. split; f_equal; [apply crossing_rotate|apply crossing_rev].
Qed.

(** ** Convex polygons *)
Lemma edges_fst {A} (l : list A) : map fst (edges l) = l.
Proof.
  destruct l as [|a l]; [reflexivity|]. cbn [edges].
  assert (G : forall (u v : list A), length u = length v -> map fst (combine u v) = u).
  { induction u as [|c u IH]; intros [|d v]; cbn; intros; try discriminate; f_equal; auto. }
  apply G. rewrite app_length; cbn; lia.
Qed.
Lemma edges_snd {A} (l : list A) : Permutation (map snd (edges l)) l.
Proof.
  destruct l as [|a l]; [apply Permutation_refl|]. cbn [edges].
  assert (G : forall (u v : list A), length u = length v -> map snd (combine u v) = v).
  { induction u as [|c u IH]; intros [|d v]; cbn; intros; try discriminate; f_equal; auto. }
  rewrite G by (rewrite app_length; cbn; lia). apply Permutation_sym, Permutation_cons_append.
Qed.
Lemma edge_in {A} (l : list A) a b : In (a, b) (edges l) -> In a l /\ In b l.
Proof.
  intros H. split.
  - rewrite <- edges_fst. exact (in_map fst _ _ H).
  - apply (Permutation_in _ (edges_snd l)). exact (in_map snd _ _ H).
Qed.
Lemma edge_from {A} (l : list A) a : In a l -> exists b, In (a, b) (edges l).
Proof.
  intros H. rewrite <- (edges_fst l) in H. apply in_map_iff in H. destruct H as ([c b] & <- & H). eauto.
Qed.
Lemma edge_to {A} (l : list A) b : In b l -> exists a, In (a, b) (edges l).
Proof.
  intros H. apply (Permutation_in _ (Permutation_sym (edges_snd l))), in_map_iff in H.
  destruct H as ([a c] & <- & H). eauto.
Qed.
Lemma nodup_proj {A B} (f : A -> B) l x y : NoDup (map f l) -> In x l -> In y l -> f x = f y -> x = y.
Proof.
  induction l as [|a l IH]; cbn; [tauto|]. intros N Hx Hy E. inversion N as [|? ? N1 N2]; subst.
  destruct Hx as [<-|Hx], Hy as [<-|Hy]; auto.
  - exfalso. apply N1. rewrite E. apply in_map, Hy.
  - exfalso. apply N1. rewrite <- E. apply in_map, Hx.
Qed.
Lemma same_source {A} (l : list A) a b d : NoDup l -> In (a, b) (edges l) -> In (a, d) (edges l) -> b = d.
Proof.
  intros N H1 H2. assert (E : (a, b) = (a, d)).
  { apply (nodup_proj fst (edges l)); auto. rewrite edges_fst. assumption. }
  congruence.
Qed.
Lemma same_target {A} (l : list A) a b c : NoDup l -> In (a, b) (edges l) -> In (c, b) (edges l) -> a = c.
Proof.
  intros N H1 H2. assert (E : (a, b) = (c, b)).
  { apply (nodup_proj snd (edges l)); auto. apply (Permutation_NoDup (Permutation_sym (edges_snd l)) N). }
  congruence.
Qed.
Lemma nodup_edges {A} (l : list A) : NoDup l -> NoDup (edges l).
Proof. intros N. apply NoDup_map_inv with (f := fst). rewrite edges_fst. exact N. Qed.
Lemma filter_one {A} (f : A -> bool) l : NoDup l ->
  (forall a b, In a l -> In b l -> f a = true -> f b = true -> a = b) ->
  (length (filter f l) <= 1)%nat.
Proof.
  intros N H. pose proof (NoDup_filter f N) as N'.
  destruct (filter f l) as [|a [|b r]] eqn:E; cbn; try lia. exfalso.
  assert (Ha : In a (filter f l)) by (rewrite E; left; reflexivity).
  assert (Hb : In b (filter f l)) by (rewrite E; right; left; reflexivity).
  apply filter_In in Ha, Hb. assert (a = b) by (apply H; tauto). subst b.
  inversion N' as [|? ? N1 N2]; subst. apply N1. left; reflexivity.
Qed.

Section Level.
  Variable y : R.
  Definition lowb (v : pt) : bool := if Rlt_dec (snd v) y then true else false.
  Definition upb (e : pt * pt) : bool := lowb (fst e) && negb (lowb (snd e)).
  Definition downb (e : pt * pt) : bool := negb (lowb (fst e)) && lowb (snd e).
  Lemma filter_split {A} (f g h k : A -> bool) l :
    (forall a, f a = g a || h a)%bool -> (forall a, g a && h a = false)%bool -> (forall a, k a = k a) ->
    length (filter f l) = (length (filter g l) + length (filter h l))%nat.
  Proof.
    intros H1 H2 _. induction l as [|a l IH]; [reflexivity|]. cbn. rewrite H1. specialize (H2 a).
    destruct (g a), (h a); cbn in *; try discriminate; lia.
  Qed.
  Lemma filter_map_len {A B} (f : B -> bool) (g : A -> B) l :
    length (filter f (map g l)) = length (filter (fun a => f (g a)) l).
  Proof. induction l as [|a l IH]; [reflexivity|]. cbn. destruct (f (g a)); cbn; lia. Qed.
  Lemma up_down (l : list pt) : length (filter upb (edges l)) = length (filter downb (edges l)).
  Proof.
    pose (both := fun e : pt * pt => (lowb (fst e) && lowb (snd e))%bool).
    assert (E1 : length (filter lowb l) = (length (filter both (edges l)) + length (filter upb (edges l)))%nat).
    { rewrite <- (edges_fst l) at 1. rewrite filter_map_len. apply filter_split with (k := both); auto;
      intros [a b]; unfold both, upb; cbn; destruct (lowb a), (lowb b); reflexivity. }
    assert (E2 : length (filter lowb l) = (length (filter both (edges l)) + length (filter downb (edges l)))%nat).
    { rewrite <- (filter_perm lowb _ _ (edges_snd l)). rewrite filter_map_len. apply filter_split with (k := both); auto;
      intros [a b]; unfold both, downb; cbn; destruct (lowb a), (lowb b); reflexivity. }
    lia.
  Qed.
  Lemma walk_const (f : pt -> bool) a l : (forall e, In e (walk a l) -> f (fst e) = f (snd e)) ->
    forall b, In b l -> f b = f a.
  Proof.
    revert a; induction l as [|c l IH]; intros a H b Hb; [destruct Hb|].
    assert (Hc : f a = f c) by (apply (H (a, c)); left; reflexivity). destruct Hb as [<-|Hb]; auto.
    rewrite Hc. apply IH; auto. intros e He. apply H. right. exact He.
  Qed.
  Lemma level_crossed (l : list pt) a b : In a l -> In b l -> lowb a = true -> lowb b = false ->
    exists e, In e (edges l) /\ upb e = true.
  Proof.
    intros Ha Hb La Lb.
    destruct (existsb upb (edges l)) eqn:E; [apply existsb_exists in E; destruct E as (e & H & U); eauto|].
    exfalso.
    assert (U0 : forall e, In e (edges l) -> upb e = false).
    { intros e He. destruct (upb e) eqn:U; [|reflexivity].
      assert (existsb upb (edges l) = true) by (apply existsb_exists; eauto). congruence. }
    assert (Z : filter upb (edges l) = []).
    { clear -U0. induction (edges l) as [|e r IH]; [reflexivity|]. cbn. rewrite U0 by (left; reflexivity).
      apply IH. intros; apply U0; right; assumption. }
    pose proof (up_down l) as UD. rewrite Z in UD. cbn in UD. symmetry in UD. apply length_zero_iff_nil in UD.
    assert (D0 : forall e, In e (edges l) -> downb e = false).
    { intros e He. destruct (downb e) eqn:U; [|reflexivity].
      assert (In e (filter downb (edges l))) by (apply filter_In; auto). rewrite UD in H. destruct H. }
    assert (C : forall e, In e (edges l) -> lowb (fst e) = lowb (snd e)).
    { intros e He. specialize (U0 e He). specialize (D0 e He). unfold upb, downb in *.
      destruct (lowb (fst e)), (lowb (snd e)); cbn in *; congruence. }
    destruct l as [|o l]; [destruct Ha|]. rewrite edges_walk in C.
    pose proof (walk_const lowb o (l ++ [o]) C) as W.
    assert (W' : forall v, In v (o :: l) -> lowb v = lowb o).
    { intros v Hv. apply W. apply in_or_app. destruct Hv as [<-|Hv]; [right; left; reflexivity|left; exact Hv]. }
    rewrite (W' a Ha) in La. rewrite (W' b Hb) in Lb. congruence.
  Qed.
  Lemma low_true v : lowb v = true <-> snd v < y.
  Proof. unfold lowb. destruct (Rlt_dec _ _); split; intros; auto; try discriminate; contradiction. Qed.
  Lemma low_false v : lowb v = false <-> y <= snd v.
  Proof. unfold lowb. destruct (Rlt_dec _ _); split; intros; auto; try discriminate; lra. Qed.
  Lemma crosses_level x a b : crosses x y (a, b) =
    ((upb (a, b) || downb (a, b)) && (if Rle_dec x (abscissa a b y) then true else false))%bool.
  Proof.
    unfold crosses. f_equal. unfold upb, downb, lowb; cbn [fst snd]. unfold Rmin, Rmax.
    repeat (destruct (Rlt_dec _ _) || destruct (Rle_dec _ _)); cbn; try reflexivity; lra.
  Qed.
End Level.

Lemma left_abscissa a b x y : snd a <> snd b ->
  left_of a b (x, y) = (snd b - snd a) * (abscissa a b y - x).
Proof. intros H. unfold left_of, abscissa; cbn. field. lra. Qed.
(** The level-y point of an edge as a mixture of its ends. *)
Lemma left_mix a b c d y : snd c <> snd d ->
  left_of a b (abscissa c d y, y) =
  (1 - (y - snd c) / (snd d - snd c)) * left_of a b c + (y - snd c) / (snd d - snd c) * left_of a b d.
Proof. intros H. unfold left_of, abscissa; cbn. field. lra. Qed.
Lemma left_line a b x1 x2 x y s : x = (1 - s) * x1 + s * x2 ->
  left_of a b (x, y) = (1 - s) * left_of a b (x1, y) + s * left_of a b (x2, y).
Proof. intros ->. unfold left_of; cbn. ring. Qed.

Section Convex.
  Variables (V : list pt) (y : R).
  Hypothesis HV : convex_polygon V.
  Let N : NoDup V := proj1 HV.
  Lemma vertex_left a b c : In (a, b) (edges V) -> In c V -> 0 <= left_of a b c.
  Proof.
    intros He Hc.
    assert (D : forall u v : pt, {u = v} + {u <> v}).
    { intros [u1 u2] [v1 v2]. destruct (Req_EM_T u1 v1), (Req_EM_T u2 v2); [left; congruence|right; congruence..]. }
    destruct (D c a) as [->|Na]; [unfold left_of; apply Req_le; ring|].
    destruct (D c b) as [->|Nb]; [unfold left_of; apply Req_le; ring|].
    left. apply HV; assumption.
  Qed.
  Lemma on_edge a b c : In (a, b) (edges V) -> In c V -> left_of a b c = 0 -> c = a \/ c = b.
  Proof.
    intros He Hc E.
    assert (D : forall u v : pt, {u = v} + {u <> v}).
    { intros [u1 u2] [v1 v2]. destruct (Req_EM_T u1 v1), (Req_EM_T u2 v2); [left; congruence|right; congruence..]. }
    destruct (D c a) as [|Na]; auto. destruct (D c b) as [|Nb]; auto.
    pose proof (proj2 HV a b c He Hc Na Nb). lra.
  Qed.
  Lemma frac_up (c d : pt) : snd c < y -> y <= snd d -> 0 < (y - snd c) / (snd d - snd c) <= 1.
  Proof.
    intros H1 H2. split.
    - apply Rdiv_lt_0_compat; lra.
    - apply Rmult_le_reg_r with (snd d - snd c); [lra|]. unfold Rdiv. rewrite Rmult_assoc, Rinv_l by lra. lra.
  Qed.
  Lemma frac_down (c d : pt) : snd d < y -> y <= snd c -> 0 <= (y - snd c) / (snd d - snd c) < 1.
  Proof.
    intros H1 H2. replace ((y - snd c) / (snd d - snd c)) with ((snd c - y) / (snd c - snd d)) by (field; lra). split.
    - apply Rmult_le_pos; [lra|]. left. apply Rinv_0_lt_compat. lra.
    - apply Rmult_lt_reg_r with (snd c - snd d); [lra|]. unfold Rdiv. rewrite Rmult_assoc, Rinv_l by lra. lra.
  Qed.
  Lemma level_left a b c d : In (a, b) (edges V) -> In (c, d) (edges V) -> (upb y (c, d) || downb y (c, d))%bool = true ->
    0 <= left_of a b (abscissa c d y, y).
  Proof.
    intros He Hc Hl. destruct (edge_in _ _ _ Hc) as [Ic Id].
    pose proof (vertex_left a b c He Ic) as L1. pose proof (vertex_left a b d He Id) as L2.
    apply orb_true_iff in Hl. unfold upb, downb in Hl; cbn [fst snd] in Hl. rewrite !andb_true_iff, !negb_true_iff in Hl.
    rewrite !low_true, !low_false in Hl. rewrite left_mix by lra.
    destruct Hl as [[H1 H2]|[H1 H2]].
    - pose proof (frac_up c d H1 H2). set (t := (y - snd c) / (snd d - snd c)) in *.
      assert (0 <= (1 - t) * left_of a b c) by (apply Rmult_le_pos; lra).
      assert (0 <= t * left_of a b d) by (apply Rmult_le_pos; lra). lra.
    - pose proof (frac_down c d H2 H1). set (t := (y - snd c) / (snd d - snd c)) in *.
      assert (0 <= (1 - t) * left_of a b c) by (apply Rmult_le_pos; lra).
      assert (0 <= t * left_of a b d) by (apply Rmult_le_pos; lra). lra.
  Qed.
  Lemma up_dec (a b : pt) : upb y (a, b) = true <-> snd a < y <= snd b.
  Proof. unfold upb; cbn [fst snd]. rewrite andb_true_iff, negb_true_iff, low_true, low_false. lra. Qed.
  Lemma down_dec (a b : pt) : downb y (a, b) = true <-> snd b < y <= snd a.
  Proof. unfold downb; cbn [fst snd]. rewrite andb_true_iff, negb_true_iff, low_true, low_false. lra. Qed.
  Lemma up_unique e e' : In e (edges V) -> In e' (edges V) -> upb y e = true -> upb y e' = true -> e = e'.
  Proof.
    destruct e as [a b], e' as [c d]. intros H1 H2 U1 U2.
    pose proof (level_left a b c d H1 H2 ltac:(rewrite U2; reflexivity)) as L1.
    pose proof (level_left c d a b H2 H1 ltac:(rewrite U1; reflexivity)) as L2.
    apply up_dec in U1, U2. rewrite left_abscissa in L1, L2 by lra.
    assert (abscissa a b y = abscissa c d y) as E.
    { apply Rle_antisym.
      - assert (0 <= abscissa c d y - abscissa a b y); [|lra].
        apply Rmult_le_reg_l with (snd d - snd c); lra.
      - assert (0 <= abscissa a b y - abscissa c d y); [|lra].
        apply Rmult_le_reg_l with (snd b - snd a); lra. }
    pose proof (left_mix a b c d y ltac:(lra)) as M. rewrite <- E in M.
    rewrite left_abscissa in M by lra. replace (abscissa a b y - abscissa a b y) with 0 in M by ring.
    destruct (edge_in _ _ _ H2) as [Ic Id].
    pose proof (vertex_left a b c H1 Ic). pose proof (vertex_left a b d H1 Id).
    pose proof (frac_up c d ltac:(lra) ltac:(lra)) as F. set (t := (y - snd c) / (snd d - snd c)) in *.
    assert (Z : left_of a b d = 0).
    { assert (0 <= (1 - t) * left_of a b c) by (apply Rmult_le_pos; lra).
      assert (0 <= t * left_of a b d) by (apply Rmult_le_pos; lra).
      assert (t * left_of a b d = 0) by lra. apply Rmult_integral in H5. destruct H5; lra. }
    destruct (on_edge a b d H1 Id Z) as [->| ->]; [lra|].
    f_equal. eapply same_target; eauto.
  Qed.
  Lemma down_unique e e' : In e (edges V) -> In e' (edges V) -> downb y e = true -> downb y e' = true -> e = e'.
  Proof.
    destruct e as [a b], e' as [c d]. intros H1 H2 U1 U2.
    pose proof (level_left a b c d H1 H2 ltac:(rewrite U2; apply orb_true_r)) as L1.
    pose proof (level_left c d a b H2 H1 ltac:(rewrite U1; apply orb_true_r)) as L2.
    apply down_dec in U1, U2. rewrite left_abscissa in L1, L2 by lra.
    assert (abscissa a b y = abscissa c d y) as E.
    { apply Rle_antisym.
      - assert (0 <= abscissa c d y - abscissa a b y); [|lra].
        apply Rmult_le_reg_l with (snd a - snd b); lra.
      - assert (0 <= abscissa a b y - abscissa c d y); [|lra].
        apply Rmult_le_reg_l with (snd c - snd d); lra. }
    pose proof (left_mix a b c d y ltac:(lra)) as M. rewrite <- E in M.
    rewrite left_abscissa in M by lra. replace (abscissa a b y - abscissa a b y) with 0 in M by ring.
    destruct (edge_in _ _ _ H2) as [Ic Id].
    pose proof (vertex_left a b c H1 Ic). pose proof (vertex_left a b d H1 Id).
    pose proof (frac_down c d ltac:(lra) ltac:(lra)) as F. set (t := (y - snd c) / (snd d - snd c)) in *.
    assert (Z : left_of a b c = 0).
    { assert (0 <= (1 - t) * left_of a b c) by (apply Rmult_le_pos; lra).
      assert (0 <= t * left_of a b d) by (apply Rmult_le_pos; lra).
      assert ((1 - t) * left_of a b c = 0) by lra. apply Rmult_integral in H5. destruct H5; lra. }
    destruct (on_edge a b c H1 Ic Z) as [->| ->]; [|lra].
    f_equal. eapply same_source; eauto.
  Qed.
  (** The crossing number splits into upward and downward edges. *)
  Lemma crossing_split x : crossing_number V x y =
    (length (filter (fun e => upb y e && crosses x y e) (edges V)) +
     length (filter (fun e => downb y e && crosses x y e) (edges V)))%nat.
  Proof.
    unfold crossing_number. apply filter_split with (k := upb y); auto; intros [a b]; rewrite crosses_level;
    unfold upb, downb; cbn [fst snd]; destruct (lowb y a), (lowb y b); cbn; try reflexivity;
    destruct (Rle_dec _ _); reflexivity.
  Qed.
  Lemma count_one (f : pt * pt -> bool) e : (forall a b, In a (edges V) -> In b (edges V) -> f a = true -> f b = true -> a = b) ->
    In e (edges V) -> f e = true -> length (filter f (edges V)) = 1%nat.
  Proof.
    intros U He Hf. pose proof (filter_one f (edges V) (nodup_edges V N) U).
    assert (I : In e (filter f (edges V))) by (apply filter_In; auto).
    destruct (filter f (edges V)); [destruct I|]. cbn in *. lia.
  Qed.
  Lemma count_zero (f : pt * pt -> bool) : (forall e, In e (edges V) -> f e = false) ->
    length (filter f (edges V)) = 0%nat.
  Proof.
    clear -V. intros H. induction (edges V) as [|e r IH]; [reflexivity|]. cbn. rewrite H by (left; reflexivity).
    apply IH. intros; apply H; right; assumption.
  Qed.
  Lemma min_vertex : V <> [] -> exists m : pt, In m V /\ forall c : pt, In c V -> snd m <= snd c.
  Proof.
    clear. induction V as [|a l IH]; [congruence|]. intros _. destruct l as [|b l].
    - exists a. split; [left; reflexivity|]. intros c [<-|[]]. lra.
    - destruct IH as (m & Hm & H); [discriminate|]. destruct (Rle_dec (snd a) (snd m)).
      + exists a. split; [left; reflexivity|]. intros c [<-|Hc]; [lra|]. specialize (H c Hc). lra.
      + exists m. split; [right; exact Hm|]. intros c [<-|Hc]; [lra|]. auto.
  Qed.
  Lemma max_vertex : V <> [] -> exists m : pt, In m V /\ forall c : pt, In c V -> snd c <= snd m.
  Proof.
    clear. induction V as [|a l IH]; [congruence|]. intros _. destruct l as [|b l].
    - exists a. split; [left; reflexivity|]. intros c [<-|[]]. lra.
    - destruct IH as (m & Hm & H); [discriminate|]. destruct (Rle_dec (snd m) (snd a)).
      + exists a. split; [left; reflexivity|]. intros c [<-|Hc]; [lra|]. specialize (H c Hc). lra.
      + exists m. split; [right; exact Hm|]. intros c [<-|Hc]; [lra|]. auto.
  Qed.
  (** Around an extreme vertex. *)
  Lemma extreme (sg : R) x m : sg * sg = 1 -> inside V (x, y) -> In m V ->
    (forall c, In c V -> 0 <= sg * (snd c - snd m)) -> 0 < sg * (y - snd m).
  Proof.
    intros Hs [_ HI] Hm Hmin.
    destruct (edge_from V m Hm) as [b Hb]. destruct (edge_to V m Hm) as [a Ha].
    pose proof (HI m b Hb) as L1. pose proof (HI a m Ha) as L2.
    assert (Nam : b <> m). { intros ->. unfold left_of in L1. lra. }
    assert (Nab : b <> a). { intros ->. unfold left_of in *. cbn in *. lra. }
    destruct (edge_in _ _ _ Hb) as [_ Ib]. destruct (edge_in _ _ _ Ha) as [Ia _].
    pose proof (proj2 HV a m b Ha Ib Nab Nam) as C.
    pose proof (Hmin a Ia) as Pa. pose proof (Hmin b Ib) as Pb.
    unfold left_of in *. destruct a as [ax ay], b as [bx by_], m as [mx my]; cbn [fst snd] in *.
    set (px := ax - mx). set (py := ay - my) in *. set (nx := bx - mx) in *. set (ny := by_ - my) in *.
    set (dx := x - mx) in *. set (dy := y - my) in *.
    assert (L2' : 0 < py * dx - px * dy).
    { replace (py * dx - px * dy) with ((mx - ax) * (y - ay) - (my - ay) * (x - ax)) by (unfold px, py, dx, dy; ring). exact L2. }
    assert (C' : 0 < py * nx - px * ny).
    { replace (py * nx - px * ny) with ((mx - ax) * (by_ - ay) - (my - ay) * (bx - ax)) by (unfold px, py, nx, ny; ring). exact C. }
    clear L2 C. destruct (Rlt_dec 0 (sg * dy)) as [|Hd]; [assumption|]. exfalso.
    assert (K : sg * (py * (nx * dy - ny * dx) + ny * (py * dx - px * dy)) = sg * dy * (py * nx - px * ny)) by ring.
    assert (K1 : 0 <= sg * py * (nx * dy - ny * dx)) by (apply Rmult_le_pos; lra).
    assert (K2 : 0 <= sg * ny * (py * dx - px * dy)) by (apply Rmult_le_pos; lra).
    destruct (Req_EM_T py 0) as [Zp|Zp].
    - destruct (Req_EM_T ny 0) as [Zn|Zn]; [rewrite Zp, Zn in C'; lra|].
      assert (0 < sg * ny). { destruct (Req_EM_T (sg * ny) 0) as [E|E]; [|lra]. exfalso. apply Zn.
        replace ny with (sg * (sg * ny)) by (rewrite <- Rmult_assoc, Hs; ring). rewrite E. ring. }
      assert (0 < sg * ny * (py * dx - px * dy)) by (apply Rmult_lt_0_compat; lra).
      assert (0 <= - (sg * dy) * (py * nx - px * ny)) by (apply Rmult_le_pos; lra). lra.
    - assert (0 < sg * py). { destruct (Req_EM_T (sg * py) 0) as [E|E]; [|lra]. exfalso. apply Zp.
        replace py with (sg * (sg * py)) by (rewrite <- Rmult_assoc, Hs; ring). rewrite E. ring. }
      assert (0 < sg * py * (nx * dy - ny * dx)) by (apply Rmult_lt_0_compat; lra).
      assert (0 <= - (sg * dy) * (py * nx - px * ny)) by (apply Rmult_le_pos; lra). lra.
  Qed.
  Lemma inside_number x : inside V (x, y) -> crossing_number V x y = 1%nat.
  Proof.
    intros HI. destruct HI as [HN HI'] eqn:EHI. clear EHI.
    destruct (min_vertex HN) as (m & Im & Hm). destruct (max_vertex HN) as (M & IM & HM).
    assert (Lm : snd m < y).
    { pose proof (extreme 1 x m ltac:(ring) HI Im ltac:(intros c Hc; specialize (Hm c Hc); lra)). lra. }
    assert (LM : y < snd M).
    { pose proof (extreme (-1) x M ltac:(ring) HI IM ltac:(intros c Hc; specialize (HM c Hc); lra)). lra. }
    destruct (level_crossed y V m M Im IM) as (e & He & Ue); [apply low_true, Lm|apply low_false; lra|].
    rewrite crossing_split. rewrite (count_one _ e), count_zero; [reflexivity| | |exact He|].
    - intros [a b] Hab. destruct (downb y (a, b)) eqn:D; [|reflexivity]. cbn [andb].
      rewrite crosses_level, D, orb_true_r. cbn [andb]. destruct (Rle_dec _ _) as [L|L]; [|reflexivity]. exfalso.
      pose proof (HI' a b Hab) as P. apply down_dec in D. rewrite left_abscissa in P by lra.
      assert (0 <= (snd a - snd b) * (abscissa a b y - x)) by (apply Rmult_le_pos; lra). lra.
    - intros e1 e2 I1 I2 F1 F2. apply andb_true_iff in F1, F2. apply up_unique; tauto.
    - rewrite Ue. cbn [andb]. destruct e as [a b]. rewrite crosses_level, Ue. cbn [orb andb].
      pose proof (HI' a b He) as P. apply up_dec in Ue. rewrite left_abscissa in P by lra.
      destruct (Rle_dec _ _) as [L|L]; [reflexivity|]. exfalso.
      assert (0 <= (snd b - snd a) * (x - abscissa a b y)) by (apply Rmult_le_pos; lra). lra.
  Qed.
  Lemma outside_number x : outside V (x, y) -> crossing_number V x y = 0%nat \/ crossing_number V x y = 2%nat.
  Proof.
    intros (ea & eb & He & Ho). rewrite crossing_split.
    destruct (existsb (upb y) (edges V)) eqn:E.
    - apply existsb_exists in E. destruct E as ([a b] & HU & U).
      assert (exists e, In e (edges V) /\ downb y e = true) as ([c d] & HD & D).
      { pose proof (up_down y V) as UD.
        assert (I : In (a, b) (filter (upb y) (edges V))) by (apply filter_In; auto).
        destruct (filter (downb y) (edges V)) as [|e r] eqn:F.
        - cbn in UD. apply length_zero_iff_nil in UD. rewrite UD in I. destruct I.
        - exists e. apply filter_In. rewrite F. left; reflexivity. }
      assert (LD : abscissa c d y <= abscissa a b y).
      { pose proof (level_left a b c d HU HD ltac:(rewrite D; apply orb_true_r)) as L.
        apply up_dec in U. rewrite left_abscissa in L by lra.
        assert (0 <= abscissa a b y - abscissa c d y); [|lra]. apply Rmult_le_reg_l with (snd b - snd a); lra. }
      destruct (Rle_dec x (abscissa c d y)) as [X1|X1].
      + right. rewrite (count_one _ (a, b)), (count_one _ (c, d)); auto.
        * intros e1 e2 I1 I2 F1 F2. apply andb_true_iff in F1, F2. apply down_unique; tauto.
        * rewrite D, crosses_level, D, orb_true_r. cbn [andb]. destruct (Rle_dec _ _); [reflexivity|lra].
        * intros e1 e2 I1 I2 F1 F2. apply andb_true_iff in F1, F2. apply up_unique; tauto.
        * rewrite U, crosses_level, U. cbn [orb andb]. destruct (Rle_dec _ _); [reflexivity|lra].
      + destruct (Rle_dec x (abscissa a b y)) as [X2|X2].
        * exfalso.
          pose proof (level_left ea eb a b He HU ltac:(rewrite U; reflexivity)) as P1.
          pose proof (level_left ea eb c d He HD ltac:(rewrite D; apply orb_true_r)) as P2.
          set (xd := abscissa c d y) in *. set (xu := abscissa a b y) in *.
          pose (s := (x - xd) / (xu - xd)).
          assert (S : 0 <= s <= 1).
          { unfold s. split.
            - apply Rmult_le_pos; [lra|]. left. apply Rinv_0_lt_compat. lra.
            - apply Rmult_le_reg_r with (xu - xd); [lra|]. unfold Rdiv. rewrite Rmult_assoc, Rinv_l by lra. lra. }
          pose proof (left_line ea eb xd xu x y s ltac:(unfold s; field; lra)) as L.
          assert (0 <= (1 - s) * left_of ea eb (xd, y)) by (apply Rmult_le_pos; lra).
          assert (0 <= s * left_of ea eb (xu, y)) by (apply Rmult_le_pos; lra). lra.
        * left. rewrite !count_zero; [reflexivity| |].
          -- intros e Ie. destruct (downb y e) eqn:De; [|reflexivity].
             rewrite (down_unique e (c, d) Ie HD De D), crosses_level, D, orb_true_r. cbn [andb].
             destruct (Rle_dec _ _); [lra|reflexivity].
          -- intros e Ie. destruct (upb y e) eqn:Ue; [|reflexivity].
             rewrite (up_unique e (a, b) Ie HU Ue U), crosses_level, U. cbn [orb andb].
             destruct (Rle_dec _ _); [lra|reflexivity].
    - left.
      assert (U0 : forall e, In e (edges V) -> upb y e = false).
      { intros e Ie. destruct (upb y e) eqn:U; [|reflexivity].
        assert (existsb (upb y) (edges V) = true) by (apply existsb_exists; eauto). congruence. }
      pose proof (count_zero (upb y) U0) as Z. rewrite up_down in Z. apply length_zero_iff_nil in Z.
      assert (D0 : forall e, In e (edges V) -> downb y e = false).
      { intros e Ie. destruct (downb y e) eqn:U; [|reflexivity].
        assert (I : In e (filter (downb y) (edges V))) by (apply filter_In; auto). rewrite Z in I. destruct I. }
      rewrite !count_zero; [reflexivity| |]; intros e Ie; [rewrite D0 by assumption|rewrite U0 by assumption]; reflexivity.
  Qed.
End Convex.
Lemma convex_membership V x y : convex_polygon V ->
  (inside V (x, y) -> contains (ObscPolygon (map Fpt V)) (Fin x) (Fin y) = true) /\
  (outside V (x, y) -> contains (ObscPolygon (map Fpt V)) (Fin x) (Fin y) = false).
Proof.
  intros HV. rewrite polygon_parity. split; intros H.
  - rewrite (inside_number V y HV x H). reflexivity.
  - destruct (outside_number V y HV x H) as [-> | ->]; reflexivity.
Qed.
