(** C39, C43, C50, C51: hexapolar grids, lattices, reciprocal vectors, closest approach. *)
From Coq Require Import Reals String List ZArith Bool Lra Psatz Lia.
From Verif Require Import Num NumR Vec Ray Spec XRFacts RayFacts Trig Optic Field FieldSpec PatternSpec.
Import ListNotations.
Open Scope R_scope.

(** *** linspace *)
Lemma linspace_at_F a d n i : (1 <= n)%nat -> linspace_at (Fin a) (Fin d) n i = Fin (a + INR i / INR n * d).
Proof.
  intros Hn. unfold linspace_at. destruct n as [|n]; [lia|]. xunf.
  assert (HN : IZR (Z.of_nat (S n)) <> 0) by (apply not_0_IZR; lia). rewrite <- !INR_IZR_INZ in *.
  rewrite (xdiv_fin d) by exact HN. destruct (xeqb (Fin (d / INR (S n))) (Fin 0)) eqn:E; cbn [xmul].
  - rewrite xdiv_fin by exact HN. cbn [xmul xadd]. f_equal. ring.
  - cbn [xadd]. f_equal. field. exact HN.
Qed.
Lemma linspace_open a b n : linspace (Fin a) (Fin b) n false = map (fun i => Fin (a + INR i / INR n * (b - a))) (seq 0 n).
Proof.
  unfold linspace. cbn [andb]. apply map_ext_in. intros i Hi. apply in_seq in Hi. xunf. apply linspace_at_F. lia.
Qed.
Lemma linspace_closed a b n : linspace (Fin a) (Fin b) n true = map (fun i => Fin (evenly a b n i)) (seq 0 n).
Proof.
  unfold linspace. apply map_ext_in. intros i Hi. apply in_seq in Hi. cbn [andb]. unfold evenly.
  destruct (1 <? n)%nat eqn:E1; cbn [andb].
  - apply Nat.ltb_lt in E1. assert (HN : INR (n - 1) <> 0) by (apply not_0_INR; lia).
    destruct (Nat.eqb_spec i (n - 1)) as [->|Hne].
    + f_equal. field. exact HN.
    + xunf. rewrite linspace_at_F by lia. reflexivity.
  - apply Nat.ltb_ge in E1. replace n with 1%nat by lia. replace i with 0%nat by lia. cbn [Nat.sub].
    unfold linspace_at. xunf. f_equal. cbn. unfold Rdiv. ring.
Qed.

(** *** Rings *)
Lemma int_part_le x : IZR (Int_part x) <= x < IZR (Int_part x) + 1.
Proof. pose proof (base_Int_part x). lra. Qed.
Lemma ring_count_size outer rho naz kfold : 0 < outer -> 0 <= rho -> (0 <= naz)%Z -> (1 <= kfold)%Z ->
  exists n, ring_count (Fin outer) (Fin rho) naz kfold = Some (Z.of_nat n) /\ ring_size kfold (IZR naz * rho / outer) n.
Proof.
  intros Ho Hr Hn Hk. unfold ring_count. xunf. apply IZR_le in Hn. assert (HK : 1 <= IZR kfold) by (apply IZR_le in Hk; exact Hk).
  rewrite xdiv_fin by lra. rewrite xdiv_fin by lra. cbn [nfloor NumXR xfloor].
  set (s := IZR naz * rho / outer). assert (Hs : 0 <= s).
  { apply Rmult_le_pos; [nra|]. apply Rlt_le, Rinv_0_lt_compat; lra. }
  pose proof (int_part_le (s / IZR kfold)) as B. set (k := Int_part (s / IZR kfold)) in *.
  assert (Hq : 0 <= s / IZR kfold) by (apply Rmult_le_pos; [lra|]; apply Rlt_le, Rinv_0_lt_compat; lra).
  assert (Hk0 : (0 <= k)%Z) by (assert (-1 < IZR k) by lra; apply lt_IZR in H; lia).
  assert (Hs2 : s = s / IZR kfold * IZR kfold) by (field; lra).
  assert (Hlo : IZR k * IZR kfold <= s) by (rewrite Hs2; apply Rmult_le_compat_r; lra).
  assert (Hhi : s < (IZR k + 1) * IZR kfold) by (rewrite Hs2 at 1; apply Rmult_lt_compat_r; lra).
  destruct (Z.eqb_spec (k * kfold) 0) as [E|E].
  - assert (k = 0%Z) by nia. exists (Z.to_nat kfold). rewrite Z2Nat.id by lia. split; [reflexivity|].
    unfold ring_size. rewrite INR_IZR_INZ, Z2Nat.id by lia. split; [exists 1%Z; lia|]. split; [right; reflexivity|].
    rewrite H in Hhi. lra.
  - exists (Z.to_nat (k * kfold)). assert (0 <= k * kfold)%Z by nia. rewrite Z2Nat.id by assumption. split; [reflexivity|].
    unfold ring_size. rewrite INR_IZR_INZ, Z2Nat.id, mult_IZR by assumption. split; [exists k; nia|]. split; [left; exact Hlo|lra].
Qed.
Lemma ring_counts_size outer naz kfold (rhos : list R) : 0 < outer -> (0 <= naz)%Z -> (1 <= kfold)%Z ->
  Forall (fun r => 0 <= r) rhos ->
  exists ns, ring_counts (Fin outer) (map Fin rhos) naz kfold = Some (map Z.of_nat ns) /\
    Forall2 (fun r n => ring_size kfold (IZR naz * r / outer) n) rhos ns.
Proof.
  intros Ho Hn Hk. induction 1 as [|r rhos Hr _ IH]; cbn [map ring_counts].
  - exists []. split; [reflexivity|constructor].
  - destruct (ring_count_size outer r naz kfold Ho Hr Hn Hk) as (n & -> & Hs). destruct IH as (ns & -> & HF).
    exists (n :: ns). split; [reflexivity|]. constructor; assumption.
Qed.
Lemma ring_F rho n : ring (Fin rho) (Z.of_nat n) = map Fpair (circle_points rho n).
Proof.
  unfold ring, circle_points. rewrite Nat2Z.id. xunf. cbn [npi TrigXR xmul].
  rewrite linspace_open. rewrite !map_map. apply map_ext. intros j. unfold Fpair; cbn [fst snd]. do 2 f_equal. ring.
Qed.
Lemma flat_rings rhos ns :
  flat_map (fun rc => ring (fst rc) (snd rc)) (combine (map Fin rhos) (map Z.of_nat ns)) =
  map Fpair (flat_map (fun rc => circle_points (fst rc) (snd rc)) (combine rhos ns)).
Proof.
  revert ns. induction rhos as [|r rhos IH]; intros [|n ns]; try reflexivity.
  cbn [map combine flat_map fst snd]. rewrite map_app, ring_F, IH. reflexivity.
Qed.
Lemma combine_map_l {A B C} (f : A -> B) (l : list A) (m : list C) :
  combine (map f l) m = map (fun p => (f (fst p), snd p)) (combine l m).
Proof. revert m. induction l as [|a l IH]; intros [|c m]; try reflexivity. cbn. rewrite IH. reflexivity. Qed.
Lemma flat_map_map {A B C} (f : B -> list C) (g : A -> B) l : flat_map f (map g l) = flat_map (fun a => f (g a)) l.
Proof. induction l as [|a l IH]; [reflexivity|]. cbn. rewrite IH. reflexivity. Qed.
Lemma rings_eq outer inner ns :
  flat_map (fun rc => circle_points (fst rc) (snd rc)) (combine (map (evenly outer inner (List.length ns)) (seq 0 (List.length ns))) ns) =
  rings outer inner ns.
Proof. unfold rings. rewrite combine_map_l, flat_map_map. reflexivity. Qed.
Lemma evenly_nonneg outer inner n i : 0 <= inner -> 0 <= outer -> (i < n)%nat -> 0 <= evenly outer inner n i.
Proof.
  intros Hi Ho Hn. unfold evenly. destruct (Nat.eq_dec n 1) as [->|Hne].
  - replace i with 0%nat by lia. cbn. unfold Rdiv. rewrite !Rmult_0_l. lra.
  - assert (HN : 0 < INR (n - 1)) by (apply lt_0_INR; lia).
    assert (0 <= INR i / INR (n - 1) <= 1).
    { split; [apply Rmult_le_pos; [apply pos_INR|apply Rlt_le, Rinv_0_lt_compat, HN]|].
      apply (Rmult_le_reg_r (INR (n - 1))); [exact HN|]. unfold Rdiv. rewrite Rmult_assoc, Rinv_l by lra.
      rewrite Rmult_1_r, Rmult_1_l. apply le_INR. lia. }
    nra.
Qed.
Lemma forallb_of_nat ns : forallb (fun c => (0 <=? c)%Z) (map Z.of_nat ns) = true.
Proof. apply forallb_forall. intros c Hc. apply in_map_iff in Hc. destruct Hc as (n & <- & _). apply Z.leb_le. lia. Qed.
Lemma set_last_map {A B} (f : A -> B) a l : set_last (f a) (map f l) = map f (set_last a l).
Proof.
  unfold set_last. rewrite map_app. f_equal. induction l as [|x l IH]; [reflexivity|].
  destruct l; [reflexivity|]. cbn [map removelast] in *. rewrite IH. reflexivity.
Qed.
Lemma set_last_length {A} (a : A) l : l <> [] -> List.length (set_last a l) = List.length l.
Proof.
  intros H. unfold set_last. rewrite app_length. cbn. destruct (exists_last H) as (l' & x & ->).
  rewrite removelast_last, app_length. reflexivity.
Qed.
Lemma set_last_nth {A} (a : A) l i : l <> [] -> nth_error (set_last a l) i =
  if (S i =? List.length l)%nat then Some a else nth_error l i.
Proof.
  intros H. destruct (exists_last H) as (l' & x & ->). unfold set_last. rewrite removelast_last, app_length. cbn [List.length].
  destruct (Nat.eqb_spec (S i) (List.length l' + 1)) as [E|E].
  - rewrite nth_error_app2 by lia. replace (i - List.length l')%nat with 0%nat by lia. reflexivity.
  - destruct (Nat.lt_ge_cases i (List.length l')) as [L|L].
    + rewrite !nth_error_app1 by lia. reflexivity.
    + rewrite (proj2 (nth_error_None _ i)) by (rewrite app_length; cbn; lia).
      rewrite (proj2 (nth_error_None _ i)) by (rewrite app_length; cbn; lia). reflexivity.
Qed.
Lemma Forall2_nth {A B} (P : A -> B -> Prop) l m : Forall2 P l m -> forall i a b,
  nth_error l i = Some a -> nth_error m i = Some b -> P a b.
Proof.
  induction 1 as [|x y l m Hp _ IH]; intros [|i] a b; cbn; try discriminate.
  - intros E1 E2; injection E1; injection E2; intros; subst; exact Hp.
  - apply IH.
Qed.
Lemma Forall2_len {A B} (P : A -> B -> Prop) l m : Forall2 P l m -> List.length l = List.length m.
Proof. induction 1; cbn; congruence. Qed.
Lemma combine_app2 {A B} (l l2 : list A) (m m2 : list B) : List.length l = List.length m ->
  combine (l ++ l2) (m ++ m2) = combine l m ++ combine l2 m2.
Proof.
  revert m. induction l as [|a l IH]; intros [|b m] H; try discriminate; [reflexivity|].
  injection H as H. cbn. rewrite IH by exact H. reflexivity.
Qed.
Lemma nth_seq i n : (i < n)%nat -> nth_error (seq 0 n) i = Some i.
Proof. intros H. rewrite (nth_error_nth' _ 0%nat) by (rewrite seq_length; exact H). rewrite seq_nth by exact H. reflexivity. Qed.

Theorem hexapolar_rings : forall outer inner nrad naz kfold,
  0 < outer -> 0 <= inner -> (1 <= nrad)%nat -> (inner = 0 -> (2 <= nrad)%nat) -> (0 <= naz)%Z -> (1 <= kfold)%Z ->
  exists ns, List.length ns = nrad /\
    hexapolar_rth (Fin outer) (Fin inner) nrad naz kfold = Ok (map Fpair (rings outer inner ns)) /\
    hexapolar (Fin outer) (Fin inner) nrad naz kfold = Ok (map (fun p => Fpair (cartesian p)) (rings outer inner ns)) /\
    forall i n, nth_error ns i = Some n ->
      (inner = 0 /\ S i = nrad -> n = 1%nat) /\
      (~ (inner = 0 /\ S i = nrad) -> ring_size kfold (IZR naz * evenly outer inner nrad i / outer) n).
Proof.
  intros outer inner nrad naz kfold Ho Hi Hn Hn2 Hz Hk.
  assert (HF : Forall (fun r => 0 <= r) (map (evenly outer inner nrad) (seq 0 nrad))).
  { apply Forall_forall. intros r Hr. apply in_map_iff in Hr. destruct Hr as (i & <- & Hin). apply in_seq in Hin.
    apply evenly_nonneg; lra || lia. }
  destruct (ring_counts_size outer naz kfold _ Ho Hz Hk HF) as (ns & Hc & HS).
  assert (HL : List.length ns = nrad).
  { pose proof (Forall2_len _ _ _ HS) as HSl. rewrite map_length, seq_length in HSl. congruence. }
  assert (HN : ns <> []) by (destruct ns; [cbn in HL; lia|discriminate]).
  set (ns' := if Req_EM_T inner 0 then set_last 1%nat ns else ns).
  assert (HL' : List.length ns' = nrad) by (subst ns'; destruct (Req_EM_T inner 0); [rewrite set_last_length; assumption|assumption]).
  assert (HR : hexapolar_rth (Fin outer) (Fin inner) nrad naz kfold = Ok (map Fpair (rings outer inner ns'))).
  { unfold hexapolar_rth. rewrite linspace_closed. rewrite <- (map_map (evenly outer inner nrad) Fin). rewrite Hc.
    destruct (map Fin (map (evenly outer inner nrad) (seq 0 nrad))) as [|x0 xs] eqn:EM.
    { destruct nrad; [lia|discriminate]. }
    rewrite <- EM. xunf. subst ns'. destruct (Req_EM_T inner 0) as [E|E].
    - rewrite xeqb_t by exact E. change 1%Z with (Z.of_nat 1). rewrite set_last_map, forallb_of_nat.
      rewrite flat_rings. change (Fin 0, Fin 0) with (Fpair (0, 0)). rewrite set_last_map. do 2 f_equal.
      rewrite <- HL' at 1 2. rewrite rings_eq. unfold rings. rewrite HL'.
      destruct nrad as [|m]; [lia|]. rewrite seq_S. destruct (exists_last HN) as (ns0 & x & ->).
      unfold set_last at 2 3. rewrite removelast_last.
      rewrite app_length in HL; cbn in HL. assert (HL0 : List.length ns0 = m) by lia.
      assert (Hcomb : combine (seq 0 m ++ [0 + m]%nat) (ns0 ++ [1%nat]) = combine (seq 0 m) ns0 ++ [(m, 1%nat)]).
      { rewrite combine_app2 by (rewrite seq_length; symmetry; exact HL0). reflexivity. }
      rewrite Hcomb, flat_map_app. cbn [flat_map fst snd app circle_points]. unfold circle_points at 2 4. cbn [seq map].
      rewrite app_nil_r. unfold set_last. rewrite removelast_last. do 2 f_equal.
      unfold evenly. assert (INR (S m - 1) <> 0) by (apply not_0_INR; specialize (Hn2 E); lia).
      replace (S m - 1)%nat with m in * by lia. subst inner. f_equal; cbn [INR]; field; assumption.
    - rewrite xeqb_f by exact E. rewrite forallb_of_nat, flat_rings. do 2 f_equal. rewrite <- HL at 1 2. apply rings_eq. }
  exists ns'. split; [exact HL'|]. split; [exact HR|]. split.
  - unfold hexapolar. rewrite HR. cbn [bind]. rewrite map_map. f_equal. 
  - intros i n Hin. assert (Hlt : (i < nrad)%nat) by (rewrite <- HL'; apply nth_error_Some; congruence).
    subst ns'. destruct (Req_EM_T inner 0) as [E|E].
    + rewrite set_last_nth in Hin by exact HN. rewrite HL in Hin. split.
      * intros [_ Hl]. rewrite Hl, Nat.eqb_refl in Hin. congruence.
      * intros Hl. destruct (Nat.eqb_spec (S i) nrad) as [E2|E2]; [tauto|].
        eapply (Forall2_nth _ _ _ HS i); [|exact Hin]. rewrite nth_error_map, nth_seq by exact Hlt. reflexivity.
    + split; [tauto|]. intros _.
      eapply (Forall2_nth _ _ _ HS i); [|exact Hin]. rewrite nth_error_map, nth_seq by exact Hlt. reflexivity.
Qed.

(** *** Ring sizes in every number type *)
Theorem ring_count_multiple {T} {NT : Num T} : forall (outer rho : T) naz kfold c,
  ring_count outer rho naz kfold = Some c ->
  (exists m, c = m * kfold)%Z /\ (kfold <> 0 -> c <> 0)%Z.
Proof.
  intros outer rho naz kfold c. unfold ring_count. destruct (nfloor _) as [k|]; [|discriminate].
  destruct (Z.eqb_spec (k * kfold) 0) as [E|E]; intros H; injection H as <-.
  - split; [exists 1%Z; lia|tauto].
  - split; [exists k; reflexivity|auto].
Qed.
(** With a single ring asked for down to radius 0, the only ring collapses to the centre. *)
Theorem hexapolar_one_ring_refuted : exists outer inner nrad naz kfold,
  0 < outer /\ inner = 0 /\ nrad = 1%nat /\ (0 <= naz)%Z /\ (1 <= kfold)%Z /\
  evenly outer inner nrad 0 = outer /\
  hexapolar_rth (Fin outer) (Fin inner) nrad naz kfold = Ok [(Fin 0, Fin 0)].
Proof.
  exists 1, 0, 1%nat, 6%Z, 6%Z. split; [lra|]. split; [reflexivity|]. split; [reflexivity|]. split; [lia|]. split; [lia|].
  split; [unfold evenly; cbn; unfold Rdiv; ring|].
  unfold hexapolar_rth. rewrite linspace_closed.
  destruct (ring_counts_size 1 6 6 [1] ltac:(lra) ltac:(lia) ltac:(lia)) as (ns & Hc & HS).
  { constructor; [lra|constructor]. }
  cbn [seq map]. replace (evenly 1 0 1 0) with 1 by (unfold evenly; cbn; unfold Rdiv; ring). cbn [map] in Hc. rewrite Hc.
  xunf. rewrite xeqb_t by reflexivity. inversion HS as [|? ? ? ? _ HS']; subst. inversion HS'; subst. cbn [map set_last removelast app forallb Z.leb].
  reflexivity.
Qed.

(** *** Lattices *)
Lemma axis_length N : List.length (lattice_axis N) = N.
Proof.
  unfold lattice_axis, arangeZ. rewrite map_length, seq_length.
  pose proof (Z.div_mod (Z.of_nat N) 2 ltac:(lia)). pose proof (Z.mod_pos_bound (Z.of_nat N) 2 ltac:(lia)).
  pose proof (Z.div_mod (- Z.of_nat N) 2 ltac:(lia)). pose proof (Z.mod_pos_bound (- Z.of_nat N) 2 ltac:(lia)). lia.
Qed.
Lemma axis_nth N i : (i < N)%nat -> nth_error (lattice_axis N) i = Some (Z.of_nat i - Z.of_nat (N / 2))%Z.
Proof.
  intros H. pose proof (axis_length N) as HL. unfold lattice_axis, arangeZ in *. rewrite map_length, seq_length in HL.
  rewrite nth_error_map, nth_seq by lia. cbn [option_map]. f_equal. rewrite Nat2Z.inj_div. lia.
Qed.
Lemma nth_flat_map {A B} (f : A -> list B) l m i j a b : (forall x, In x l -> List.length (f x) = m) ->
  nth_error l i = Some a -> nth_error (f a) j = Some b -> nth_error (flat_map f l) (i * m + j) = Some b.
Proof.
  revert i. induction l as [|x l IH]; intros [|i] Hm Hi Hj; try discriminate; cbn [flat_map].
  - injection Hi as ->. cbn. rewrite nth_error_app1; [exact Hj|]. apply nth_error_Some. congruence.
  - cbn [nth_error] in Hi. rewrite nth_error_app2; rewrite (Hm x) by (left; reflexivity); [|cbn; lia].
    replace (S i * m + j - m)%nat with (i * m + j)%nat by (cbn; lia). apply IH; auto. intros y Hy. apply Hm. right. exact Hy.
Qed.
Lemma flat_map_len {A B} (f : A -> list B) l m : (forall x, In x l -> List.length (f x) = m) ->
  List.length (flat_map f l) = (List.length l * m)%nat.
Proof.
  induction l as [|x l IH]; intros H; [reflexivity|]. cbn [flat_map List.length]. rewrite app_length, (H x), IH; [reflexivity| |left; reflexivity].
  intros y Hy. apply H. right. exact Hy.
Qed.
Lemma mesh_length Ns : List.length (mesh (map lattice_axis Ns)) = fold_right Nat.mul 1%nat Ns.
Proof.
  induction Ns as [|N Ns IH]; [reflexivity|]. cbn [map mesh fold_right].
  rewrite (flat_map_len _ _ (fold_right Nat.mul 1%nat Ns)) by (intros; rewrite map_length; exact IH). rewrite axis_length. reflexivity.
Qed.
Fixpoint steps (Ns idx : list nat) : list Z :=
  match Ns, idx with N :: Ns, i :: idx => (Z.of_nat i - Z.of_nat (N / 2))%Z :: steps Ns idx | _, _ => [] end.
Lemma mesh_nth Ns idx : in_shape Ns idx -> nth_error (mesh (map lattice_axis Ns)) (row_major Ns idx) = Some (steps Ns idx).
Proof.
  induction 1 as [|N i Ns idx Hi _ IH]; [reflexivity|]. cbn [map mesh row_major steps].
  eapply nth_flat_map; [intros x _; rewrite map_length; apply mesh_length|apply axis_nth, Hi|].
  rewrite nth_error_map, IH. reflexivity.
Qed.
Lemma seq_map_nth (l : list R) : map (component l) (seq 0 (List.length l)) = l.
Proof.
  unfold component. induction l as [|a l IH]; [reflexivity|]. cbn [List.length seq map nth]. f_equal.
  rewrite <- seq_shift, map_map. exact IH.
Qed.
Lemma add_rows_F (f g : nat -> R) l : add_rows (map (fun j => Fin (f j)) l) (map (fun j => Fin (g j)) l) = map (fun j => Fin (f j + g j)) l.
Proof. induction l as [|a l IH]; [reflexivity|]. cbn. rewrite IH. reflexivity. Qed.
Lemma scale_row_F k (a : list R) : scale_row k (map Fin a) = map (fun j => Fin (IZR k * component a j)) (seq 0 (List.length a)).
Proof. unfold scale_row. rewrite <- (seq_map_nth a) at 1. rewrite !map_map. reflexivity. Qed.
Lemma repeat_map {A} (x : A) n : repeat x n = map (fun _ => x) (seq 0 n).
Proof. induction n as [|n IH]; [reflexivity|]. cbn. rewrite <- seq_shift, map_map, <- IH. reflexivity. Qed.
Lemma fold_rows d Ns idx (pv : list (list R)) : in_shape Ns idx -> Forall (fun a => List.length a = d) pv ->
  forall f, fold_left (fun acc p => add_rows acc (scale_row (fst p) (snd p))) (combine (steps Ns idx) (map (map Fin) pv)) (map (fun j => Fin (f j)) (seq 0 d)) =
  map (fun j => Fin (f j + lattice_point Ns idx pv j)) (seq 0 d).
Proof.
  intros HS. revert pv. induction HS as [|N i Ns idx Hi _ IH]; intros pv HF f.
  - cbn. apply map_ext. intros j. f_equal. ring.
  - destruct HF as [|a pv Ha HF]; cbn [steps map combine fold_left lattice_point fst snd].
    + apply map_ext. intros j. f_equal. ring.
    + rewrite scale_row_F, Ha, add_rows_F, IH by exact HF. apply map_ext. intros j. f_equal.
      rewrite minus_IZR, <- !INR_IZR_INZ. ring.
Qed.
Theorem lattice_coords {A} : forall Ns (arr : list A) (pv : list (list R)) l, square (List.length Ns) pv ->
  mkLattice Ns arr (map (map Fin) pv) = Ok l ->
  List.length (coords l) = fold_right Nat.mul 1%nat Ns /\
  forall idx, in_shape Ns idx ->
    nth_error (coords l) (row_major Ns idx) = Some (map (fun j => Fin (lattice_point Ns idx pv j)) (seq 0 (List.length Ns))).
Proof.
  intros Ns arr pv l (Hp & HF) H. unfold mkLattice in H. destruct (negb _); [discriminate|].
  destruct (negb (List.length Ns =? List.length (hd [] _))%nat) eqn:E; [discriminate|]. injection H as <-.
  apply negb_false_iff, Nat.eqb_eq in E. unfold coords, primitiveToLattice; cbn [l_pv l_shape]. split.
  - rewrite map_length. apply mesh_length.
  - intros idx Hi. rewrite nth_error_map, mesh_nth by exact Hi. cbn [option_map]. f_equal.
    unfold matmul_row. rewrite <- E, repeat_map. change (@n0 XR _) with (Fin 0).
    rewrite (fold_rows (List.length Ns) Ns idx pv Hi HF (fun _ => 0)). apply map_ext. intros j. f_equal. ring.
Qed.
Lemma origin_point Ns pv j : lattice_point Ns (map (fun N => (N / 2)%nat) Ns) pv j = 0.
Proof. revert pv. induction Ns as [|N Ns IH]; intros [|a pv]; try reflexivity. cbn [map lattice_point]. rewrite IH. ring. Qed.
Lemma origin_in Ns : Forall (fun N => (1 <= N)%nat) Ns -> in_shape Ns (map (fun N => (N / 2)%nat) Ns).
Proof. induction 1; cbn [map]; constructor; [apply Nat.div_lt; lia|assumption]. Qed.
Theorem lattice_origin {A} : forall Ns (arr : list A) (pv : list (list R)) l, square (List.length Ns) pv ->
  Forall (fun N => (1 <= N)%nat) Ns -> mkLattice Ns arr (map (map Fin) pv) = Ok l ->
  nth_error (coords l) (row_major Ns (map (fun N => (N / 2)%nat) Ns)) = Some (repeat (Fin 0) (List.length Ns)).
Proof.
  intros Ns arr pv l HS HN H. rewrite (proj2 (lattice_coords Ns arr pv l HS H) _ (origin_in Ns HN)). f_equal.
  rewrite repeat_map. apply map_ext. intros j. f_equal. apply origin_point.
Qed.
Theorem lattice_rejects {T} {A} : forall Ns (arr : list A) (pv : list (list T)),
  List.length Ns <> List.length pv \/ (exists a pv', pv = a :: pv' /\ List.length a <> List.length Ns) <->
  mkLattice Ns arr pv = Err ValueError.
Proof.
  intros Ns arr pv. unfold mkLattice. destruct (Nat.eqb_spec (List.length Ns) (List.length pv)) as [E|E]; cbn [negb].
  - destruct pv as [|a pv]; cbn [hd].
    + destruct Ns; [|discriminate]. cbn. split; [|discriminate]. intros [H | (a & pv' & H & _)]; [elim H; reflexivity|discriminate].
    + destruct (Nat.eqb_spec (List.length Ns) (List.length a)) as [E2|E2]; cbn [negb].
      * split; [|discriminate]. intros [H | (b & pv' & H & H2)]; [contradiction|]. injection H as <- <-. congruence.
      * split; [reflexivity|]. intros _. right. exists a, pv. split; [reflexivity|congruence].
  - split; [reflexivity|]. intros _. left. exact E.
Qed.

(** *** Reciprocal vectors *)
Lemma reciprocal_F a1 a2 N : det2 a1 a2 <> 0 -> N <> 0 ->
  reciprocalLatticeVectors (Fpair a1) (Fpair a2) (Fin N) =
  (let k := 2 * PI / det2 a1 a2 / N in (Fpair (k * snd a2, k * fst a2), Fpair (k * snd a1, k * fst a1))).
Proof.
  intros Hd HN. unfold reciprocalLatticeVectors, Fpair; cbn [fst snd]. xunf. cbn [npi TrigXR xmul xsub].
  rewrite xdiv_fin by exact Hd. rewrite xdiv_fin by exact HN. reflexivity.
Qed.
Lemma dual_iff a1 a2 N : det2 a1 a2 <> 0 -> N <> 0 ->
  let k := 2 * PI / det2 a1 a2 / N in
  dual a1 a2 (k * snd a2, k * fst a2) (k * snd a1, k * fst a1) N <-> snd a1 = 0 /\ fst a2 = 0.
Proof.
  destruct a1 as [p q], a2 as [s t]. unfold dual, dot2, det2; cbn [fst snd]. intros Hd HN.
  pose proof PI_RGT_0 as HP.
  set (k := 2 * PI / (p * t - q * s) / N).
  assert (Hk : k <> 0).
  { unfold k, Rdiv. apply Rmult_integral_contrapositive_currified; [apply Rmult_integral_contrapositive_currified|].
    - lra.
    - apply Rinv_neq_0_compat, Hd.
    - apply Rinv_neq_0_compat, HN. }
  assert (Hkd : k * (p * t - q * s) = 2 * PI / N) by (unfold k; field; split; assumption).
  split.
  - intros (H1 & H2 & H3 & H4). rewrite <- Hkd in H1.
    assert (E1 : q * s = 0) by (apply (Rmult_eq_reg_l k); [lra|exact Hk]).
    assert (E3 : p * q = 0) by (apply (Rmult_eq_reg_l k); [lra|exact Hk]).
    assert (E4 : s * t = 0) by (apply (Rmult_eq_reg_l k); [lra|exact Hk]).
    rewrite E1 in Hd. assert (p <> 0) by (intros ->; apply Hd; ring). assert (t <> 0) by (intros ->; apply Hd; ring).
    apply Rmult_integral in E3. apply Rmult_integral in E4. tauto.
  - intros (-> & ->). rewrite <- Hkd. repeat split; ring.
Qed.
Theorem reciprocal_vectors : forall a1 a2 N, det2 a1 a2 <> 0 -> N <> 0 ->
  exists b1 b2, reciprocalLatticeVectors (Fpair a1) (Fpair a2) (Fin N) = (Fpair b1, Fpair b2) /\
    (dual a1 a2 b1 b2 N <-> snd a1 = 0 /\ fst a2 = 0).
Proof. intros a1 a2 N Hd HN. rewrite reciprocal_F by assumption. do 2 eexists. split; [reflexivity|]. apply dual_iff; assumption. Qed.
Theorem reciprocal_refuted : exists a1 a2 N b1 b2, det2 a1 a2 <> 0 /\ 0 < N /\
  reciprocalLatticeVectors (Fpair a1) (Fpair a2) (Fin N) = (Fpair b1, Fpair b2) /\ ~ dual a1 a2 b1 b2 N.
Proof.
  destruct (reciprocal_vectors (1, 0) (1, 1) 1) as (b1 & b2 & H & HI); [unfold det2; cbn; lra|lra|].
  exists (1, 0), (1, 1), 1, b1, b2. split; [unfold det2; cbn; lra|]. split; [lra|]. split; [exact H|].
  rewrite HI. cbn. lra.
Qed.

(** *** Closest approach *)
Lemma closest_F P u Q v : dotR u u * dotR v v - dotR u v * dotR u v <> 0 ->
  closestApproach (F3 P) (F3 u) (F3 Q) (F3 v) =
  Ok (F3 (on_line P u ((dotR u v * dotR v (minusR P Q) - dotR v v * dotR u (minusR P Q)) /
                       (dotR u u * dotR v v - dotR u v * dotR u v)))).
Proof.
  intros H. destruct P as [p1 p2 p3], u as [u1 u2 u3], Q as [q1 q2 q3], v as [v1 v2 v3]. unfold closestApproach, dot3, vsub, vadd, F3, vmap. cbn [cx cy cz].
  unfold dotR, minusR in *. cbn [cx cy cz] in *. xunf. rewrite xeqb_f by exact H. rewrite xdiv_fin by exact H. reflexivity.
Qed.
Theorem closest_approach : forall P u Q v,
  dotR u u * dotR v v - dotR u v * dotR u v <> 0 ->
  exists s t, closestApproach (F3 P) (F3 u) (F3 Q) (F3 v) = Ok (F3 (on_line P u s)) /\
    (forall s' t', dist2 (on_line P u s) (on_line Q v t) <= dist2 (on_line P u s') (on_line Q v t')) /\
    (forall s' t', dist2 (on_line P u s') (on_line Q v t') <= dist2 (on_line P u s) (on_line Q v t) -> s' = s).
Proof.
  intros P u Q v H. rewrite closest_F by exact H.
  set (den := dotR u u * dotR v v - dotR u v * dotR u v) in *.
  set (d := dotR u (minusR P Q)). set (e := dotR v (minusR P Q)).
  set (s := (dotR u v * e - dotR v v * d) / den). set (t := (dotR u u * e - dotR u v * d) / den).
  exists s, t. split; [reflexivity|].
  set (r := minusR (on_line P u s) (on_line Q v t)).
  assert (Hu : dotR u r = 0).
  { transitivity (d + s * dotR u u - t * dotR u v).
    - unfold r, d. destruct P as [p1 p2 p3], u as [u1 u2 u3], Q as [q1 q2 q3], v as [v1 v2 v3]. unfold dotR, minusR, on_line, plusR, timesR. cbn. ring.
    - unfold s, t, den in *. field. exact H. }
  assert (Hv : dotR v r = 0).
  { transitivity (e + s * dotR u v - t * dotR v v).
    - unfold r, e. destruct P as [p1 p2 p3], u as [u1 u2 u3], Q as [q1 q2 q3], v as [v1 v2 v3]. unfold dotR, minusR, on_line, plusR, timesR. cbn. ring.
    - unfold s, t, den in *. field. exact H. }
  assert (HD : forall s' t', dist2 (on_line P u s') (on_line Q v t') =
    dist2 (on_line P u s) (on_line Q v t) + dotR (minusR (timesR (s' - s) u) (timesR (t' - t) v)) (minusR (timesR (s' - s) u) (timesR (t' - t) v))).
  { intros s' t'. unfold dist2. fold r.
    transitivity (dotR r r + 2 * (s' - s) * dotR u r - 2 * (t' - t) * dotR v r + dotR (minusR (timesR (s' - s) u) (timesR (t' - t) v)) (minusR (timesR (s' - s) u) (timesR (t' - t) v))).
    - unfold r. clearbody s t. destruct P as [p1 p2 p3], u as [u1 u2 u3], Q as [q1 q2 q3], v as [v1 v2 v3]. unfold dotR, minusR, on_line, plusR, timesR. cbn. ring.
    - rewrite Hu, Hv. ring. }
  assert (HP : forall a, 0 <= dotR a a) by (intros a; unfold dotR; nra).
  split; intros s' t'; rewrite (HD s' t').
  - pose proof (HP (minusR (timesR (s' - s) u) (timesR (t' - t) v))). lra.
  - intros Hle. assert (E : dotR (minusR (timesR (s' - s) u) (timesR (t' - t) v)) (minusR (timesR (s' - s) u) (timesR (t' - t) v)) = 0).
    { pose proof (HP (minusR (timesR (s' - s) u) (timesR (t' - t) v))). lra. }
    assert (E3 : forall a, dotR a a = 0 -> cx a = 0 /\ cy a = 0 /\ cz a = 0) by (intros a; unfold dotR; intros; repeat split; nra).
    apply E3 in E. destruct E as (Ex & Ey & Ez).
    destruct (Req_dec s' s) as [|Hne]; [assumption|exfalso]. apply H.
    assert (HU : exists k, u = timesR k v).
    { exists ((t' - t) / (s' - s)). clearbody s t. destruct u, v. unfold timesR, minusR in *. cbn in *.
      f_equal; apply (Rmult_eq_reg_l (s' - s)); try lra; unfold Rdiv; field_simplify; lra. }
    destruct HU as (k & HU). unfold den. rewrite HU. destruct v. unfold dotR, timesR. cbn. ring.
Qed.
Theorem closest_parallel : forall P u Q v,
  dotR u u * dotR v v - dotR u v * dotR u v = 0 <-> closestApproach (F3 P) (F3 u) (F3 Q) (F3 v) = Err ValueError.
Proof.
  intros P u Q v. split.
  - intros H. destruct P as [p1 p2 p3], u as [u1 u2 u3], Q as [q1 q2 q3], v as [v1 v2 v3]. unfold closestApproach, dot3, vsub, vadd, F3, vmap. cbn [cx cy cz].
    unfold dotR in H. cbn [cx cy cz] in H. xunf. rewrite xeqb_t by exact H. reflexivity.
  - intros H. destruct (Req_dec (dotR u u * dotR v v - dotR u v * dotR u v) 0) as [E|E]; [exact E|].
    rewrite closest_F in H by exact E. discriminate.
Qed.
(** The condition is the usual one. *)
Lemma parallel_iff u v : dotR u u * dotR v v - dotR u v * dotR u v = 0 <->
  v = V3 0 0 0 \/ exists k, u = timesR k v.
Proof.
  destruct u as [a b c], v as [p q r]. unfold dotR, timesR. cbn [cx cy cz]. split.
  - intros H.
    assert (E : (a * q - b * p) * (a * q - b * p) + (a * r - c * p) * (a * r - c * p) + (b * r - c * q) * (b * r - c * q) = 0) by lra.
    assert (S : forall x y z, x * x + y * y + z * z = 0 -> x = 0 /\ y = 0 /\ z = 0) by (intros; repeat split; nra).
    apply S in E. destruct E as (E1 & E2 & E3).
    assert (D : forall x y z w, w <> 0 -> x * w - z * y = 0 -> x = z / w * y).
    { intros x y z w Hw Hxy. apply (Rmult_eq_reg_r w); [|exact Hw]. replace (z / w * y * w) with (z * y) by (field; exact Hw). lra. }
    destruct (Req_dec p 0) as [Ep|Ep]; [|right; exists (a / p); f_equal; apply D; lra].
    destruct (Req_dec q 0) as [Eq|Eq]; [|right; exists (b / q); f_equal; apply D; lra].
    destruct (Req_dec r 0) as [Er|Er]; [|right; exists (c / r); f_equal; apply D; lra].
    left. subst. reflexivity.
  - intros [H | (k & H)]; injection H; intros; subst; ring.
Qed.
