(** C92: the drawings of optics. *)
From Coq Require Import Reals String List ZArith Bool Lra Psatz Lia.
From Verif Require Import Num NumR Vec CoordSys Surface Medium Obscuration Trig Ray Bundle Optic Field Spec PatternSpec
  XRFacts CoordFacts PatternProofs Draw DrawSpec.
Import ListNotations.
Open Scope R_scope.

Section Gen.
  Context {T : Type} {NT : Num T} {TT : Trig T}.
  Lemma radii name (s : surface T) cs o :
    d_in (new_drawn name s cs o) = inner_of o /\ d_out (new_drawn name s cs o) = outer_of o.
  Proof. destruct o as [[| | | | |[]| |]|]; split; reflexivity. Qed.
  Lemma clear_drawings unless (d : drawn T) :
    outlines (clear unless d) = outlines d /\ mesh (clear unless d) = mesh d /\
    (forall n, getXZSlice n (clear unless d) = getXZSlice n d) /\ d_in (clear unless d) = d_in d /\ d_out (clear unless d) = d_out d.
  Proof. unfold mesh. unfold clear. destruct (existsb _ _); repeat split; reflexivity. Qed.
  Lemma clear_inner unless name (s : surface T) cs o :
    fst (R_inner (clear unless (new_drawn name s cs o))) = inner_of o.
  Proof. unfold clear. destruct (existsb _ _); destruct o as [[| | | | |[]| |]|]; reflexivity. Qed.
  Lemma clear_outer name (s : surface T) cs o r : outer_of (Some o) = Some r ->
    fst (R_outer (clear [] (new_drawn name s cs (Some o)))) = None /\
    fst (R_outer (clear [] (snd (R_outer (new_drawn name s cs (Some o)))))) = Some r.
  Proof. intros H. destruct o as [| | | | |[]| |]; try discriminate H; split; try reflexivity; exact H. Qed.
  Lemma moved_new name (s : surface T) cs o cs' :
    moved cs' (new_drawn name s cs o) = new_drawn name s cs' o /\
    outlines (moved cs' (snd (R_outer (new_drawn name s cs o)))) = outlines (new_drawn name s cs' o).
  Proof. destruct o as [[| | | | |[]| |]|]; split; reflexivity. Qed.
  Lemma moved_cleared name (s : surface T) cs o cs' r : outer_of (Some o) = Some r ->
    outlines (moved cs' (clear [] (new_drawn name s cs (Some o)))) = Ok None /\
    outlines (moved cs' (clear [] (snd (R_outer (new_drawn name s cs (Some o)))))) = outlines (new_drawn name s cs' (Some o)).
  Proof. intros H. destruct o as [| | | | |[]| |]; try discriminate H; split; reflexivity. Qed.

  Lemma mesh_compound (items : list (dtree T)) vs : items <> [] -> Forall2 (fun t v => get3dmesh t = Ok (Some v)) items vs ->
    get3dmesh (DItems items) = Ok (Some (List.concat vs)).
  Proof.
    intros Hn HF. cbn [get3dmesh].
    assert (E : fold_right (fun t acc => do a <- get3dmesh t; match a with None => Err TypeError | Some a => do b <- acc; Ok (a :: b) end) (Ok []) items = Ok vs).
    { clear Hn. induction HF as [|t v l l' H HF IH]; [reflexivity|]. cbn [fold_right]. rewrite H. cbn [bind]. rewrite IH. reflexivity. }
    rewrite E. cbn [bind]. destruct HF; [contradiction|reflexivity].
  Qed.
  Lemma draw_compound (items : list (dtree T)) vs : Forall2 (fun t v => draw3d t = Ok v) items vs ->
    draw3d (DItems items) = Ok (List.concat vs).
  Proof.
    cbn [draw3d]. induction 1 as [|t v l l' H HF IH]; [reflexivity|]. cbn [fold_right]. rewrite H. cbn [bind]. rewrite IH. reflexivity.
  Qed.
  Lemma mesh_fails (items : list (dtree T)) t v : In t items -> get3dmesh t = Ok None -> get3dmesh (DItems items) <> Ok v.
  Proof.
    intros Hin Ht. cbn [get3dmesh].
    assert (E : exists e, fold_right (fun t acc => do a <- get3dmesh t; match a with None => Err TypeError | Some a => do b <- acc; Ok (a :: b) end) (Ok []) items = Err e).
    { induction items as [|t' l IH]; [destruct Hin|]. cbn [fold_right]. destruct Hin as [->|Hin].
      - rewrite Ht. cbn [bind]. eauto.
      - destruct (IH Hin) as [e E]. rewrite E. destruct (get3dmesh t') as [[a|]|]; cbn [bind]; eauto. }
    destruct E as [e E]. rewrite E. cbn [bind]. discriminate.
  Qed.
End Gen.

Lemma round_radii name s cs o i r : round o i r ->
  d_in (new_drawn name s cs (Some o)) = Some (Fin i) /\ d_out (new_drawn name s cs (Some o)) = Some (Fin r).
Proof. intros H. destruct (radii name s cs (Some o)) as [-> ->]. destruct H; split; reflexivity. Qed.
Lemma lift_point (A : frame) (d : drawn XR) x y : good_frame A -> d_cs d = Fcs A ->
  forall z, sag (d_surf d) (Fin x) (Fin y) = Fin z -> surface_point A (d_surf d) x y (lift d (Fin x, Fin y)).
Proof.
  intros HA EA z Ez. exists z. split; [exact Ez|]. unfold lift. cbn [fst snd]. rewrite Ez, EA.
  change (@cs_default XR _) with (Fcs global_frame). change (V3 (Fin x) (Fin y) (Fin z)) with (F3 (V3 x y z)).
  rewrite mkCT_F. unfold applyForwardArray; cbn [ct_dr ct_drot].
  rewrite mtr_F, vsub_F, mv_F. f_equal. fold (chg_pt A global_frame (V3 x y z)).
  rewrite chg_pt_eq; [|exact HA|].
  - destruct (global_point A (V3 x y z)). unfold applyR, transR, minusR, global_frame, plusR, timesR, col0, col1, col2; cbn. f_equal; ring.
  - unfold good_frame, orthonormal, dotR; cbn; lra.
Qed.
Lemma circle_ring r : circle (Fin r) = map (fun p => (Fin (fst p), Fin (snd p))) (ring r).
Proof.
  unfold circle, ring. replace (n2 * npi)%num with (Fin (2 * PI)) by reflexivity. change (@n0 XR _) with (Fin 0). rewrite linspace_closed.
  rewrite !map_map. apply map_ext. intros k. unfold evenly.
  replace (INR (100 - 1)) with 99 by (cbn; lra). rewrite Rminus_0_r, Rplus_0_l.
  xunf. unfold TrigXR; cbn [ncos nsin xlift xmul fst snd]. rewrite (Rmult_comm (INR k / 99)). reflexivity.
Qed.
Lemma line_y_seg a b : line_y (Fin a) (Fin b) = map (fun p => (Fin (fst p), Fin (snd p))) (segment (0, a) (0, b)).
Proof.
  unfold line_y, segment. rewrite linspace_closed, !map_map. apply map_ext. intros k. unfold evenly. cbn [fst snd].
  replace (INR (50 - 1)) with 49 by (cbn; lra). xunf. f_equal. f_equal. ring.
Qed.
Lemma line_x_seg a b : line_x (Fin a) (Fin b) = map (fun p => (Fin (fst p), Fin (snd p))) (segment (a, 0) (b, 0)).
Proof.
  unfold line_x, segment. rewrite linspace_closed, !map_map. apply map_ext. intros k. unfold evenly. cbn [fst snd].
  replace (INR (50 - 1)) with 49 by (cbn; lra). xunf. f_equal. f_equal. ring.
Qed.
Lemma ring_in r p : In p (ring r) -> fst p * fst p + snd p * snd p = r * r.
Proof.
  unfold ring. intros H. apply in_map_iff in H. destruct H as (k & <- & _). cbn [fst snd].
  pose proof (sin2_cos2 (2 * PI * (INR k / 99))) as E. unfold Rsqr in E. nra.
Qed.
Lemma frac_in k n : (k < S n)%nat -> (1 <= n)%nat -> 0 <= INR k / INR n <= 1.
Proof.
  intros H Hn. assert (0 < INR n) by (apply lt_0_INR; lia). assert (INR k <= INR n) by (apply le_INR; lia). pose proof (pos_INR k).
  split; [apply Rmult_le_pos; [lra|left; apply Rinv_0_lt_compat; lra]|]. apply (Rmult_le_reg_r (INR n)); [lra|]. unfold Rdiv.
  rewrite Rmult_assoc, Rinv_l by lra. lra.
Qed.
Lemma between t a b : 0 <= a <= b -> 0 <= t <= 1 -> a <= a + t * (b - a) <= b.
Proof. intros. nra. Qed.
Lemma sq_le a b : 0 <= a <= b -> a * a <= b * b.
Proof. intros. nra. Qed.
Lemma wires_in i r l p : 0 <= i <= r -> In l (wires i r) -> In p l -> i * i <= fst p * fst p + snd p * snd p <= r * r.
Proof.
  intros Hi Hl Hp. unfold wires in Hl. cbn [In] in Hl.
  assert (Hs : forall k, (k < 50)%nat -> 0 <= INR k / 49 <= 1).
  { intros k Hk. replace 49 with (INR 49) by (cbn; lra). apply frac_in; lia. }
  destruct Hl as [<-|Hl]; [rewrite (ring_in _ _ Hp); split; [apply sq_le; lra|lra]|].
  assert (K : forall t q, 0 <= t <= 1 -> q = i + t * (r - i) \/ q = - (i + t * (r - i)) -> i * i <= q * q <= r * r).
  { intros t q Ht Hq. pose proof (between t i r Hi Ht) as B.
    assert (Eq : q * q = (i + t * (r - i)) * (i + t * (r - i))) by (destruct Hq as [->| ->]; ring). rewrite Eq.
    split; apply sq_le; lra. }
  destruct Hl as [<-|[<-|[<-|[<-|[]]]]]; unfold segment in Hp; apply in_map_iff in Hp; destruct Hp as (k & <- & Hk);
    apply in_seq in Hk; cbn [fst snd]; specialize (Hs k ltac:(lia)); revert Hs; generalize (INR k / 49); intros t Ht.
  - replace ((0 + t * (0 - 0)) * (0 + t * (0 - 0))) with 0 by ring. rewrite Rplus_0_l. apply (K (1 - t)); [lra|right; ring].
  - replace ((0 + t * (0 - 0)) * (0 + t * (0 - 0))) with 0 by ring. rewrite Rplus_0_l. apply (K t); [lra|left; ring].
  - replace ((0 + t * (0 - 0)) * (0 + t * (0 - 0))) with 0 by ring. rewrite Rplus_0_r. apply (K (1 - t)); [lra|right; ring].
  - replace ((0 + t * (0 - 0)) * (0 + t * (0 - 0))) with 0 by ring. rewrite Rplus_0_r. apply (K t); [lra|left; ring].
Qed.
Lemma xeqb_fin a b : (Fin a =? Fin b)%num = if Req_EM_T a b then true else false.
Proof. unfold neqb, NumXR, xeqb. destruct (Req_EM_T a b); try reflexivity. Qed.

(** The curves that are drawn. *)
Lemma drawn_curves name s A o i r : good_frame A -> round o i r -> 0 <= i <= r -> has_heights s i r ->
  exists ls, outlines (new_drawn name s (Fcs A) (Some o)) = Ok (Some ls) /\
    Forall2 (Forall2 (fun xy p => surface_point A s (fst xy) (snd xy) p))
            ((if Req_EM_T i 0 then [] else [ring i]) ++ wires i r) ls.
Proof.
  intros HA Ho Hi Hs. destruct (round_radii name s (Fcs A) o i r Ho) as [E1 E2]. set (d := new_drawn name s (Fcs A) (Some o)) in *.
  assert (Es : d_surf d = s) by (subst d; destruct Ho; reflexivity).
  assert (Ec : d_cs d = Fcs A) by (subst d; destruct Ho; reflexivity).
  unfold outlines. rewrite E1, E2. eexists. split; [reflexivity|].
  assert (En : forall a, (- Fin a)%num = Fin (- a)) by reflexivity. rewrite !En.
  change (@n0 XR _) with (Fin 0). rewrite xeqb_fin, !circle_ring, !line_y_seg, !line_x_seg.
  set (F := map (fun p : R * R => (Fin (fst p), Fin (snd p)))).
  assert (G : forall l, (forall p, In p l -> i * i <= fst p * fst p + snd p * snd p <= r * r) ->
     Forall2 (fun xy p => surface_point A s (fst xy) (snd xy) p) l (map (lift d) (F l))).
  { intros l Hl. subst F. induction l as [|[x y] l IH]; [constructor|]. cbn [map fst snd]. constructor.
    - destruct (Hs x y (Hl (x, y) (or_introl eq_refl))) as [z Hz]. cbn [fst snd]. rewrite <- Es in Hz |- *. eapply lift_point; eassumption.
    - apply IH. intros p Hp. apply Hl. right. exact Hp. }
  rewrite map_app. apply Forall2_app.
  - destruct (Req_EM_T i 0); [constructor|]. cbn [map]. constructor; [|constructor]. apply G. intros p Hp.
    rewrite (ring_in _ _ Hp). split; [lra|apply sq_le; lra].
  - unfold wires. cbn [map]. repeat (apply Forall2_cons; [apply G; intros p Hp; eapply wires_in; [exact Hi| |exact Hp]; unfold wires; cbn [In]; auto 8|]).
    constructor.
Qed.
(** The vertices of the mesh. *)
Lemma mesh_vertices name s A o i r : good_frame A -> round o i r -> 0 <= i <= r -> has_heights s i r ->
  exists ls v, draw3d (DFace (new_drawn name s (Fcs A) (Some o))) = Ok ls /\ get3dmesh (DFace (new_drawn name s (Fcs A) (Some o))) = Ok (Some v) /\
    v = flat_map (fun l => l ++ [vnan]) ls /\
    (forall p, In p v -> p = vnan \/ exists x y, i * i <= x * x + y * y <= r * r /\ surface_point A s x y p) /\
    (forall x y, In (x, y) [(i, 0); (- i, 0); (0, i); (0, - i); (r, 0); (- r, 0); (0, r); (0, - r)] -> exists p, In p v /\ surface_point A s x y p).
Proof.
  intros HA Ho Hi Hs. destruct (drawn_curves name s A o i r HA Ho Hi Hs) as (ls & E & HF).
  exists ls, (flat_map (fun l => l ++ [vnan]) ls). cbn [draw3d get3dmesh]. unfold mesh. rewrite E. cbn [bind option_map].
  split; [reflexivity|]. split; [reflexivity|]. split; [reflexivity|].
  set (W := (if Req_EM_T i 0 then [] else [ring i]) ++ wires i r) in *.
  assert (HW : forall l p, In l W -> In p l -> i * i <= fst p * fst p + snd p * snd p <= r * r).
  { subst W. intros l p Hl Hp. apply in_app_or in Hl. destruct Hl as [Hl|Hl]; [|eapply wires_in; eassumption].
    destruct (Req_EM_T i 0); [destruct Hl|]. destruct Hl as [<-|[]]. rewrite (ring_in _ _ Hp). split; [lra|apply sq_le; lra]. }
  assert (HI : forall l, In l (wires i r) -> In l W) by (intros; subst W; apply in_or_app; right; assumption).
  clearbody W. split.
  - intros p Hp. apply in_flat_map in Hp. destruct Hp as (l & Hl & Hp). apply in_app_or in Hp. destruct Hp as [Hp|[Hp|[]]]; [|left; congruence].
    right. clear HI E. revert l Hl Hp. induction HF as [|w l0 W ls H1 HF IH]; intros l Hl Hp; [destruct Hl|].
    destruct Hl as [->|Hl]; [|eapply IH; try eassumption; intros; eapply HW; [right|]; eassumption].
    assert (HW' := fun p => HW w p (or_introl eq_refl)). clear HW IH. revert Hp. induction H1 as [|xy q w l H2 H1 IH]; intros Hp; [destruct Hp|].
    destruct Hp as [->|Hp]; [|apply IH; [intros; apply HW'; right; assumption|exact Hp]].
    exists (fst xy), (snd xy). split; [apply HW'; left; reflexivity|exact H2].
  - assert (K : forall w x y, In w (wires i r) -> In (x, y) w -> exists p, In p (flat_map (fun l => l ++ [vnan]) ls) /\ surface_point A s x y p).
    { intros w x y Hw Hx. specialize (HI w Hw). clear HW E Hw. induction HF as [|w0 l0 W ls H1 HF IH]; [destruct HI|]. cbn [flat_map].
      destruct HI as [->|HI].
      - clear IH HF. assert (exists p, In p l0 /\ surface_point A s x y p) as (p & Hp & Q).
        { induction H1 as [|xy q w l H2 H1 IH]; [destruct Hx|]. destruct Hx as [->|Hx]; [exists q; split; [left; reflexivity|exact H2]|].
          destruct (IH Hx) as (p & Hp & Q). exists p. split; [right; exact Hp|exact Q]. }
        exists p. split; [apply in_or_app; left; apply in_or_app; left; exact Hp|exact Q].
      - destruct (IH HI) as (p & Hp & Q). exists p. split; [apply in_or_app; right; exact Hp|exact Q]. }
    assert (S0 : forall a b, In a (segment a b)).
    { intros [a1 a2] b. unfold segment. apply in_map_iff. exists 0%nat. split; [|apply in_seq; lia]. cbn [fst snd INR]. f_equal; lra. }
    assert (S1 : forall a b, In b (segment a b)).
    { intros a [b1 b2]. unfold segment. apply in_map_iff. exists 49%nat. split; [|apply in_seq; lia]. cbn [fst snd]. replace (INR 49) with 49 by (cbn; lra). f_equal; field. }
    intros x y Hxy. cbn [In] in Hxy.
    destruct Hxy as [X|[X|[X|[X|[X|[X|[X|[X|[]]]]]]]]]; injection X as <- <-.
    + apply (K (segment (i, 0) (r, 0))); [unfold wires; cbn [In]; auto 8|apply S0].
    + apply (K (segment (- r, 0) (- i, 0))); [unfold wires; cbn [In]; auto 8|apply S1].
    + apply (K (segment (0, i) (0, r))); [unfold wires; cbn [In]; auto 8|apply S0].
    + apply (K (segment (0, - r) (0, - i))); [unfold wires; cbn [In]; auto 8|apply S1].
    + apply (K (segment (i, 0) (r, 0))); [unfold wires; cbn [In]; auto 8|apply S1].
    + apply (K (segment (- r, 0) (- i, 0))); [unfold wires; cbn [In]; auto 8|apply S0].
    + apply (K (segment (0, i) (0, r))); [unfold wires; cbn [In]; auto 8|apply S1].
    + apply (K (segment (0, - r) (0, - i))); [unfold wires; cbn [In]; auto 8|apply S0].
Qed.

(** *** Slices *)
Lemma rev_seq_map {X} (f : nat -> X) n : rev (map f (seq 0 n)) = map (fun k => f (n - 1 - k)%nat) (seq 0 n).
Proof.
  apply nth_ext with (d := f 0%nat) (d' := f 0%nat); [rewrite rev_length, !map_length; reflexivity|].
  intros k Hk. rewrite rev_length, map_length, seq_length in Hk. rewrite rev_nth by (rewrite map_length, seq_length; exact Hk).
  rewrite map_length, seq_length.
  rewrite map_nth, seq_nth by lia.
  rewrite (nth_indep _ _ (f (n - 1 - 0)%nat)) by (rewrite map_length, seq_length; lia).
  rewrite (map_nth (fun k => f (n - 1 - k)%nat)), seq_nth by lia. f_equal. lia.
Qed.
Lemma nth_error_seq n k : (k < n)%nat -> nth_error (seq 0 n) k = Some k.
Proof. intros H. rewrite (nth_error_nth' _ 0%nat) by (rewrite seq_length; exact H). rewrite seq_nth by exact H. reflexivity. Qed.
Lemma views_map A s a b n (f : R -> XR * XR) :
  (forall k, (k < n)%nat -> side_view A s (step_to a b n k) (f (step_to a b n k))) ->
  views A s a b n (map (fun k => f (step_to a b n k)) (seq 0 n)).
Proof.
  intros H. split; [rewrite map_length, seq_length; reflexivity|]. intros k Hk. exists (f (step_to a b n k)). split; [|apply H, Hk].
  rewrite nth_error_map, nth_error_seq by exact Hk. reflexivity.
Qed.
Lemma slice_shape name s A o i r nslice : good_frame A -> round o i r -> 0 <= i <= r -> has_heights s i r ->
  (2 <= slice_points nslice s)%nat ->
  let n := slice_points nslice s in
  exists slices, getXZSlice nslice (new_drawn name s (Fcs A) (Some o)) = Ok slices /\
    (i = 0 -> exists l, slices = [l] /\ views A s (- r) r (2 * n - 1) l) /\
    (i <> 0 -> exists l1 l2, slices = [l1; l2] /\ views A s (- r) (- i) n l1 /\ views A s i r n l2).
Proof.
  intros HA Ho Hi Hs Hn n. destruct (round_radii name s (Fcs A) o i r Ho) as [E1 E2]. set (d := new_drawn name s (Fcs A) (Some o)) in *.
  assert (Es : d_surf d = s) by (subst d; destruct Ho; reflexivity).
  assert (Ec : d_cs d = Fcs A) by (subst d; destruct Ho; reflexivity).
  unfold getXZSlice. rewrite E1, E2, Es. fold (slice_points nslice s). fold n. clearbody d. cbv zeta.
  assert (En : forall a, (- Fin a)%num = Fin (- a)) by reflexivity. rewrite !En, linspace_closed.
  change (@n0 XR _) with (Fin 0). rewrite xeqb_fin.
  set (f := fun x => xz (lift d (Fin x, Fin 0))).
  assert (Hv : forall x, i * i <= x * x <= r * r -> side_view A s x (f x)).
  { intros x Hx. destruct (Hs x 0) as [z Hz]; [lra|]. exists (lift d (Fin x, Fin 0)). split; [|reflexivity].
    rewrite <- Es in Hz |- *. eapply lift_point; eassumption. }
  assert (Hn' : 0 < INR (n - 1)) by (apply lt_0_INR; lia).
  assert (Hneg : map (fun x => xz (lift d (x, Fin 0))) (map (fun k => Fin (evenly (- r) (- i) n k)) (seq 0 n)) =
                 map (fun k => f (step_to (- r) (- i) n k)) (seq 0 n)) by (rewrite map_map; reflexivity).
  assert (Hpos : map (fun x => xz (lift d (x, Fin 0))) (rev (map (fun x => (x * nofZ (-1))%num) (map (fun k => Fin (evenly (- r) (- i) n k)) (seq 0 n)))) =
                 map (fun k => f (step_to i r n k)) (seq 0 n)).
  { rewrite map_map, rev_seq_map, map_map. apply map_ext_in. intros k Hk. apply in_seq in Hk. unfold f. do 3 f_equal. xunf. f_equal.
    unfold evenly, step_to. rewrite minus_INR by lia. field. lra. }
  rewrite Hneg, Hpos. clear Hneg Hpos.
  assert (V1 : views A s (- r) (- i) n (map (fun k => f (step_to (- r) (- i) n k)) (seq 0 n))).
  { apply views_map. intros k Hk. apply Hv. unfold step_to. pose proof (frac_in k (n - 1) ltac:(lia) ltac:(lia)) as Ht. revert Ht.
    generalize (INR k / INR (n - 1)). intros t Ht. pose proof (between (1 - t) i r Hi ltac:(lra)) as B.
    replace ((- r + t * (- i - - r)) * (- r + t * (- i - - r))) with ((i + (1 - t) * (r - i)) * (i + (1 - t) * (r - i))) by ring.
    split; apply sq_le; lra. }
  assert (V2 : views A s i r n (map (fun k => f (step_to i r n k)) (seq 0 n))).
  { apply views_map. intros k Hk. apply Hv. unfold step_to. pose proof (frac_in k (n - 1) ltac:(lia) ltac:(lia)) as Ht. revert Ht.
    generalize (INR k / INR (n - 1)). intros t Ht. pose proof (between t i r Hi ltac:(lra)) as B. split; apply sq_le; lra. }
  destruct (Req_EM_T i 0) as [Ei|Ei].
  2:{ eexists. split; [reflexivity|]. split; [contradiction|]. intros _. do 2 eexists. split; [reflexivity|]. split; assumption. }
  subst i. rewrite rev_seq_map. destruct n as [|m] eqn:Em; [lia|].
  set (l1 := map (fun k => f (step_to (- r) (- 0) (S m) k)) (seq 0 (S m))) in *.
  cbn [seq map]. change (0 :: seq 1 m)%nat with (seq 0 (S m)).
  replace (step_to (- r) (- 0) (S m) (S m - 1 - 0)) with 0
    by (unfold step_to; replace (S m - 1 - 0)%nat with (S m - 1)%nat by lia; field; lra).
  replace (step_to 0 r (S m) 0) with 0 by (unfold step_to; cbn [INR]; field; lra).
  destruct (Hv 0 ltac:(nra)) as (p & (z & Hz & ->) & Ef). rewrite Ef. unfold F3. destruct (global_point A (V3 0 0 z)) as [gx gy gz]. cbn [vmap cx cz fst snd].
  rewrite !xeqb_fin. destruct (Req_EM_T gx gx); [|contradiction]. destruct (Req_EM_T gz gz); [|contradiction]. cbn [andb].
  eexists. split; [reflexivity|]. split; [|intros X; contradiction X; reflexivity]. intros _. eexists. split; [reflexivity|].
  assert (L1 : List.length l1 = S m) by apply V1.
  set (l2 := map (fun k => f (step_to 0 r (S m) k)) (seq 1 m)).
  assert (L2 : List.length l2 = m) by (unfold l2; rewrite map_length, seq_length; reflexivity).
  split; [rewrite app_length, L1, L2; lia|]. intros k Hk. destruct (Nat.lt_ge_cases k (S m)) as [H|H].
  - rewrite nth_error_app1 by lia. destruct (proj2 V1 k H) as (q & Hq & Q). exists q. split; [exact Hq|]. replace (step_to (- r) r (2 * S m - 1) k) with (step_to (- r) (- 0) (S m) k); [exact Q|].
    unfold step_to. replace (2 * S m - 1 - 1)%nat with (2 * (S m - 1))%nat by lia. rewrite mult_INR. change (INR 2) with (1 + 1). field. lra.
  - rewrite nth_error_app2 by lia. rewrite L1. destruct (proj2 V2 (k - m)%nat ltac:(lia)) as (q & Hq & Q). exists q.
    cbn [seq map] in Hq. fold l2 in Hq. replace (k - m)%nat with (S (k - S m)) in Hq by lia. cbn [nth_error] in Hq. split; [exact Hq|].
    replace (step_to (- r) r (2 * S m - 1) k) with (step_to 0 r (S m) (k - m)); [exact Q|].
    unfold step_to. replace (2 * S m - 1 - 1)%nat with (2 * (S m - 1))%nat by lia. rewrite mult_INR, minus_INR by lia. change (INR 2) with (1 + 1).
    replace (INR m) with (INR (S m - 1)) by (f_equal; lia). field. lra.
Qed.
(** *** Lenses *)
Lemma lens_fill n1 s1 A1 o1 i1 r1 n2 s2 A2 o2 i2 r2 :
  good_frame A1 -> round o1 i1 r1 -> 0 <= i1 <= r1 -> has_heights s1 i1 r1 ->
  good_frame A2 -> round o2 i2 r2 -> 0 <= i2 <= r2 -> has_heights s2 i2 r2 ->
  let m1 := slice_points 0 s1 in let m2 := slice_points 0 s2 in
  let polygons := lens_polygons (new_drawn n1 s1 (Fcs A1) (Some o1)) (new_drawn n2 s2 (Fcs A2) (Some o2)) in
  let loop (a b : list (XR * XR)) := a ++ rev b ++ firstn 1 a in
  (i1 = 0 -> i2 = 0 -> exists a b, views A1 s1 (- r1) r1 (2 * m1 - 1) a /\ views A2 s2 (- r2) r2 (2 * m2 - 1) b /\ polygons = Ok [loop a b]) /\
  (i1 <> 0 -> i2 <> 0 -> exists a a' b b', views A1 s1 (- r1) (- i1) m1 a /\ views A1 s1 i1 r1 m1 a' /\
     views A2 s2 (- r2) (- i2) m2 b /\ views A2 s2 i2 r2 m2 b' /\ polygons = Ok [loop a b; loop a' b']) /\
  (i1 <> 0 -> i2 = 0 -> exists a b, views A1 s1 (- r1) (- i1) m1 a /\ views A2 s2 (- r2) r2 (2 * m2 - 1) b /\ polygons = Ok [loop a b]).
Proof.
  intros HA1 Ho1 Hi1 Hs1 HA2 Ho2 Hi2 Hs2 m1 m2 polygons loop.
  assert (P : forall s, (2 <= slice_points 0 s)%nat) by (intros []; cbn; lia).
  destruct (slice_shape n1 s1 A1 o1 i1 r1 0 HA1 Ho1 Hi1 Hs1 (P s1)) as (S1 & E1 & Z1 & N1).
  destruct (slice_shape n2 s2 A2 o2 i2 r2 0 HA2 Ho2 Hi2 Hs2 (P s2)) as (S2 & E2 & Z2 & N2).
  subst polygons. unfold lens_polygons. rewrite E1, E2. cbn [bind]. split; [|split].
  - intros H1 H2. destruct (Z1 H1) as (a & -> & Ha). destruct (Z2 H2) as (b & -> & Hb). exists a, b. split; [exact Ha|]. split; [exact Hb|]. reflexivity.
  - intros H1 H2. destruct (N1 H1) as (a & a' & -> & Ha & Ha'). destruct (N2 H2) as (b & b' & -> & Hb & Hb'). exists a, a', b, b'.
    split; [exact Ha|]. split; [exact Ha'|]. split; [exact Hb|]. split; [exact Hb'|]. reflexivity.
  - intros H1 H2. destruct (N1 H1) as (a & a' & -> & Ha & Ha'). destruct (Z2 H2) as (b & -> & Hb). exists a, b.
    split; [exact Ha|]. split; [exact Hb|]. reflexivity.
Qed.
(** *** Outlines ignore the centre of the aperture *)
Lemma outline_elsewhere name r c : 0 < r -> 2 * r < c ->
  exists v, get3dmesh (DFace (new_drawn name Plane (Fcs global_frame) (Some (ObscNegation (ObscCircle (Fin r) (Fin c) (Fin 0)))))) = Ok (Some v) /\
    (exists p, In p v /\ surface_point global_frame Plane r 0 p) /\
    forall p x y, In p v -> surface_point global_frame Plane x y p -> contains (ObscNegation (ObscCircle (Fin r) (Fin c) (Fin 0))) (Fin x) (Fin y) = true.
Proof.
  intros Hr Hc.
  destruct (mesh_vertices name Plane global_frame (ObscNegation (ObscCircle (Fin r) (Fin c) (Fin 0))) 0 r) as (ls & v & _ & Ev & _ & Hv & Hx).
  - unfold good_frame, orthonormal, dotR; cbn; lra.
  - constructor.
  - lra.
  - intros x y _. exists 0. reflexivity.
  - exists v. split; [exact Ev|]. split; [destruct (Hx r 0) as (p & Hp & Q); [cbn [In]; auto 8|]; eauto|].
    intros p x y Hp (z & Ez & ->).
    destruct (Hv _ Hp) as [E|(x' & y' & Hxy & z' & Ez' & E)].
    + exfalso. unfold F3, vnan in E. destruct (global_point global_frame (V3 x y z)). discriminate E.
    + assert (x = x' /\ y = y') as [<- <-].
      { unfold F3, global_point, global_frame, plusR, applyR, timesR, zeroR, eyeR, col0, col1, col2 in E; cbn in E.
        injection E as E1 E2 _. split; lra. }
      cbn [contains]. xunf. apply Bool.negb_true_iff. apply xltb_f.
      assert (Hx1 : x <= r) by nra. rewrite <- (sqrt_Rsqr r) by lra. apply sqrt_le_1_alt. unfold Rsqr.
      assert (r * r <= (c - x) * (c - x)) by (apply sq_le; lra). nra.
Qed.
