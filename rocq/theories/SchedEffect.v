(** What the loops leave in memory. *)
From Coq Require Import List Arith Bool Lia Permutation.
From Verif Require Import Num Vec CoordSys Surface Medium Obscuration Ray Trig Wave
  Sched SchedSpec SchedProofs SchedKernels.
Import ListNotations.
Local Open Scope nat_scope.

Definition cell_ray {T} (m : mem T) (E : rvptr) : ray T :=
  Ray (V3 (nums m (xptr E)) (nums m (yptr E)) (nums m (zptr E)))
      (V3 (nums m (vxptr E)) (nums m (vyptr E)) (nums m (vzptr E)))
      (nums m (tptr E)) (nums m (wptr E)) (nums m (fluxptr E)) (bools m (vigptr E)) (bools m (failptr E)).
Definition rv_addr (E : rvptr) : list nat :=
  [xptr E; yptr E; zptr E; vxptr E; vyptr E; vzptr E; tptr E; wptr E; fluxptr E].
Definition distinct : list nat -> Prop := ForallOrdPairs (fun a b => a <> b).

Ltac spread :=
  repeat match goal with
  | H : distinct _ |- _ => unfold distinct in H
  | H : ForallOrdPairs _ (_ :: _) |- _ => inversion H; clear H; subst
  | H : ForallOrdPairs _ [] |- _ => clear H
  | H : Forall _ (_ :: _) |- _ => inversion H; clear H; subst
  | H : Forall _ [] |- _ => clear H
  end.
Ltac look :=
  cbn [nums bools set_num set_bool];
  repeat first [rewrite Nat.eqb_refl
    | match goal with
      | H : ?a <> ?b |- context [?a =? ?b] => rewrite (proj2 (Nat.eqb_neq a b) H)
      | H : ?a <> ?b |- context [?b =? ?a] => rewrite (proj2 (Nat.eqb_neq b a) (not_eq_sym H))
      end].
Lemma v3_eta {T} (v : vec3 T) : V3 (cx v) (cy v) (cz v) = v.
Proof. destruct v; reflexivity. Qed.

Section Effects.
  Context {T : Type} {NT : Num T}.
  Implicit Types (m : mem T) (E : rvptr).
  Definition sound E : Prop := distinct (rv_addr E) /\ vigptr E <> failptr E.
  Local Ltac fields := cbn [xptr yptr zptr vxptr vyptr vzptr tptr wptr fluxptr vigptr failptr
    run fst snd pos vel time wavelength flux vignetted failed] in *.
  Local Ltac open E := destruct E; intros [HD HB]; unfold rv_addr in HD; fields; spread; unfold cell_ray; fields.
  Local Ltac opened := intros [HD HB]; unfold rv_addr in HD; fields; spread; unfold cell_ray; fields.
  Local Ltac same_ray := look; rewrite ?v3_eta; reflexivity.
  Lemma run_forward dr d E m : sound E ->
    cell_ray (fst (run (prog_forward dr d E) m)) E = ray_forward dr d (cell_ray m E).
  Proof.
    destruct E as [x y z vx vy vz t w fl vi fa]. opened.
    unfold prog_forward, load_point, load_vel, store3, ray_forward. fields. same_ray.
  Qed.
  Lemma run_reverse dr d E m : sound E ->
    cell_ray (fst (run (prog_reverse dr d E) m)) E = ray_reverse dr d (cell_ray m E).
  Proof.
    destruct E as [x y z vx vy vz t w fl vi fa]. opened.
    unfold prog_reverse, load_rev, store3, ray_reverse. fields. same_ray.
  Qed.
  Lemma run_obscure o E m : sound E ->
    cell_ray (fst (run (prog_obscure o E) m)) E = ray_obscure o (cell_ray m E).
  Proof.
    destruct E as [x y z vx vy vz t w fl vi fa]. opened. unfold prog_obscure, ray_obscure. fields. same_ray.
  Qed.
  Lemma run_propagate t0 E m : sound E ->
    cell_ray (fst (run (prog_propagate t0 E) m)) E = ray_propagate t0 (cell_ray m E).
  Proof.
    destruct E as [x y z vx vy vz t w fl vi fa]. opened. unfold prog_propagate, ray_propagate. fields. same_ray.
  Qed.
  (** The common beginning. *)
  Lemma run_approach s dr d niter E ok miss m :
    run (approach s dr d niter E ok miss) m =
    let r := cell_ray m E in
    let p := fwd_point dr d (pos r) in
    let v := fwd_vel d (vel r) in
    if failed r then (m, tt)
    else let '(success, dt) := hit s niter p v in
         if success then run (ok (advance p v dt) v (time r + dt)%num) m else run miss m.
  Proof.
    unfold approach, load_point, load_vel, cell_ray. cbn [run pos vel time failed]. rewrite v3_eta. cbv zeta.
    destruct (bools m (failptr E)); [reflexivity|].
    destruct (hit s niter _ _) as [[|] dt]; reflexivity.
  Qed.
  Lemma run_fail E m : sound E -> cell_ray (fst (run (prog_fail E) m)) E = mark_failed (cell_ray m E).
  Proof.
    destruct E as [x y z vx vy vz t w fl vi fa]. opened. unfold prog_fail, mark_failed. fields. same_ray.
  Qed.
  Lemma run_intersect s dr d c niter E m : sound E ->
    cell_ray (fst (run (prog_intersect s dr d c niter E) m)) E = ray_intersect s dr d c niter (cell_ray m E).
  Proof.
    intros HE. unfold prog_intersect, ray_intersect. rewrite run_approach. cbv zeta.
    destruct (failed (cell_ray m E)) eqn:Ef; [reflexivity|].
    destruct (hit s niter _ _) as [[|] dt]; [|apply run_fail, HE].
    generalize (advance (fwd_point dr d (pos (cell_ray m E))) (fwd_vel d (vel (cell_ray m E))) dt).
    generalize (fwd_vel d (vel (cell_ray m E))). intros v p.
    destruct E as [x y z vx vy vz t w fl vi fa]. revert HE Ef. opened. intros Ef.
    destruct c as [c|]; unfold store3, scale_flux; fields; look; rewrite ?Ef; same_ray.
  Qed.
  Lemma run_reflect s dr d c niter E m : sound E ->
    cell_ray (fst (run (prog_reflect s dr d c niter E) m)) E = ray_reflect s dr d c niter (cell_ray m E).
  Proof.
    intros HE. unfold prog_reflect, ray_reflect. rewrite run_approach. cbv zeta.
    destruct (failed (cell_ray m E)) eqn:Ef; [reflexivity|].
    destruct (hit s niter _ _) as [[|] dt]; [|apply run_fail, HE].
    generalize (advance (fwd_point dr d (pos (cell_ray m E))) (fwd_vel d (vel (cell_ray m E))) dt).
    generalize (fwd_vel d (vel (cell_ray m E))). intros v p.
    generalize (normal s (cx p) (cy p)). intros n. generalize (reflect_vel v n). intros v'.
    destruct E as [x y z vx vy vz t w fl vi fa]. revert HE Ef. opened. intros Ef.
    destruct c as [c|]; unfold store3, scale_flux; fields; look; rewrite ?Ef; same_ray.
  Qed.
  Lemma run_screen s screen dr d niter E m : sound E ->
    cell_ray (fst (run (prog_screen s screen dr d niter E) m)) E = ray_screen s screen dr d niter (cell_ray m E).
  Proof.
    intros HE. unfold prog_screen, ray_screen. rewrite run_approach. cbv zeta.
    destruct (failed (cell_ray m E)) eqn:Ef; [reflexivity|].
    destruct (hit s niter _ _) as [[|] dt]; [|apply run_fail, HE].
    generalize (advance (fwd_point dr d (pos (cell_ray m E))) (fwd_vel d (vel (cell_ray m E))) dt).
    generalize (fwd_vel d (vel (cell_ray m E))). intros v p. generalize (screen_vel s screen p v). intros v'.
    destruct E as [x y z vx vy vz t w fl vi fa]. revert HE Ef. opened. intros Ef.
    unfold store3; fields; look; rewrite ?Ef; same_ray.
  Qed.
  (** The refracted ray, then the program q. *)
  Lemma run_refracted E p nv n t alpha n1_ n2_ q m : sound E ->
    exists m', run (store_refracted E p nv n t alpha n1_ n2_ q) m = run q m' /\
      (forall a, ~ In a (rv_addr E) -> nums m' a = nums m a) /\
      (forall a, a <> vigptr E -> a <> failptr E -> bools m' a = bools m a) /\
      cell_ray m' E = match refract_vel nv n alpha n1_ n2_ with
        | None => Ray p vnan t (nums m (wptr E)) (nums m (fluxptr E)) true true
        | Some v' => Ray p v' t (nums m (wptr E)) (nums m (fluxptr E)) (bools m (vigptr E)) (bools m (failptr E))
        end.
  Proof.
    intros HE. unfold store_refracted, refract_vel. cbv zeta. destruct (n1 <? _)%num.
    - unfold store3, vnan. cbn [run].
      eexists. split; [reflexivity|].
      destruct E as [x y z vx vy vz tt w fl vi fa]. revert HE. opened.
      split; [|split].
      + intros a Ha. unfold rv_addr in Ha. fields. cbn [In] in Ha. look.
        repeat match goal with |- context [?b =? a] => destruct (Nat.eqb_spec b a); [exfalso; tauto|] end. reflexivity.
      + intros a H1' H2'. look. reflexivity.
      + same_ray.
    - unfold store3, divide. cbn [run].
      eexists. split; [reflexivity|].
      destruct E as [x y z vx vy vz tt w fl vi fa]. revert HE. opened.
      split; [|split].
      + intros a Ha. unfold rv_addr in Ha. fields. cbn [In] in Ha. look.
        repeat match goal with |- context [?b =? a] => destruct (Nat.eqb_spec b a); [exfalso; tauto|] end. reflexivity.
      + intros a H1' H2'. look. reflexivity.
      + same_ray.
  Qed.
  Lemma run_refract s dr d (m2 : medium T) c niter E m : sound E ->
    cell_ray (fst (run (prog_refract s dr d m2 c niter E) m)) E = ray_refract s dr d m2 c niter (cell_ray m E).
  Proof.
    intros HE. unfold prog_refract, ray_refract. rewrite run_approach. cbv zeta.
    destruct (failed (cell_ray m E)) eqn:Ef; [reflexivity|].
    destruct (hit s niter _ _) as [[|] dt]; [|apply run_fail, HE].
    generalize (advance (fwd_point dr d (pos (cell_ray m E))) (fwd_vel d (vel (cell_ray m E))) dt).
    generalize (fwd_vel d (vel (cell_ray m E))). intros v p.
    destruct (orient (scale v (invspeed v)) (normal s (cx p) (cy p))) as [n alpha].
    cbn [run]. change (nums m (wptr E)) with (wavelength (cell_ray m E)).
    match goal with |- context [run (store_refracted E ?p ?nv ?n ?t ?a ?n1 ?n2 ?q) m] =>
      destruct (run_refracted E p nv n t a n1 n2 q m HE) as (m' & -> & _ & _ & Hm') end.
    set (rs := refract_vel _ _ _ _ _) in *.
    destruct c as [c|]; cbn [run fst].
    - unfold scale_flux. cbn [run fst].
      assert (X : cell_ray (set_num m' (fluxptr E)
          (nums m' (fluxptr E) * getTransmit c (nums m' (wptr E)) alpha)%num) E =
        let r := cell_ray m' E in Ray (pos r) (vel r) (time r) (wavelength r)
          (flux r * getTransmit c (wavelength r) alpha)%num (vignetted r) (failed r)).
      { clear - HE. destruct E as [x y z vx vy vz tt w fl vi fa]. revert HE. opened. same_ray. }
      rewrite X, Hm'. cbn in Ef. rewrite ?Ef. destruct rs; cbn; reflexivity.
    - rewrite Hm'. cbn in Ef. rewrite ?Ef. destruct rs; reflexivity.
  Qed.

  (** rSplit: no cell of E2 is a cell of E. *)
  Definition off (E E2 : rvptr) : Prop :=
    (forall a b, In a (rv_addr E) -> In b (rv_addr E2) -> a <> b) /\
    vigptr E <> vigptr E2 /\ vigptr E <> failptr E2 /\ failptr E <> vigptr E2 /\ failptr E <> failptr E2.
  Lemma cell_ray_ext m m' E : (forall a, In a (rv_addr E) -> nums m' a = nums m a) ->
    (forall a, a = vigptr E \/ a = failptr E -> bools m' a = bools m a) -> cell_ray m' E = cell_ray m E.
  Proof.
    intros H1 H2. unfold cell_ray, rv_addr in *. rewrite !H1 by (cbn; tauto). rewrite !H2 by tauto. reflexivity.
  Qed.
  (** A program that only writes the cells of E2. *)
  Lemma run_rsplit s dr d (m2 : medium T) c niter E E2 m : sound E -> sound E2 -> off E E2 ->
    cell_ray m E2 = cell_ray m E ->
    let m' := fst (run (prog_rsplit s dr d m2 c niter E E2) m) in
    (cell_ray m' E, cell_ray m' E2) = ray_rsplit s dr d m2 c niter (cell_ray m E).
  Proof.
    intros HE HE2 HO HC. cbv zeta. unfold prog_rsplit, ray_rsplit. rewrite run_approach. cbv zeta.
    destruct (failed (cell_ray m E)) eqn:Ef; [cbn [fst]; rewrite HC; reflexivity|].
    destruct (hit s niter _ _) as [[|] dt].
    - generalize (advance (fwd_point dr d (pos (cell_ray m E))) (fwd_vel d (vel (cell_ray m E))) dt).
      generalize (fwd_vel d (vel (cell_ray m E))). intros v p.
      destruct (orient (scale v (invspeed v)) (normal s (cx p) (cy p))) as [n alpha].
      cbn [run]. change (nums m (wptr E)) with (wavelength (cell_ray m E)).
      destruct (getCoefs c (wavelength (cell_ray m E)) alpha) as [rf tr].
      unfold store3. cbn [run cx cy cz].
      match goal with |- context [run (store_refracted E ?p ?nv ?n ?t ?a ?n1 ?n2 ?q) ?m1] =>
        destruct (run_refracted E p nv n t a n1 n2 q m1 HE) as (m' & -> & Hn & Hb & Hm'); set (M := m1) in * end.
      assert (H1 : cell_ray M E = cell_ray m E).
      { apply cell_ray_ext.
        - intros a Ha. unfold M. cbn [nums bools set_num set_bool].
          assert (X : forall b, In b (rv_addr E2) -> (b =? a) = false).
          { intros b Hb'. apply Nat.eqb_neq. intros ->. eapply (proj1 HO); eauto. }
          rewrite !X by (cbn; tauto). reflexivity.
        - intros a Ha. unfold M. cbn [nums bools set_num set_bool]. destruct HO as (_ & O1 & O2 & O3 & O4).
          destruct Ha as [-> | ->]; look; reflexivity. }
      assert (H2 : cell_ray M E2 = Ray p
        (V3 (cx v - n2 * alpha * cx n / invspeed v)%num
            (cy v - n2 * alpha * cy n / invspeed v)%num
            (cz v - n2 * alpha * cz n / invspeed v)%num) (time (cell_ray m E) + dt)%num
        (wavelength (cell_ray m E)) (flux (cell_ray m E) * rf)%num (vignetted (cell_ray m E)) false).
      { assert (X : forall b a, In b (rv_addr E2) -> In a (rv_addr E) -> (b =? a) = false).
        { intros b a Hb' Ha. apply Nat.eqb_neq. intros ->. eapply (proj1 HO); eauto. }
        destruct HO as (_ & O1 & O2 & O3 & O4). unfold M.
        cbn [nums bools set_num set_bool]. rewrite !X by (cbn; tauto). look.
        clear - HE2 Ef O1 O2 O3 O4.
        change (bools m (failptr E)) with (failed (cell_ray m E)). rewrite Ef.
        set (w := nums m (wptr E)). set (u := nums m (fluxptr E)). set (g := bools m (vigptr E)).
        change (wavelength (cell_ray m E)) with w. change (flux (cell_ray m E)) with u.
        change (vignetted (cell_ray m E)) with g. set (t := (time (cell_ray m E) + dt)%num).
        clearbody w u g t. clear Ef O1 O2 O3 O4. destruct E2 as [x y z vx vy vz t2 w2 fl vi fa]. revert HE2. opened.
        look. rewrite ?v3_eta. reflexivity. }
      cbn [run fst].
      assert (H3 : cell_ray (set_num m' (fluxptr E) (nums m' (fluxptr E) * tr)%num) E2 = cell_ray M E2).
      { apply cell_ray_ext; cbn [nums bools set_num set_bool].
        - intros a Ha. assert (fluxptr E <> a) by (apply (proj1 HO); [cbn; tauto|exact Ha]). look.
          apply Hn. intros Ha'. exact (proj1 HO a a Ha' Ha eq_refl).
        - intros a Ha. destruct HO as (_ & O1 & O2 & O3 & O4). destruct Ha as [-> | ->]; apply Hb; auto. }
      assert (H4 : cell_ray (set_num m' (fluxptr E) (nums m' (fluxptr E) * tr)%num) E =
        let r := cell_ray m' E in Ray (pos r) (vel r) (time r) (wavelength r) (flux r * tr)%num (vignetted r) (failed r)).
      { clear - HE. destruct E as [x y z vx vy vz t2 w fl vi fa]. revert HE. opened. same_ray. }
      rewrite H3, H4, H2, Hm'.
      change (nums M (wptr E)) with (wavelength (cell_ray M E)). change (nums M (fluxptr E)) with (flux (cell_ray M E)).
      change (bools M (vigptr E)) with (vignetted (cell_ray M E)). change (bools M (failptr E)) with (failed (cell_ray M E)).
      rewrite !H1, Ef. cbv zeta. set (rs := refract_vel _ _ _ _ _). destruct rs; reflexivity.
    - destruct HO as (_ & O1 & O2 & O3 & O4).
      assert (X : mark_failed (cell_ray m E) = mark_failed (cell_ray m E2)) by congruence.
      f_equal; [|rewrite X]; clear - HE HE2 O1 O2 O3 O4; cbn [run fst].
      + destruct E as [x y z vx vy vz t2 w fl vi fa]. revert HE. opened. unfold mark_failed. fields. look. reflexivity.
      + destruct E2 as [x y z vx vy vz t2 w fl vi fa]. revert HE2. opened. unfold mark_failed. fields. look. reflexivity.
  Qed.
  Definition new_cell (E : rvptr) (a : nat) : Prop := Forall (fun b => b <> a) (rv_addr E).
  Lemma run_position t0 E xo yo zo m : new_cell E xo -> new_cell E yo -> new_cell E zo -> distinct [xo; yo; zo] ->
    let m' := fst (run (prog_position t0 E xo yo zo) m) in
    cell_ray m' E = cell_ray m E /\
    V3 (nums m' xo) (nums m' yo) (nums m' zo) = ray_positionAtTime t0 (cell_ray m E).
  Proof.
    destruct E as [x y z vx vy vz t w fl vi fa]. unfold new_cell, rv_addr, cell_ray, prog_position, ray_positionAtTime.
    fields. intros; spread. look. split; reflexivity.
  Qed.
  Context {TT : Trig T}.
  Lemma run_phase r t0 E o m : new_cell E o ->
    let m' := fst (run (prog_phase r t0 E o) m) in
    cell_ray m' E = cell_ray m E /\ nums m' o = ray_phase r t0 (cell_ray m E).
  Proof.
    destruct E as [x y z vx vy vz t w fl vi fa].
    unfold new_cell, rv_addr, cell_ray, prog_phase, load_speed2, ray_phase.
    fields. intros; spread. look. split; reflexivity.
  Qed.
  Lemma run_amplitude r t0 E re im m : new_cell E re -> new_cell E im -> re <> im ->
    let m' := fst (run (prog_amplitude r t0 E re im) m) in
    cell_ray m' E = cell_ray m E /\ (nums m' re, nums m' im) = ray_amplitude r t0 (cell_ray m E).
  Proof.
    destruct E as [x y z vx vy vz t w fl vi fa].
    unfold new_cell, rv_addr, cell_ray, prog_amplitude, load_phase, load_speed2, ray_amplitude, ray_phase.
    fields. intros; spread. look. split; reflexivity.
  Qed.
  Lemma run_sum r t0 ign E m : run (prog_sum r t0 ign E) m =
    (m, let c := cell_ray m E in
        if negb (failed c) && negb (ign && vignetted c)
        then Some (ncos (ray_phase r t0 c) * flux c, nsin (ray_phase r t0 c) * flux c)%num else None).
  Proof.
    unfold prog_sum, load_phase, load_speed2, ray_phase, cell_ray. fields. cbn [cx cy cz].
    destruct (bools m (failptr E)), ign; try reflexivity; cbn [run]; destruct (bools m (vigptr E)); reflexivity.
  Qed.
End Effects.
