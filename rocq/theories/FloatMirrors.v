(** Any number of mirrors in double precision. *)
From Coq Require Import Reals ZArith List Bool Lra Lia Psatz.
From Verif Require Import Num NumF Vec CoordSys Surface Medium Ray Bundle Spec AnalysisProofs FloatSpec FloatProofs FloatErr FloatFrames FloatTrace FloatNormal.
Import ListNotations.
Open Scope R_scope.

Lemma reflect_cases s dr d co niter (r : ray F64) : let r' := ray_reflect s dr d co niter r in
  vel r' = vel r \/ (failed r' = false /\ vel r' = reflect_vel (fwd_vel d (vel r)) (normal s (cx (pos r')) (cy (pos r')))).
Proof.
  cbv zeta. unfold ray_reflect. destruct (failed r) eqn:F; [left; reflexivity|]. destruct (hit _ _ _ _) as [[] dt]; [right|left; reflexivity].
  cbn [failed vel pos]. split; reflexivity.
Qed.
Theorem mirrors_speed niter tau l : tau <= / 100 -> forall rv i r, nth_error (rays rv) i = Some r ->
  Forall (fun c => finC c /\ nearly_orthonormal tau (valM (rot c))) (rvcs rv :: map (fun m => snd (fst m)) l) -> gentle niter i l rv ->
  finV (vel r) -> dotR (valV (vel r)) (valV (vel r)) + INR (length l) * (10 * tau + 413 * ulp) <= 1.44 ->
  exists r', nth_error (rays (mirrors niter l rv)) i = Some r' /\ finV (vel r') /\
    Rabs (dotR (valV (vel r')) (valV (vel r')) - dotR (valV (vel r)) (valV (vel r))) <= INR (length l) * (10 * tau + 413 * ulp).
Proof.
  intros T. pose proof ulp_small as [U0 U1]. induction l as [|[[s c] co] l IH]; intros rv i r Hi FF G Fv Hv.
  - exists r. cbn [mirrors fold_left length INR]. conj; trivial. rewrite Rminus_diag_eq by reflexivity. rewrite Rabs_R0. lra.
  - cbn [map fst snd] in FF. inversion FF as [|? ? (Cf & Nf) F' E1]; subst. inversion F' as [|? ? (Cc & Nc) F'' E2]; subst.
    destruct Nf as [Nf1 Nf2]. pose proof (nearly_tau _ _ Nf1) as T0. cbn [gentle] in G. destruct G as [G0 G].
    set (D := 10 * tau + 413 * ulp) in *. assert (D0 : 0 <= D) by (unfold D; lra).
    change (length ((s, c, co) :: l)) with (Datatypes.S (length l)) in *. rewrite S_INR in *. pose proof (pos_INR (length l)) as N0.
    assert (ND : 0 <= INR (length l) * D) by (apply Rmult_le_pos; assumption).
    set (rv1 := rv_reflect niter s (Some c) co rv) in *. set (ct := mkCT (rvcs rv) c) in *. set (r1 := ray_reflect s (ct_dr ct) (ct_drot ct) co niter r).
    assert (Hi1 : nth_error (rays rv1) i = Some r1) by (unfold rv1, rv_reflect, batch; cbn [rays dest]; rewrite nth_error_map, Hi; reflexivity).
    assert (K : finV (vel r1) /\ Rabs (dotR (valV (vel r1)) (valV (vel r1)) - dotR (valV (vel r)) (valV (vel r))) <= D).
    { destruct (reflect_cases s (ct_dr ct) (ct_drot ct) co niter r) as [E|[Fl E]]; fold r1 in E.
      - rewrite E. split; [exact Fv|]. rewrite Rminus_diag_eq by reflexivity. rewrite Rabs_R0. exact D0.
      - fold r1 in Fl. destruct (G0 r1 Hi1 Fl) as (M & Fn & Sn). pose proof (normal_unit _ _ _ M Fn Sn) as NU. rewrite E.
        set (n := normal s (cx (pos r1)) (cy (pos r1))) in *. clearbody n.
        assert (Lv : lenR (valV (vel r)) <= 1.2) by (apply len_le; lra).
        destruct (frame_speed tau (rvcs rv) c (vel r) Cf Cc T (conj Nf1 Nf2) Nc Fv Lv) as [Fw Hw]. fold ct in Fw, Hw.
        set (w := fwd_vel (ct_drot ct) (vel r)) in *.
        assert (Lw : lenR (valV w) <= 1.2) by (apply len_le; [lra|]; apply abs_between in Hw; unfold D in *; lra).
        destruct (reflect_speed w n (13 * ulp) Fw Fn Lw) as [Fr Hr]; [lra|exact NU|]. split; [exact Fr|].
        apply abs_between in Hw, Hr. apply Rabs_le. unfold D. lra. }
    destruct K as [F1 K]. destruct (IH rv1 i r1 Hi1) as (r' & Hr & Fr & Dr); trivial.
    + apply abs_between in K. lra.
    + exists r'. change (mirrors niter ((s, c, co) :: l) rv) with (mirrors niter l rv1). conj; trivial. apply abs_between in K, Dr. apply Rabs_le. lra.
Qed.
