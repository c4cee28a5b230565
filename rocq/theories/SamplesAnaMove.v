(** Concrete telescopes for the examples of C72. *)
From Coq Require Import Reals String List ZArith Bool Lra Psatz Lia.
From Verif Require Import Num NumR Vec CoordSys Surface Medium Ray Bundle Trig Optic Field RayGen Wave Spec OpticsSpec
  XRFacts CoordFacts TreeSpec TreeProofs MoveSpec FieldSpec FieldProofs GenSpec WaveSpec Analysis AnalysisSpec AnalysisProofs
  AnalysisFocus AnalysisMove AnalysisBad SamplesAnalysis.
Import ListNotations.
Open Scope R_scope.

(** A shift, then a quarter turn about an axis through (0, 0, 1). *)
Definition journey : list motion := [MShift (V3 1 2 3); MTurn (M3 1 0 0 0 0 (-1) 0 1 0) (V3 0 0 1) eye0].
Lemma journey_rigid : Forall rigid journey.
Proof. constructor; [exact I|]. constructor; [|constructor]. cbn. unfold orthonormal, dotR; cbn. repeat split; ring. Qed.
Lemma optic20_movable : movable optic20.
Proof.
  split; [|split].
  - constructor.
    + intros it [<-|[<-|[]]]; reflexivity.
    + intros it [<-|[<-|[]]]; constructor.
  - cbn. repeat constructor; eexists; reflexivity.
  - discriminate.
Qed.
Lemma newton20_clear niter : clear_reference niter newton20 (Fin 0) (Fin 0) (Fin 1) "postel" 4 "chief" /\ clear_radius None newton20.
Proof.
  split.
  - right. intros rv (a & b & c & rv0 & H1 & H2 & ->).
    destruct (newton20_traced niter) as (q & rv' & A & (a' & b' & c' & rv0' & H1' & H2' & ->) & _ & _ & H4 & _ & _ & (ch & H6) & _).
    rewrite H1 in H1'. injection H1' as <- <- <-. rewrite H2 in H2'. injection H2' as <-. exists q, (pos ch). split; assumption.
  - intros r [H|[_ H]]; [discriminate|]. cbn in H. injection H as <-. exists 10. reflexivity.
Qed.
Lemma bare_movable : movable bare.
Proof. split; [exact bare_unskipped|]. split; [exact bare_frames|discriminate]. Qed.
Lemma bare_clear niter :
  clear_spokes niter midpoint (bare_telescope bare) (Fin 0) (Fin 0) (Fin 1) "postel" 1 (Some 1%nat) (Fin 0) (Fin 2) /\
  clear_radius None (bare_telescope bare).
Proof.
  split.
  - intros d rv. rewrite (axis_down Postel : fieldToDirCos (Fin 0) (Fin 0) "postel" = _). intros E H. injection E as <-. unfold generator in H.
    assert (E0 : ndiv (nmul (Fin 0) (Fin 2)) n2 = Fin 0) by (xunf; rewrite xdiv_fin by lra; f_equal; field). rewrite E0 in H.
    destruct (spokes_one (Gen (Some (tl_attr (bare_telescope bare))) None None None None (Some (Fin 1)) (DirCos (F3 (V3 0 0 (-1))))) (half 1)) as (rv' & E1 & W1).
    { apply hdescribes; reflexivity. }
    { apply half_good. ring. }
    { right. split; [reflexivity|]. exists (tl_attr (bare_telescope bare)), 2. split; [reflexivity|]. split; [reflexivity|lra]. }
    destruct (one_ray _ _ _ _ W1) as (r & -> & Fr & Ar). change n1 with (Fin 1) in H. cbn [option_map] in H. pose proof (eq_trans (eq_sym E1) H) as E2. injection E2 as <-.
    exists [r]. split; [discriminate|]. rewrite trace_empty by reflexivity.
    destruct Ar as (_ & _ & _ & V & _). unfold lit_rays; cbn. rewrite V. reflexivity.
  - intros r [H|[_ H]]; [discriminate|]. cbn in H. injection H as <-. eexists. reflexivity.
Qed.
