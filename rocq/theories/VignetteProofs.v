(** Obscurations mark rays and do nothing else; zernikeGQ about the chief ray does not see them. *)
From Coq Require Import String List ZArith Bool.
From Verif Require Import Num NumR Vec CoordSys Surface Medium Obscuration Ray Bundle Trig Optic Field RayGen TreeSpec TreeProofs StructProofs Analysis ZernSpec.
Import ListNotations.

Section Obsc.
  Context {T : Type} {NT : Num T} {TT : Trig T}.
  Definition unmark (r : ray T) : ray T := Ray (pos r) (vel r) (time r) (wavelength r) (flux r) false (failed r).
  Definition unmarked (rv : rayvec T) : rayvec T := RV (map unmark (rays rv)) (rvcs rv).
  Lemma unmark_iff r r' : unmark r = unmark r' <-> same_but_vignetted r r'.
  Proof.
    destruct r, r'. unfold unmark, same_but_vignetted; cbn. split.
    - intros E. inversion E. repeat split.
    - intros (-> & -> & -> & -> & -> & ->). reflexivity.
  Qed.
  (** A function of rays that treats the flag as a passenger. *)
  Definition blind (f : ray T -> ray T) : Prop := forall r, unmark (f (unmark r)) = unmark (f r).
  Lemma blind_map f l l' : blind f -> map unmark l = map unmark l' -> map unmark (map f l) = map unmark (map f l').
  Proof.
    intros B. revert l'. induction l as [|r l IH]; intros [|r' l'] E; try discriminate; [reflexivity|].
    cbn [map] in *. assert (E0 : unmark r = unmark r') by congruence. assert (E1 : map unmark l = map unmark l') by congruence.
    f_equal; [|apply IH, E1]. rewrite <- (B r), <- (B r'), E0. reflexivity.
  Qed.
  Lemma batch_blind body cs rv rv' : (forall dr d, blind (body dr d)) -> unmarked rv = unmarked rv' ->
    unmarked (batch body cs rv) = unmarked (batch body cs rv').
  Proof.
    intros B E. destruct rv as [l c], rv' as [l' c']. unfold unmarked in *. cbn [rays rvcs] in *.
    assert (E1 : map unmark l = map unmark l') by congruence. assert (E2 : c = c') by congruence. subst c'.
    unfold batch. cbn [rays rvcs dest]. destruct cs; cbn; f_equal; apply blind_map; auto.
  Qed.
  Lemma intersect_blind s dr d c niter : blind (ray_intersect s dr d c niter).
  Proof.
    intros [p v t w f vg fl]. unfold ray_intersect, unmark; cbn. destruct fl; [reflexivity|].
    destruct (hit _ _ _ _) as [[] dt]; reflexivity.
  Qed.
  Lemma reflect_blind s dr d c niter : blind (ray_reflect s dr d c niter).
  Proof.
    intros [p v t w f vg fl]. unfold ray_reflect, unmark; cbn. destruct fl; [reflexivity|].
    destruct (hit _ _ _ _) as [[] dt]; reflexivity.
  Qed.
  Lemma refract_blind s dr d m c niter : blind (ray_refract s dr d m c niter).
  Proof.
    intros [p v t w f vg fl]. unfold ray_refract, unmark; cbn [pos vel time wavelength flux vignetted failed]. destruct fl; [reflexivity|].
    destruct (hit _ _ _ _) as [[] dt]; [|reflexivity]. destruct (orient _ _) as [n al]. destruct (refract_vel _ _ _ _ _); reflexivity.
  Qed.
  Lemma screen_blind s sc dr d niter : blind (ray_screen s sc dr d niter).
  Proof.
    intros [p v t w f vg fl]. unfold ray_screen, unmark; cbn. destruct fl; [reflexivity|].
    destruct (hit _ _ _ _) as [[] dt]; reflexivity.
  Qed.
  Lemma forward_blind dr d : blind (ray_forward dr d).
  Proof. intros [p v t w f vg fl]. reflexivity. Qed.
  Lemma interact_blind niter i reverse rv rv' : unmarked rv = unmarked rv' ->
    unmarked (interact niter i reverse rv) = unmarked (interact niter i reverse rv').
  Proof.
    intros E. unfold interact. destruct (i_kind i); try (apply batch_blind; [intros; apply intersect_blind|exact E]).
    - destruct reverse; apply batch_blind; try exact E; intros; apply refract_blind.
    - apply batch_blind; [intros; apply reflect_blind|exact E].
    - apply batch_blind; [intros; apply screen_blind|exact E].
  Qed.
  Lemma obscure_blind o rv : unmarked (apply_obsc o rv) = unmarked rv.
  Proof.
    destruct o as [o|]; [|reflexivity]. unfold apply_obsc, rv_obscure, unmarked; cbn [rays rvcs]. rewrite map_map. reflexivity.
  Qed.
  Lemma trace_unobscured niter o reverse : forall rv rv', unmarked rv = unmarked rv' ->
    unmarked (trace niter (unobscured o) reverse rv) = unmarked (trace niter o reverse rv').
  Proof.
    induction o as [i|a items IH] using optic_ind2; intros rv rv' E.
    - cbn [unobscured trace]. unfold iface_trace. rewrite !obscure_blind. cbn [i_obsc].
      exact (interact_blind niter i reverse rv rv' E).
    - cbn [unobscured trace].
      assert (SK : forall it : optic T, o_skip (unobscured it) = o_skip it) by (intros []; reflexivity).
      destruct reverse.
      + induction items as [|it items IHi]; [exact E|]. cbn [map fold_right]. inversion IH as [|? ? H0 H1]; subst.
        rewrite SK. destruct (o_skip it); [apply IHi, H1|]. apply H0, IHi, H1.
      + revert rv rv' E. induction items as [|it items IHi]; intros rv rv' E; [exact E|]. cbn [map fold_left]. inversion IH as [|? ? H0 H1]; subst.
        rewrite SK. apply IHi; [exact H1|]. destruct (o_skip it); [exact E|]. apply H0, E.
  Qed.
  Lemma unmarked_rays rv rv' : unmarked rv = unmarked rv' -> Forall2 same_but_vignetted (rays rv) (rays rv') /\ rvcs rv = rvcs rv'.
  Proof.
    destruct rv as [l c], rv' as [l' c']. unfold unmarked; cbn [rays rvcs]. intros E.
    assert (E1 : map unmark l = map unmark l') by congruence. split; [|congruence]. clear E.
    revert l' E1. induction l as [|r l IH]; intros [|r' l'] E; try discriminate; constructor; cbn [map] in E.
    - apply unmark_iff. congruence.
    - apply IH. congruence.
  Qed.
  Theorem obscurations_mark : forall niter o reverse rv,
    let a := trace niter o reverse rv in let b := trace niter (unobscured o) reverse rv in
    Forall2 same_but_vignetted (rays a) (rays b) /\ rvcs a = rvcs b.
  Proof. intros niter o reverse rv a b. apply unmarked_rays. symmetry. apply trace_unobscured. reflexivity. Qed.
  Lemma map_unmark {A} (f : ray T -> A) rv rv' : (forall r, f (unmark r) = f r) -> unmarked rv = unmarked rv' ->
    map f (rays rv) = map f (rays rv').
  Proof.
    intros H E. rewrite <- (map_ext _ _ H (rays rv)), <- (map_ext _ _ H (rays rv')). rewrite <- !(map_map unmark f).
    f_equal. exact (f_equal rays E).
  Qed.
  Theorem zernikeGQ_unobscured : forall niter lg basis o attr radius tx ty w projection rings spokes sphereRadius reference jmax eps,
    reference <> "mean"%string ->
    zernikeGQ niter lg basis (Tel (unobscured o) attr radius) tx ty w projection rings spokes sphereRadius reference jmax eps
    = zernikeGQ niter lg basis (Tel o attr radius) tx ty w projection rings spokes sphereRadius reference jmax eps.
  Proof.
    intros niter lg basis o attr radius tx ty w projection rings spokes sphereRadius reference jmax eps HR.
    unfold zernikeGQ. cbn [tl_attr tl_optic tl_radius].
    destruct (fieldToDirCos tx ty projection) as [[[da db] dc]|]; [|reflexivity]. cbn [bind].
    destruct (need_attr None (oa_pupil attr)) as [pupil|]; [|reflexivity]. cbn [bind].
    change (generator (Tel (unobscured o) attr radius) w (da, db, dc)) with (generator (Tel o attr radius) w (da, db, dc)).
    destruct (asSpokes _ _ _ _ _ _ _ _) as [rv|]; [|reflexivity]. cbn [bind].
    destruct (need_attr None (oa_stop attr)) as [stop|]; [|reflexivity]. cbn [bind].
    destruct (need_attr sphereRadius radius) as [sr|]; [|reflexivity]. cbn [bind].
    pose proof (trace_unobscured niter o false rv rv eq_refl) as E.
    set (a := trace niter (unobscured o) false rv) in *. set (b := trace niter o false rv) in *.
    assert (EF : existsb failed (rays a) = existsb failed (rays b)).
    { assert (X : forall l : list (ray T), existsb failed l = existsb (fun x => x) (map failed l)) by (induction l; cbn; congruence).
      rewrite !X. f_equal. apply map_unmark; [reflexivity|exact E]. }
    rewrite EF. destruct (existsb failed (rays b)); [reflexivity|].
    destruct (need_attr None (oa_backDist attr)) as [bd|]; [|reflexivity]. cbn [bind].
    destruct (String.eqb reference "mean") eqn:EM; [apply String.eqb_eq in EM; contradiction|].
    destruct (String.eqb reference "chief"); [|reflexivity].
    destruct (fromStop _ _ _) as [ch0|]; [|reflexivity]. cbn [bind].
    pose proof (trace_unobscured niter o false ch0 ch0 eq_refl) as EC.
    set (ca := trace niter (unobscured o) false ch0) in *. set (cb := trace niter o false ch0) in *.
    destruct (unmarked_rays _ _ EC) as [FC CC]. destruct (unmarked_rays _ _ E) as [_ CE].
    set (ra := rays ca) in *. set (rb := rays cb) in *. assert (Era : rays ca = ra) by reflexivity. assert (Erb : rays cb = rb) by reflexivity. clearbody ra rb.
    destruct FC as [|r r' l l' S0 S1]; [reflexivity|]. cbn [bind].
    assert (EP : pos r = pos r') by (symmetry; apply S0). rewrite EP, CE.
    set (target := shiftLocal (rvcs b) _).
    assert (LAND : forall x y, unmarked x = unmarked y ->
      unmarked (rv_intersect niter (Sphere (nopp sr)) None None (rv_toCoordSys target x))
      = unmarked (rv_intersect niter (Sphere (nopp sr)) None None (rv_toCoordSys target y))).
    { intros x y XY. apply batch_blind; [intros; apply intersect_blind|]. apply batch_blind; [intros; apply forward_blind|exact XY]. }
    pose proof (LAND a b E) as LE. destruct (unmarked_rays _ _ (LAND ca cb EC)) as [FL _].
    set (la := rv_intersect niter (Sphere (nopp sr)) None None (rv_toCoordSys target a)) in *.
    set (lb := rv_intersect niter (Sphere (nopp sr)) None None (rv_toCoordSys target b)) in *.
    set (ra := rays (rv_intersect niter (Sphere (nopp sr)) None None (rv_toCoordSys target ca))) in *.
    set (rb := rays (rv_intersect niter (Sphere (nopp sr)) None None (rv_toCoordSys target cb))) in *. clearbody ra rb.
    destruct FL as [|q q' m m' Q0 Q1]; [reflexivity|]. cbn [bind].
    assert (ET : time q = time q') by (symmetry; apply Q0). rewrite ET. f_equal.
    apply map_ext. intros row. f_equal. f_equal. apply map_unmark; [reflexivity|exact LE].
  Qed.
  Theorem zernikeGQ_failed : forall niter lg basis tel tx ty w projection rings spokes sphereRadius reference jmax eps d pupil rv stop radius,
    fieldToDirCos tx ty projection = Ok d -> oa_pupil (tl_attr tel) = Some pupil ->
    asSpokes lg (generator tel w d) None (ndiv (nmul eps pupil) n2) (option_map CInt spokes) (CInt rings) "GQ" n1 = Ok rv ->
    oa_stop (tl_attr tel) = Some stop -> sphereRadius = Some radius \/ sphereRadius = None /\ tl_radius tel = Some radius ->
    (exists r, In r (rays (trace niter (tl_optic tel) false rv)) /\ failed r = true) ->
    zernikeGQ niter lg basis tel tx ty w projection rings spokes sphereRadius reference jmax eps = Err ValueError.
  Proof.
    intros niter lg basis tel tx ty w projection rings spokes sphereRadius reference jmax eps d pupil rv stop radius E1 E2 E3 E4 E5 (r & Hr & Hf).
    unfold zernikeGQ. rewrite E1. cbn [bind]. rewrite E2. cbn [need_attr bind]. rewrite E3. cbn [bind]. rewrite E4. cbn [need_attr bind].
    assert (E6 : need_attr sphereRadius (tl_radius tel) = Ok radius) by (destruct E5 as [->|[-> ->]]; reflexivity).
    rewrite E6. cbn [bind]. replace (existsb failed _) with true; [reflexivity|]. symmetry. apply existsb_exists. exists r. auto.
  Qed.
  (** More polynomials leave the first coefficients as they are. *)
  Theorem zernikeGQ_jmax : forall niter lg basis tel tx ty w projection rings spokes sphereRadius reference j k eps a,
    (forall pts outer inner, exists rest, basis k pts outer inner = basis j pts outer inner ++ rest) ->
    zernikeGQ niter lg basis tel tx ty w projection rings spokes sphereRadius reference j eps = Ok a ->
    exists b, zernikeGQ niter lg basis tel tx ty w projection rings spokes sphereRadius reference k eps = Ok (a ++ b).
  Proof.
    intros niter lg basis tel tx ty w projection rings spokes sphereRadius reference j k eps a HB. unfold zernikeGQ.
    destruct (fieldToDirCos tx ty projection) as [d|]; [cbn [bind]|discriminate].
    destruct (need_attr None (oa_pupil _)) as [pupil|]; [cbn [bind]|discriminate].
    destruct (asSpokes _ _ _ _ _ _ _ _) as [rv|]; [cbn [bind]|discriminate].
    destruct (need_attr None (oa_stop _)) as [stop|]; [cbn [bind]|discriminate].
    destruct (need_attr sphereRadius _) as [radius|]; [cbn [bind]|discriminate].
    destruct (existsb _ _); [discriminate|].
    destruct (need_attr None (oa_backDist _)) as [bd|]; [cbn [bind]|discriminate].
    match goal with |- context[bind ?e _] => destruct e as [[point chief]|]; [cbn [bind]|discriminate] end.
    match goal with |- context[bind ?e _] => destruct e as [t0|]; [cbn [bind]|discriminate] end.
    match goal with |- context[basis k ?p ?o ?i] => destruct (HB p o i) as (rest & ->) end.
    rewrite map_app. intros E. injection E as <-. eexists. reflexivity.
  Qed.
End Obsc.
