(** Mirror images of whole traces. *)
From Coq Require Import String List Bool Arith Lia Reals Lra.
From Verif Require Import Num NumR Vec CoordSys Surface Medium Obscuration Ray Bundle Optic ImageSpec ImageTrace MirrorSpec MirrorProofs.
Import ListNotations.
Open Scope num_scope.

Section Mir.
  Context (bx by_ : bool).
  Notation mv_ := (mir_vec bx by_).
  Notation mm_ := (mir_mat bx by_).
  Notation mr_ := (mir_ray bx by_).
  Notation ms_ := (mir_surface bx by_).
  Ltac both := destruct bx, by_.
  Ltac vecs := unfold mir_vec, mir_mat; cbn [cx cy cz m00 m01 m02 m10 m11 m12 m20 m21 m22]; both; signs; reflexivity.

  Lemma vsub_mir a b : vsub (mv_ a) (mv_ b) = mv_ (vsub a b).
  Proof. unfold vsub. vecs. Qed.
  Lemma mv_mir m v : mv (mm_ m) (mv_ v) = mv_ (mv m v).
  Proof. unfold mv. vecs. Qed.
  Lemma mtr_mir m : mtr (mm_ m) = mm_ (mtr m).
  Proof. unfold mtr. vecs. Qed.
  Lemma mm_mir a b : mm (mm_ a) (mm_ b) = mm_ (mm a b).
  Proof. unfold mm. cbv zeta. vecs. Qed.
  Lemma fwd_point_mir dr d p : fwd_point (mv_ dr) (mm_ d) (mv_ p) = mv_ (fwd_point dr d p).
  Proof. unfold fwd_point. cbv zeta. vecs. Qed.
  Lemma fwd_vel_mir d v : fwd_vel (mm_ d) (mv_ v) = mv_ (fwd_vel d v).
  Proof. unfold fwd_vel. vecs. Qed.
  Lemma advance_mir p v dt : advance (mv_ p) (mv_ v) dt = mv_ (advance p v dt).
  Proof. unfold advance. vecs. Qed.
  Lemma dot3_mir a b : dot3 (mv_ a) (mv_ b) = dot3 a b.
  Proof. unfold dot3. vecs. Qed.
  Lemma invspeed_mir v : invspeed (mv_ v) = invspeed v.
  Proof. unfold invspeed. rewrite dot3_mir. reflexivity. Qed.
  Lemma scale_mir v k : scale (mv_ v) k = mv_ (scale v k).
  Proof. unfold scale. vecs. Qed.
  Lemma reflect_vel_mir v n : reflect_vel (mv_ v) (mv_ n) = mv_ (reflect_vel v n).
  Proof. unfold reflect_vel. rewrite dot3_mir. vecs. Qed.
  Lemma orient_mir nv n : orient (mv_ nv) (mv_ n) = (mv_ (fst (orient nv n)), snd (orient nv n)).
  Proof. unfold orient. rewrite dot3_mir. cbv zeta. destruct (_ <? _); cbn [fst snd]; [f_equal|reflexivity]. vecs. Qed.
  Lemma refract_vel_mir nv n a p q : refract_vel (mv_ nv) (mv_ n) a p q = option_map mv_ (refract_vel nv n a p q).
  Proof. unfold refract_vel. cbv zeta. destruct (_ <? _); [reflexivity|]. cbn [option_map]. f_equal. vecs. Qed.
  Lemma vnan_mir : mv_ vnan = vnan.
  Proof. unfold vnan. vecs. Qed.

  Lemma sag_mirv s p : mirrorable s -> sag (ms_ s) (cx (mv_ p)) (cy (mv_ p)) = sag s (cx p) (cy p).
  Proof. intros H. apply sag_mir. exact H. Qed.
  Lemma normal_mirv s p : mirrorable s -> normal (ms_ s) (cx (mv_ p)) (cy (mv_ p)) = mv_ (normal s (cx p) (cy p)).
  Proof. intros H. apply normal_mir. exact H. Qed.
  Lemma mark_mir r : mark_failed (mr_ r) = mr_ (mark_failed r).
  Proof. reflexivity. Qed.
  Ltac start H := cbv zeta; cbn [mir_ray pos vel time wavelength flux vignetted failed];
    rewrite fwd_point_mir, fwd_vel_mir; destruct (failed _); [reflexivity|]; rewrite hit_mir by exact H;
    destruct (hit _ _ _ _) as [[] dt]; [|reflexivity]; rewrite advance_mir.

  Lemma intersect_mir s dr d c niter r : mirrorable s ->
    ray_intersect (ms_ s) (mv_ dr) (mm_ d) c niter (mr_ r) = mr_ (ray_intersect s dr d c niter r).
  Proof.
    intros H. unfold ray_intersect. start H. rewrite normal_mirv by exact H. rewrite dot3_mir, invspeed_mir. reflexivity.
  Qed.
  Lemma reflect_mir s dr d c niter r : mirrorable s ->
    ray_reflect (ms_ s) (mv_ dr) (mm_ d) c niter (mr_ r) = mr_ (ray_reflect s dr d c niter r).
  Proof.
    intros H. unfold ray_reflect. start H. rewrite normal_mirv by exact H. rewrite dot3_mir, reflect_vel_mir, invspeed_mir. reflexivity.
  Qed.
  Lemma refract_mir s dr d m2 c niter r : mirrorable s ->
    ray_refract (ms_ s) (mv_ dr) (mm_ d) m2 c niter (mr_ r) = mr_ (ray_refract s dr d m2 c niter r).
  Proof.
    intros H. unfold ray_refract. start H. rewrite normal_mirv, invspeed_mir, scale_mir, orient_mir by exact H.
    destruct (orient _ _) as [n a]. cbn [fst snd]. rewrite refract_vel_mir.
    destruct (refract_vel _ _ _ _ _); cbn [option_map]; unfold mir_ray; cbn [pos vel time wavelength flux vignetted failed]; rewrite ?vnan_mir; reflexivity.
  Qed.
  Lemma rsplit_mir s dr d m2 c niter r : mirrorable s ->
    ray_rsplit (ms_ s) (mv_ dr) (mm_ d) m2 c niter (mr_ r) = let '(a, b) := ray_rsplit s dr d m2 c niter r in (mr_ a, mr_ b).
  Proof.
    intros H. unfold ray_rsplit. start H. rewrite normal_mirv, invspeed_mir, scale_mir, orient_mir by exact H.
    destruct (orient _ _) as [n a]. cbn [fst snd]. rewrite refract_vel_mir. destruct (getCoefs _ _ _) as [rf tr].
    assert (G : forall v, V3 (cx (mv_ v) - n2 * a * cx (mv_ n) / invspeed v) (cy (mv_ v) - n2 * a * cy (mv_ n) / invspeed v)
                            (cz (mv_ v) - n2 * a * cz (mv_ n) / invspeed v) =
                         mv_ (V3 (cx v - n2 * a * cx n / invspeed v) (cy v - n2 * a * cy n / invspeed v) (cz v - n2 * a * cz n / invspeed v))).
    { intros v. generalize (invspeed v). intros k. vecs. }
    rewrite G.
    destruct (refract_vel _ _ _ _ _); cbn [option_map]; unfold mir_ray; cbn [pos vel time wavelength flux vignetted failed]; rewrite ?vnan_mir; reflexivity.
  Qed.
  Lemma flip_times_0 b a : flip b (a * n0) = a * n0.
  Proof. rewrite <- (flip_0 b) at 2. destruct b; cbn [flip]; [symmetry; apply mul_opp_r|reflexivity]. Qed.
  Lemma zz b a : a * n0 = flip b (a * n0).
  Proof. symmetry. apply flip_times_0. Qed.
  Lemma flip_mul_l b x y : flip b x * y = flip b (x * y).
  Proof. destruct b; signs; reflexivity. Qed.
  Lemma flip_mul_r b x y : x * flip b y = flip b (x * y).
  Proof. destruct b; signs; reflexivity. Qed.
  Lemma xor_l a b : xorb a (xorb b a) = b. Proof. destruct a, b; reflexivity. Qed.
  Lemma xor_r a b : xorb a (xorb a b) = b. Proof. destruct a, b; reflexivity. Qed.
  (** The part of screen_vel after the surface and the screen have been consulted. *)
  Definition screen_from (e3 v : vec3 XR) (g : XR * XR) : vec3 XR :=
    let norm := nsqrt (cx v * cx v + cy v * cy v + cz v * cz v) in
    let ninv := n1 / norm in
    let e1norm := nsqrt (cz e3 * cz e3 + cx e3 * cx e3) in
    let e1 := V3 (cz e3 / e1norm) n0 (- cx e3 / e1norm) in
    let e2 := V3 (cy e3 * cz e1 - cz e3 * cy e1)
                 (cz e3 * cx e1 - cx e3 * cz e1)
                 (cx e3 * cy e1 - cy e3 * cx e1) in
    let cosi e := cx v * ninv * cx e + cy v * ninv * cy e + cz v * ninv * cz e in
    let cos1 := cosi e1 in
    let cos2 := cosi e2 in
    let cos3 := cosi e3 in
    let '(dPdx, dPdy) := g in
    let dPd1 := dPdx * cx e1 + dPdy * cy e1 in
    let dPd2 := dPdx * cx e2 + dPdy * cy e2 in
    let '(cos1, cos2, cos3) :=
      if cos3 <? n0 then
        let cos1 := cos1 + dPd1 in
        let cos2 := cos2 + dPd2 in
        (cos1, cos2, - nsqrt (n1 - cos1 * cos1 - cos2 * cos2))
      else
        let cos1 := cos1 - dPd1 in
        let cos2 := cos2 - dPd2 in
        (cos1, cos2, nsqrt (n1 - cos1 * cos1 - cos2 * cos2)) in
    let comp (f : vec3 XR -> XR) := cos1 * norm * f e1 + cos2 * norm * f e2 + cos3 * norm * f e3 in
    V3 (comp cx) (comp cy) (comp cz).
  Lemma screen_from_mir e3 v gx gy : screen_from (mv_ e3) (mv_ v) (flip bx gx, flip by_ gy) = mv_ (screen_from e3 v (gx, gy)).
  Proof.
    destruct e3 as [nx ny nz], v as [vx vy vz]. unfold screen_from. cbn [mir_vec cx cy cz]. cbv zeta. cbn [cx cy cz].
    rewrite (flip_mul bx bx vx vx), (flip_mul by_ by_ vy vy), (flip_mul bx bx nx nx), !xorb_nilpotent. cbn [flip].
    generalize (nsqrt (vx * vx + vy * vy + vz * vz)) as norm. intros norm. generalize (n1 / norm) as ninv. intros ninv.
    generalize (nsqrt (nz * nz + nx * nx)) as e1n. intros e1n.
    rewrite flip_opp, flip_div.
    generalize (nz / e1n) as a. intros a. generalize (- nx / e1n) as c. intros c.
    assert (E2x : flip by_ ny * flip bx c - nz * n0 = flip (xorb by_ bx) (ny * c - nz * n0)).
    { rewrite flip_mul, (zz (xorb by_ bx) nz) at 1. apply flip_sub. }
    assert (E2y : nz * a - flip bx nx * flip bx c = nz * a - nx * c) by (rewrite flip_mul, xorb_nilpotent; reflexivity).
    assert (E2z : flip bx nx * n0 - flip by_ ny * a = flip by_ (nx * n0 - ny * a)).
    { rewrite !flip_mul_l, flip_times_0, (zz by_ nx) at 1. apply flip_sub. }
    rewrite E2x, E2y, E2z. clear E2x E2y E2z.
    generalize (ny * c - nz * n0) as p. intros p. generalize (nz * a - nx * c) as q. intros q.
    generalize (nx * n0 - ny * a) as w. intros w.
    assert (C1 : flip bx vx * ninv * a + flip by_ vy * ninv * n0 + vz * ninv * flip bx c =
                 flip bx (vx * ninv * a + vy * ninv * n0 + vz * ninv * c)).
    { rewrite !flip_mul_l, flip_mul_r, flip_times_0, (zz bx (vy * ninv)) at 1. rewrite !flip_add. reflexivity. }
    assert (C2 : flip bx vx * ninv * flip (xorb by_ bx) p + flip by_ vy * ninv * q + vz * ninv * flip by_ w =
                 flip by_ (vx * ninv * p + vy * ninv * q + vz * ninv * w)).
    { rewrite !flip_mul_l, !flip_mul_r, flip_xor, xor_l, !flip_add. reflexivity. }
    assert (C3 : flip bx vx * ninv * flip bx nx + flip by_ vy * ninv * flip by_ ny + vz * ninv * nz =
                 vx * ninv * nx + vy * ninv * ny + vz * ninv * nz).
    { rewrite !flip_mul_l, !flip_mul_r, !flip_xor, !xorb_nilpotent. reflexivity. }
    assert (D1 : flip bx gx * a + flip by_ gy * n0 = flip bx (gx * a + gy * n0)).
    { rewrite !flip_mul_l, flip_times_0, (zz bx gy) at 1. apply flip_add. }
    assert (D2 : flip bx gx * flip (xorb by_ bx) p + flip by_ gy * q = flip by_ (gx * p + gy * q)).
    { rewrite !flip_mul_l, !flip_mul_r, flip_xor, xor_l. apply flip_add. }
    rewrite C1, C2, C3, D1, D2. clear C1 C2 C3 D1 D2.
    generalize (vx * ninv * a + vy * ninv * n0 + vz * ninv * c) as c1. intros c1.
    generalize (vx * ninv * p + vy * ninv * q + vz * ninv * w) as c2. intros c2.
    generalize (gx * a + gy * n0) as d1. intros d1. generalize (gx * p + gy * q) as d2. intros d2.
    assert (F : forall k1 k2 k3,
      V3 (flip bx k1 * norm * a + flip by_ k2 * norm * flip (xorb by_ bx) p + k3 * norm * flip bx nx)
         (flip bx k1 * norm * n0 + flip by_ k2 * norm * q + k3 * norm * flip by_ ny)
         (flip bx k1 * norm * flip bx c + flip by_ k2 * norm * flip by_ w + k3 * norm * nz) =
      mv_ (V3 (k1 * norm * a + k2 * norm * p + k3 * norm * nx) (k1 * norm * n0 + k2 * norm * q + k3 * norm * ny)
              (k1 * norm * c + k2 * norm * w + k3 * norm * nz))).
    { intros k1 k2 k3. unfold mir_vec. cbn [cx cy cz].
      rewrite !flip_mul_l, !flip_mul_r, !flip_xor, xor_r, !xorb_nilpotent, flip_times_0, (zz by_ (k1 * norm)) at 1.
      rewrite !flip_add. reflexivity. }
    destruct (_ <? _); rewrite ?flip_add, ?flip_sub, !flip_mul, !xorb_nilpotent; apply F.
  Qed.
  Lemma screen_vel_mir s screen p v : mirrorable s -> mirrorable screen ->
    screen_vel (ms_ s) (ms_ screen) (mv_ p) (mv_ v) = mv_ (screen_vel s screen p v).
  Proof.
    intros H Hs.
    change (screen_vel s screen p v) with (screen_from (normal s (cx p) (cy p)) v (grad screen (cx p) (cy p))).
    change (screen_vel (ms_ s) (ms_ screen) (mv_ p) (mv_ v)) with
      (screen_from (normal (ms_ s) (cx (mv_ p)) (cy (mv_ p))) (mv_ v) (grad (ms_ screen) (cx (mv_ p)) (cy (mv_ p)))).
    rewrite normal_mirv by exact H. cbn [mir_vec cx cy]. rewrite grad_mir by exact Hs.
    destruct (grad screen _ _) as [gx gy]. apply screen_from_mir.
  Qed.
  Lemma screen_mir s screen dr d niter r : mirrorable s -> mirrorable screen ->
    ray_screen (ms_ s) (ms_ screen) (mv_ dr) (mm_ d) niter (mr_ r) = mr_ (ray_screen s screen dr d niter r).
  Proof.
    intros H Hs. unfold ray_screen. start H. rewrite screen_vel_mir, sag_mirv by assumption. reflexivity.
  Qed.

  Notation mc_ := (mir_frame bx by_).
  Lemma mkCT_mir f t : ct_dr (mkCT (mc_ f) (mc_ t)) = mv_ (ct_dr (mkCT f t)) /\ ct_drot (mkCT (mc_ f) (mc_ t)) = mm_ (ct_drot (mkCT f t)).
  Proof. cbn [mkCT ct_dr ct_drot mir_frame origin rot]. rewrite mtr_mir, vsub_mir, mv_mir, mm_mir. split; reflexivity. Qed.
  Lemma obscure_mir o r : smooth_obsc o -> ray_obscure (mir_obsc bx by_ o) (mr_ r) = mr_ (ray_obscure o r).
  Proof.
    intros H. unfold ray_obscure, mir_ray; cbn [pos vel time wavelength flux vignetted failed mir_vec cx cy].
    rewrite contains_mir by exact H. reflexivity.
  Qed.
  Lemma mirror_respects : respects (mirror bx by_) mirrorable mirrorable smooth_obsc.
  Proof.
    assert (G : forall body body', (forall dr d r, body' (mv_ dr) (mm_ d) (mr_ r) = mr_ (body dr d r)) -> alongside (mirror bx by_) body body').
    { intros body body' H f t r. cbn [mirror on_frame on_ray]. destruct (mkCT_mir f t) as [-> ->]. apply H. }
    constructor; cbn [mirror on_surface on_screen on_obsc on_frame on_ray].
    - intros s c n H. apply G. intros. apply intersect_mir. exact H.
    - intros s c n H. apply G. intros. apply reflect_mir. exact H.
    - intros s m c n H. apply G. intros. apply refract_mir. exact H.
    - intros s p n H Hp. apply G. intros. apply screen_mir; assumption.
    - intros s m c n H f t r. destruct (mkCT_mir f t) as [-> ->]. apply rsplit_mir. exact H.
    - intros o r H. apply obscure_mir. exact H.
    - reflexivity.
  Qed.
End Mir.

Lemma opp_self y : - Fin y = Fin y -> y = 0%R.
Proof. intros E. injection E as E. lra. Qed.
(** Rays in the plane of symmetry stay there. *)
Lemma plane_kept niter o reverse rv : mirrorable_optic o -> image_optic (mirror false true) o = o -> mir_frame false true (rvcs rv) = rvcs rv ->
  (forall r, In r (rays rv) -> cy (pos r) = Fin 0 /\ cy (vel r) = Fin 0) ->
  forall r y, In r (rays (trace niter o reverse rv)) ->
    (cy (pos r) = Fin y -> y = 0%R) /\ (cy (vel r) = Fin y -> y = 0%R).
Proof.
  intros H E F HR.
  assert (M : image_rays (mirror false true) rv = rv).
  { destruct rv as [rs c]. unfold image_rays; cbn [mirror on_frame on_ray rays rvcs] in *. rewrite F. f_equal.
    rewrite <- (map_id rs) at 2. apply map_ext_in. intros r Hr. destruct (HR r Hr) as [A B].
    destruct r as [[px py pz] [vx vy vz] t w f vg fl]. cbn in A, B. subst. unfold mir_ray, mir_vec; cbn. rewrite Ropp_0. reflexivity. }
  assert (S := symmetric_mir _ _ _ _ (mirror_respects false true) niter o reverse rv H E). rewrite M in S. set (out := trace niter o reverse rv) in *.
  assert (G : map (mir_ray false true) (rays out) = rays out) by (rewrite S at 2; reflexivity). clear S.
  intros r y Hr.
  assert (K : mir_ray false true r = r).
  { revert Hr G. generalize (rays out). induction l as [|a l IH]; [intros []|]. cbn [map]. intros [->|Hr] [= A B]; auto. }
  destruct r as [[px py pz] [vx vy vz] t w f vg fl]. unfold mir_ray, mir_vec in K. cbn in K. injection K as K1 K2. cbn.
  split; intros ->; apply opp_self; assumption.
Qed.
