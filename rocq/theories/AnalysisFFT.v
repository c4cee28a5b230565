(** C71: point-spread functions by Fourier transform. *)
From Coq Require Import Reals String List ZArith Bool Lra Psatz Lia.
From Verif Require Import Num NumR Vec CoordSys Surface Ray Bundle Trig Optic Field RayGen Wave Spec FieldSpec OpticsSpec
  XRFacts PatternSpec PatternProofs GenSpec WaveSpec Analysis AnalysisSpec AnalysisProofs AnalysisFocus AnalysisPSF Fourier.
Import ListNotations.
Open Scope R_scope.

(** ** fftshift *)
Definition sh (n i : nat) : nat := if (i <? n / 2)%nat then (i + (n - n / 2))%nat else (i - n / 2)%nat.
Lemma skipn_seq k a n : skipn k (seq a n) = seq (a + k) (n - k).
Proof.
  revert a n. induction k as [|k IH]; intros a n; [cbn; rewrite Nat.add_0_r, Nat.sub_0_r; reflexivity|].
  destruct n as [|n]; [reflexivity|]. cbn [seq skipn Nat.sub]. rewrite IH. f_equal. lia.
Qed.
Lemma firstn_seq k a n : (k <= n)%nat -> firstn k (seq a n) = seq a k.
Proof.
  revert a n. induction k as [|k IH]; intros a n H; [reflexivity|].
  destruct n as [|n]; [lia|]. cbn [seq firstn]. rewrite IH by lia. reflexivity.
Qed.
Lemma half_le n : (n / 2 <= n)%nat.
Proof. apply Nat.div_le_upper_bound; lia. Qed.
Lemma fftshift_seq {A} (f : nat -> A) n : fftshift (map f (seq 0 n)) = map (fun i => f (sh n i)) (seq 0 n).
Proof.
  unfold fftshift. rewrite map_length, seq_length. pose proof (half_le n) as H.
  rewrite skipn_map, firstn_map, skipn_seq, firstn_seq by lia. cbn [Nat.add].
  replace (n - (n - n / 2))%nat with (n / 2)%nat by lia.
  replace (seq 0 n) with (seq 0 (n / 2) ++ seq (n / 2) (n - n / 2)).
  2: { rewrite <- seq_app. f_equal. lia. }
  rewrite map_app. f_equal.
  - set (k := (n - n / 2)%nat). rewrite <- (Nat.add_0_r k) at 1. 
    transitivity (map f (map (fun i => (i + k)%nat) (seq 0 (n / 2)))).
    + f_equal. generalize 0%nat at 1 3. generalize (n / 2)%nat. clear. intros m. induction m as [|m IH]; intros a; [reflexivity|].
      cbn [seq map]. f_equal; [lia|]. rewrite <- (IH (S a)). f_equal. lia.
    + rewrite map_map. apply map_ext_in. intros i Hi. apply in_seq in Hi. unfold sh.
      destruct (Nat.ltb_spec i (n / 2)); [reflexivity|lia].
  - transitivity (map f (map (fun i => (i - n / 2)%nat) (seq (n / 2) (n - n / 2)))).
    + f_equal. generalize (n - n / 2)%nat. intros m. replace (seq 0 m) with (seq (n / 2 - n / 2) m) by (f_equal; lia).
      assert (G : forall a, (n / 2 <= a)%nat -> seq (a - n / 2) m = map (fun i => (i - n / 2)%nat) (seq a m)).
      { induction m as [|m IH]; intros a Ha; [reflexivity|]. cbn [seq map]. f_equal. rewrite <- IH by lia. f_equal. lia. }
      apply G. lia.
    + rewrite map_map. apply map_ext_in. intros i Hi. apply in_seq in Hi. unfold sh.
      destruct (Nat.ltb_spec i (n / 2)); [lia|reflexivity].
Qed.
Lemma sh_lt n i : (i < n)%nat -> (sh n i < n)%nat.
Proof. intros H. pose proof (half_le n). unfold sh. destruct (Nat.ltb_spec i (n / 2)); lia. Qed.
Lemma sh_real n i : (i < n)%nat -> exists e : Z, INR (sh n i) = INR i - INR (n / 2) + INR n * IZR e.
Proof.
  intros H. pose proof (half_le n). unfold sh. destruct (Nat.ltb_spec i (n / 2)).
  - exists 1%Z. rewrite plus_INR, minus_INR by lia. cbn. ring.
  - exists 0%Z. rewrite minus_INR by lia. ring.
Qed.

(** ** Complex sums *)
Lemma csum_F l : csum (map Fpair l) = Fpair (sumR (map fst l), sumR (map snd l)).
Proof.
  unfold csum. change (@n0 XR _, @n0 XR _) with (Fpair (0, 0)).
  assert (G : forall a b, fold_left cadd (map Fpair l) (Fpair (a, b)) = Fpair (a + sumR (map fst l), b + sumR (map snd l))).
  { induction l as [|[x y] l IH]; intros a b; cbn [map fold_left].
    - cbn [sumR fold_right map]. rewrite !Rplus_0_r. reflexivity.
    - change (cadd (Fpair (a, b)) (Fpair (x, y))) with (Fpair (a + x, b + y)). rewrite IH. cbn [fst snd]. rewrite !sum_cons.
      f_equal. f_equal; ring. }
  rewrite G. f_equal. f_equal; ring.
Qed.
Lemma combine_seq {A} (f : nat -> A) a n : combine (seq a n) (map f (seq a n)) = map (fun i => (i, f i)) (seq a n).
Proof. revert a. induction n as [|n IH]; intros a; [reflexivity|]. cbn [seq map combine]. rewrite IH. reflexivity. Qed.
Lemma fft2_seq n (Z : nat -> nat -> XR * XR) :
  fft2 n (map (fun i => map (Z i) (seq 0 n)) (seq 0 n))
  = map (fun k => map (fun l => csum (flat_map (fun a => map (fun b =>
      cmul (Z a b) (cexp (ndiv (nopp (nmul (nmul n2 npi) (nofZ (Z.of_nat (a * k + b * l))))) (nofZ (Z.of_nat n))))) (seq 0 n)) (seq 0 n)))
      (seq 0 n)) (seq 0 n).
Proof.
  unfold fft2. apply map_ext. intros k. apply map_ext. intros l. f_equal. rewrite combine_seq, flat_map_map.
  apply flat_map_ext. intros a. cbn [fst snd]. rewrite combine_seq, map_map. reflexivity.
Qed.

(** ** The padded pupil *)
Definition pupil_at (nx : nat) (arr : list (XR * bool)) (a b : nat) : option R :=
  match nth_error arr (a * nx + b) with Some (Fin v, false) => Some v | _ => None end.
(** The value at a point of the padded array, start being the first used row and column. *)
Definition padded (nx start : nat) (arr : list (XR * bool)) (i j : nat) : option R :=
  if ((start <=? i) && (i <? start + nx) && (start <=? j) && (j <? start + nx))%nat
  then pupil_at nx arr (i - start) (j - start) else None.
Definition points_of (pt : nat -> nat -> option R) (n : nat) : list (nat * nat * R) :=
  flat_map (fun a => flat_map (fun b => match pt a b with Some v => [(a, b, v)] | None => [] end) (seq 0 n)) (seq 0 n).
Lemma unmasked_points nx arr : unmasked nx arr = points_of (pupil_at nx arr) nx.
Proof.
  unfold unmasked, points_of. apply flat_map_ext. intros a. apply flat_map_ext. intros b. unfold pupil_at.
  destruct (nth_error arr (a * nx + b)) as [[[v| | |] []]|]; reflexivity.
Qed.
Lemma even_window nx pad : Nat.even nx = true -> (1 <= pad)%nat ->
  let n := (nx * pad)%nat in
  (n / 2 + nx / 2 = n / 2 - nx / 2 + nx)%nat /\ (n / 2 - nx / 2 + nx <= n)%nat /\ (nx / 2 <= n / 2)%nat.
Proof.
  intros He Hp n. apply even_half in He. set (h := (nx / 2)%nat) in *. unfold n. rewrite He.
  replace (2 * h * pad)%nat with (h * pad * 2)%nat by lia. rewrite Nat.div_mul by lia. nia.
Qed.
Lemma expwf_F nx pad arr : Nat.even nx = true -> (1 <= pad)%nat -> finite_wf arr ->
  let n := (nx * pad)%nat in let start := (n / 2 - nx / 2)%nat in
  expwf nx n arr = Ok (map (fun i => map (fun j =>
    match padded nx start arr i j with Some v => Fpair (cos (2 * PI * v), sin (2 * PI * v)) | None => Fpair (0, 0) end) (seq 0 n)) (seq 0 n)).
Proof.
  intros He Hp Hf n start. destruct (even_window nx pad He Hp) as (W1 & W2 & W3). fold n in W1, W2, W3. fold start in W1, W2.
  unfold expwf. fold start. replace (Nat.min (n / 2 + nx / 2) n - start =? nx)%nat with true by (symmetry; apply Nat.eqb_eq; lia).
  f_equal. apply map_ext. intros i. apply map_ext. intros j. unfold padded. rewrite W1.
  destruct ((start <=? i) && (i <? start + nx) && (start <=? j) && (j <? start + nx))%nat; [|reflexivity].
  unfold pupil_at. destruct (nth_error arr ((i - start) * nx + (j - start))) as [[v []]|] eqn:E.
  - destruct v; reflexivity.
  - destruct (Hf _ (nth_error_In _ _ E) eq_refl) as (x & Hx). cbn [fst] in Hx. subst v. reflexivity.
  - reflexivity.
Qed.
Lemma map_flat {A B C} (g : B -> C) (f : A -> list B) l : map g (flat_map f l) = flat_map (fun a => map g (f a)) l.
Proof. induction l as [|a l IH]; [reflexivity|]. cbn [flat_map]. rewrite map_app, IH. reflexivity. Qed.
Lemma flat_map_nil {A B} (f : A -> list B) l : (forall x, In x l -> f x = []) -> flat_map f l = [].
Proof.
  induction l as [|a l IH]; intros H; [reflexivity|]. cbn [flat_map]. rewrite (H a) by (left; reflexivity).
  apply IH. intros x Hx. apply H. right. exact Hx.
Qed.
Lemma seq_shift_by s a n : seq (s + a) n = map (fun i => (s + i)%nat) (seq a n).
Proof. revert a. induction n as [|n IH]; intros a; [reflexivity|]. cbn [seq map]. f_equal. rewrite <- IH. f_equal. lia. Qed.
Lemma flat_map_window {B} (f : nat -> list B) start nx n : (start + nx <= n)%nat ->
  (forall i, (i < start \/ start + nx <= i)%nat -> f i = []) ->
  flat_map f (seq 0 n) = flat_map (fun i => f (start + i)%nat) (seq 0 nx).
Proof.
  intros Hn Hf. replace n with (start + (nx + (n - start - nx)))%nat by lia. rewrite seq_app, seq_app, !flat_map_app. cbn [Nat.add].
  rewrite (flat_map_nil f (seq 0 start)) by (intros x Hx; apply in_seq in Hx; apply Hf; lia).
  rewrite (flat_map_nil f (seq (start + nx) _)) by (intros x Hx; apply in_seq in Hx; apply Hf; lia).
  rewrite app_nil_r. cbn [app]. replace (seq start nx) with (map (fun i => (start + i)%nat) (seq 0 nx)).
  - apply flat_map_map.
  - rewrite <- seq_shift_by. f_equal. lia.
Qed.
Definition moved (start : nat) (u : nat * nat * R) : nat * nat * R := (start + fst (fst u), start + snd (fst u), snd u)%nat.
Lemma padded_points nx start arr n : (start + nx <= n)%nat ->
  points_of (padded nx start arr) n = map (moved start) (unmasked nx arr).
Proof.
  intros Hn. rewrite unmasked_points. unfold points_of. rewrite (flat_map_window _ start nx n Hn).
  - rewrite flat_map_concat_map, (flat_map_concat_map _ (seq 0 nx)), concat_map, map_map. f_equal. apply map_ext_in. intros a Ha. apply in_seq in Ha.
    rewrite (flat_map_window _ start nx n Hn).
    + rewrite flat_map_concat_map, (flat_map_concat_map _ (seq 0 nx)), concat_map, map_map. f_equal. apply map_ext_in. intros b Hb. apply in_seq in Hb.
      unfold padded. replace ((start <=? start + a) && (start + a <? start + nx) && (start <=? start + b) && (start + b <? start + nx))%nat with true.
      * replace (start + a - start)%nat with a by lia. replace (start + b - start)%nat with b by lia.
        destruct (pupil_at nx arr a b); reflexivity.
      * symmetry. rewrite !andb_true_iff, !Nat.leb_le, !Nat.ltb_lt. lia.
    + intros b Hb. unfold padded. destruct (_ && _ && _ && _)%bool eqn:E; [|reflexivity].
      rewrite !andb_true_iff, !Nat.leb_le, !Nat.ltb_lt in E. lia.
  - intros a Ha. apply flat_map_nil. intros b _. unfold padded. destruct (_ && _ && _ && _)%bool eqn:E; [|reflexivity].
      rewrite !andb_true_iff, !Nat.leb_le, !Nat.ltb_lt in E. lia.
Qed.
(** One entry of the transform. *)
Lemma sum_points (g : nat * nat * R -> R) pt n :
  sumR (map g (points_of pt n)) = sumR (map (fun a => sumR (map (fun b => match pt a b with Some v => g (a, b, v) | None => 0 end) (seq 0 n))) (seq 0 n)).
Proof.
  unfold points_of. rewrite map_flat, sum_flat. apply sum_ext. intros a _.
  rewrite map_flat, sum_flat. apply sum_ext. intros b _.
  destruct (pt a b); [cbn; ring|reflexivity].
Qed.
Lemma dft_F n pt k l : (1 <= n)%nat ->
  csum (flat_map (fun a => map (fun b =>
      cmul (match pt a b with Some v => Fpair (cos (2 * PI * v), sin (2 * PI * v)) | None => Fpair (0, 0) end)
           (cexp (ndiv (nopp (nmul (nmul n2 npi) (nofZ (Z.of_nat (a * k + b * l))))) (nofZ (Z.of_nat n))))) (seq 0 n)) (seq 0 n))
  = Fpair (sumR (map (fun u => cos (phase2 n (INR k) (INR l) u)) (points_of pt n)),
           sumR (map (fun u => sin (phase2 n (INR k) (INR l) u)) (points_of pt n))).
Proof.
  intros Hn. assert (Hn0 : INR n <> 0) by (apply not_0_INR; lia).
  transitivity (csum (map Fpair (flat_map (fun a => map (fun b => match pt a b with
     | Some v => (cos (phase2 n (INR k) (INR l) (a, b, v)), sin (phase2 n (INR k) (INR l) (a, b, v))) | None => (0, 0) end) (seq 0 n)) (seq 0 n)))).
  - f_equal. rewrite map_flat. apply flat_map_ext. intros a.
    rewrite map_map. apply map_ext. intros b.
    assert (E : ndiv (nopp (nmul (nmul n2 npi) (nofZ (Z.of_nat (a * k + b * l))))) (nofZ (Z.of_nat n))
       = Fin (- (2 * PI * INR (a * k + b * l)) / INR n)).
    { xunf. cbn [npi TrigXR xmul xopp]. rewrite <- !INR_IZR_INZ. apply xdiv_fin, Hn0. }
    rewrite E. change (cexp (Fin (- (2 * PI * INR (a * k + b * l)) / INR n)))
      with (Fpair (cos (- (2 * PI * INR (a * k + b * l)) / INR n), sin (- (2 * PI * INR (a * k + b * l)) / INR n))).
    set (th := - (2 * PI * INR (a * k + b * l)) / INR n).
    assert (G : forall x y x' y', cmul (Fpair (x, y)) (Fpair (x', y')) = Fpair (x * x' - y * y', x * y' + y * x')) by reflexivity.
    destruct (pt a b) as [v|]; rewrite G; [|f_equal; f_equal; ring].
    assert (Ph : phase2 n (INR k) (INR l) (a, b, v) = 2 * PI * v + th).
    { unfold phase2, th; cbn [fst snd]. rewrite plus_INR, !mult_INR. field. exact Hn0. }
    rewrite Ph, cos_plus, sin_plus. f_equal. f_equal. ring.
  - rewrite csum_F. f_equal. rewrite !sum_points.
    f_equal; rewrite map_flat, sum_flat; apply sum_ext; intros a _; f_equal;
      rewrite map_map; apply map_ext; intros b; destruct (pt a b); reflexivity.
Qed.
(** The entry does not depend on where the pupil was put, nor on whole periods. *)
Lemma diffracted_moved n k l start U : (1 <= n)%nat -> diffracted n k l (map (moved start) U) = diffracted n k l U.
Proof.
  intros Hn. unfold diffracted. rewrite !map_map. 
  apply (modulus_rotated (fun u => phase2 n k l (moved start u)) (phase2 n k l) (- (2 * PI * INR start * (k + l) / INR n))).
  intros u _. unfold phase2, moved; cbn [fst snd]. rewrite !plus_INR. field. apply not_0_INR. lia.
Qed.
Lemma diffracted_period n k l (e f : Z) U : (1 <= n)%nat ->
  diffracted n (k + INR n * IZR e) (l + INR n * IZR f) U = diffracted n k l U.
Proof.
  intros Hn.
  assert (P : forall u, phase2 n (k + INR n * IZR e) (l + INR n * IZR f) u
     = phase2 n k l u + 2 * PI * IZR (- (Z.of_nat (fst (fst u)) * e + Z.of_nat (snd (fst u)) * f))).
  { intros u. unfold phase2. rewrite opp_IZR, plus_IZR, !mult_IZR, <- !INR_IZR_INZ. field. apply not_0_INR. lia. }
  unfold diffracted.
  rewrite (sum_ext (fun u => cos (phase2 n (k + INR n * IZR e) (l + INR n * IZR f) u)) (fun u => cos (phase2 n k l u)))
    by (intros u _; rewrite P; apply cos_period_Z).
  rewrite (sum_ext (fun u => sin (phase2 n (k + INR n * IZR e) (l + INR n * IZR f) u)) (fun u => sin (phase2 n k l u)))
    by (intros u _; rewrite P; apply sin_period_Z). reflexivity.
Qed.
Theorem fft_array nx pad arr : Nat.even nx = true -> (1 <= nx)%nat -> (1 <= pad)%nat -> finite_wf arr ->
  let n := (nx * pad)%nat in
  exists e, expwf nx n arr = Ok e /\
    List.concat (map (map abs2) (fftshift2 (fft2 n e)))
    = map Fin (flat_map (fun i => map (fun j => diffracted n (INR i - INR (n / 2)) (INR j - INR (n / 2)) (unmasked nx arr)) (seq 0 n)) (seq 0 n)).
Proof.
  intros He Hx Hp Hf n. assert (Hn : (1 <= n)%nat) by (unfold n; nia).
  eexists. split; [apply (expwf_F nx pad arr He Hp Hf)|]. cbv zeta. fold n. set (start := (n / 2 - nx / 2)%nat).
  destruct (even_window nx pad He Hp) as (_ & W2 & _). fold n in W2. fold start in W2.
  rewrite fft2_seq. unfold fftshift2. rewrite fftshift_seq, map_map, map_map, <- flat_map_concat_map.
  rewrite map_flat.
  rewrite !flat_map_concat_map. f_equal. apply map_ext_in. intros i Hi. apply in_seq in Hi.
  rewrite fftshift_seq, !map_map. apply map_ext_in. intros j Hj. apply in_seq in Hj.
  rewrite dft_F by exact Hn. unfold Fpair at 1; cbn [fst snd]. rewrite abs2_F. f_equal.
  rewrite padded_points by exact W2.
  change (diffracted n (INR (sh n i)) (INR (sh n j)) (map (moved start) (unmasked nx arr))
     = diffracted n (INR i - INR (n / 2)) (INR j - INR (n / 2)) (unmasked nx arr)).
  rewrite diffracted_moved by exact Hn.
  destruct (sh_real n i) as (e1 & ->); [lia|]. destruct (sh_real n j) as (e2 & ->); [lia|]. apply diffracted_period, Hn.
Qed.

(** ** C71 *)
Lemma wavefront_step {T} {NT : Num T} {TT : Trig T} niter (tel : telescope T) tx ty w projection nx sphereRadius reference wf :
  wavefront niter tel tx ty w projection nx sphereRadius reference = Ok wf -> exists u, pupil_step tel nx = Ok u.
Proof.
  unfold wavefront. intros H.
  destruct (fieldToDirCos tx ty projection); cbn [bind] in H; [|discriminate].
  destruct (asGrid _ _ _ _ _ _ _ _ _); cbn [bind] in H; [|discriminate].
  destruct (need_attr _ _); cbn [bind] in H; [|discriminate].
  destruct (reference_point _ _ _); cbn [bind] in H; [|discriminate].
  destruct (reference_time _ _ _); cbn [bind] in H; [|discriminate].
  destruct (pupil_step tel nx) as [u|]; [exists u; reflexivity|discriminate].
Qed.
Theorem fft_entries lstsq niter tel tx ty lam projection nx pad sphereRadius reference wf j :
  wavefront niter tel tx ty (Fin lam) projection nx sphereRadius reference = Ok wf -> finite_wf (l_array _ wf) ->
  dkdu niter lstsq tel tx ty (Fin lam) 6 36 projection = Ok j ->
  Nat.even nx = true -> (1 <= nx)%nat -> (1 <= pad)%nat ->
  let n := (nx * pad)%nat in
  exists psf, fftPSF niter lstsq tel tx ty (Fin lam) projection nx pad sphereRadius reference = Ok psf /\
    l_shape _ psf = [n; n] /\
    l_array _ psf = map Fin (flat_map (fun i => map (fun k =>
       diffracted n (INR i - INR (n / 2)) (INR k - INR (n / 2)) (unmasked nx (l_array _ wf))) (seq 0 n)) (seq 0 n)).
Proof.
  intros HW HF HJ He Hx Hp n. unfold fftPSF. rewrite HW; cbn [bind]. fold n.
  destruct (fft_array nx pad (l_array _ wf) He Hx Hp HF) as (e & E1 & E2). fold n in E1, E2. rewrite E1; cbn [bind].
  destruct (wavefront_step _ _ _ _ _ _ _ _ _ _ HW) as (u & Hu). rewrite Hu; cbn [bind].
  unfold fft_lattice. rewrite HJ; cbn [bind]. rewrite E2. 
  destruct (reciprocalLatticeVectors _ _ _) as [b1 b2]; cbn [bind]. eexists. split; [reflexivity|]. split; reflexivity.
Qed.
Lemma points_ok pt n : let U := points_of pt n in
  NoDup U /\ (forall u, In u U -> (fst (fst u) < n)%nat /\ (snd (fst u) < n)%nat) /\
  (forall u u', In u U -> In u' U -> fst u = fst u' -> u = u').
Proof.
  intros U. 
  assert (In_ : forall u, In u U -> (fst (fst u) < n)%nat /\ (snd (fst u) < n)%nat /\ pt (fst (fst u)) (snd (fst u)) = Some (snd u)).
  { intros u Hu. unfold U, points_of in Hu. apply in_flat_map in Hu. destruct Hu as (a & Ha & Hu). apply in_flat_map in Hu.
    destruct Hu as (b & Hb & Hu). apply in_seq in Ha, Hb. destruct (pt a b) as [v|] eqn:E; [|destruct Hu].
    destruct Hu as [<-|[]]. cbn [fst snd]. split; [lia|]. split; [lia|exact E]. }
  split; [|split].
  - unfold U, points_of. 
    assert (N1 : forall {A B} (f : A -> list B) (g : B -> A) l, NoDup l -> (forall a, In a l -> NoDup (f a)) ->
        (forall a b, In a l -> In b (f a) -> g b = a) -> NoDup (flat_map f l)).
    { clear. intros A B f g l ND. induction ND as [|a l Ha ND IH]; intros Hf Hg; [constructor|]. cbn [flat_map].
      assert (D : forall l1 l2 : list B, NoDup l1 -> NoDup l2 -> (forall x, In x l1 -> ~ In x l2) -> NoDup (l1 ++ l2)).
      { clear. intros l1 l2 H1 H2 H. induction H1 as [|x l1 Hx H1 IH]; [exact H2|]. cbn [app]. constructor.
        - rewrite in_app_iff. intros [I|I]; [exact (Hx I)|]. exact (H x (or_introl eq_refl) I).
        - apply IH. intros y Hy. apply H. right. exact Hy. }
      apply D.
      - apply Hf. left. reflexivity.
      - apply IH; [intros b Hb; apply Hf; right; exact Hb|intros b c Hb Hc; apply (Hg b c); [right; exact Hb|exact Hc]].
      - intros x Hx Hx'. apply in_flat_map in Hx'. destruct Hx' as (b & Hb & Hx').
        assert (E1 : g x = a) by (apply Hg; [left; reflexivity|exact Hx]).
        assert (E2 : g x = b) by (apply Hg; [right; exact Hb|exact Hx']). rewrite E1 in E2. subst b. contradiction. }
    apply (N1 nat (nat * nat * R)%type _ (fun u => fst (fst u)) _ (seq_NoDup n 0)).
    + intros a _. apply (N1 nat (nat * nat * R)%type _ (fun u => snd (fst u)) _ (seq_NoDup n 0)).
      * intros b _. destruct (pt a b); [constructor; [intros []|constructor]|constructor].
      * intros b u _ Hu. destruct (pt a b); [|destruct Hu]. destruct Hu as [<-|[]]. reflexivity.
    + intros a u _ Hu. apply in_flat_map in Hu. destruct Hu as (b & _ & Hu). destruct (pt a b); [|destruct Hu]. destruct Hu as [<-|[]]. reflexivity.
  - intros u Hu. destruct (In_ u Hu) as (H1 & H2 & _). split; assumption.
  - intros u u' Hu Hu' E. destruct (In_ u Hu) as (_ & _ & E1). destruct (In_ u' Hu') as (_ & _ & E2). rewrite E in E1. rewrite E1 in E2.
    destruct u, u'; cbn [fst snd] in *. congruence.
Qed.
(** The sum over the whole array. *)
Theorem fft_total lstsq niter tel tx ty lam projection nx pad sphereRadius reference wf j :
  wavefront niter tel tx ty (Fin lam) projection nx sphereRadius reference = Ok wf -> finite_wf (l_array _ wf) ->
  dkdu niter lstsq tel tx ty (Fin lam) 6 36 projection = Ok j ->
  Nat.even nx = true -> (1 <= nx)%nat -> (1 <= pad)%nat ->
  let n := (nx * pad)%nat in let N := length (unmasked nx (l_array _ wf)) in
  exists psf xs, fftPSF niter lstsq tel tx ty (Fin lam) projection nx pad sphereRadius reference = Ok psf /\
    l_array _ psf = map Fin xs /\ length xs = (n * n)%nat /\ sumR xs = INR (n * n) * INR N /\
    Forall (fun x => 0 <= x <= INR N * INR N) xs.
Proof.
  intros HW HF HJ He Hx Hp n N. assert (Hn : (1 <= n)%nat) by (unfold n; nia).
  destruct (fft_entries lstsq niter tel tx ty lam projection nx pad sphereRadius reference wf j HW HF HJ He Hx Hp) as (psf & E & _ & Ea).
  fold n in Ea. eexists psf, _. split; [exact E|]. split; [exact Ea|]. split; [|split].
  - rewrite (flat_map_len _ _ n); [rewrite seq_length; reflexivity|]. intros i _. rewrite map_length, seq_length. reflexivity.
  - rewrite sum_flat. destruct (points_ok (pupil_at nx (l_array _ wf)) nx) as (P1 & P2 & P3). rewrite <- unmasked_points in P1, P2, P3.
    apply parseval2; [exact Hn|exact P1| |exact P3]. intros u Hu. specialize (P2 u Hu). unfold n. nia.
  - apply Forall_forall. intros x Hx'. apply in_flat_map in Hx'. destruct Hx' as (i & _ & Hx'). apply in_map_iff in Hx'.
    destruct Hx' as (k & <- & _). split; [unfold diffracted; nra|apply modulus_bound].
Qed.
(** The centre. *)
Lemma diffracted_centre n U : (1 <= n)%nat -> diffracted n 0 0 U
  = sumR (map (fun u => cos (2 * PI * snd u)) U) * sumR (map (fun u => cos (2 * PI * snd u)) U)
  + sumR (map (fun u => sin (2 * PI * snd u)) U) * sumR (map (fun u => sin (2 * PI * snd u)) U).
Proof.
  intros Hn. assert (P : forall u, phase2 n 0 0 u = 2 * PI * snd u) by (intros u; unfold phase2; field; apply not_0_INR; lia).
  unfold diffracted. rewrite (sum_ext _ _ _ (fun u _ => f_equal cos (P u))), (sum_ext _ _ _ (fun u _ => f_equal sin (P u))). reflexivity.
Qed.
Lemma nth_square {A} (f : nat -> nat -> A) n i j : (i < n)%nat -> (j < n)%nat ->
  nth_error (flat_map (fun i => map (f i) (seq 0 n)) (seq 0 n)) (i * n + j) = Some (f i j).
Proof.
  intros Hi Hj. apply (nth_flat_map _ _ n _ _ i).
  - intros x _. rewrite map_length, seq_length. reflexivity.
  - rewrite (nth_error_nth' _ 0%nat) by (rewrite seq_length; exact Hi). rewrite seq_nth by exact Hi. reflexivity.
  - rewrite nth_error_map, (nth_error_nth' _ 0%nat) by (rewrite seq_length; exact Hj). rewrite seq_nth by exact Hj. reflexivity.
Qed.
Theorem fft_peak lstsq niter tel tx ty lam projection nx pad sphereRadius reference wf j :
  wavefront niter tel tx ty (Fin lam) projection nx sphereRadius reference = Ok wf ->
  (forall e, In e (l_array _ wf) -> snd e = false -> fst e = Fin 0) ->
  dkdu niter lstsq tel tx ty (Fin lam) 6 36 projection = Ok j ->
  Nat.even nx = true -> (1 <= nx)%nat -> (1 <= pad)%nat ->
  let n := (nx * pad)%nat in let N := length (unmasked nx (l_array _ wf)) in
  exists psf, fftPSF niter lstsq tel tx ty (Fin lam) projection nx pad sphereRadius reference = Ok psf /\
    nth_error (l_array _ psf) (central n) = Some (Fin (INR N * INR N)).
Proof.
  intros HW HZ HJ He Hx Hp n N. assert (Hn : (1 <= n)%nat) by (unfold n; nia).
  assert (HF : finite_wf (l_array _ wf)) by (intros e H1 H2; exists 0; apply HZ; assumption).
  destruct (fft_entries lstsq niter tel tx ty lam projection nx pad sphereRadius reference wf j HW HF HJ He Hx Hp) as (psf & E & _ & Ea).
  fold n in Ea. exists psf. split; [exact E|]. rewrite Ea, nth_error_map. assert (Hh : (n / 2 < n)%nat) by (apply Nat.div_lt; lia).
  unfold central. rewrite (nth_square _ n _ _ Hh Hh). cbn [option_map]. f_equal. f_equal. rewrite !Rminus_diag_eq by reflexivity.
  rewrite diffracted_centre by exact Hn.
  assert (Z : forall u, In u (unmasked nx (l_array _ wf)) -> snd u = 0).
  { intros u Hu. unfold unmasked in Hu. apply in_flat_map in Hu. destruct Hu as (a & _ & Hu). apply in_flat_map in Hu.
    destruct Hu as (b & _ & Hu). destruct (nth_error (l_array _ wf) (a * nx + b)) as [[[v| | |] []]|] eqn:E3; try destruct Hu as [].
    - subst u. cbn [snd]. pose proof (HZ _ (nth_error_In _ _ E3) eq_refl) as Q. cbn [fst] in Q. injection Q as ->. reflexivity.
    - destruct H. }
  rewrite (sum_ext (fun u => cos (2 * PI * snd u)) (fun _ => 1)) by (intros u Hu; rewrite (Z u Hu), Rmult_0_r; apply cos_0).
  rewrite (sum_ext (fun u => sin (2 * PI * snd u)) (fun _ => 0)) by (intros u Hu; rewrite (Z u Hu), Rmult_0_r; apply sin_0).
  rewrite !sum_const. unfold N. ring.
Qed.
Theorem fft_odd {T} {NT : Num T} {TT : Trig T} lstsq niter (tel : telescope T) tx ty w projection nx pad sphereRadius reference wf :
  wavefront niter tel tx ty w projection nx sphereRadius reference = Ok wf -> Nat.even nx = false ->
  fftPSF niter lstsq tel tx ty w projection nx pad sphereRadius reference = Err IndexError.
Proof.
  intros HW Ho. unfold fftPSF. rewrite HW; cbn [bind]. unfold expwf.
  apply odd_half in Ho. set (h := (nx / 2)%nat) in *. set (m := (nx * pad / 2)%nat).
  replace (Nat.min (m + h) (nx * pad) - (m - h) =? nx)%nat with false; [reflexivity|]. symmetry. apply Nat.eqb_neq. lia.
Qed.
Theorem wavefront_small {T} {NT : Num T} {TT : Trig T} niter (tel : telescope T) tx ty w projection nx sphereRadius reference D wf :
  oa_pupil (tl_attr tel) = Some D -> (1 <= nx <= 2)%nat ->
  wavefront niter tel tx ty w projection nx sphereRadius reference <> Ok wf.
Proof.
  intros HD Hn H. destruct (wavefront_step _ _ _ _ _ _ _ _ _ _ H) as (u & Hu). rewrite (pupil_step_small tel nx D HD Hn) in Hu. discriminate.
Qed.
Lemma nth_error_repeat' {A} (a : A) n i : (i < n)%nat -> nth_error (repeat a n) i = Some a.
Proof. revert i. induction n as [|n IH]; intros [|i] H; try lia; [reflexivity|]. cbn. apply IH. lia. Qed.
Lemma length_flat {A B} (f : A -> list B) k l : (forall a, In a l -> length (f a) = k) -> length (flat_map f l) = (length l * k)%nat.
Proof.
  intros H. induction l as [|a l IH]; [reflexivity|]. cbn [flat_map]. rewrite app_length, IH, (H a); [cbn; lia|left; reflexivity|].
  intros x Hx. apply H. right. exact Hx.
Qed.
Lemma unmasked_repeat nx v : length (unmasked nx (repeat (Fin v, false) (nx * nx))) = (nx * nx)%nat.
Proof.
  unfold unmasked. rewrite (length_flat _ nx), seq_length; [reflexivity|]. intros a Ha. apply in_seq in Ha.
  rewrite (length_flat _ 1), seq_length; [lia|]. intros b Hb. apply in_seq in Hb.
  rewrite nth_error_repeat' by nia. reflexivity.
Qed.
Theorem newtonian_fft lstsq niter tel lam p nx pad reference sphereRadius radius j :
  newtonian tel lam nx -> (3 <= nx)%nat -> Nat.even nx = true -> (1 <= pad)%nat ->
  reference = "mean"%string \/ reference = "chief"%string ->
  need_attr sphereRadius (tl_radius tel) = Ok (Fin radius) -> radius <> 0 -> lam <> 0 ->
  dkdu niter lstsq tel (Fin 0) (Fin 0) (Fin lam) 6 36 (proj_name p) = Ok j ->
  let n := (nx * pad)%nat in
  exists psf xs, fftPSF niter lstsq tel (Fin 0) (Fin 0) (Fin lam) (proj_name p) nx pad sphereRadius reference = Ok psf /\
    l_array _ psf = map Fin xs /\ length xs = (n * n)%nat /\
    nth_error xs (central n) = Some (INR (nx * nx) * INR (nx * nx)) /\
    sumR xs = INR (n * n) * INR (nx * nx) /\ Forall (fun x => 0 <= x <= INR (nx * nx) * INR (nx * nx)) xs.
Proof.
  intros HN H3 He Hp Href HS H0 Hl Hj n.
  destruct (newtonian_wavefront niter tel lam p nx reference sphereRadius radius HN H3 Href HS H0 Hl) as (wf & E & _ & A).
  assert (Z : forall e, In e (l_array _ wf) -> snd e = false -> fst e = Fin 0).
  { intros e H _. rewrite A in H. apply repeat_spec in H. subst e. reflexivity. }
  destruct (fft_total lstsq niter tel _ _ lam _ nx pad sphereRadius reference wf j E) as (psf & xs & E1 & A1 & L1 & S1 & B1);
    try assumption; try lia.
  { intros e H H'. exists 0. apply Z; assumption. }
  destruct (fft_peak lstsq niter tel _ _ lam _ nx pad sphereRadius reference wf j E Z Hj He) as (psf' & E2 & P); try lia.
  rewrite E1 in E2. injection E2 as <-. rewrite A, unmasked_repeat in *.
  exists psf, xs. split; [exact E1|]. split; [exact A1|]. split; [exact L1|]. split; [|split; [exact S1|exact B1]].
  rewrite A1, nth_error_map in P. fold n in P. destruct (nth_error xs (central n)) as [x|]; [|discriminate].
  cbn [option_map] in P. injection P as ->. reflexivity.
Qed.
(** An unknown reference: the local variable is unbound. *)
Theorem wavefront_reference {T} {NT : Num T} {TT : Trig T} niter (tel : telescope T) tx ty w projection nx sphereRadius reference wf :
  reference <> "mean"%string -> reference <> "chief"%string ->
  wavefront niter tel tx ty w projection nx sphereRadius reference <> Ok wf.
Proof.
  intros H1 H2 E. unfold wavefront in E. destruct (fieldToDirCos tx ty projection) as [d|]; [|discriminate]. cbn [bind] in E.
  destruct (asGrid _ _ _ _ _ _ _ _ _) as [rv|]; [|discriminate]. cbn [bind] in E.
  destruct (need_attr _ _) as [r|]; [|discriminate]. cbn [bind] in E. unfold reference_point in E.
  apply String.eqb_neq in H1, H2. rewrite H1, H2 in E. discriminate.
Qed.
