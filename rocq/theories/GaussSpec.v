(** Specification vocabulary of Gaussian optics: pencils of rays that close in on the axis. *)
From Coq Require Import Reals List.
From Verif Require Import Num NumR Vec CoordSys Surface Medium Ray Bundle Optic Spec OpticsSpec StigSpec.
Import ListNotations.
Open Scope R_scope.

(** f s tends to l as s tends to 0 (the value at 0 does not matter). *)
Definition tends (f : R -> R) (l : R) : Prop :=
  forall eps, 0 < eps -> exists d, 0 < d /\ forall s, 0 < Rabs s < d -> Rabs (f s - l) < eps.
(** For all s near 0 other than 0. *)
Definition nearby (P : R -> Prop) : Prop := exists d, 0 < d /\ forall s, 0 < Rabs s < d -> P s.

(** A Gaussian ray: place along the axis, refractive index (negative when the light goes towards -z), height above the axis
    and index times slope, along x and y. *)
Record gauss := Gauss { g_z : R; g_n : R; g_x : R; g_y : R; g_px : R; g_py : R }.
(** The rays [r s] (given in frame A) tend to the axis of the global frame, and divided by s to the Gaussian ray. *)
Definition pencil (A : frame) (r : R -> ray R) (w : R) (g : gauss) : Prop :=
  let P s := global_point A (pos (r s)) in
  let V s := global_dir A (vel (r s)) in
  g_n g <> 0 /\ nearby (fun s => wavelength (r s) = w) /\
  tends (fun s => cz (P s)) (g_z g) /\ tends (fun s => cz (V s)) (/ g_n g) /\
  tends (fun s => cx (P s) / s) (g_x g) /\ tends (fun s => cy (P s) / s) (g_y g) /\
  tends (fun s => g_n g * g_n g * (cx (V s) / s)) (g_px g) /\ tends (fun s => g_n g * g_n g * (cy (V s) / s)) (g_py g).

(** The surface touches the plane z = 0 at its vertex and its curvature there is k: the height is continuous at the vertex, the
    normal is (- k x, - k y, 1) but for terms of higher order. *)
Definition curved (s : surface XR) (k : R) : Prop :=
  (forall a, exists M, forall q, Rabs (cx q) <= a -> Rabs (cy q) <= a -> on_sag s q -> Rabs (cz q) <= M) /\
  (forall eps, 0 < eps -> exists d, 0 < d /\ forall q, Rabs (cx q) < d -> Rabs (cy q) < d -> on_sag s q -> Rabs (cz q) < eps) /\
  (forall eps, 0 < eps -> exists d, 0 < d /\ forall x y m, Rabs x < d -> Rabs y < d -> normal s (Fin x) (Fin y) = F3 m ->
     Rabs (cx m + k * x) <= eps * (Rabs x + Rabs y) /\ Rabs (cy m + k * y) <= eps * (Rabs x + Rabs y) /\ Rabs (cz m - 1) <= eps).

(** An element of a centred system: the interface, where on the axis its vertex is, its curvature, and the index behind it. *)
Record element := Element { e_iface : iface XR; e_z : R; e_k : R; e_n : R }.
Definition at_z (z : R) : frame := CS (V3 0 0 z) eyeR.
Definition element_ok (reverse : bool) (w n : R) (e : element) : Prop :=
  let i := e_iface e in
  i_cs i = Fcs (at_z (e_z e)) /\ curved (i_surf i) (e_k e) /\
  match i_kind i with
  | KMirror => e_n e = - n
  | KRefractive => 0 < n * e_n e /\ getN (if reverse then i_in i else i_out i) (Fin w) = Fin (Rabs (e_n e))
  | KScreen _ => False
  | _ => e_n e = n
  end.
Fixpoint centred (reverse : bool) (w n : R) (els : list element) : Prop :=
  match els with [] => True | e :: els => element_ok reverse w n e /\ centred reverse w (e_n e) els end.
(** Gaussian optics: transfer to the vertex, then refraction there. *)
Definition meet (g : gauss) (e : element) : gauss :=
  let x := g_x g + g_px g * (e_z e - g_z g) / g_n g in
  let y := g_y g + g_py g * (e_z e - g_z g) / g_n g in
  Gauss (e_z e) (e_n e) x y (g_px g - e_k e * (e_n e - g_n g) * x) (g_py g - e_k e * (e_n e - g_n g) * y).

(** Every ray of the pencil lands on the elements one after another, no further than a from the axis. *)
Inductive guided (niter : nat) (reverse : bool) (a : R) : frame -> (R -> ray R) -> list element -> frame -> (R -> ray R) -> Prop :=
| guided_nil A r : guided niter reverse a A r [] A r
| guided_cons A r e els r1 C r2 :
    nearby (fun s => lands niter (e_iface e) reverse A (r s) (at_z (e_z e)) (r1 s) /\ Rabs (cx (pos (r1 s))) <= a /\ Rabs (cy (pos (r1 s))) <= a) ->
    guided niter reverse a (at_z (e_z e)) r1 els C r2 -> guided niter reverse a A r (e :: els) C r2.
(** The Lagrange invariant of two Gaussian rays. *)
Definition invariant (g h : gauss) : R := g_x g * g_px h - g_x h * g_px g + (g_y g * g_py h - g_y h * g_py g).
(** A plane, sphere, paraboloid or quadric, and the light does not start where its axis meets the complete surface. *)
Definition reachable_from (z : R) (e : element) : Prop := exists sh, i_surf (e_iface e) = Fshape sh /\
  match sh with ShTilted _ _ => False | _ => good_shape sh end /\ ~ whole sh (V3 0 0 (z - e_z e)).
Fixpoint reachable (z : R) (els : list element) : Prop :=
  match els with [] => True | e :: els => reachable_from z e /\ reachable (e_z e) els end.
