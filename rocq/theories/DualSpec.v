(** What the operations of DualView.v should mean: every RayVector is just its rays, in one memory. *)
From Coq Require Import List Bool PeanoNat.
From Verif Require Import Num Vec CoordSys Surface Medium Obscuration Ray Bundle Optic Trig Wave DualView.
Import ListNotations.

Section Ref.
  Context {T : Type} {NT : Num T} {TT : Trig T}.
  Variable niter : nat.
  Definition ref_kern (k : kern T) (rv : rayvec T) : rayvec T :=
    match k with
    | KForward ct => rv_applyForward ct rv
    | KReverse ct => rv_applyReverse ct rv
    | KToCoordSys cs => rv_toCoordSys cs rv
    | KObscure o => rv_obscure o rv
    | KIntersect s cs c => rv_intersect niter s cs c rv
    | KReflect s cs c => rv_reflect niter s cs c rv
    | KRefract s m1 m2 cs c => rv_refract niter s m1 m2 cs c rv
    | KScreen s screen cs => rv_screen niter s screen cs rv
    | KPropagate t => rv_propagate t rv
    end.
  Definition ref_probe (p : probe T) (rv : rayvec T) : out T :=
    match p with
    | PPosition t => OPoints (map (ray_positionAtTime t) (rays rv))
    | PPhase q t => OPhases (rv_phase q t rv)
    | PSum q t iv => OAmplitude (sumAmplitude q t iv rv)
    end.
  Definition replace_at (i : nat) (rv : rayvec T) (st : list (rayvec T)) : list (rayvec T) := set_nth i (fun _ => rv) st.
  Definition ref_equal (a b : rayvec T) : bool :=
    forallb (fun f => forallb (fun p => veqb (rget f (fst p)) (rget f (snd p))) (combine (rays a) (rays b))) all_flds.
  Definition ref_step (a : act T) (st : list (rayvec T)) : res (list (rayvec T) * out T) :=
    let on i (g : rayvec T -> res (list (rayvec T) * out T)) := match nth_error st i with None => Err IndexError | Some o => g o end in
    match a with
    | ANew rv _ => Ok (st ++ [rv], ONone)
    | AKern i k => on i (fun rv => Ok (replace_at i (ref_kern k rv) st, ONone))
    | AProbe i p => on i (fun rv => Ok (st, ref_probe p rv))
    | ARead i f | AReadHeld i f => on i (fun rv => Ok (st, OColumn (map (rget f) (rays rv))))
    | AWrite i f j v | AWriteHeld i f j v => on i (fun rv => Ok (replace_at i (RV (set_nth j (rput f v) (rays rv)) (rvcs rv)) st, ONone))
    | ACopy i idx _ => on i (fun rv => Ok (st ++ [RV (take_rays idx (rays rv)) (rvcs rv)], ONone))
    | ASplit i s m1 m2 c cs _ =>
        on i (fun rv => let '(p, q) := rv_rsplit niter s m1 m2 c cs rv in Ok (replace_at i p st ++ [q], ONone))
    | AEqual i j =>
        on i (fun a => on j (fun b =>
          if Nat.ltb (List.length (rays b)) (List.length (rays a)) then Err IndexError else Ok (st, OEqual (ref_equal a b))))
    end.
  Fixpoint ref_steps (l : list (act T)) (st : list (rayvec T)) : res (list (rayvec T) * list (out T)) :=
    match l with
    | [] => Ok (st, [])
    | a :: l => do (st, x) <- ref_step a st; do (st, xs) <- ref_steps l st; Ok (st, x :: xs)
    end.

  (** Conditions on GPU builds: arrays obtained earlier are not used, the wavelength array is not
      written through the property, and rSplit is given no failed ray and no ray that misses the surface. *)
  Definition safe_step (a : act T) (st : list (rayvec T)) : Prop :=
    match a with
    | AWrite _ f _ _ => f <> FW
    | AReadHeld _ _ | AWriteHeld _ _ _ _ => False
    | ASplit i s _ _ _ cs _ =>
        forall rv, nth_error st i = Some rv ->
          Forall (fun r => failed r = false /\ hits niter s (mkCT (rvcs rv) (dest cs rv)) r = true) (rays rv)
    | _ => True
    end.
  Fixpoint safe (l : list (act T)) (st : list (rayvec T)) : Prop :=
    match l with
    | [] => True
    | a :: l => safe_step a st /\ forall st' x, ref_step a st = Ok (st', x) -> safe l st'
    end.
  (** Only what the user sees: the values read, or the exception. *)
  Definition outputs {S} (r : res (S * list (out T))) : res (list (out T)) := match r with Ok (_, xs) => Ok xs | Err e => Err e end.
End Ref.

(** The values most recently written. *)
Section View.
  Context {T : Type}.
  Variable gpu : bool.
  Definition latest (o : obj T) (c : ray T * ray T) : ray T := blend (fun f => gpu && on_dev o f) (snd c) (fst c).
  Definition view (o : obj T) : rayvec T := RV (map (latest o) (cells o)) (ocs o).
End View.
