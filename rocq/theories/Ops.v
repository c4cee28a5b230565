(** The tracing calls a user can make on a bundle, as data, so that theorems can
    quantify over arbitrary call sequences.  Each constructor is one API call. *)
From Coq Require Import List Bool.
From Verif Require Import Num Vec CoordSys Surface Medium Obscuration Ray Bundle Optic.
Import ListNotations.

Inductive trace_op (T : Type) :=
| OIntersect (s : surface T) (cs : option (coordsys T)) (c : option (coating T))
    (* Surface.intersect, batoid/surface.py:77-97; trace.intersect *)
| OReflect (s : surface T) (cs : option (coordsys T)) (c : option (coating T))
    (* Surface.reflect; trace.reflect *)
| ORefract (s : surface T) (m1 m2 : medium T) (cs : option (coordsys T)) (c : option (coating T))
    (* Surface.refract; trace.refract *)
| OSplitRefracted (s : surface T) (m1 m2 : medium T) (c : coating T) (cs : option (coordsys T))
    (* Surface.rSplit, going on with the first result *)
| OSplitReflected (s : surface T) (m1 m2 : medium T) (c : coating T) (cs : option (coordsys T))
    (* Surface.rSplit, going on with the second result *)
| OScreen (s screen : surface T) (cs : option (coordsys T))
    (* Surface.refractScreen; trace.refractScreen *)
| OObscure (o : obsc T)                      (* Obscuration.obscure *)
| OTrace (o : optic T) (reverse : bool).     (* Optic.trace *)
Arguments OIntersect {T}. Arguments OReflect {T}. Arguments ORefract {T}.
Arguments OSplitRefracted {T}. Arguments OSplitReflected {T}. Arguments OScreen {T}.
Arguments OObscure {T}. Arguments OTrace {T}.

Definition run_op {T} {NT : Num T} (niter : nat) (op : trace_op T) (rv : rayvec T) : rayvec T :=
  match op with
  | OIntersect s cs c => rv_intersect niter s cs c rv
  | OReflect s cs c => rv_reflect niter s cs c rv
  | ORefract s m1 m2 cs c => rv_refract niter s m1 m2 cs c rv
  | OSplitRefracted s m1 m2 c cs => fst (rv_rsplit niter s m1 m2 c cs rv)
  | OSplitReflected s m1 m2 c cs => snd (rv_rsplit niter s m1 m2 c cs rv)
  | OScreen s screen cs => rv_screen niter s screen cs rv
  | OObscure o => rv_obscure o rv
  | OTrace o reverse => trace niter o reverse rv
  end.
Definition run_ops {T} {NT : Num T} (niter : nat) (ops : list (trace_op T)) (rv : rayvec T) : rayvec T :=
  fold_left (fun rv op => run_op niter op rv) ops rv.
