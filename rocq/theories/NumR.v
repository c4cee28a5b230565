(** The instance [XR]: real numbers with +inf, -inf and NaN.

    Exact arithmetic (no rounding); special values behave as in IEEE 754 except
    that zero has no sign, so [x/0] is the infinity with the sign of [x]. *)
From Coq Require Import Reals ZArith Lra.
From Verif Require Import Num.
Open Scope R_scope.

Inductive XR := Fin (r : R) | PInf | NInf | NaN.

(** Sign test with three outcomes, used to build infinities. *)
Definition xsgn (pos zero neg : XR) (r : R) : XR :=
  if Rlt_dec 0 r then pos else if Rlt_dec r 0 then neg else zero.

Definition xopp (a : XR) : XR :=
  match a with Fin x => Fin (- x) | PInf => NInf | NInf => PInf | NaN => NaN end.
Definition xadd (a b : XR) : XR :=
  match a, b with
  | Fin x, Fin y => Fin (x + y)
  | NaN, _ | _, NaN => NaN
  | PInf, NInf | NInf, PInf => NaN
  | PInf, _ | _, PInf => PInf
  | NInf, _ | _, NInf => NInf
  end.
Definition xsub (a b : XR) : XR := 
  match a, b with
  | Fin x, Fin y => Fin (x - y)
  | _, _ => xadd a (xopp b)
  end.
Definition xmul (a b : XR) : XR :=
  match a, b with
  | Fin x, Fin y => Fin (x * y)
  | NaN, _ | _, NaN => NaN
  | PInf, PInf | NInf, NInf => PInf
  | PInf, NInf | NInf, PInf => NInf
  | Fin x, PInf | PInf, Fin x => xsgn PInf NaN NInf x
  | Fin x, NInf | NInf, Fin x => xsgn NInf NaN PInf x
  end.
Definition xdiv (a b : XR) : XR :=
  match a, b with
  | Fin x, Fin y => if Req_EM_T y 0 then xsgn PInf NaN NInf x else Fin (x / y)
  | NaN, _ | _, NaN => NaN
  | Fin _, _ => Fin 0
  | PInf, Fin y => if Rlt_dec y 0 then NInf else PInf
  | NInf, Fin y => if Rlt_dec y 0 then PInf else NInf
  | _, _ => NaN
  end.
Definition xsqrt (a : XR) : XR :=
  match a with
  | Fin x => if Rlt_dec x 0 then NaN else Fin (sqrt x)
  | PInf => PInf
  | NInf => NaN
  | NaN => NaN
  end.
Definition xabs (a : XR) : XR :=
  match a with Fin x => Fin (Rabs x) | NaN => NaN | _ => PInf end.
Definition xhypot (a b : XR) : XR :=
  match a, b with
  | Fin x, Fin y => Fin (sqrt (x * x + y * y))
  | PInf, _ | NInf, _ | _, PInf | _, NInf => PInf
  | _, _ => NaN
  end.
Definition xltb (a b : XR) : bool :=
  match a, b with
  | NaN, _ | _, NaN => false
  | Fin x, Fin y => if Rlt_dec x y then true else false
  | NInf, NInf => false
  | NInf, _ => true
  | _, NInf => false
  | PInf, _ => false
  | Fin _, PInf => true
  end.
Definition xleb (a b : XR) : bool :=
  match a, b with
  | NaN, _ | _, NaN => false
  | Fin x, Fin y => if Rle_dec x y then true else false
  | NInf, _ => true
  | _, PInf => true
  | _, _ => false
  end.
Definition xeqb (a b : XR) : bool :=
  match a, b with
  | Fin x, Fin y => if Req_EM_T x y then true else false
  | PInf, PInf | NInf, NInf => true
  | _, _ => false
  end.
Definition xisnan (a : XR) : bool := match a with NaN => true | _ => false end.
Definition xfloor (a : XR) : option Z :=
  match a with Fin x => Some (Int_part x) | _ => None end.

Global Instance NumXR : Num XR := {
  nofZ z := Fin (IZR z);
  nfrac p q := Fin (IZR p / IZR (Z.pos q));
  nadd := xadd; nsub := xsub; nmul := xmul; ndiv := xdiv; nopp := xopp;
  nsqrt := xsqrt; nabs := xabs; nhypot := xhypot;
  nltb := xltb; nleb := xleb; neqb := xeqb;
  nnan := NaN; nisnan := xisnan; nfloor := xfloor
}.
