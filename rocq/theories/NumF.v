(** The instance [F64]: IEEE 754 binary64, round to nearest even, as specified
    by the standard library ([Coq.Floats.SpecFloat], pure Gallina). *)
From Coq Require Import ZArith Floats.SpecFloat.
From Verif Require Import Num.
Open Scope Z_scope.

Definition prec := 53%Z.
Definition emax := 1024%Z.
Definition F64 := spec_float.

Definition f_ofZ (z : Z) : F64 := binary_normalize prec emax z 0 false.
(** A literal p/q: correctly rounded when |p|, q < 2^53. *)
Definition f_frac (p : Z) (q : positive) : F64 :=
  SFdiv prec emax (f_ofZ p) (f_ofZ (Z.pos q)).
Definition f_isnan (a : F64) : bool := match a with S754_nan => true | _ => false end.
Definition f_floor (a : F64) : option Z :=
  match a with
  | S754_zero _ => Some 0
  | S754_finite s m e =>
      let z := if s then Z.neg m else Z.pos m in
      Some (match e with Zneg p => z / Z.pow_pos 2 p | _ => z * 2 ^ e end)
  | _ => None
  end.
(** std::hypot is not specified by IEEE 754 to be correctly rounded; computed
    here as sqrt(x*x + y*y) (simplification: may overflow where libm does not). *)
Definition f_hypot (a b : F64) : F64 :=
  SFsqrt prec emax (SFadd prec emax (SFmul prec emax a a) (SFmul prec emax b b)).

Global Instance NumF64 : Num F64 := {
  nofZ := f_ofZ; nfrac := f_frac;
  nadd := SFadd prec emax; nsub := SFsub prec emax; nmul := SFmul prec emax;
  ndiv := SFdiv prec emax; nopp := SFopp; nsqrt := SFsqrt prec emax; nabs := SFabs;
  nhypot := f_hypot;
  nltb := SFltb; nleb := SFleb; neqb := SFeqb;
  nnan := S754_nan; nisnan := f_isnan; nfloor := f_floor
}.
