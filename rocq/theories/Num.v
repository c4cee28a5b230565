(** The arithmetic the code uses, as a record of operations without laws.

    batoid computes with C++ [double] and numpy [float64].  The model is written
    once over this record; theorems that hold for every [Num] hold in particular
    for IEEE doubles as compiled.  Two instances follow: [NumR.v] (exact extended
    reals) and [NumF.v] (IEEE binary64 from the standard library's SpecFloat). *)
From Coq Require Import ZArith List.
Import ListNotations.

Class Num (T : Type) := {
  nofZ   : Z -> T;                  (* integer literal / int-to-double conversion *)
  nfrac  : Z -> positive -> T;      (* decimal literal p/q, e.g. 1e-12 *)
  nadd   : T -> T -> T;
  nsub   : T -> T -> T;
  nmul   : T -> T -> T;
  ndiv   : T -> T -> T;
  nopp   : T -> T;
  nsqrt  : T -> T;                  (* std::sqrt, np.sqrt *)
  nabs   : T -> T;                  (* std::abs *)
  nhypot : T -> T -> T;             (* std::hypot *)
  nltb   : T -> T -> bool;          (* a < b  *)
  nleb   : T -> T -> bool;          (* a <= b *)
  neqb   : T -> T -> bool;          (* a == b *)
  nnan   : T;                       (* NAN *)
  nisnan : T -> bool;               (* std::isnan *)
  nfloor : T -> option Z            (* int(std::floor(a)); None when not a number/infinite *)
}.

Declare Scope num_scope.
Delimit Scope num_scope with num.
Bind Scope num_scope with Num.
Infix "+" := nadd : num_scope.
Infix "-" := nsub : num_scope.
Infix "*" := nmul : num_scope.
Infix "/" := ndiv : num_scope.
Notation "- x" := (nopp x) : num_scope.
Infix "<?" := nltb : num_scope.
Infix "<=?" := nleb : num_scope.
Infix "=?" := neqb : num_scope.

(** std::max(a,b) = (a < b) ? b : a   (C++ standard, used by src/sphere.cpp:65,
    src/paraboloid.cpp:69, src/obscuration.cpp:206-212). *)
Definition nmax {T} `{Num T} (a b : T) : T := if nltb a b then b else a.
(** std::min(a,b) = (b < a) ? b : a. *)
Definition nmin {T} `{Num T} (a b : T) : T := if nltb b a then b else a.
(** The integer literals that occur in the code. *)
Definition n0 {T} `{Num T} : T := nofZ 0.
Definition n1 {T} `{Num T} : T := nofZ 1.
Definition n2 {T} `{Num T} : T := nofZ 2.
Definition n3 {T} `{Num T} : T := nofZ 3.
Definition n4 {T} `{Num T} : T := nofZ 4.
