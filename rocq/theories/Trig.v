(** Trigonometric functions of <cmath> and numpy, again as operations without laws,
    and their exact counterparts on extended reals. *)
From Coq Require Import Reals ZArith.
From Verif Require Import Num NumR.
Open Scope R_scope.

Class Trig (T : Type) := {
  nsin : T -> T; ncos : T -> T; ntan : T -> T;
  nasin : T -> T; nacos : T -> T; natan : T -> T;
  npi : T                                          (* M_PI, np.pi *)
}.

Definition xlift (f : R -> R) (a : XR) : XR := match a with Fin x => Fin (f x) | _ => NaN end.
(** asin and acos outside [-1, 1] are NaN. *)
Definition xlift1 (f : R -> R) (a : XR) : XR :=
  match a with
  | Fin x => if Rle_dec (-1) x then if Rle_dec x 1 then Fin (f x) else NaN else NaN
  | _ => NaN
  end.
Definition xatan (a : XR) : XR :=
  match a with Fin x => Fin (atan x) | PInf => Fin (PI / 2) | NInf => Fin (- (PI / 2)) | NaN => NaN end.
Global Instance TrigXR : Trig XR := {
  nsin := xlift sin; ncos := xlift cos; ntan := xlift tan;
  nasin := xlift1 asin; nacos := xlift1 acos; natan := xatan; npi := Fin PI
}.
